From Coq Require Import NArith ZArith List Bool Sorted Lia Arith.
Import ListNotations.
From Verif Require Import Model.Base Model.Event Model.Memtable Model.PartIter Spec.Order Spec.Files
  Proof.OrderL Proof.MemtableL.
Local Arguments part_drain : simpl never.

(* --- one region --- *)
Lemma ascending_In_nth l : ascending l -> forall i j a b, nth_error l i = Some a ->
  nth_error l j = Some b -> ev_lt a b -> i < j.
Proof.
  intros H i j a b Ha Hb Hl. destruct (Nat.lt_trichotomy i j) as [|[->|H1]]; auto; exfalso.
  - assert (a = b) by congruence. subst. apply (ev_lt_irrefl b); auto.
  - apply (ev_lt_irrefl a). eapply ev_lt_trans; eauto. eapply (ascending_nth l j i); eauto.
Qed.

Lemma region_search_spec lo r k :
  ascending r -> Forall (good lo) r -> good lo k -> r <> [] ->
  exists pos, region_search r k = Z.of_nat pos /\ pos <= length r /\ skipn pos r = filter (geb k) r.
Proof.
  intros Hs Hg Hk Hne. unfold region_search.
  destruct (search_skip lo r k Hs Hg Hk Hne) as (pos & found & H1 & H2 & H3).
  unfold memtable_search in H1.
  assert (Hn : 0 < length r) by (destruct r; [congruence|simpl; lia]).
  destruct (Z.ltb_spec (Z.of_nat (length r) - 1) 0); [lia|].
  destruct (Z.ltb_spec (compare (ev_at r (Z.of_nat (length r) - 1)) k) 0) as [Hlt|Hge].
  - inversion H1; subst. assert (pos = length r) by lia. subst.
    rewrite skipn_all in H3.
    assert (Hall : forall i, (0 <= i < Z.of_nat (length r))%Z -> (compare_int (ev_at r i) k < 0)%Z).
    { intros i Hi. destruct (nth_error_some_lt r (Z.to_nat i)) as (e & He); [lia|].
      rewrite (ev_at_nth _ _ _ (proj1 Hi) He).
      assert (Hin : In e r) by (eapply nth_error_In; eauto).
      assert (good lo e) by (rewrite Forall_forall in Hg; auto).
      apply (compare_lt lo e k); auto.
      destruct (geb k e) eqn:Eg; [|apply geb_false in Eg; auto].
      assert (Hf : In e (filter (geb k) r)) by (apply filter_In; auto). rewrite <- H3 in Hf. destruct Hf. }
    destruct (bsearch_spec (fun i => compare_int (ev_at r i) k) (Z.of_nat (length r))) with
      (fuel := S (length r)) (mn := 0%Z) (mx := (Z.of_nat (length r) - 1)%Z)
      as (p & fd & Hb & Hp & Hres); try lia.
    { intros i j Hij Hj _. apply Hall. lia. }
    rewrite Hb. exists (length r). rewrite skipn_all. repeat split; auto.
    destruct fd.
    + destruct Hres as [Hc Hl]. specialize (Hall p ltac:(lia)). simpl in Hc. lia.
    + destruct Hres as [_ Hh]. destruct (Z.eq_dec p (Z.of_nat (length r))); auto.
      specialize (Hh p ltac:(lia)). specialize (Hall p ltac:(lia)). simpl in Hh. lia.
  - destruct (bsearch _ _ _ _) as [[p fd]|]; simpl in H1; inversion H1; subst. eauto.
Qed.

Definition region_rest (it : region_iter) : list event :=
  match snd it with None => [] | Some p => skipn p (fst it) end.
Definition region_ok (it : region_iter) : Prop :=
  match snd it with None => True | Some p => p < length (fst it) end.

Lemma set_pos_rest r p : region_rest (region_set_pos r (Z.of_nat p)) = skipn p r /\
  region_ok (region_set_pos r (Z.of_nat p)) /\ fst (region_set_pos r (Z.of_nat p)) = r.
Proof.
  unfold region_set_pos, region_rest, region_ok.
  destruct (Z.ltb_spec (Z.of_nat p) 0); [lia|].
  destruct (Z.leb_spec (Z.of_nat (length r)) (Z.of_nat p)); simpl.
  - rewrite skipn_all2 by lia. auto.
  - rewrite Nat2Z.id. repeat split; auto. lia.
Qed.

Lemma region_open_rest lo r key :
  ascending r -> Forall (good lo) r ->
  (match key with Some k => good lo k | None => True end) ->
  region_rest (region_iterator_open r key) =
    (match key with Some k => filter (geb k) r | None => r end) /\
  region_ok (region_iterator_open r key).
Proof.
  intros Hs Hg Hk. destruct r as [|e r]; [destruct key; simpl; unfold region_ok; simpl; auto|].
  unfold region_iterator_open. destruct key as [k|].
  - destruct (region_search_spec lo (e :: r) k) as (pos & H1 & H2 & H3); auto; [discriminate|].
    rewrite H1. destruct (set_pos_rest (e :: r) pos) as (A & B & _). rewrite A. auto.
  - destruct (set_pos_rest (e :: r) 0) as (A & B & _). simpl Z.of_nat in *. rewrite A. auto.
Qed.

Lemma region_open_none r : region_rest (region_iterator_open r None) = r /\
  region_ok (region_iterator_open r None).
Proof.
  destruct r as [|e r]; [simpl; unfold region_ok; simpl; auto|].
  unfold region_iterator_open. destruct (set_pos_rest (e :: r) 0) as (A & B & _).
  simpl Z.of_nat in *. rewrite A. auto.
Qed.

Lemma region_at_rest it : region_ok it ->
  match region_iterator_at it with
  | None => region_rest it = []
  | Some e => region_rest it = e :: region_rest (region_iterator_next it) /\
              region_ok (region_iterator_next it)
  end.
Proof.
  destruct it as [r [p|]]; unfold region_ok, region_iterator_at, region_iterator_next; simpl; auto.
  intros Hp. destruct (skipn_nth r p Hp) as (e & He & Hsk). rewrite He.
  replace (Z.of_nat p + 1)%Z with (Z.of_nat (S p)) by lia.
  destruct (set_pos_rest r (S p)) as (A & B & _). rewrite A. split; auto.
Qed.

(* --- whole file --- *)
Definition part_rest (f : pfile) (it : part_iter) : list event :=
  match pi_index it with
  | None => []
  | Some p => region_rest (pi_region it) ++ concat (skipn (S p) f)
  end.
Definition part_ok (f : pfile) (it : part_iter) : Prop :=
  match pi_index it with
  | None => region_rest (pi_region it) = [] /\ region_ok (pi_region it)
  | Some p => p < length f /\ region_ok (pi_region it) /\ region_iterator_at (pi_region it) <> None
  end.

Lemma skip_spec (f : pfile) : Forall (fun r => r <> []) f -> forall fuel pos it,
  pos < length f -> length f <= pos + fuel -> region_ok it ->
  part_rest f (part_iterator_skip fuel f pos it) = region_rest it ++ concat (skipn (S pos) f) /\
  part_ok f (part_iterator_skip fuel f pos it).
Proof.
  intros Hne. induction fuel; intros pos it Hp Hf Hok; [lia|].
  cbn [part_iterator_skip]. pose proof (region_at_rest it Hok) as Hr.
  destruct (region_iterator_at it) as [e|] eqn:Ea.
  - unfold part_rest, part_ok; simpl. rewrite Ea. repeat split; auto. discriminate.
  - rewrite Hr. cbn [app].
    destruct (Nat.leb_spec (length f) (S pos)).
    + unfold part_rest, part_ok; cbn [pi_index pi_region]. rewrite skipn_all2 by lia. auto.
    + destruct (region_open_none (nth (S pos) f [])) as [Ho1 Ho2].
      destruct (IHfuel (S pos) (region_iterator_open (nth (S pos) f []) None)) as [I1 I2]; auto; try lia.
      rewrite I1, Ho1. split; auto.
      destruct (skipn_nth f (S pos)) as (r & Hr1 & Hr2); [lia|].
      rewrite Hr2. simpl concat. f_equal. apply nth_error_nth; auto.
Qed.

Lemma part_step (f : pfile) it : Forall (fun r => r <> []) f -> part_ok f it ->
  match part_iterator_at it with
  | None => part_rest f it = []
  | Some e => part_rest f it = e :: part_rest f (part_iterator_next f it) /\
              part_ok f (part_iterator_next f it)
  end.
Proof.
  intros Hne Hok. destruct it as [[p|] ri]; unfold part_ok in Hok; unfold part_iterator_at, part_iterator_next;
    cbn [pi_index pi_region] in *.
  - destruct Hok as (Hp & Hr & Ha). pose proof (region_at_rest _ Hr) as Hs.
    destruct (region_iterator_at ri) as [e|]; [|congruence].
    destruct Hs as [Hs1 Hs2].
    destruct (skip_spec f Hne (length f) p (region_iterator_next ri)) as [I1 I2]; auto; [lia|].
    split; auto. rewrite I1. unfold part_rest. cbn [pi_index pi_region]. rewrite Hs1. auto.
  - destruct Hok as [Hr1 Hr]. pose proof (region_at_rest _ Hr) as Hs.
    destruct (region_iterator_at ri); auto.
    destruct Hs as [Hs _]. rewrite Hr1 in Hs. discriminate.
Qed.

Lemma part_drain_rest (f : pfile) : Forall (fun r => r <> []) f -> forall fuel it, part_ok f it ->
  length (part_rest f it) < fuel -> part_drain fuel f it = part_rest f it.
Proof.
  intros Hne. induction fuel; intros it Hok Hl; [lia|].
  unfold part_drain; fold part_drain. pose proof (part_step f it Hne Hok) as H.
  destruct (part_iterator_at it).
  - destruct H as [H1 H2]. rewrite H1 in *. simpl in Hl. f_equal. apply IHfuel; auto. lia.
  - congruence.
Qed.

(* --- index search --- *)
Lemma concat_nth_in {A} (f : list (list A)) i r a : nth_error f i = Some r -> In a r -> In a (concat f).
Proof. intros H Ha. apply in_concat. exists r. split; auto. eapply nth_error_In; eauto. Qed.

Lemma ascending_concat_lt : forall f i j ri rj a b, ascending (concat f) -> i < j ->
  nth_error f i = Some ri -> nth_error f j = Some rj -> In a ri -> In b rj -> ev_lt a b.
Proof.
  induction f as [|r f IH]; intros i j ri rj a b Hs Hij Hi Hj Ha Hb; [destruct i; discriminate|].
  simpl in Hs. apply ascending_app in Hs as (H1 & H2 & H3).
  destruct i, j; try lia; simpl in *.
  - inversion Hi; subst. apply H3; auto. eapply concat_nth_in; eauto.
  - eapply (IH i j); eauto. lia.
Qed.

Lemma ascending_concat_region f i r : ascending (concat f) -> nth_error f i = Some r -> ascending r.
Proof.
  revert i. induction f as [|r0 f IH]; intros i Hs Hi; [destruct i; discriminate|].
  simpl in Hs. apply ascending_app in Hs as (H1 & H2 & H3).
  destruct i; simpl in *; [inversion Hi; subst; auto|eauto].
Qed.

Lemma ev_lt_ids a b : ev_lt a b -> (ev_id a <= ev_id b)%N.
Proof.
  unfold ev_lt, ev_cmp. destruct (N.compare_spec (ev_id a) (ev_id b)); try lia; discriminate.
Qed.
Lemma ids_ev_lt a b : (ev_id a < ev_id b)%N -> ev_lt a b.
Proof. unfold ev_lt, ev_cmp. intros H. apply N.compare_lt_iff in H. rewrite H. auto. Qed.

Lemma region_max_spec r : r <> [] -> ascending r ->
  (exists e, In e r /\ region_max r = ev_id e) /\ forall e, In e r -> (ev_id e <= region_max r)%N.
Proof.
  intros Hne Hs. unfold region_max.
  assert (Hn : 0 < length r) by (destruct r; [congruence|simpl; lia]).
  destruct (nth_error_some_lt r (length r - 1)) as (e & He); [lia|].
  rewrite (ev_at_nth r (Z.of_nat (length r) - 1) e); [|lia|replace (Z.to_nat _) with (length r - 1) by lia; auto].
  split; [exists e; split; auto; eapply nth_error_In; eauto|].
  intros x Hx. apply In_nth_error in Hx as (i & Hi).
  assert (i < length r) by (apply nth_error_Some; congruence).
  destruct (Nat.eq_dec i (length r - 1)) as [->|]; [replace x with e by congruence; lia|].
  apply ev_lt_ids. eapply (ascending_nth r i (length r - 1)); eauto. lia.
Qed.

Definition near_ids (lo : N) (f : pfile) : Prop :=
  forall r e, In r f -> In e r -> (lo <= ev_id e < lo + 2^31 /\ ev_id e < 2^64)%N.

Lemma index_max_near lo (f : pfile) i : file_ok f -> near_ids lo f -> i < length f ->
  (lo <= index_max_at f i < lo + 2^31 /\ index_max_at f i < 2^64)%N.
Proof.
  intros [Hs Hne] Hn Hi. unfold index_max_at.
  destruct (nth_error_some_lt f i Hi) as (r & Hr). rewrite (nth_error_nth _ _ _ Hr).
  destruct (region_max_spec r) as [(e & He & ->) _].
  - rewrite Forall_forall in Hne. apply Hne. eapply nth_error_In; eauto.
  - eapply ascending_concat_region; eauto.
  - apply (Hn r e); auto. eapply nth_error_In; eauto.
Qed.

Lemma index_max_mono (f : pfile) i j : file_ok f -> i <= j -> j < length f ->
  (index_max_at f i <= index_max_at f j)%N.
Proof.
  intros [Hs Hne] Hij Hj. destruct (Nat.eq_dec i j) as [->|]; [lia|]. unfold index_max_at.
  destruct (nth_error_some_lt f i) as (ri & Hi'); [lia|].
  destruct (nth_error_some_lt f j) as (rj & Hj'); [lia|].
  rewrite (nth_error_nth _ _ _ Hi'), (nth_error_nth _ _ _ Hj').
  rewrite Forall_forall in Hne.
  destruct (region_max_spec ri) as [(e & He & ->) _].
  - apply Hne; eapply nth_error_In; eauto.
  - eapply ascending_concat_region; eauto.
  - destruct (region_max_spec rj) as [(e' & He' & ->) _].
    + apply Hne; eapply nth_error_In; eauto.
    + eapply ascending_concat_region; eauto.
    + apply ev_lt_ids. eapply (ascending_concat_lt f i j); eauto. lia.
Qed.

Lemma cmp64_near lo a b : (lo <= a < lo + 2^31 /\ a < 2^64)%N -> (lo <= b < lo + 2^31 /\ b < 2^64)%N ->
  compare_u64 a b = (Z.of_N a - Z.of_N b)%Z /\ i32_of_z (compare_u64 a b) = (Z.of_N a - Z.of_N b)%Z.
Proof.
  intros Ha Hb. unfold compare_u64. rewrite i64_sub_exact by lia. split; auto. apply i32_exact. lia.
Qed.

Lemma index_loop_spec lo (f : pfile) id : file_ok f -> near_ids lo f ->
  (lo <= id < lo + 2^31 /\ id < 2^64)%N -> forall fuel b e,
  b <= e -> e < length f -> e - b < fuel ->
  (forall i, i < b -> (index_max_at f i < id)%N) ->
  (e = length f - 1 \/ (id <= index_max_at f e)%N) ->
  exists p, index_search_loop fuel f id b e = Some p /\ p <= e /\
    (forall i, i < p -> (index_max_at f i < id)%N) /\
    (p = length f - 1 \/ (id <= index_max_at f p)%N).
Proof.
  intros Hf Hn Hid. induction fuel; intros b e Hbe He Hfu Hb Hm; [lia|].
  cbn [index_search_loop]. destruct (Nat.eqb_spec b e) as [->|Hd].
  - exists e. auto.
  - set (mid := b + (e - b) / 2).
    assert (Hmid : b <= mid < e).
    { unfold mid. split; [lia|]. pose proof (Nat.div_lt (e - b) 2). lia. }
    destruct (cmp64_near lo (index_max_at f mid) id) as [Hc _]; auto.
    { apply index_max_near; auto. lia. }
    rewrite Hc. destruct (Z.ltb_spec (Z.of_N (index_max_at f mid) - Z.of_N id) 0).
    + destruct (IHfuel (mid + 1) e) as (p & H1 & H2 & H3 & H4); auto; try lia.
      * intros i Hi. pose proof (index_max_mono f i mid Hf ltac:(lia) ltac:(lia)). lia.
      * eauto.
    + destruct (IHfuel b mid) as (p & H1 & H2 & H3 & H4); auto; try lia.
      exists p. repeat split; auto. lia.
Qed.

Lemma index_open_spec lo (f : pfile) k : file_ok f -> near_ids lo f ->
  (lo <= ev_id k < lo + 2^31 /\ ev_id k < 2^64)%N ->
  match index_iterator_open f (Some k) with
  | Some p => p < length f /\ (ev_id k <= index_max_at f p)%N /\
              forall i, i < p -> (index_max_at f i < ev_id k)%N
  | None => forall i, i < length f -> (index_max_at f i < ev_id k)%N
  end.
Proof.
  intros Hf Hn Hid. destruct f as [|r f]; [simpl; intros; lia|].
  unfold index_iterator_open, index_search. set (g := r :: f) in *.
  assert (Hl : 0 < length g) by (simpl; lia).
  destruct (index_loop_spec lo g (ev_id k) Hf Hn Hid (S (length g)) 0 (length g - 1)) as
    (p & H1 & H2 & H3 & H4); auto; try lia.
  rewrite H1. destruct (Nat.leb_spec (length g) p); [lia|].
  destruct (cmp64_near lo (index_max_at g p) (ev_id k)) as [_ Hc]; auto.
  { apply index_max_near; auto. }
  rewrite Hc. destruct (Z.ltb_spec (Z.of_N (index_max_at g p) - Z.of_N (ev_id k)) 0).
  - destruct (Nat.leb_spec (length g) (S p)).
    + intros i Hi. assert (i = p \/ i < p) as [->|] by lia; [lia|auto].
    + lia.
  - destruct (Nat.leb_spec (length g) p); [lia|]. split; auto. split; [lia|auto].
Qed.

(* C11 *)
Lemma index_statement lo (f : pfile) k : file_ok f -> near_ids lo f ->
  (lo <= ev_id k < lo + 2^31 /\ ev_id k < 2^64)%N ->
  match index_iterator_open f (Some k) with
  | Some p => exists r, nth_error f p = Some r /\ (exists e, In e r /\ (ev_id k <= ev_id e)%N) /\
      forall i r' e, i < p -> nth_error f i = Some r' -> In e r' -> (ev_id e < ev_id k)%N
  | None => forall r e, In r f -> In e r -> (ev_id e < ev_id k)%N
  end.
Proof.
  intros Hf Hn Hid. pose proof (index_open_spec lo f k Hf Hn Hid) as H.
  destruct Hf as [Hs Hne]. rewrite Forall_forall in Hne.
  assert (Hbelow : forall i r' e, nth_error f i = Some r' -> In e r' ->
            (index_max_at f i < ev_id k)%N -> (ev_id e < ev_id k)%N).
  { intros i r' e Hi He Hm. unfold index_max_at in Hm. rewrite (nth_error_nth _ _ _ Hi) in Hm.
    destruct (region_max_spec r') as [_ Hr].
    - apply Hne; eapply nth_error_In; eauto.
    - eapply ascending_concat_region; eauto.
    - specialize (Hr e He). lia. }
  destruct (index_iterator_open f (Some k)) as [p|].
  - destruct H as (Hp & Hm & Hb). destruct (nth_error_some_lt f p Hp) as (r & Hr).
    exists r. split; auto. split.
    + unfold index_max_at in Hm. rewrite (nth_error_nth _ _ _ Hr) in Hm.
      destruct (region_max_spec r) as [(e & He & Hme) _].
      * apply Hne; eapply nth_error_In; eauto.
      * eapply ascending_concat_region; eauto.
      * exists e. split; auto. lia.
    + intros i r' e Hi Hi' He. eapply Hbelow; eauto.
  - intros r e Hr He. apply In_nth_error in Hr as (i & Hi).
    eapply Hbelow; eauto. apply H. apply nth_error_Some. congruence.
Qed.

(* --- scans --- *)
Lemma filter_length_le {A} (f : A -> bool) l : length (filter f l) <= length l.
Proof. induction l; simpl; auto. destruct (f a); simpl; lia. Qed.

Lemma concat_split {A} (f : list (list A)) p r : nth_error f p = Some r ->
  concat f = concat (firstn p f) ++ r ++ concat (skipn (S p) f).
Proof.
  intros H. rewrite (split_nth f p r H) at 1. rewrite concat_app. auto.
Qed.

Lemma good_near lo f : Forall (good lo) (concat f) -> near_ids lo f.
Proof.
  intros H r e Hr He. rewrite Forall_forall in H.
  destruct (H e) as [[Ho _] [Hw1 Hw2]]; [apply in_concat; eauto|]. lia.
Qed.

Lemma in_firstn_nth {A} (f : list (list A)) p a : In a (concat (firstn p f)) ->
  exists i r, i < p /\ nth_error f i = Some r /\ In a r.
Proof.
  intros H. apply in_concat in H as (r & Hr & Ha).
  apply firstn_In_nth in Hr as (i & Hi & Hr). exists i, r. auto.
Qed.
Lemma in_skipn_nth {A} (f : list (list A)) p a : In a (concat (skipn p f)) ->
  exists i r, p <= i /\ nth_error f i = Some r /\ In a r.
Proof.
  intros H. apply in_concat in H as (r & Hr & Ha).
  apply skipn_In_nth in Hr as (i & Hi & Hr). exists i, r. auto.
Qed.

Lemma file_scan_none (f : pfile) : Forall (fun r => r <> []) f -> file_scan f None = concat f.
Proof.
  intros Hne. unfold file_scan, part_iterator_open. destruct f as [|r f]; auto.
  simpl index_iterator_open. cbn iota beta. simpl nth.
  destruct (region_open_none r) as [H1 H2].
  rewrite part_drain_rest; auto.
  - unfold part_rest. cbn [pi_index pi_region]. rewrite H1. auto.
  - unfold part_ok. cbn [pi_index pi_region]. split; [simpl; lia|]. split; auto.
    inversion Hne; subst. pose proof (region_at_rest _ H2) as H5.
    destruct (region_iterator_at _); [discriminate|]. rewrite H1 in H5. congruence.
  - unfold part_rest. cbn [pi_index pi_region]. rewrite H1. simpl. lia.
Qed.

(* what a keyed scan of a file returns: everything from the key on, or nothing when the
   chosen region has no such event *)
Lemma file_scan_key lo (f : pfile) k : file_ok f -> Forall (good lo) (concat f) -> good lo k ->
  file_scan f (Some k) = filter (geb k) (concat f) \/
  (file_scan f (Some k) = [] /\
   exists p r, nth_error f p = Some r /\ (exists e, In e r /\ (ev_id k <= ev_id e)%N) /\
     Forall (fun e => ev_lt e k) r).
Proof.
  intros Hf Hg Hk. pose proof (good_near lo f Hg) as Hn.
  assert (Hid : (lo <= ev_id k < lo + 2^31 /\ ev_id k < 2^64)%N)
    by (destruct Hk as [[Ho _] [Hw1 Hw2]]; lia).
  pose proof (index_statement lo f k Hf Hn Hid) as Hi.
  unfold file_scan, part_iterator_open.
  destruct (index_iterator_open f (Some k)) as [p|].
  - destruct Hi as (r & Hr & (e & He & Hee) & Hb).
    assert (Hp : p < length f) by (apply nth_error_Some; congruence).
    rewrite (nth_error_nth _ _ _ Hr).
    destruct Hf as [Hs Hne].
    assert (Hsr := ascending_concat_region _ _ _ Hs Hr).
    assert (Hgr : Forall (good lo) r).
    { rewrite Forall_forall in *. intros x Hx. apply Hg. eapply concat_nth_in; eauto. }
    destruct (region_open_rest lo r (Some k) Hsr Hgr Hk) as [H1 H2].
    destruct (region_iterator_at (region_iterator_open r (Some k))) as [x|] eqn:Ea.
    + left. rewrite part_drain_rest; auto.
      * unfold part_rest. cbn [pi_index pi_region]. rewrite H1.
        rewrite (concat_split f p r Hr), filter_app, filter_app.
        rewrite (filter_none _ (concat (firstn p f))), (filter_all _ (concat (skipn (S p) f))); auto.
        -- rewrite Forall_forall. intros y Hy. apply in_skipn_nth in Hy as (i & r' & Hi & Hr' & Hy).
           apply geb_true.
           pose proof (region_at_rest _ H2) as H3. rewrite Ea, H1 in H3. destruct H3 as [H3 _].
           assert (Hx : In x (filter (geb k) r)) by (rewrite H3; left; auto).
           apply filter_In in Hx as [Hx Hxk]. apply geb_true in Hxk.
           apply ev_lt_le. eapply ev_le_lt_trans; eauto.
           eapply (ascending_concat_lt f p i); eauto.
        -- rewrite Forall_forall. intros y Hy. apply in_firstn_nth in Hy as (i & r' & Hi & Hr' & Hy).
           apply geb_false, ids_ev_lt. eapply Hb; eauto.
      * unfold part_ok. cbn [pi_index pi_region]. split; auto. split; auto. congruence.
      * unfold part_rest. cbn [pi_index pi_region]. rewrite H1, app_length.
        pose proof (concat_split f p r Hr) as Hc. apply (f_equal (@length _)) in Hc.
        rewrite !app_length in Hc. pose proof (filter_length_le (geb k) r). unfold pfile, region in *. lia.
    + right. pose proof (region_at_rest _ H2) as H3. rewrite Ea, H1 in H3.
      unfold part_drain, part_iterator_at. cbn [pi_region]. rewrite Ea. split; auto.
      exists p, r. split; auto. split; [eauto|].
      rewrite Forall_forall. intros y Hy. apply geb_false.
      destruct (geb k y) eqn:Eg; auto.
      assert (Hin : In y (filter (geb k) r)) by (apply filter_In; auto). rewrite H3 in Hin. destruct Hin.
  - left. unfold part_drain, part_iterator_at; simpl. symmetry. apply filter_none.
    rewrite Forall_forall. intros y Hy. apply in_concat in Hy as (r & Hr & Hy).
    apply geb_false, ids_ev_lt. eauto.
Qed.

(* C09 *)
Lemma file_scan_statement lo (f : pfile) k : file_ok f -> ids_apart f ->
  Forall (fun e => ev_ok e /\ win lo e) (concat f) -> ev_ok k /\ win lo k ->
  ~ past_keys (concat f) k ->
  file_scan f (Some k) = filter (geb k) (concat f).
Proof.
  intros Hf Ha Hg Hk Hp.
  destruct (file_scan_key lo f k Hf Hg Hk) as [H|(H & p & r & Hr & (e & He & Hee) & Hall)]; auto.
  exfalso. apply Hp. rewrite Forall_forall in Hall.
  assert (Hek := Hall e He). pose proof (ev_lt_ids _ _ Hek).
  assert (Heq : ev_id e = ev_id k) by lia.
  split.
  - exists e. split; auto. eapply concat_nth_in; eauto.
  - intros x Hx Hxk. apply in_concat in Hx as (r' & Hr' & Hx). apply In_nth_error in Hr' as (i & Hi).
    destruct (Nat.lt_trichotomy i p) as [Hl|[->|Hl]].
    + assert (ev_id x < ev_id e)%N by (eapply (Ha i p); eauto). lia.
    + unfold region in *. rewrite Hi in Hr. inversion Hr; subst. auto.
    + assert (ev_id e < ev_id x)%N by (eapply (Ha p i); eauto). lia.
Qed.

Lemma past_keys_keyless f k : ev_key k = [] -> ~ past_keys f k.
Proof.
  intros Hk [(e & He & Hi) H]. specialize (H e He Hi). unfold ev_lt, ev_cmp in H.
  rewrite Hi, N.compare_refl, Hk in H. destruct (ev_key e); discriminate.
Qed.

