From Coq Require Import NArith ZArith List Bool Sorted Lia Arith.
Import ListNotations.
From Verif Require Import Model.Base Model.Event Model.Rbtree Model.Memtable Spec.Order
  Proof.OrderL Proof.RbtreeL.

(* --- binary search --- *)
Lemma bsearch_spec cmp n :
  (forall i j, 0 <= i < j -> j < n -> cmp j <= 0 -> cmp i < 0)%Z ->
  forall fuel mn mx,
    (0 <= mn)%Z -> (mx < n)%Z -> (mn <= mx + 1)%Z -> (mx - mn + 1 < Z.of_nat fuel)%Z ->
    (forall i, 0 <= i < mn -> cmp i < 0)%Z ->
    (forall i, mx < i < n -> 0 < cmp i)%Z ->
    exists pos found, bsearch fuel cmp mn mx = Some (pos, found) /\ (0 <= pos <= n)%Z /\
      (if (found : bool) then cmp pos = 0 /\ pos < n
       else (forall i, 0 <= i < pos -> cmp i < 0) /\ (forall i, pos <= i < n -> 0 < cmp i))%Z.
Proof.
  intros Hmono. induction fuel as [|fuel IH]; intros mn mx H1 H2 H3 H4 Hl Hr; [lia|].
  simpl. destruct (Z.leb_spec mn mx) as [Hle|Hgt].
  - set (mid := (mn + Z.shiftr (mx - mn) 1)%Z).
    assert (Hmid : (mn <= mid <= mx)%Z).
    { unfold mid. rewrite Z.shiftr_div_pow2 by lia. change (2^1)%Z with 2%Z.
      pose proof (Z.div_le_upper_bound (mx - mn) 2 (mx - mn)).
      assert (0 <= (mx - mn) / 2)%Z by (apply Z.div_pos; lia). lia. }
    destruct (Z.ltb_spec (cmp mid) 0).
    + apply IH; try lia.
      * intros i Hi. destruct (Z.eq_dec i mid); [subst; auto|].
        destruct (Z.ltb_spec i mid); [|lia]. apply (Hmono i mid); lia.
      * intros; apply Hr; lia.
    + destruct (Z.ltb_spec 0 (cmp mid)).
      * apply IH; try lia.
        -- intros; apply Hl; lia.
        -- intros i Hi. destruct (Z.eq_dec i mid); [subst; auto|].
           destruct (Z.ltb_spec 0 (cmp i)); auto. exfalso.
           assert (cmp mid < 0)%Z; [|lia]. apply (Hmono mid i); lia.
      * exists mid, true. split; auto. lia.
  - exists mn, false. split; auto. split; [lia|]. split; auto. intros; apply Hr; lia.
Qed.

(* --- positions and lists --- *)
Lemma ev_at_nth l i e : (0 <= i)%Z -> nth_error l (Z.to_nat i) = Some e -> ev_at l i = e.
Proof. intros. unfold ev_at. apply nth_error_nth. auto. Qed.

Lemma ascending_nth l i j a b : ascending l -> i < j ->
  nth_error l i = Some a -> nth_error l j = Some b -> ev_lt a b.
Proof.
  revert i j. induction l as [|x l IH]; intros i j Hs Hij Ha Hb; [destruct i; discriminate|].
  apply ascending_cons in Hs as [HF Hs]. destruct i, j; try lia; simpl in *.
  - inversion Ha; subst. apply nth_error_In in Hb. rewrite Forall_forall in HF. auto.
  - apply (IH i j); auto. lia.
Qed.

Lemma nth_error_some_lt {A} (l : list A) i : i < length l -> exists a, nth_error l i = Some a.
Proof. intros H. destruct (nth_error l i) eqn:E; eauto. apply nth_error_None in E. lia. Qed.

Lemma firstn_In_nth {A} (l : list A) n a : In a (firstn n l) -> exists i, i < n /\ nth_error l i = Some a.
Proof.
  revert n. induction l; intros n H; destruct n; simpl in *; try tauto.
  destruct H as [->|H].
  - exists 0. split; auto. lia.
  - apply IHl in H as (i & ? & ?). exists (S i). split; auto. lia.
Qed.
Lemma skipn_In_nth {A} (l : list A) n a : In a (skipn n l) -> exists i, n <= i /\ nth_error l i = Some a.
Proof.
  revert n. induction l; intros n H; destruct n; simpl in *; try tauto.
  - destruct H as [->|H].
    + exists 0; auto.
    + apply In_nth_error in H as (i & ?). exists (S i). split; auto. lia.
  - apply IHl in H as (i & ? & ?). exists (S i). split; auto. lia.
Qed.

Lemma split_nth {A} (l : list A) n a : nth_error l n = Some a -> l = firstn n l ++ a :: skipn (S n) l.
Proof.
  revert n. induction l; intros n H; destruct n; simpl in *; try discriminate.
  - inversion H; auto.
  - f_equal. auto.
Qed.

(* good: representable and in the window *)
Definition good (lo : N) (e : event) : Prop := ev_ok e /\ win lo e.

Lemma compare_lt lo a b : good lo a -> good lo b ->
  ((compare a b < 0)%Z <-> ev_lt a b) /\ ((compare_int a b < 0)%Z <-> ev_lt a b) /\
  ((compare_int a b = 0)%Z <-> same_key a b) /\ ((0 < compare_int a b)%Z <-> ev_lt b a).
Proof.
  intros [Ha Wa] [Hb Wb]. destruct (cmp_win lo a b Ha Hb Wa Wb) as [H1 H2].
  rewrite <- (ev_gt_lt a b), <- (ev_cmp_eq a b). unfold ev_lt. rewrite <- H1 at 2 3 4. rewrite <- H2.
  rewrite Z.compare_lt_iff, Z.compare_lt_iff, Z.compare_gt_iff, Z.compare_eq_iff. tauto.
Qed.

(* memtable_search on an ascending page *)
Lemma memtable_search_spec lo evs k :
  ascending evs -> Forall (good lo) evs -> good lo k -> evs <> [] ->
  exists pos found, memtable_search evs k = Ok (Z.of_nat pos, found) /\
    if (found : bool) then exists e, nth_error evs pos = Some e /\ same_key e k
    else pos <= length evs /\ Forall (fun e => ev_lt e k) (firstn pos evs) /\
         Forall (fun e => ev_lt k e) (skipn pos evs).
Proof.
  intros Hs Hg Hk Hne. unfold memtable_search.
  set (n := length evs).
  assert (Hn : 0 < n) by (unfold n; destruct evs; [congruence|simpl; lia]).
  destruct (Z.ltb_spec (Z.of_nat n - 1) 0); [lia|].
  assert (Hat : forall i, (0 <= i < Z.of_nat n)%Z ->
     exists e, nth_error evs (Z.to_nat i) = Some e /\ ev_at evs i = e /\ good lo e).
  { intros i Hi. destruct (nth_error_some_lt evs (Z.to_nat i)) as (e & He); [unfold n in *; lia|].
    exists e. split; auto. split; [apply ev_at_nth; auto; lia|].
    rewrite Forall_forall in Hg. apply Hg. eapply nth_error_In; eauto. }
  destruct (Hat (Z.of_nat n - 1)%Z ltac:(lia)) as (last & Hl1 & Hl2 & Hl3).
  rewrite Hl2.
  destruct (compare_lt lo last k Hl3 Hk) as (HA & HB & HC & HD).
  destruct (Z.ltb_spec (compare last k) 0) as [Hlt|Hge].
  - exists n, false. split; [f_equal; f_equal; lia|]. split; [unfold n; lia|].
    split.
    + rewrite Forall_forall. intros e He. apply firstn_In_nth in He as (i & Hi & He).
      apply HA in Hlt.
      destruct (Nat.eq_dec i (n - 1)) as [->|Hd].
      * replace (Z.to_nat (Z.of_nat n - 1)) with (n - 1) in Hl1 by lia. congruence.
      * eapply ev_lt_trans; [|exact Hlt]. eapply (ascending_nth evs i (n - 1)); eauto; [lia|].
        replace (n - 1) with (Z.to_nat (Z.of_nat n - 1)) by lia. auto.
    + unfold n. rewrite skipn_all. constructor.
  - set (cmp := fun i => compare_int (ev_at evs i) k).
    edestruct (bsearch_spec cmp (Z.of_nat n)) with (fuel := S n) (mn := 0%Z) (mx := (Z.of_nat n - 1)%Z)
      as (pos & found & Hb & Hpos & Hres); try lia.
    { intros i j Hij Hj Hc. unfold cmp in *.
      destruct (Hat i ltac:(lia)) as (a & Ha1 & Ha2 & Ha3).
      destruct (Hat j ltac:(lia)) as (b & Hb1 & Hb2 & Hb3).
      rewrite Ha2. rewrite Hb2 in Hc.
      assert (ev_lt a b) by (eapply (ascending_nth evs (Z.to_nat i) (Z.to_nat j)); eauto; lia).
      destruct (compare_lt lo a k Ha3 Hk) as (_ & A2 & _ & _).
      destruct (compare_lt lo b k Hb3 Hk) as (_ & B2 & B3 & _).
      apply A2. destruct (Z.eq_dec (compare_int b k) 0) as [E|E].
      - apply B3 in E. unfold ev_lt in *. rewrite <- (same_key_cmp_r _ _ _ E). auto.
      - eapply ev_lt_trans; eauto. apply B2. lia. }
    rewrite Hb. unfold of_opt.
    exists (Z.to_nat pos), found. split; [rewrite Z2Nat.id by lia; auto|].
    destruct found.
    + destruct Hres as [Hc Hlt]. unfold cmp in Hc.
      destruct (Hat pos ltac:(lia)) as (a & Ha1 & Ha2 & Ha3).
      exists a. split; auto. rewrite Ha2 in Hc.
      destruct (compare_lt lo a k Ha3 Hk) as (_ & _ & A3 & _). apply A3; auto.
    + destruct Hres as [Hlo Hhi]. split; [unfold n in *; lia|]. split.
      * rewrite Forall_forall. intros e He. apply firstn_In_nth in He as (i & Hi & He).
        assert (Hi' : i < n) by (unfold n; apply nth_error_Some; congruence).
        specialize (Hlo (Z.of_nat i) ltac:(lia)). unfold cmp in Hlo.
        destruct (Hat (Z.of_nat i) ltac:(lia)) as (a & Ha1 & Ha2 & Ha3).
        rewrite Nat2Z.id in Ha1. assert (a = e) by congruence.
        rewrite Ha2 in Hlo. clear Ha2. subst a. destruct (compare_lt lo e k Ha3 Hk) as (_ & A2 & _ & _).
        apply A2; auto.
      * rewrite Forall_forall. intros e He. apply skipn_In_nth in He as (i & Hi & He).
        assert (Hi' : i < n) by (unfold n; apply nth_error_Some; congruence).
        specialize (Hhi (Z.of_nat i) ltac:(lia)). unfold cmp in Hhi.
        destruct (Hat (Z.of_nat i) ltac:(lia)) as (a & Ha1 & Ha2 & Ha3).
        rewrite Nat2Z.id in Ha1. assert (a = e) by congruence.
        rewrite Ha2 in Hhi. clear Ha2. subst a. destruct (compare_lt lo e k Ha3 Hk) as (_ & _ & _ & A2).
        apply A2; auto.
Qed.

(* --- ascending list with one key updated --- *)
Fixpoint upsert (e : event) (l : list event) : list event :=
  match l with
  | [] => [e]
  | x :: t => match ev_cmp e x with
              | Lt => e :: x :: t
              | Eq => e :: t
              | Gt => x :: upsert e t
              end
  end.
Fixpoint delete (e : event) (l : list event) : list event :=
  match l with
  | [] => []
  | x :: t => if same_keyb e x then t else x :: delete e t
  end.

Lemma upsert_forall (P : event -> Prop) e l : P e -> Forall P l -> Forall P (upsert e l).
Proof.
  intros He. induction l; simpl; intros H; auto. inversion H; subst.
  destruct (ev_cmp e a); auto.
Qed.
Lemma delete_forall (P : event -> Prop) e l : Forall P l -> Forall P (delete e l).
Proof.
  induction l; simpl; intros H; auto. inversion H; subst.
  destruct (same_keyb e a); auto.
Qed.
Lemma upsert_ascending e l : ascending l -> ascending (upsert e l).
Proof.
  induction l as [|x l IH]; simpl; intros H; [repeat constructor|].
  apply ascending_cons in H as [HF Hs].
  destruct (ev_cmp e x) eqn:E.
  - apply ev_cmp_eq in E. apply ascending_cons. split; auto.
    eapply Forall_impl; [|exact HF]. intros a Ha. unfold ev_lt in *.
    rewrite (same_key_cmp_l _ _ _ E). auto.
  - apply ascending_cons. split; [|apply ascending_cons; auto].
    constructor; auto. eapply Forall_impl; [|exact HF]. intros a Ha. eapply ev_lt_trans; eauto.
  - apply ascending_cons. split; auto. apply upsert_forall; auto.
    apply ev_gt_lt. auto.
Qed.
Lemma delete_ascending e l : ascending l -> ascending (delete e l).
Proof.
  induction l as [|x l IH]; simpl; intros H; auto.
  apply ascending_cons in H as [HF Hs].
  destruct (same_keyb e x); auto. apply ascending_cons. split; auto.
  apply delete_forall; auto.
Qed.

Lemma lookup_upsert e l k : ascending l ->
  lookup (upsert e l) k = if same_keyb k e then Some e else lookup l k.
Proof.
  intros Hs. induction l as [|x l IH]; simpl.
  - unfold lookup; simpl. destruct (same_keyb k e); auto.
  - apply ascending_cons in Hs as [HF Hs].
    destruct (ev_cmp e x) eqn:E; unfold lookup in *; simpl.
    + apply ev_cmp_eq in E. destruct (same_keyb k e) eqn:E1; auto.
      destruct (same_keyb k x) eqn:E2; auto.
      apply same_keyb_true in E2. apply same_keyb_false in E1. exfalso. apply E1.
      eapply same_key_trans; eauto. apply same_key_sym; auto.
    + auto.
    + rewrite IH by auto. destruct (same_keyb k x) eqn:E2; auto.
      destruct (same_keyb k e) eqn:E1; auto.
      apply same_keyb_true in E2, E1.
      assert (same_key e x) by (eapply same_key_trans; [apply same_key_sym|]; eauto).
      apply ev_cmp_eq in H. congruence.
Qed.
Lemma lookup_delete e l k : ascending l ->
  lookup (delete e l) k = if same_keyb k e then None else lookup l k.
Proof.
  intros Hs. induction l as [|x l IH]; simpl.
  - unfold lookup; simpl. destruct (same_keyb k e); auto.
  - apply ascending_cons in Hs as [HF Hs].
    destruct (same_keyb e x) eqn:E.
    + apply same_keyb_true in E. destruct (same_keyb k e) eqn:E1.
      * apply lookup_none. intros y Hy Hk. rewrite Forall_forall in HF. specialize (HF _ Hy).
        apply same_keyb_true in E1. apply ev_lt_not_same in HF. apply HF.
        eapply same_key_trans; [apply same_key_sym; exact E|].
        eapply same_key_trans; [apply same_key_sym; exact E1|]. auto.
      * unfold lookup. simpl. destruct (same_keyb k x) eqn:E2; auto.
        apply same_keyb_true in E2. apply same_keyb_false in E1. exfalso. apply E1.
        eapply same_key_trans; eauto. apply same_key_sym; auto.
    + unfold lookup in *. simpl. rewrite IH by auto.
      destruct (same_keyb k e) eqn:E1; auto.
      destruct (same_keyb k x) eqn:E2; auto.
      apply same_keyb_true in E1, E2. apply same_keyb_false in E. exfalso. apply E.
      eapply same_key_trans; [apply same_key_sym|]; eauto.
Qed.

Lemma upsert_insert e l1 l2 :
  Forall (fun x => ev_lt x e) l1 -> Forall (fun x => ev_lt e x) l2 ->
  upsert e (l1 ++ l2) = l1 ++ e :: l2.
Proof.
  induction l1; simpl; intros H1 H2.
  - destruct l2; auto. simpl. inversion H2; subst. unfold ev_lt in H3. rewrite H3. auto.
  - inversion H1; subst. assert (ev_cmp e a = Gt) as -> by (apply ev_gt_lt; auto).
    f_equal. auto.
Qed.
Lemma upsert_replace e x l1 l2 :
  Forall (fun x => ev_lt x e) l1 -> same_key e x ->
  upsert e (l1 ++ x :: l2) = l1 ++ e :: l2.
Proof.
  induction l1; simpl; intros H1 H2.
  - apply ev_cmp_eq in H2. rewrite H2. auto.
  - inversion H1; subst. assert (ev_cmp e a = Gt) as -> by (apply ev_gt_lt; auto).
    f_equal. auto.
Qed.
Lemma delete_at e x l1 l2 :
  Forall (fun x => ev_lt x e) l1 -> same_key e x ->
  delete e (l1 ++ x :: l2) = l1 ++ l2.
Proof.
  induction l1; simpl; intros H1 H2.
  - apply same_keyb_true in H2. rewrite H2. auto.
  - inversion H1; subst. assert (same_keyb e a = false) as ->.
    { apply same_keyb_false. intros Hk. apply ev_lt_not_same in H3. apply H3.
      apply same_key_sym; auto. }
    f_equal. auto.
Qed.
Lemma delete_absent e l : lookup l e = None -> delete e l = l.
Proof.
  unfold lookup. induction l; simpl; auto. destruct (same_keyb e a); [discriminate|].
  intros; f_equal; auto.
Qed.

Lemma upsert_length e l : ascending l ->
  length (upsert e l) = match lookup l e with Some _ => length l | None => S (length l) end.
Proof.
  unfold lookup. induction l as [|x l IH]; simpl; intros Hs; auto.
  apply ascending_cons in Hs as [HF Hs]. unfold same_keyb at 1.
  destruct (ev_cmp e x) eqn:E; auto.
  - simpl. destruct (find _ l) eqn:Ef; auto. exfalso.
    apply find_some in Ef as [Hin Hk]. apply same_keyb_true in Hk.
    rewrite Forall_forall in HF. specialize (HF _ Hin).
    assert (ev_lt e e0) by (eapply ev_lt_trans; eauto).
    apply ev_lt_not_same in H. auto.
  - simpl. rewrite IH by auto. destruct (find _ l); auto.
Qed.

(* the search position determines upsert / delete *)
Lemma search_upsert lo evs e :
  ascending evs -> Forall (good lo) evs -> good lo e -> evs <> [] ->
  exists pos found, memtable_search evs e = Ok (Z.of_nat pos, found) /\
    pos <= length evs /\
    if (found : bool)
    then exists x, nth_error evs pos = Some x /\ lookup evs e = Some x /\
         replace_at pos e evs = upsert e evs /\ remove_at pos evs = delete e evs
    else lookup evs e = None /\ insert_at pos e evs = upsert e evs.
Proof.
  intros Hs Hg He Hne.
  destruct (memtable_search_spec lo evs e Hs Hg He Hne) as (pos & found & H1 & H2).
  exists pos, found. split; auto. destruct found.
  - destruct H2 as (x & Hx & Hk). assert (Hsp := split_nth _ _ _ Hx).
    assert (HF : Forall (fun y => ev_lt y e) (firstn pos evs)).
    { rewrite Forall_forall. intros y Hy. apply firstn_In_nth in Hy as (i & Hi & Hy).
      assert (ev_lt y x) by (eapply (ascending_nth evs i pos); eauto).
      unfold ev_lt in *. rewrite <- (same_key_cmp_r _ _ _ Hk). auto. }
    split; [apply Nat.lt_le_incl; apply nth_error_Some; congruence|].
    exists x. split; auto. split; [|split].
    + apply ascending_lookup; auto; [eapply nth_error_In; eauto|apply same_key_sym; auto].
    + unfold replace_at. rewrite Hsp at 3. rewrite upsert_replace; auto. apply same_key_sym; auto.
    + unfold remove_at. rewrite Hsp at 3. rewrite (delete_at e x); auto. apply same_key_sym; auto.
  - destruct H2 as (Hlen & H3 & H4). split; auto. split.
    + apply lookup_none. intros y Hy Hk.
      rewrite <- (firstn_skipn pos evs) in Hy. apply in_app_iff in Hy as [Hy|Hy].
      * rewrite Forall_forall in H3. apply H3 in Hy. apply ev_lt_not_same in Hy.
        apply Hy. apply same_key_sym; auto.
      * rewrite Forall_forall in H4. apply H4 in Hy. apply ev_lt_not_same in Hy. auto.
    + unfold insert_at. rewrite <- (firstn_skipn pos evs) at 3. rewrite upsert_insert; auto.
Qed.

(* --- one-page tables --- *)
Inductive single (m : memtable) : list event -> Prop :=
| single_empty : mt_tree m = Leaf -> mt_count_pages m = 0%N -> mt_count m = 0%N -> single m []
| single_page c pg : mt_tree m = Node c Leaf pg Leaf -> mt_count_pages m = 1%N ->
    mt_count m = N.of_nat (length (pg_ev pg)) -> pg_ev pg <> [] ->
    length (pg_ev pg) <= mt_size_page m ->
    single m (pg_ev pg).

Definition same_sizes (m m' : memtable) : Prop :=
  mt_size_page m' = mt_size_page m /\ mt_size_split m' = mt_size_split m /\
  mt_lsn_min m' = mt_lsn_min m /\ mt_lsn_max m' = mt_lsn_max m.

Lemma single_events m l : single m l -> mt_events m = l.
Proof.
  intros H; inversion H; unfold mt_events; rewrite H0; simpl; auto.
  rewrite app_nil_r; auto.
Qed.

Lemma set_single lo m l e :
  single m l -> ascending l -> Forall (good lo) l -> good lo e ->
  0 < mt_size_page m ->
  (length l < mt_size_page m \/ lookup l e <> None) ->
  exists m', memtable_set m e = Ok (m', lookup l e) /\ single m' (upsert e l) /\ same_sizes m m'.
Proof.
  intros Hsg Hs Hg He Hpos Hroom. unfold memtable_set.
  inversion Hsg; subst.
  - rewrite H0. simpl. eexists; split; [reflexivity|]. split; [|repeat split; auto].
    eapply (single_page _ Black (mk_page (mt_next_page m) [e])); simpl; auto.
    + rewrite H1; auto.
    + discriminate.
  - rewrite H0. simpl. unfold memtable_search_page. rewrite H0. simpl. rewrite H. simpl.
    destruct (search_upsert lo (pg_ev pg) e Hs Hg He H2) as (pos & found & Hse & Hp & Hres).
    unfold memtable_insert. rewrite Hse. simpl. rewrite Nat2Z.id.
    destruct found.
    + destruct Hres as (x & Hx & Hl & Hr & _). simpl.
      rewrite (nth_error_nth _ _ _ Hx), Hl.
      eexists; split; [reflexivity|]. split; [|repeat split; auto].
      rewrite Hr.
      eapply (single_page _ c (mk_page (pg_id pg) (upsert e (pg_ev pg)))); simpl; auto.
      * rewrite H1, upsert_length, Hl by auto. auto.
      * intros Hc. apply (f_equal (@length _)) in Hc. rewrite upsert_length, Hl in Hc by auto.
        destruct (pg_ev pg); simpl in *; congruence.
      * rewrite upsert_length, Hl by auto. auto.
    + destruct Hres as (Hl & Hins). rewrite Hl in *.
      destruct Hroom as [Hroom|]; [|congruence].
      destruct (Nat.eqb_spec (length (pg_ev pg)) (mt_size_page m)); [lia|]. simpl.
      eexists; split; [reflexivity|]. split; [|repeat split; auto].
      rewrite Hins.
      eapply (single_page _ c (mk_page (pg_id pg) (upsert e (pg_ev pg)))); simpl; auto.
      * rewrite H1, upsert_length, Hl by auto. lia.
      * intros Hc. apply (f_equal (@length _)) in Hc. rewrite upsert_length, Hl in Hc by auto. discriminate.
      * rewrite upsert_length, Hl by auto. lia.
Qed.

Lemma unset_single lo m l e :
  single m l -> ascending l -> Forall (good lo) l -> good lo e -> l <> [] ->
  exists m', memtable_unset m e = Ok m' /\ single m' (delete e l) /\ same_sizes m m'.
Proof.
  intros Hsg Hs Hg He Hne. unfold memtable_unset.
  inversion Hsg; subst; [congruence|].
  rewrite H0. simpl. unfold memtable_search_page. rewrite H0. simpl. rewrite H. simpl.
  destruct (search_upsert lo (pg_ev pg) e Hs Hg He H2) as (pos & found & Hse & Hp & Hres).
  rewrite Hse. simpl. rewrite Nat2Z.id.
  destruct found.
  - destruct Hres as (x & Hx & Hl & _ & Hd). rewrite Hd.
    assert (Hlen : length (delete e (pg_ev pg)) = length (pg_ev pg) - 1).
    { rewrite <- Hd. unfold remove_at. rewrite app_length, firstn_length, skipn_length.
      assert (pos < length (pg_ev pg)) by (apply nth_error_Some; congruence). lia. }
    destruct (delete e (pg_ev pg)) as [|y rest] eqn:Ed.
    + simpl in Hlen.
      assert (length (pg_ev pg) = 1) by (destruct (pg_ev pg); simpl in *; try congruence; lia).
      destruct c; simpl; (eexists; split; [reflexivity|]); (split; [|repeat split; auto]);
        (constructor; simpl; auto; lia).
    + eexists; split; [reflexivity|]. split; [|repeat split; auto].
      eapply (single_page _ c (mk_page (pg_id pg) (y :: rest))); cbn [mt_with mt_count mt_size_page pg_ev mt_tree zset fst snd plug mt_count_pages]; auto; try lia.
      discriminate.
  - destruct Hres as (Hl & _). rewrite (delete_absent e _ Hl).
    exists m. split; auto. split; auto. repeat split.
Qed.

(* --- reading a one-page table --- *)
Lemma filter_none {A} (f : A -> bool) l : Forall (fun x => f x = false) l -> filter f l = [].
Proof. induction 1; simpl; auto. rewrite H; auto. Qed.
Lemma filter_all {A} (f : A -> bool) l : Forall (fun x => f x = true) l -> filter f l = l.
Proof. induction 1; simpl; auto. rewrite H. f_equal; auto. Qed.

Lemma search_skip lo evs k :
  ascending evs -> Forall (good lo) evs -> good lo k -> evs <> [] ->
  exists pos found, memtable_search evs k = Ok (Z.of_nat pos, found) /\
     pos <= length evs /\ skipn pos evs = filter (geb k) evs.
Proof.
  intros Hs Hg He Hne.
  destruct (memtable_search_spec lo evs k Hs Hg He Hne) as (pos & found & H1 & H2).
  exists pos, found. split; auto.
  assert (Hsplit : forall P Q : event -> Prop, True) by auto. clear Hsplit.
  destruct found.
  - destruct H2 as (x & Hx & Hk). assert (Hsp := split_nth _ _ _ Hx).
    split; [apply Nat.lt_le_incl; apply nth_error_Some; congruence|].
    rewrite <- (firstn_skipn pos evs) at 2. rewrite filter_app, filter_none, filter_all; auto.
    + rewrite Forall_forall. intros y Hy. apply geb_true.
      apply skipn_In_nth in Hy as (i & Hi & Hy).
      destruct (Nat.eq_dec i pos) as [->|Hd].
      * assert (y = x) by congruence. subst. unfold ev_le.
        apply same_key_sym, ev_cmp_eq in Hk. congruence.
      * apply ev_lt_le. assert (ev_lt x y) by (eapply (ascending_nth evs pos i); eauto; lia).
        unfold ev_lt in *. rewrite <- (same_key_cmp_l _ _ _ Hk). auto.
    + rewrite Forall_forall. intros y Hy. apply geb_false.
      apply firstn_In_nth in Hy as (i & Hi & Hy).
      assert (ev_lt y x) by (eapply (ascending_nth evs i pos); eauto).
      unfold ev_lt in *. rewrite <- (same_key_cmp_r _ _ _ Hk). auto.
  - destruct H2 as (Hl & H3 & H4). split; auto.
    rewrite <- (firstn_skipn pos evs) at 2. rewrite filter_app, filter_none, filter_all; auto.
    + eapply Forall_impl; [|exact H4]. intros y Hy. apply geb_true, ev_lt_le; auto.
    + eapply Forall_impl; [|exact H3]. intros y Hy. apply geb_false; auto.
Qed.

(* what an iterator still has to deliver *)
Definition iter_rest (it : mt_iter) : list event :=
  match it with
  | None => []
  | Some (z, pos) => skipn pos (zevents z) ++ flat_map pg_ev (zafter z)
  end.
Definition iter_ok (it : mt_iter) : Prop :=
  match it with
  | None => True
  | Some (z, pos) => pos < length (zevents z) /\ (exists pg, zelem z = Some pg) /\
                     Forall (fun pg => pg_ev pg <> []) (zafter z)
  end.

Lemma skipn_nth {A} (l : list A) n : n < length l ->
  exists a, nth_error l n = Some a /\ skipn n l = a :: skipn (S n) l.
Proof.
  revert n. induction l; intros n H; simpl in *; [lia|].
  destruct n; simpl; eauto. apply IHl. lia.
Qed.

Lemma iter_step it : iter_ok it ->
  match memtable_iterator_at it with
  | None => it = None /\ iter_rest it = []
  | Some e => iter_rest it = e :: iter_rest (memtable_iterator_next it) /\
              iter_ok (memtable_iterator_next it)
  end.
Proof.
  destruct it as [[z pos]|]; simpl; auto.
  intros (Hp & (pg & Hz) & Hne).
  destruct (skipn_nth (zevents z) pos Hp) as (e & He & Hsk). rewrite He.
  destruct (Nat.ltb_spec (pos + 1) (length (zevents z))) as [Hlt|Hge].
  - simpl. rewrite Hsk. split; auto. split; [lia|]. eauto.
  - rewrite Hsk, skipn_all2 by lia.
    pose proof (rbtree_next_spec z pg Hz) as Hn.
    destruct (rbtree_next z) as [z'|] eqn:En.
    + destruct Hn as (_ & y & Hy & Hb & Ha).
      rewrite <- Ha in Hne. inversion Hne; subst.
      assert (Hzy : zevents z' = pg_ev y) by (unfold zevents; rewrite Hy; auto).
      rewrite <- Ha. rewrite Hzy.
      destruct (pg_ev y) as [|e0 rest] eqn:Ey; [congruence|].
      unfold iter_rest, iter_ok. rewrite Hzy. simpl. rewrite Ey.
      split; auto. split; [lia|]. split; eauto.
    + rewrite Hn. simpl. auto.
Qed.

Lemma drain_rest : forall fuel it, iter_ok it -> length (iter_rest it) < fuel ->
  memtable_drain fuel it = iter_rest it.
Proof.
  induction fuel; intros it Hok Hl; [lia|].
  simpl. pose proof (iter_step it Hok) as H.
  destruct (memtable_iterator_at it).
  - destruct H as [H1 H2]. rewrite H1 in *. simpl in Hl. f_equal. apply IHfuel; auto. lia.
  - destruct H as [_ ->]. auto.
Qed.

Local Arguments memtable_drain : simpl never.
Lemma scan_single lo m l key :
  single m l -> ascending l -> Forall (good lo) l ->
  (match key with Some k => good lo k | None => True end) ->
  memtable_scan m key =
  Ok (match key with Some k => filter (geb k) l | None => l end).
Proof.
  intros Hsg Hs Hg Hk. unfold memtable_scan, memtable_iterator_open.
  rewrite (single_events _ _ Hsg).
  inversion Hsg; subst.
  - rewrite H1. simpl. destruct key; auto.
  - assert (Hc : (mt_count m =? 0)%N = false).
    { rewrite H1. apply N.eqb_neq. destruct (pg_ev pg); simpl in *; [congruence|lia]. }
    rewrite Hc, H0. simpl.
    unfold memtable_seek.
    destruct key as [k|].
    + unfold memtable_search_page. rewrite H0. simpl. rewrite H. simpl.
      destruct (search_skip lo (pg_ev pg) k Hs Hg Hk H2) as (pos & found & Hse & Hp & Hsk).
      rewrite Hse. simpl. rewrite Nat2Z.id.
      unfold zevents, zelem. simpl.
      destruct (Z.leb_spec (Z.of_nat (length (pg_ev pg))) (Z.of_nat pos)).
      * simpl. rewrite <- Hsk, skipn_all2 by lia. auto.
      * unfold bind. f_equal. rewrite drain_rest.
        -- simpl. unfold zevents, zelem; simpl. rewrite app_nil_r. auto.
        -- simpl. unfold zevents, zelem; simpl. split; [lia|]. split; eauto.
        -- simpl. unfold zevents, zelem; simpl. rewrite app_nil_r, skipn_length. lia.
    + rewrite H. simpl. unfold zevents, zelem. simpl.
      destruct (Z.leb_spec (Z.of_nat (length (pg_ev pg))) 0).
      { destruct (pg_ev pg); simpl in *; [congruence|lia]. }
      unfold bind. f_equal. rewrite drain_rest.
      * simpl. unfold zevents, zelem; simpl. rewrite app_nil_r. auto.
      * simpl. unfold zevents, zelem; simpl. split; [lia|]. split; eauto.
      * simpl. unfold zevents, zelem; simpl. rewrite app_nil_r. lia.
Qed.
