(* Histories of writes on one-page tables, undo, appends. *)
From Coq Require Import NArith ZArith List Bool Sorted Lia Arith.
Import ListNotations.
From Verif Require Import Model.Base Model.Event Model.Rbtree Model.Memtable Spec.Order
  Proof.OrderL Proof.RbtreeL Proof.MemtableL.

Lemma find_app {A} (f : A -> bool) l1 l2 :
  find f (l1 ++ l2) = match find f l1 with Some x => Some x | None => find f l2 end.
Proof. induction l1; simpl; auto. destruct (f a); auto. Qed.

Lemma last_write_app h e k :
  last_write (h ++ [e]) k = if same_keyb k e then Some e else last_write h k.
Proof. unfold last_write. rewrite rev_app_distr. simpl. auto. Qed.

Definition content (h : list event) : list event := fold_left (fun l e => upsert e l) h [].

Lemma content_app h e : content (h ++ [e]) = upsert e (content h).
Proof. unfold content. rewrite fold_left_app. auto. Qed.

Lemma content_spec h : ascending (content h) /\ forall k, lookup (content h) k = last_write h k.
Proof.
  induction h as [|e h IH] using rev_ind.
  - split; [constructor|]. auto.
  - rewrite content_app. destruct IH as [H1 H2]. split; [apply upsert_ascending; auto|].
    intros k. rewrite lookup_upsert, H2, last_write_app; auto.
Qed.

Lemma content_forall (P : event -> Prop) h : Forall P h -> Forall P (content h).
Proof.
  induction h as [|e h IH] using rev_ind; intros H; [constructor|].
  rewrite content_app. apply Forall_app in H as [H1 H2]. inversion H2; subst.
  apply upsert_forall; auto.
Qed.

Lemma existsb_app_r {A} (f : A -> bool) l a : existsb f (l ++ [a]) = (existsb f l || f a)%bool.
Proof. rewrite existsb_app. simpl. rewrite orb_false_r. auto. Qed.

Lemma distinct_app h e :
  distinct (h ++ [e]) = if existsb (same_keyb e) h then distinct h else S (distinct h).
Proof.
  induction h as [|a h IH]; simpl; auto.
  rewrite existsb_app_r, IH. rewrite (same_keyb_sym e a).
  destruct (same_keyb a e) eqn:E; simpl.
  - rewrite orb_true_r. apply same_keyb_true in E.
    assert (Hex : existsb (same_keyb a) h = existsb (same_keyb e) h).
    { clear -E. induction h; simpl; auto. rewrite IHh. f_equal.
      unfold same_keyb. rewrite (same_key_cmp_l _ _ _ E). auto. }
    rewrite Hex. destruct (existsb (same_keyb e) h); auto.
  - rewrite orb_false_r. destruct (existsb (same_keyb a) h), (existsb (same_keyb e) h); auto.
Qed.

Lemma last_write_none h k : last_write h k = None <-> existsb (same_keyb k) h = false.
Proof.
  unfold last_write. split.
  - intros H. destruct (existsb _ h) eqn:E; auto. apply existsb_exists in E as (x & Hx & E).
    eapply find_none in H; [|apply in_rev; rewrite rev_involutive; exact Hx]. congruence.
  - intros H. destruct (find _ _) eqn:E; auto. apply find_some in E as [Hin E].
    apply in_rev in Hin. assert (existsb (same_keyb k) h = true) by (apply existsb_exists; eauto).
    congruence.
Qed.

Lemma content_length h : length (content h) = distinct h.
Proof.
  induction h as [|e h IH] using rev_ind; auto.
  rewrite content_app, distinct_app. destruct (content_spec h) as [H1 H2].
  rewrite upsert_length, H2, IH by auto.
  destruct (last_write h e) eqn:E.
  - destruct (existsb (same_keyb e) h) eqn:E2; auto. apply last_write_none in E2. congruence.
  - apply last_write_none in E. rewrite E. auto.
Qed.

Lemma distinct_prefix h1 h2 : distinct h1 <= distinct (h1 ++ h2).
Proof.
  induction h2 as [|e h2 IH] using rev_ind; [rewrite app_nil_r; auto|].
  rewrite app_assoc, distinct_app. destruct (existsb _ _); lia.
Qed.

Fixpoint prevs_of (l : list event) (h : list event) : list (option event) :=
  match h with
  | [] => []
  | e :: t => lookup l e :: prevs_of (upsert e l) t
  end.

Lemma writes_single lo : forall h m l,
  single m l -> ascending l -> Forall (good lo) l -> Forall (good lo) h ->
  0 < mt_size_page m ->
  (forall h1 h2, h = h1 ++ h2 -> length (fold_left (fun l e => upsert e l) h1 l) <= mt_size_page m) ->
  exists m', memtable_writes m h = Ok (m', prevs_of l h) /\
     single m' (fold_left (fun l e => upsert e l) h l) /\ same_sizes m m'.
Proof.
  induction h as [|e h IH]; intros m l Hsg Hs Hg Hh Hpos Hroom; simpl.
  - exists m. split; auto. split; auto. repeat split.
  - inversion Hh; subst.
    destruct (set_single lo m l e) as (m1 & Hset & Hsg1 & Hsz1); auto.
    { specialize (Hroom [e] h eq_refl). simpl in Hroom. rewrite upsert_length in Hroom by auto.
      destruct (lookup l e); [right; congruence|left; lia]. }
    rewrite Hset. simpl.
    destruct Hsz1 as (Z1 & Z2 & Z3 & Z4).
    destruct (IH m1 (upsert e l)) as (m2 & Hw & Hsg2 & Hsz2); auto.
    { apply upsert_ascending; auto. }
    { apply upsert_forall; auto. }
    { rewrite Z1; auto. }
    { intros h1 h2 ->. rewrite Z1. apply (Hroom (e :: h1) h2). auto. }
    rewrite Hw. simpl. exists m2. split; auto. split; auto.
    destruct Hsz2 as (Y1 & Y2 & Y3 & Y4). repeat split; congruence.
Qed.

Lemma prevs_of_nth : forall h pre i e, nth_error h i = Some e ->
  nth_error (prevs_of (content pre) h) i = Some (last_write (pre ++ firstn i h) e).
Proof.
  induction h as [|a h IH]; intros pre i e H; destruct i; simpl in *; try discriminate.
  - inversion H; subst. rewrite app_nil_r. destruct (content_spec pre) as [_ H2].
    rewrite H2; auto.
  - rewrite <- content_app. rewrite (IH (pre ++ [a]) i e H).
    rewrite <- app_assoc. auto.
Qed.

Lemma single_new sp sl : single (memtable_init sp sl) [].
Proof. constructor; auto. Qed.

Lemma memtable_last_write_wins lo hist :
  Forall (fun e => ev_ok e /\ win lo e) hist -> distinct hist <= MEMTABLE_PAGE ->
  exists m prevs contents,
    memtable_writes memtable_new hist = Ok (m, prevs) /\
    memtable_scan m None = Ok contents /\
    ascending contents /\
    (forall k, lookup contents k = last_write hist k) /\
    (forall k, ev_ok k -> win lo k ->
       memtable_scan m (Some k) = Ok (filter (geb k) contents)) /\
    mt_count m = N.of_nat (length contents) /\
    (forall i e, nth_error hist i = Some e ->
       nth_error prevs i = Some (last_write (firstn i hist) e)).
Proof.
  intros Hg Hd.
  edestruct (writes_single lo hist memtable_new []) as (m & Hw & Hsg & Hsz); auto.
  { apply single_new. } { constructor. } { unfold memtable_new, MEMTABLE_PAGE; simpl; lia. }
  { intros h1 h2 ->. change (length (content h1) <= MEMTABLE_PAGE).
    rewrite content_length. etransitivity; [apply distinct_prefix|eauto]. }
  fold (content hist) in Hsg. destruct (content_spec hist) as [H1 H2].
  assert (Hgc : Forall (good lo) (content hist)) by (apply content_forall; auto).
  exists m, (prevs_of [] hist), (content hist).
  split; auto. split; [rewrite (scan_single lo m _ None Hsg); auto|].
  split; auto. split; auto. split; [|split].
  - intros k Hk Hw'. rewrite (scan_single lo m _ (Some k) Hsg); auto. split; auto.
  - inversion Hsg; auto; congruence.
  - intros i e Hi. apply (prevs_of_nth hist [] i e Hi).
Qed.

(* --- undo --- *)
Lemma single_len m l : single m l -> length l <= mt_size_page m.
Proof. intros H; inversion H; simpl; auto; lia. Qed.

Lemma upsert_restore e p l : ascending l -> lookup l e = Some p ->
  upsert p (upsert e l) = l.
Proof.
  intros Hs Hl. apply ascending_ext; auto.
  { apply upsert_ascending, upsert_ascending; auto. }
  intros k. rewrite !lookup_upsert; auto using upsert_ascending.
  apply lookup_in in Hl as [Hin Hk].
  destruct (same_keyb k p) eqn:E1.
  - apply same_keyb_true in E1. symmetry. apply ascending_lookup; auto.
  - destruct (same_keyb k e) eqn:E2; auto. apply same_keyb_true in E2.
    apply same_keyb_false in E1. exfalso. apply E1. eapply same_key_trans; eauto.
Qed.
Lemma delete_restore e l : ascending l -> lookup l e = None -> delete e (upsert e l) = l.
Proof.
  intros Hs Hl. apply ascending_ext; auto.
  { apply delete_ascending, upsert_ascending; auto. }
  intros k. rewrite lookup_delete, lookup_upsert; auto using upsert_ascending.
  destruct (same_keyb k e) eqn:E; auto. apply same_keyb_true in E.
  rewrite (lookup_same _ _ _ E). auto.
Qed.

Lemma lookup_good lo l e p : Forall (good lo) l -> lookup l e = Some p -> good lo p.
Proof. intros H Hl. apply lookup_in in Hl as [Hin _]. rewrite Forall_forall in H; auto. Qed.

Lemma undo_writes lo : forall h m l mm,
  ascending l -> Forall (good lo) l -> Forall (good lo) h ->
  single mm (fold_left (fun l e => upsert e l) h l) -> mt_size_page mm = mt_size_page m ->
  0 < mt_size_page m ->
  length l <= mt_size_page m ->
  exists m', memtable_undo mm (combine h (prevs_of l h)) = Ok m' /\ single m' l /\ same_sizes mm m'.
Proof.
  induction h as [|e h IH]; intros m l mm Hs Hg Hh Hsg Hsp Hpos Hlen; simpl.
  - exists mm. split; auto. split; auto. repeat split.
  - inversion Hh; subst.
    assert (Hlen' : length (upsert e l) <= mt_size_page m \/ mt_size_page m < length (upsert e l)) by lia.
    assert (Hsz : single mm (fold_left (fun l e => upsert e l) h (upsert e l))) by exact Hsg.
    destruct Hlen' as [Hlen'|Hbad].
    2:{ (* impossible: the final table holds at least these events *)
        exfalso.
        assert (Hmono : forall h l0, ascending l0 -> length l0 <= length (fold_left (fun l e => upsert e l) h l0)).
        { clear. induction h; intros l0 H0; simpl; auto.
          etransitivity; [|apply IHh; apply upsert_ascending; auto].
          rewrite upsert_length by auto. destruct (lookup l0 a); lia. }
        specialize (Hmono h (upsert e l) (upsert_ascending e l Hs)).
        pose proof (single_len _ _ Hsz). lia. }
    destruct (IH m (upsert e l) mm) as (m1 & Hu & Hsg1 & Hsz1); auto.
    { apply upsert_ascending; auto. } { apply upsert_forall; auto. }
    rewrite Hu. simpl.
    destruct Hsz1 as (Z1 & Z2 & Z3 & Z4).
    destruct (lookup l e) as [p|] eqn:El.
    + assert (Hp : good lo p) by (exact (lookup_good lo l e p Hg El)).
      destruct (set_single lo m1 (upsert e l) p) as (m2 & Hset & Hsg2 & Hsz2); auto.
      { apply upsert_ascending; auto. } { apply upsert_forall; auto. }
      { rewrite Z1, Hsp; auto. }
      { right. rewrite lookup_upsert by auto. destruct (lookup_in _ _ _ El) as [Hin Hk].
        assert (same_keyb p e = true) as -> by (apply same_keyb_true, same_key_sym; auto). discriminate. }
      rewrite Hset. simpl. exists m2. split; auto.
      rewrite upsert_restore in Hsg2 by auto. split; auto.
      destruct Hsz2 as (Y1 & Y2 & Y3 & Y4). repeat split; congruence.
    + destruct (unset_single lo m1 (upsert e l) e) as (m2 & Hset & Hsg2 & Hsz2); auto.
      { apply upsert_ascending; auto. } { apply upsert_forall; auto. }
      { destruct l; simpl; [discriminate|]. destruct (ev_cmp e e0); discriminate. }
      exists m2. split; auto. rewrite delete_restore in Hsg2 by auto. split; auto.
      destruct Hsz2 as (Y1 & Y2 & Y3 & Y4). repeat split; congruence.
Qed.

(* --- appends --- *)
Definition pages_ok (sp : nat) (pgs : list page) : Prop :=
  Forall (fun pg => pg_ev pg <> [] /\ length (pg_ev pg) <= sp) pgs.

Record appended (m : memtable) (l : list event) : Prop := {
  ap_wf : wf (mt_tree m);
  ap_ev : flat_map pg_ev (elements (mt_tree m)) = l;
  ap_pages : pages_ok (mt_size_page m) (elements (mt_tree m));
  ap_count_pages : mt_count_pages m = N.of_nat (length (elements (mt_tree m)));
  ap_count : mt_count m = N.of_nat (length l)
}.

Lemma i32_range z : (- 2^31 <= i32_of_z z < 2^31)%Z.
Proof.
  unfold i32_of_z. pose proof (Z.mod_pos_bound z (2^32) ltac:(lia)).
  destruct (Z.ltb_spec (z mod 2^32) (2^31)); lia.
Qed.

Lemma zset_root (z : zipper page) pg pg' : zelem z = Some pg -> wf (zroot z) ->
  wf (zroot (zset z pg')) /\ zbefore (zset z pg') = zbefore z /\ zafter (zset z pg') = zafter z /\
  zelem (zset z pg') = Some pg'.
Proof.
  destruct z as [p [|c l x r]]; unfold zelem; simpl; [discriminate|].
  intros H Hw; inversion H; subst. unfold zroot in *. simpl in *.
  split; auto. destruct Hw as [h Hw]. apply plug_rb_inv in Hw as (c0 & h0 & H1 & H2).
  assert (rb (Node c l pg' r) c0 h0) by (inversion H1; subst; econstructor; eauto).
  destruct (plug_rb p _ _ _ H0 H2) as (h' & Hh). exists h'; auto.
Qed.

(* the page an append lands in is the last one and has no right child *)
Lemma append_page lo m l e :
  appended m l -> l <> [] -> ascending (l ++ [e]) -> Forall (good lo) (l ++ [e]) ->
  exists p c lt pg,
    memtable_search_page m e = Ok (p, Node c lt pg Leaf) /\
    zroot (p, Node c lt pg Leaf) = mt_tree m /\ zafter (p, Node c lt pg Leaf) = [].
Proof.
  intros Ha Hne Hs Hg.
  assert (Hgt : forall x, In x l -> ev_lt x e).
  { intros x Hx. apply ascending_app in Hs as (_ & _ & H). apply H; simpl; auto. }
  unfold memtable_search_page.
  destruct (N.eqb_spec (mt_count_pages m) 1) as [E1|E1].
  - pose proof (ap_count_pages m l Ha) as Hc. rewrite E1 in Hc.
    pose proof (rbtree_min_spec (mt_tree m)) as Hm.
    destruct (rbtree_min (mt_tree m)) as [z|].
    + destruct Hm as (Hr & Hb & pg & Hz). simpl.
      assert (He := zelems z pg Hz). rewrite Hr, Hb in He. rewrite He in Hc. simpl in Hc.
      assert (Haf : zafter z = []) by (destruct (zafter z); auto; simpl in Hc; lia).
      destruct z as [p [|c lt x rt]]; [discriminate|].
      assert (rt = Leaf).
      { simpl in Haf. apply app_eq_nil in Haf as [Haf _]. destruct rt; auto.
        simpl in Haf. apply app_eq_nil in Haf as [_ Haf]. discriminate. }
      subst rt. exists p, c, lt, x. auto.
    + rewrite Hm in Hc. simpl in Hc. lia.
  - unfold memtable_find, rbtree_get.
    destruct (rb_get (fun pg => memtable_compare pg e) (mt_tree m) [] None 0) as [z rc] eqn:Eg.
    assert (Hneg : forall pg, In pg (elements (mt_tree m)) -> (memtable_compare pg e < 0)%Z).
    { intros pg Hpg. pose proof (ap_pages m l Ha) as Hp. unfold pages_ok in Hp.
      rewrite Forall_forall in Hp. destruct (Hp _ Hpg) as [Hnp _].
      unfold memtable_compare.
      destruct (pg_ev pg) as [|x rest] eqn:Ep; [congruence|].
      assert (Hin : In x l).
      { rewrite <- (ap_ev m l Ha). apply in_flat_map. exists pg. rewrite Ep. simpl; auto. }
      change (ev_at (x :: rest) 0) with x.
      rewrite Forall_forall in Hg.
      destruct (compare_lt lo x e) as (_ & B & _); [apply Hg, in_app_iff; auto|apply Hg, in_app_iff; simpl; auto|].
      apply B. auto. }
    apply rb_get_root in Eg.
    2:{ unfold mono. assert (H : Forall (fun pg => memtable_compare pg e < 0)%Z (elements (mt_tree m)))
         by (apply Forall_forall; auto).
        clear -H. induction (elements (mt_tree m)); constructor; inversion H; subst; auto.
        apply Forall_forall. intros; left; auto. }
    destruct Eg as [(Hleaf & _)|(zz & -> & Hroot & Hland & Hbef & Haf)].
    { pose proof (ap_ev m l Ha) as He. rewrite Hleaf in He. simpl in He. congruence. }
    assert (Hz0 : zafter zz = []).
    { destruct (zafter zz) as [|y rest] eqn:Ez; auto. inversion Haf; subst.
      destruct zz as [p [|c lt x rt]]; [contradiction|].
      assert (In y (elements (mt_tree m))).
      { rewrite <- Hroot. rewrite (zelems _ x) by auto. rewrite Ez.
        apply in_app_iff. right. right. left. auto. }
      apply Hneg in H. lia. }
    destruct zz as [p [|c lt x rt]]; [contradiction|].
    destruct Hland as [-> Hland].
    assert (Hx : (memtable_compare x e < 0)%Z).
    { apply Hneg. rewrite <- Hroot, (zelems _ x) by auto. apply in_app_iff; simpl; auto. }
    destruct Hland as [H|[[_ H]|[H _]]]; [lia| |lia]. subst rt.
    rewrite i32_exact by apply i32_range.
    destruct (Z.eqb_spec (memtable_compare x e) 1); [lia|].
    exists p, c, lt, x. auto.
Qed.

Lemma flat_map_snoc {A B} (f : A -> list B) l a : flat_map f (l ++ [a]) = flat_map f l ++ f a.
Proof. rewrite flat_map_app. simpl. rewrite app_nil_r. auto. Qed.

Lemma append_set lo m l e :
  appended m l -> ascending (l ++ [e]) -> Forall (good lo) (l ++ [e]) ->
  0 < mt_size_split m -> mt_size_split m < mt_size_page m ->
  exists m', memtable_set m e = Ok (m', None) /\ appended m' (l ++ [e]) /\ same_sizes m m'.
Proof.
  intros Ha Hs Hg Hsp1 Hsp2.
  destruct (list_eq_dec N.eq_dec [] (map ev_id l)) as [El|El].
  - (* empty table *)
    assert (l = []) by (destruct l; [auto|discriminate]). subst l.
    unfold memtable_set.
    pose proof (ap_ev m [] Ha) as He. pose proof (ap_pages m [] Ha) as Hp.
    assert (Hel : elements (mt_tree m) = []).
    { destruct (elements (mt_tree m)) as [|pg rest]; auto. simpl in He.
      apply app_eq_nil in He as [He _]. inversion Hp; subst. destruct H1; congruence. }
    rewrite (ap_count_pages m [] Ha), Hel. simpl.
    eexists; split; [reflexivity|]. split; [|repeat split].
    constructor; simpl; auto.
    + exists 1. econstructor; constructor.
    + constructor; [simpl; split; [discriminate|lia]|constructor].
    + rewrite (ap_count m [] Ha). auto.
  - assert (Hne : l <> []) by (intros ->; apply El; auto).
    destruct (append_page lo m l e Ha Hne Hs Hg) as (p & c & lt & pg & Hpage & Hroot & Haf).
    unfold memtable_set.
    assert (Hcp : (mt_count_pages m =? 0)%N = false).
    { apply N.eqb_neq. rewrite (ap_count_pages m l Ha). intros H.
      assert (length (elements (mt_tree m)) = 0) by lia.
      pose proof (ap_ev m l Ha) as He. destruct (elements (mt_tree m)); [simpl in He; congruence|discriminate]. }
    rewrite Hcp, Hpage.
    set (z := (p, Node c lt pg Leaf)) in *.
    assert (Hz : zelem z = Some pg) by reflexivity. cbn [bind]. rewrite Hz.
    assert (Hel : elements (mt_tree m) = zbefore z ++ [pg]).
    { rewrite <- Hroot, (zelems z pg Hz), Haf. auto. }
    pose proof (ap_ev m l Ha) as Hev. rewrite Hel, flat_map_snoc in Hev.
    pose proof (ap_pages m l Ha) as Hpg. rewrite Hel in Hpg.
    apply Forall_app in Hpg as [Hpg1 Hpg2]. inversion Hpg2 as [|? ? [Hpgne Hpglen] _]; subst x l0.
    assert (Hspg : ascending (pg_ev pg ++ [e])).
    { rewrite <- Hev, <- app_assoc in Hs. apply ascending_app in Hs. tauto. }
    assert (Hgpg : Forall (good lo) (pg_ev pg ++ [e])).
    { rewrite <- Hev, <- app_assoc in Hg. apply Forall_app in Hg. tauto. }
    (* the position is the end of the page *)
    assert (Hsearch : memtable_search (pg_ev pg) e = Ok (Z.of_nat (length (pg_ev pg)), false)).
    { unfold memtable_search.
      set (n := length (pg_ev pg)).
      assert (Hn : 0 < n) by (unfold n; destruct (pg_ev pg); [congruence|simpl; lia]).
      destruct (Z.ltb_spec (Z.of_nat n - 1) 0); [lia|].
      destruct (nth_error_some_lt (pg_ev pg) (n - 1)) as (x & Hx); [unfold n in *; lia|].
      assert (Hat : ev_at (pg_ev pg) (Z.of_nat n - 1) = x).
      { apply ev_at_nth; [lia|]. replace (Z.to_nat (Z.of_nat n - 1)) with (n - 1) by lia. auto. }
      rewrite Hat.
      assert (Hin : In x (pg_ev pg)) by (eapply nth_error_In; eauto).
      rewrite Forall_forall in Hgpg.
      destruct (compare_lt lo x e) as (A & _); [apply Hgpg, in_app_iff; auto|apply Hgpg, in_app_iff; simpl; auto|].
      assert (ev_lt x e) by (apply ascending_app in Hspg as (_ & _ & H0); apply H0; simpl; auto).
      apply A in H0. destruct (Z.ltb_spec (compare x e) 0); [|lia].
      f_equal. f_equal. lia. }
    unfold memtable_insert. rewrite Hsearch. cbn [bind]. rewrite Nat2Z.id.
    assert (Hroom : insert_at (length (pg_ev pg)) e (pg_ev pg) = pg_ev pg ++ [e]).
    { unfold insert_at. rewrite firstn_all, skipn_all. auto. }
    assert (Hwf : wf (zroot z)) by (rewrite Hroot; apply (ap_wf m l Ha)).
    destruct (Nat.eqb_spec (length (pg_ev pg)) (mt_size_page m)) as [Efull|Enf].
    + (* split *)
      destruct (Nat.leb_spec (mt_size_split m) (length (pg_ev pg))); [|lia].
      set (pl := firstn (mt_size_split m) (pg_ev pg)).
      set (pr := insert_at (length (pg_ev pg) - mt_size_split m) e (skipn (mt_size_split m) (pg_ev pg))).
      assert (Hpr : pr = skipn (mt_size_split m) (pg_ev pg) ++ [e]).
      { unfold pr, insert_at. rewrite <- skipn_length, firstn_all, skipn_all. auto. }
      cbn [bind].
      destruct (zset_root z pg (mk_page (pg_id pg) pl) Hz Hwf) as (Hw' & Hb' & Ha' & Hz').
      unfold z in Hw' |- *. cbn [zset] in Hw' |- *. unfold zroot in Hw'. cbn [fst snd] in Hw' |- *.
      edestruct (rbtree_set_right (plug p (Node c lt (mk_page (pg_id pg) pl) Leaf)) p c (mk_page (pg_id pg) pl) lt (-1)
                  (mk_page (mt_next_page m) pr) Hw') as (t' & Ht & Hwt & Het); [lia|].
      match goal with |- context[of_opt ?x] => replace x with (Some t') by (symmetry; exact Ht) end.
      cbn [of_opt bind].
      eexists; split; [reflexivity|]. split; [|repeat split].
      assert (Hctx : ctx_r p = []) by exact Haf.
      rewrite Hctx in Het.
      assert (Hzb : ctx_l p ++ elements lt = zbefore z) by reflexivity.
      assert (Het' : elements t' = zbefore z ++ [mk_page (pg_id pg) pl; mk_page (mt_next_page m) pr]).
      { rewrite Het, <- Hzb, <- app_assoc. auto. }
      constructor; cbn [mt_with mt_tree mt_size_page mt_count_pages mt_count]; auto.
      * rewrite Het', flat_map_app. simpl. rewrite app_nil_r, Hpr.
        rewrite <- Hev, <- !app_assoc. f_equal. unfold pl.
        rewrite app_assoc, firstn_skipn. auto.
      * rewrite Het'. apply Forall_app. split; auto.
        constructor; [|constructor; [|constructor]]; simpl.
        -- unfold pl. split.
           ++ destruct (pg_ev pg); [congruence|]. destruct (mt_size_split m); [lia|discriminate].
           ++ rewrite firstn_length. lia.
        -- rewrite Hpr. split; [destruct (skipn _ _); discriminate|].
           rewrite app_length, skipn_length. simpl. lia.
      * rewrite (ap_count_pages m l Ha), Hel, Het', !app_length. simpl. lia.
      * rewrite (ap_count m l Ha), app_length. simpl. lia.
    + rewrite Hroom. cbn [bind].
      destruct (zset_root z pg (mk_page (pg_id pg) (pg_ev pg ++ [e])) Hz Hwf) as (Hw' & Hb' & Ha' & Hz').
      eexists; split; [reflexivity|]. split; [|repeat split].
      assert (Hel' : elements (zroot (zset z (mk_page (pg_id pg) (pg_ev pg ++ [e])))) =
                     zbefore z ++ [mk_page (pg_id pg) (pg_ev pg ++ [e])]).
      { rewrite (zelems _ _ Hz'), Hb', Ha', Haf. auto. }
      fold (zroot (zset z (mk_page (pg_id pg) (pg_ev pg ++ [e])))).
      constructor; cbn [mt_with mt_tree mt_size_page mt_count_pages mt_count]; auto.
      * rewrite Hel', flat_map_snoc. cbn [pg_ev]. rewrite <- Hev, <- app_assoc. auto.
      * rewrite Hel'. apply Forall_app. split; auto.
        constructor; [|constructor]. simpl. split; [destruct (pg_ev pg); discriminate|].
        rewrite app_length. simpl. lia.
      * rewrite (ap_count_pages m l Ha), Hel, Hel', !app_length. simpl. lia.
      * rewrite (ap_count m l Ha), app_length. simpl. lia.
Qed.

Lemma append_writes lo : forall h m l,
  appended m l -> ascending (l ++ h) -> Forall (good lo) (l ++ h) ->
  0 < mt_size_split m -> mt_size_split m < mt_size_page m ->
  exists m' prevs, memtable_writes m h = Ok (m', prevs) /\ appended m' (l ++ h) /\
    Forall (eq None) prevs /\ same_sizes m m'.
Proof.
  induction h as [|e h IH]; intros m l Ha Hs Hg H1 H2; simpl.
  - exists m, []. rewrite app_nil_r. repeat split; auto; apply Ha.
  - assert (E : l ++ e :: h = (l ++ [e]) ++ h) by (rewrite <- app_assoc; auto).
    rewrite E in *.
    destruct (append_set lo m l e) as (m1 & Hset & Ha1 & (Z1 & Z2 & Z3 & Z4)); auto.
    { apply ascending_app in Hs; tauto. } { apply Forall_app in Hg; tauto. }
    rewrite Hset. simpl.
    destruct (IH m1 (l ++ [e])) as (m2 & prevs & Hw & Ha2 & Hpr & (Y1 & Y2 & Y3 & Y4)); auto; try (rewrite ?Z1, ?Z2; auto).
    rewrite Hw. simpl. exists m2, (None :: prevs). split; auto. split; auto. split; auto.
    repeat split; congruence.
Qed.

Lemma appended_new sp sl : appended (memtable_init sp sl) [].
Proof. constructor; simpl; auto; [exists 0; constructor|constructor]. Qed.

Local Arguments memtable_drain : simpl never.
Lemma scan_all m l : wf (mt_tree m) -> flat_map pg_ev (elements (mt_tree m)) = l ->
  Forall (fun pg => pg_ev pg <> []) (elements (mt_tree m)) ->
  mt_count_pages m = N.of_nat (length (elements (mt_tree m))) ->
  mt_count m = N.of_nat (length l) ->
  memtable_scan m None = Ok l.
Proof.
  intros Hwf Hev Hpg Hcp Hc. unfold memtable_scan, memtable_iterator_open.
  rewrite Hc. destruct l as [|e0 l'].
  - simpl. auto.
  - destruct (N.eqb_spec (N.of_nat (length (e0 :: l'))) 0); [simpl in *; lia|].
    destruct (N.eqb_spec (mt_count_pages m) 0).
    { rewrite e in Hcp. destruct (elements (mt_tree m)); [discriminate|simpl in *; lia]. }
    simpl. pose proof (rbtree_min_spec (mt_tree m)) as Hm.
    destruct (rbtree_min (mt_tree m)) as [z|].
    2:{ rewrite Hm in Hev. discriminate. }
    destruct Hm as (Hr & Hb & pg & Hz). simpl.
    assert (Hel := zelems z pg Hz). rewrite Hr, Hb in Hel. simpl in Hel.
    rewrite Hel in Hpg. inversion Hpg; subst.
    assert (Hze : zevents z = pg_ev pg) by (unfold zevents; rewrite Hz; auto).
    rewrite Hze.
    destruct (Z.leb_spec (Z.of_nat (length (pg_ev pg))) 0).
    { destruct (pg_ev pg); simpl in *; [congruence|lia]. }
    cbn [bind]. f_equal.
    assert (Hrest : iter_rest (Some (z, 0)) = e0 :: l').
    { simpl. rewrite Hze. rewrite <- Hev, Hel. auto. }
    change (Z.to_nat 0) with 0. rewrite drain_rest; auto.
    + simpl. rewrite Hze. split; [lia|]. split; eauto.
    + rewrite Hrest. unfold mt_events. rewrite Hev. lia.
Qed.

Lemma memtable_append_complete lo hist :
  ascending hist -> Forall (fun e => ev_ok e /\ win lo e) hist ->
  exists m prevs,
    memtable_writes memtable_new hist = Ok (m, prevs) /\
    Forall (eq None) prevs /\
    memtable_scan m None = Ok hist /\
    mt_count m = N.of_nat (length hist) /\
    Forall (fun pg => pg_ev pg <> [] /\ length (pg_ev pg) <= MEMTABLE_PAGE)
           (elements (mt_tree m)) /\
    depth (mt_tree m) <= 2 * Nat.log2 (S (length hist)).
Proof.
  intros Hs Hg.
  destruct (append_writes lo hist memtable_new []) as (m & prevs & Hw & Ha & Hp & (Z1 & _)); auto.
  { apply appended_new. } { unfold memtable_new, MEMTABLE_SPLIT; simpl; lia. }
  { unfold memtable_new, MEMTABLE_SPLIT, MEMTABLE_PAGE; simpl; lia. }
  simpl in Ha. exists m, prevs. split; auto. split; auto.
  pose proof (ap_pages _ _ Ha) as Hpg. rewrite Z1 in Hpg.
  split; [|split; [apply (ap_count _ _ Ha)|split; auto]].
  - apply scan_all; auto; try apply Ha.
    eapply Forall_impl; [|exact Hpg]. simpl. tauto.
  - etransitivity; [apply wf_depth; apply (ap_wf _ _ Ha)|].
    apply Nat.mul_le_mono_l. apply Nat.log2_le_mono. apply le_n_S.
    rewrite <- (ap_ev _ _ Ha). clear -Hpg.
    induction Hpg; simpl; auto. rewrite app_length.
    destruct H as [H _]. destruct (pg_ev x); [congruence|]. simpl. lia.
Qed.
