(* Attached iterators and counterexamples for memtables. *)
From Coq Require Import NArith ZArith List Bool Sorted Lia Arith.
Import ListNotations.
From Verif Require Import Model.Base Model.Event Model.Rbtree Model.Memtable Spec.Order
  Proof.OrderL Proof.RbtreeL Proof.MemtableL Proof.MemtableL2.

(* events with id i, no key, empty value *)
Definition ev_of (i : N) : event := mk_event i 0 [] [].
Definition ids (from : N) (n : nat) : list event :=
  map (fun k => ev_of (from + N.of_nat k)) (seq 0 n).

Lemma ev_ok_of i : (i < 2^64)%N -> ev_ok (ev_of i).
Proof. intros. unfold ev_ok. simpl. repeat split; auto; lia. Qed.

Lemma nth_insert_lt {A} (l : list A) e pos c : c < pos -> pos <= length l ->
  nth_error (firstn pos l ++ e :: skipn pos l) c = nth_error l c.
Proof.
  intros. rewrite nth_error_app1 by (rewrite firstn_length; lia).
  revert pos c H H0. induction l; intros pos c H H0; simpl in *.
  - destruct pos; lia.
  - destruct pos; [lia|]. destruct c; simpl; auto. apply IHl; lia.
Qed.
Lemma nth_insert_ge {A} (l : list A) e pos c : pos <= c -> pos <= length l ->
  nth_error (firstn pos l ++ e :: skipn pos l) (S c) = nth_error l c.
Proof.
  intros. rewrite nth_error_app2 by (rewrite firstn_length; lia).
  rewrite firstn_length, Nat.min_l by lia. replace (S c - pos) with (S (c - pos)) by lia. simpl.
  revert pos c H H0. induction l; intros pos c H H0; simpl in *.
  - assert (pos = 0) by lia. subst. simpl. rewrite Nat.sub_0_r. auto.
  - destruct pos; simpl; [rewrite Nat.sub_0_r; auto|]. destruct c; [lia|]. simpl. apply IHl; lia.
Qed.

Lemma nth_error_firstn_lt {A} (l : list A) n c : c < n -> nth_error (firstn n l) c = nth_error l c.
Proof.
  revert n c. induction l; intros n c H; destruct n; try lia; destruct c; simpl; auto.
  apply IHl; lia.
Qed.

Lemma skipn_S_filter l c x : ascending l -> nth_error l c = Some x ->
  skipn (S c) l = filter (gtb x) l.
Proof.
  intros Hs Hx. rewrite (split_nth l c x Hx) at 2.
  rewrite filter_app, filter_none.
  - cbn [app filter]. unfold gtb at 1. rewrite ev_cmp_refl. rewrite filter_all; auto.
    rewrite Forall_forall. intros y Hy.  apply skipn_In_nth in Hy as (i & Hi & Hy).
    assert (ev_lt x y) by (eapply (ascending_nth l c i); eauto).
    unfold gtb. apply ev_gt_lt in H. rewrite H. auto.
  - rewrite Forall_forall. intros y Hy. apply firstn_In_nth in Hy as (i & Hi & Hy).
    assert (ev_lt y x) by (eapply (ascending_nth l i c); eauto).
    unfold gtb. unfold ev_lt in H. rewrite H. auto.
Qed.

(* an insert that is not directly below the cursor's event leaves the cursor on
   its event, followed by exactly the larger events of the new page *)
Lemma iter_stable lo m pg e c x :
  ascending (pg_ev pg) -> Forall (good lo) (pg_ev pg) -> good lo e ->
  length (pg_ev pg) < mt_size_page m ->
  nth_error (pg_ev pg) c = Some x ->
  lookup (pg_ev pg) e = None ->
  (ev_lt x e \/ exists y, In y (pg_ev pg) /\ ev_lt e y /\ ev_lt y x) ->
  exists pg' it',
    insert_with_iter m pg e (mk_pos (pg_id pg) c (Some x)) = Ok (pg', None, it') /\
    pg_ev pg' = upsert e (pg_ev pg) /\ mp_page it' = pg_id pg' /\ mp_cur it' = Some x /\
    nth_error (pg_ev pg') (mp_pos it') = Some x /\
    skipn (S (mp_pos it')) (pg_ev pg') = filter (gtb x) (pg_ev pg').
Proof.
  intros Hs Hg He Hroom Hx Hl Hpos.
  assert (Hne : pg_ev pg <> []) by (intros E; rewrite E in Hx; destruct c; discriminate).
  unfold insert_with_iter, memtable_insert.
  destruct (memtable_search_spec lo (pg_ev pg) e Hs Hg He Hne) as (pos & found & Hse & Hres).
  destruct (search_upsert lo (pg_ev pg) e Hs Hg He Hne) as (pos2 & found2 & Hse2 & Hp & Hres2).
  rewrite Hse in Hse2. inversion Hse2 as [[E1 E2]]. assert (pos2 = pos) by lia. subst pos2 found2. clear Hse2 E1.
  rewrite Hse. cbn [bind]. rewrite Nat2Z.id.
  destruct found.
  { destruct Hres2 as (y & _ & H & _). congruence. }
  destruct Hres2 as (_ & Hins). destruct Hres as (_ & Hlo & Hhi).
  destruct (Nat.eqb_spec (length (pg_ev pg)) (mt_size_page m)); [lia|]. cbn [bind].
  assert (Hc : c < pos \/ pos < c).
  { assert (Hclen : c < length (pg_ev pg)) by (apply nth_error_Some; congruence).
    destruct Hpos as [Hlt|(y & Hy & H1 & H2)].
    - left. destruct (Nat.ltb_spec c pos); auto. exfalso.
      assert (In x (skipn pos (pg_ev pg))).
      { rewrite <- (firstn_skipn pos (pg_ev pg)) in Hx. rewrite nth_error_app2 in Hx by (rewrite firstn_length; lia).
        eapply nth_error_In; eauto. }
      rewrite Forall_forall in Hhi. apply Hhi in H0.
      eapply ev_lt_irrefl, ev_lt_trans; eauto.
    - right. apply In_nth_error in Hy as (j & Hj).
      assert (Hjc : j < c).
      { destruct (Nat.lt_trichotomy j c) as [|[->|]]; auto.
        - assert (x = y) by congruence. subst. exfalso. eapply ev_lt_irrefl; eauto.
        - exfalso. assert (ev_lt x y) by (eapply (ascending_nth (pg_ev pg) c j); eauto).
          eapply ev_lt_irrefl, ev_lt_trans; eauto. }
      assert (pos <= j).
      { destruct (Nat.leb_spec pos j); auto. exfalso.
        assert (In y (firstn pos (pg_ev pg))).
        { rewrite <- (firstn_skipn pos (pg_ev pg)) in Hj.
          rewrite nth_error_app1 in Hj by (rewrite firstn_length; lia). eapply nth_error_In; eauto. }
        rewrite Forall_forall in Hlo. apply Hlo in H0.
        eapply ev_lt_irrefl, ev_lt_trans; eauto. }
      lia. }
  set (c' := if pos <=? c then S c else c).
  assert (Hnth : nth_error (upsert e (pg_ev pg)) c' = Some x).
  { rewrite <- Hins. unfold insert_at, c'. destruct (Nat.leb_spec pos c).
    - rewrite nth_insert_ge; auto.
    - rewrite nth_insert_lt; auto. }
  exists (mk_page (pg_id pg) (insert_at pos e (pg_ev pg))), (mk_pos (pg_id pg) c' (Some x)).
  rewrite Hins. split.
  - unfold memtable_iterator_sync. simpl. rewrite N.eqb_refl. simpl.
    destruct (Nat.eqb_spec c pos); [lia|]. fold c'. rewrite Hnth. auto.
  - simpl. repeat split; auto.
    apply skipn_S_filter; auto. apply upsert_ascending; auto.
Qed.

(* a replacement at or above the cursor's event keeps the cursor on its key, with
   the newest version, followed by exactly the larger events *)
Lemma iter_replace lo m pg e c x z :
  ascending (pg_ev pg) -> Forall (good lo) (pg_ev pg) -> good lo e ->
  nth_error (pg_ev pg) c = Some x ->
  lookup (pg_ev pg) e = Some z -> ev_le x e ->
  exists pg' it' y,
    insert_with_iter m pg e (mk_pos (pg_id pg) c (Some x)) = Ok (pg', None, it') /\
    pg_ev pg' = upsert e (pg_ev pg) /\ mp_page it' = pg_id pg' /\ mp_cur it' = Some y /\
    lookup (pg_ev pg') x = Some y /\
    nth_error (pg_ev pg') (mp_pos it') = Some y /\
    skipn (S (mp_pos it')) (pg_ev pg') = filter (gtb x) (pg_ev pg').
Proof.
  intros Hs Hg He Hx Hl Hle.
  assert (Hne : pg_ev pg <> []) by (intros E; rewrite E in Hx; destruct c; discriminate).
  unfold insert_with_iter, memtable_insert.
  destruct (search_upsert lo (pg_ev pg) e Hs Hg He Hne) as (pos & found & Hse & Hp & Hres).
  rewrite Hse. cbn [bind]. rewrite Nat2Z.id.
  destruct found; [|destruct Hres; congruence].
  destruct Hres as (z' & Hz & Hlz & Hrep & _). cbn [bind].
  assert (z' = z) by congruence. subst z'.
  assert (Hclen : c < length (pg_ev pg)) by (apply nth_error_Some; congruence).
  assert (Hplen : pos < length (pg_ev pg)) by (apply nth_error_Some; congruence).
  assert (Hsk : same_key e z) by (apply lookup_in in Hlz; tauto).
  rewrite Hrep.
  assert (Hup : ascending (upsert e (pg_ev pg))) by (apply upsert_ascending; auto).
  assert (Hnpos : nth_error (upsert e (pg_ev pg)) pos = Some e).
  { rewrite <- Hrep. unfold replace_at. rewrite nth_error_app2 by (rewrite firstn_length; lia).
    rewrite firstn_length, Nat.min_l, Nat.sub_diag by lia. auto. }
  assert (Hc : c <= pos).
  { destruct (Nat.leb_spec c pos); auto. exfalso.
    assert (ev_lt z x) by (eapply (ascending_nth (pg_ev pg) pos c); eauto).
    apply Hle. apply ev_gt_lt. unfold ev_lt in *. rewrite (same_key_cmp_l _ _ _ Hsk). auto. }
  unfold memtable_iterator_sync. cbn [mp_page mp_cur mp_pos pg_id pg_ev]. rewrite N.eqb_refl.
  cbn [negb orb].
  destruct (Nat.eqb_spec c pos) as [->|Hd].
  - assert (x = z) by congruence. subst z. rewrite Hnpos.
    do 3 eexists. split; [reflexivity|]. cbn [mp_page mp_cur mp_pos pg_id pg_ev].
    repeat split; auto.
    + eapply ascending_lookup; eauto. eapply nth_error_In; eauto. apply same_key_sym; auto.
    + rewrite (skipn_S_filter _ _ e); auto. apply filter_ext. intros y. unfold gtb.
      rewrite (same_key_cmp_r _ _ _ Hsk). auto.
  - destruct (Nat.leb_spec pos c); [lia|].
    assert (Hnth : nth_error (upsert e (pg_ev pg)) c = Some x).
    { rewrite <- Hrep. unfold replace_at. rewrite nth_error_app1 by (rewrite firstn_length; lia).
      rewrite nth_error_firstn_lt; auto; lia. }
    rewrite Hnth.
    do 3 eexists. split; [reflexivity|]. cbn [mp_page mp_cur mp_pos pg_id pg_ev].
    repeat split; auto.
    + eapply ascending_lookup; eauto. eapply nth_error_In; eauto. apply same_key_refl.
    + apply skipn_S_filter; auto.
Qed.

(* ---- counterexamples ---- *)

(* a new event directly below the cursor's event: the cursor moves back to it *)
Lemma iter_adjacent_refuted : exists pg e x it',
  let m := memtable_new in
  nth_error (pg_ev pg) 1 = Some x /\ ascending (pg_ev pg) /\ ev_lt e x /\
  (exists pg', insert_with_iter m pg e (mk_pos (pg_id pg) 1 (Some x)) = Ok (pg', None, it')) /\
  mp_cur it' = Some e.
Proof.
  exists (mk_page 0 [ev_of 1; ev_of 5]), (ev_of 3), (ev_of 5), (mk_pos 0 1 (Some (ev_of 3))).
  repeat split; auto.
  - repeat constructor.
  - eexists. vm_compute. reflexivity.
Qed.

(* rewriting an event below the cursor's event: the cursor skips one event *)
Lemma iter_rewrite_refuted : exists pg e x y it',
  let m := memtable_new in
  nth_error (pg_ev pg) 1 = Some x /\ nth_error (pg_ev pg) 2 = Some y /\ ascending (pg_ev pg) /\
  ev_lt e x /\ ev_lt x y /\
  (exists pg', insert_with_iter m pg e (mk_pos (pg_id pg) 1 (Some x)) = Ok (pg', None, it')) /\
  mp_cur it' = Some y.
Proof.
  exists (mk_page 0 [ev_of 1; ev_of 5; ev_of 7]), (ev_of 1), (ev_of 5), (ev_of 7), (mk_pos 0 2 (Some (ev_of 7))).
  repeat split; auto.
  - repeat constructor.
  - eexists. vm_compute. reflexivity.
Qed.

Lemma ids_ascending n : forall from, ascending (ids from n).
Proof.
  unfold ids. intros from. generalize 0 as s. induction n; intros s; simpl; constructor; auto.
  - apply IHn.
  - rewrite Forall_forall. intros y Hy. apply in_map_iff in Hy as (k & <- & Hk). apply in_seq in Hk.
    unfold ev_lt, ev_cmp. simpl.
    destruct (N.compare_spec (from + N.of_nat s) (from + N.of_nat k)); auto; lia.
Qed.

(* appending to a full page splits it: a cursor in the middle skips one event *)
Lemma iter_split_refuted : exists pg e x y it',
  let m := memtable_new in
  nth_error (pg_ev pg) 100 = Some x /\ nth_error (pg_ev pg) 101 = Some y /\ ascending (pg_ev pg) /\
  Forall (fun a => ev_lt a e) (pg_ev pg) /\
  (exists pg' sp, insert_with_iter m pg e (mk_pos (pg_id pg) 100 (Some x)) = Ok (pg', sp, it')) /\
  mp_cur it' = Some y.
Proof.
  exists (mk_page 0 (ids 0 512)), (ev_of 512), (ev_of 100), (ev_of 101), (mk_pos 0 101 (Some (ev_of 101))).
  cbn [pg_ev pg_id]. split; [reflexivity|]. split; [reflexivity|]. split; [apply ids_ascending|].
  split; [|split; [|reflexivity]].
  - rewrite Forall_forall. unfold ids. intros y Hy. apply in_map_iff in Hy as (k & <- & Hk). apply in_seq in Hk.
    assert (H : (0 + N.of_nat k < 512)%N) by lia.
    unfold ev_lt, ev_cmp. change (ev_id (ev_of 512)) with 512%N.
    change (ev_id (ev_of (0 + N.of_nat k))) with (0 + N.of_nat k)%N.
    apply N.compare_lt_iff in H. rewrite H. reflexivity.
  - do 2 eexists. vm_compute. reflexivity.
Qed.
