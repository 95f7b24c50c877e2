(* Tables of several pages: what holds when the page search lands on the page that
   covers the key, and counterexamples when it does not. *)
From Coq Require Import NArith ZArith List Bool Sorted Lia Arith.
Import ListNotations.
From Verif Require Import Model.Base Model.Event Model.Rbtree Model.Memtable Spec.Order
  Proof.OrderL Proof.RbtreeL Proof.MemtableL Proof.MemtableL2 Proof.MemtableX.

Local Arguments memtable_drain : simpl never.

Lemma skipn_skipn_add {A} a b (l : list A) : skipn a (skipn b l) = skipn (a + b) l.
Proof.
  revert l. induction b; intros l; simpl.
  - rewrite Nat.add_0_r. auto.
  - rewrite <- plus_n_Sm. destruct l; simpl; [destruct a; auto|apply IHb].
Qed.

Definition pages_before (z : zipper page) : list event := flat_map pg_ev (zbefore z).
Definition pages_after (z : zipper page) : list event := flat_map pg_ev (zafter z).

Lemma zsplit (z : zipper page) pg m : zelem z = Some pg -> zroot z = mt_tree m ->
  mt_events m = pages_before z ++ pg_ev pg ++ pages_after z.
Proof.
  intros Hz Hr. unfold mt_events. rewrite <- Hr, (zelems z pg Hz), flat_map_app. reflexivity.
Qed.

Lemma seek_covered lo m k z pg :
  ascending (mt_events m) -> Forall (good lo) (mt_events m) -> good lo k ->
  Forall (fun pg => pg_ev pg <> []) (elements (mt_tree m)) ->
  mt_count_pages m <> 0%N -> mt_count m <> 0%N ->
  memtable_search_page m k = Ok z -> zelem z = Some pg -> zroot z = mt_tree m ->
  Forall (fun e => ev_lt e k) (pages_before z) -> (exists e, In e (pg_ev pg) /\ ev_le k e) ->
  memtable_scan m (Some k) = Ok (filter (geb k) (mt_events m)).
Proof.
  intros Hs Hg Hk Hpg Hcp Hc Hsp Hz Hr Hbef (e & He & Hke).
  pose proof (zsplit z pg m Hz Hr) as Hsplit.
  assert (Hs2 := Hs). rewrite Hsplit in Hs2.
  apply ascending_app in Hs2 as (_ & Hs2 & _). apply ascending_app in Hs2 as (Hs2 & Hs3 & Hlt).
  assert (Hg2 : Forall (good lo) (pg_ev pg)).
  { rewrite Hsplit in Hg. apply Forall_app in Hg as [_ Hg]. apply Forall_app in Hg; tauto. }
  assert (Hne : pg_ev pg <> []) by (intros E; rewrite E in He; contradiction).
  unfold memtable_scan, memtable_iterator_open.
  apply N.eqb_neq in Hc, Hcp. rewrite Hc, Hcp. unfold memtable_seek. rewrite Hsp. cbn [bind].
  rewrite Hz.
  destruct (search_skip lo (pg_ev pg) k Hs2 Hg2 Hk Hne) as (pos & found & Hse & Hp & Hsk).
  rewrite Hse. cbn [bind].
  assert (Hze : zevents z = pg_ev pg) by (unfold zevents; rewrite Hz; auto).
  rewrite Hze.
  assert (Hlt2 : pos < length (pg_ev pg)).
  { destruct (Nat.ltb_spec pos (length (pg_ev pg))); auto.
    rewrite skipn_all2 in Hsk by lia.
    assert (In e (filter (geb k) (pg_ev pg))) by (apply filter_In; split; auto; apply geb_true; auto).
    rewrite <- Hsk in H0. contradiction. }
  destruct (Z.leb_spec (Z.of_nat (length (pg_ev pg))) (Z.of_nat pos)); [lia|].
  cbn [bind]. rewrite Nat2Z.id. f_equal.
  assert (Hrest : iter_rest (Some (z, pos)) = filter (geb k) (mt_events m)).
  { rewrite Hsplit, !filter_app, (filter_none _ (pages_before z)), <- Hsk.
    - simpl. rewrite Hze. f_equal. symmetry. apply filter_all.
      rewrite Forall_forall. intros y Hy. apply geb_true, ev_lt_le.
      eapply ev_le_lt_trans; eauto.
    - eapply Forall_impl; [|exact Hbef]. intros y Hy. apply geb_false; auto. }
  rewrite drain_rest; auto.
  - simpl. rewrite Hze. split; [lia|]. split; eauto.
    rewrite <- Hr, (zelems z pg Hz) in Hpg. apply Forall_app in Hpg as [_ Hpg]. inversion Hpg; auto.
  - rewrite Hrest. apply Nat.lt_succ_r. clear. induction (mt_events m); simpl; auto.
    destruct (geb k a); simpl; lia.
Qed.

Lemma upsert_left e l1 l2 : Forall (fun x => ev_lt x e) l1 -> upsert e (l1 ++ l2) = l1 ++ upsert e l2.
Proof.
  induction 1; simpl; auto. apply ev_gt_lt in H. rewrite H. f_equal; auto.
Qed.
Lemma upsert_right e l1 l2 : Forall (fun x => ev_lt e x) l2 -> upsert e (l1 ++ l2) = upsert e l1 ++ l2.
Proof.
  intros H. induction l1; simpl.
  - destruct H; simpl; auto. unfold ev_lt in H. rewrite H. auto.
  - destruct (ev_cmp e a); auto. simpl. f_equal; auto.
Qed.

Lemma set_covered lo m e z pg :
  ascending (mt_events m) -> Forall (good lo) (mt_events m) -> good lo e ->
  wf (mt_tree m) -> mt_count_pages m <> 0%N -> pg_ev pg <> [] ->
  mt_size_split m <= mt_size_page m ->
  memtable_search_page m e = Ok z -> zelem z = Some pg -> zroot z = mt_tree m ->
  Forall (fun x => ev_lt x e) (pages_before z) -> Forall (fun x => ev_lt e x) (pages_after z) ->
  (length (pg_ev pg) < mt_size_page m \/ lookup (pg_ev pg) e <> None \/
   exists p c l, z = (p, Node c l pg Leaf)) ->
  exists m', memtable_set m e = Ok (m', lookup (mt_events m) e) /\
    wf (mt_tree m') /\ mt_events m' = upsert e (mt_events m).
Proof.
  intros Hs Hg He Hwf Hcp Hne Hss Hsp Hz Hr Hbef Haf Hroom.
  pose proof (zsplit z pg m Hz Hr) as Hsplit.
  assert (Hs2 := Hs). rewrite Hsplit in Hs2.
  apply ascending_app in Hs2 as (_ & Hs2 & _). apply ascending_app in Hs2 as (Hs2 & Hs3 & Hlt).
  assert (Hg2 : Forall (good lo) (pg_ev pg)).
  { rewrite Hsplit in Hg. apply Forall_app in Hg as [_ Hg]. apply Forall_app in Hg; tauto. }
  assert (Hlk : lookup (mt_events m) e = lookup (pg_ev pg) e).
  { rewrite Hsplit, !lookup_app.
    assert (lookup (pages_before z) e = None) as ->.
    { apply lookup_none. intros x Hx Hk. rewrite Forall_forall in Hbef. apply Hbef in Hx.
      apply ev_lt_not_same in Hx. apply Hx, same_key_sym; auto. }
    destruct (lookup (pg_ev pg) e); auto.
    apply lookup_none. intros x Hx Hk. rewrite Forall_forall in Haf. apply Haf in Hx.
    apply ev_lt_not_same in Hx. auto. }
  assert (Hup : upsert e (mt_events m) = pages_before z ++ upsert e (pg_ev pg) ++ pages_after z).
  { rewrite Hsplit, upsert_left, upsert_right; auto. }
  unfold memtable_set. apply N.eqb_neq in Hcp. rewrite Hcp, Hsp. cbn [bind]. rewrite Hz.
  unfold memtable_insert.
  destruct (search_upsert lo (pg_ev pg) e Hs2 Hg2 He Hne) as (pos & found & Hse & Hp & Hres).
  rewrite Hse. cbn [bind]. rewrite Nat2Z.id.
  assert (Hw : wf (zroot z)) by (rewrite Hr; auto).
  assert (Hmod : forall evs, mt_events m = mt_events m ->
     wf (zroot (zset z (mk_page (pg_id pg) evs))) /\
     flat_map pg_ev (elements (zroot (zset z (mk_page (pg_id pg) evs)))) = pages_before z ++ evs ++ pages_after z).
  { intros evs _. destruct (zset_root z pg (mk_page (pg_id pg) evs) Hz Hw) as (A & B & C & D).
    split; auto. rewrite (zelems _ _ D), B, C, flat_map_app. reflexivity. }
  destruct found.
  - destruct Hres as (x & Hx & Hl & Hrep & _). cbn [bind].
    rewrite Hlk, Hl, Hrep, (nth_error_nth _ _ _ Hx).
    eexists; split; [reflexivity|]. cbn [mt_tree mt_with]. unfold mt_events; cbn [mt_tree mt_with].
    destruct (Hmod (upsert e (pg_ev pg)) eq_refl) as (A & B).
    split; [exact A|]. etransitivity; [exact B|]. symmetry; exact Hup.
  - destruct Hres as (Hl & Hins). rewrite Hlk, Hl.
    destruct (Nat.eqb_spec (length (pg_ev pg)) (mt_size_page m)) as [Hfull|Hfull].
    + destruct Hroom as [Hroom|[Hroom|(p & c & l & ->)]]; [lia|congruence|].
      assert (Hsl : forall l1 l2, l1 ++ l2 = upsert e (pg_ev pg) -> exists t',
        rbtree_set (plug p (Node c l (mk_page (pg_id pg) l1) Leaf))
           (Some (p, Node c l (mk_page (pg_id pg) l1) Leaf)) (-1) (mk_page (mt_next_page m) l2) = Some t' /\
        wf t' /\ flat_map pg_ev (elements t') = upsert e (mt_events m)).
      { intros l1 l2 Hl12.
        destruct (Hmod l1 eq_refl) as (A & _). cbn [zset] in A. unfold zroot in A. cbn [fst snd] in A.
        destruct (rbtree_set_right (plug p (Node c l (mk_page (pg_id pg) l1) Leaf)) p c
                    (mk_page (pg_id pg) l1) l (-1) (mk_page (mt_next_page m) l2) A ltac:(lia))
          as (t' & T1 & T2 & T3).
        exists t'. split; auto. split; auto. rewrite T3, Hup, <- Hl12.
        rewrite !flat_map_app. cbn [flat_map pg_ev].
        unfold pages_before, pages_after, zbefore, zafter. cbn [fst snd elements].
        rewrite flat_map_app. cbn [app]. rewrite <- !app_assoc. auto. }
      destruct (Nat.leb_spec (mt_size_split m) pos) as [Hlo|Hlo]; cbn [bind zset fst snd].
      * edestruct Hsl as (t' & T1 & T2 & T3); [|rewrite T1; cbn [of_opt bind];
          eexists; split; [reflexivity|]; unfold mt_events; cbn [mt_tree mt_with]; auto].
        rewrite <- Hins. unfold insert_at.
        rewrite <- (firstn_skipn (mt_size_split m) (firstn pos (pg_ev pg))).
        rewrite firstn_firstn, Nat.min_l, <- app_assoc by lia. f_equal.
        rewrite skipn_firstn_comm, skipn_skipn_add. do 2 f_equal. f_equal; f_equal; lia.
      * edestruct Hsl as (t' & T1 & T2 & T3); [|rewrite T1; cbn [of_opt bind];
          eexists; split; [reflexivity|]; unfold mt_events; cbn [mt_tree mt_with]; auto].
        rewrite <- Hins. unfold insert_at. rewrite <- app_assoc. cbn [app].
        rewrite firstn_firstn, Nat.min_l by lia. f_equal. f_equal.
        rewrite skipn_firstn_comm.
        rewrite <- (firstn_skipn (mt_size_split m - pos) (skipn pos (pg_ev pg))) at 2.
        f_equal. rewrite skipn_skipn_add. f_equal. lia.
    + cbn [bind].
      eexists; split; [reflexivity|]. unfold mt_events; cbn [mt_tree mt_with]. rewrite Hins.
      destruct (Hmod (upsert e (pg_ev pg)) eq_refl) as (A & B).
      split; [exact A|]. etransitivity; [exact B|]. symmetry; exact Hup.
Qed.

(* ---- counterexamples ---- *)
Definition vev (i v : N) : event := mk_event i 0 [] [v].

(* in-order writes, then a cursor at an existing id starts 408 events too late *)
Lemma multipage_seek_refuted :
  exists hist k m prevs rest,
    memtable_writes memtable_new hist = Ok (m, prevs) /\ In k hist /\
    memtable_scan m (Some k) = Ok rest /\ ~ In k rest /\ rest <> filter (geb k) hist.
Proof.
  exists (ids 0 520), (ev_of 100).
  do 2 eexists. exists (ids 508 12). split; [vm_compute; reflexivity|].
  split; [apply in_map_iff; exists 100; split; [reflexivity|apply in_seq; lia]|].
  split; [vm_compute; reflexivity|].
  assert (H : ~ In (ev_of 100) (ids 508 12)).
  { vm_compute. intros H. repeat (destruct H as [H|H]; [discriminate|]). exact H. }
  split; [exact H|].
  intros E. apply H. rewrite E. apply filter_In. split; [|reflexivity].
  apply in_map_iff; exists 100; split; [reflexivity|apply in_seq; lia].
Qed.

(* out-of-order writes that split an inner page lose the pages to its right *)
Lemma multipage_lost_refuted :
  exists hist m prevs all lost,
    memtable_writes memtable_new hist = Ok (m, prevs) /\
    memtable_scan m None = Ok all /\ In lost hist /\ lookup all lost = None.
Proof.
  exists (ids 1000 513 ++ [ev_of 5; ev_of 4; ev_of 3; ev_of 2; ev_of 1]).
  do 3 eexists. exists (ev_of 1510). split; [vm_compute; reflexivity|].
  split; [vm_compute; reflexivity|].
  split; [apply in_app_iff; left; apply in_map_iff; exists 510; split; [reflexivity|apply in_seq; lia]|].
  vm_compute. reflexivity.
Qed.

(* rewriting an event stores a second version of it *)
Lemma multipage_duplicate_refuted :
  exists hist m prevs all,
    memtable_writes memtable_new hist = Ok (m, prevs) /\
    memtable_scan m None = Ok all /\
    length (filter (fun e => N.eqb (ev_id e) 100) all) = 2 /\
    lookup all (ev_of 100) <> last_write hist (ev_of 100) /\
    ~ ascending all.
Proof.
  exists (ids 0 513 ++ [vev 100 7]).
  do 3 eexists. split; [vm_compute; reflexivity|].
  split; [vm_compute; reflexivity|].
  split; [vm_compute; reflexivity|].
  split; [vm_compute; discriminate|].
  intros H.
  match type of H with ascending ?all =>
    assert (Hd : nth_error all 507 = Some (ev_of 507)) by reflexivity;
    assert (Hd2 : nth_error all 508 = Some (vev 100 7)) by reflexivity
  end.
  assert (ev_lt (ev_of 507) (vev 100 7)) by (eapply (ascending_nth _ 507 508); eauto; lia).
  discriminate.
Qed.
