(* The property statements C01-C06, derived from the lemmas. *)
From Coq Require Import NArith ZArith List Bool Sorted Lia Arith.
Import ListNotations.
From Verif Require Import Model.Base Model.Event Model.Rbtree Model.Memtable Spec.Order
  Proof.OrderL Proof.RbtreeL Proof.MemtableL Proof.MemtableL2 Proof.MemtableX Proof.MemtableM.

Lemma order_lemma a b :
  (ev_id a < 2^64)%N -> (ev_id b < 2^64)%N ->
  (- 2^63 <= Z.of_N (ev_id a) - Z.of_N (ev_id b) < 2^63)%Z ->
  ((compare a b = 0)%Z <-> ev_id a = ev_id b /\ ev_key a = ev_key b) /\
  ((compare a b < 0)%Z <->
     (ev_id a < ev_id b)%N \/ (ev_id a = ev_id b /\ bytes_cmp (ev_key a) (ev_key b) = Lt)) /\
  ((0 < compare a b)%Z <->
     (ev_id b < ev_id a)%N \/ (ev_id a = ev_id b /\ bytes_cmp (ev_key b) (ev_key a) = Lt)).
Proof.
  intros Ha Hb Hd. pose proof (compare_spec a b Ha Hb Hd) as H.
  assert (Hc : forall c, ev_cmp a b = c <-> (compare a b ?= 0)%Z = c) by (intros; rewrite H; tauto).
  pose proof (ev_cmp_eq a b) as Heq. unfold same_key in Heq.
  split; [|split].
  - rewrite <- Heq, Hc. apply iff_sym, Z.compare_eq_iff.
  - change ((compare a b < 0)%Z) with ((compare a b ?= 0)%Z = Lt). rewrite <- Hc.
    unfold ev_cmp. destruct (N.compare_spec (ev_id a) (ev_id b)); split; intros; try tauto; try lia.
    all: try discriminate. destruct H1 as [|[]]; [lia|auto].
  - split.
    + intros H0. assert (H1 : (compare a b ?= 0)%Z = Gt) by (apply Z.compare_gt_iff; auto).
      rewrite <- Hc in H1. unfold ev_cmp in H1.
      destruct (N.compare_spec (ev_id a) (ev_id b)); try tauto; try discriminate.
      right. split; auto. rewrite bytes_cmp_antisym, H1. auto.
    + intros H0. apply Z.compare_gt_iff. rewrite <- Hc. unfold ev_cmp.
      destruct (N.compare_spec (ev_id a) (ev_id b)); auto; try lia.
      * destruct H0 as [|[_ H0]]; [lia|]. rewrite bytes_cmp_antisym, H0. auto.
Qed.

(* a set of ids spanning at most 2^63 *)
Definition span63 (lo : N) (e : event) : Prop :=
  (lo <= ev_id e /\ ev_id e < lo + 2^63 /\ ev_id e < 2^64)%N.

Lemma order_total lo a b c : span63 lo a -> span63 lo b -> span63 lo c ->
  (compare a a = 0)%Z /\
  ((compare a b < 0)%Z <-> (0 < compare b a)%Z) /\
  ((compare a b <= 0)%Z -> (compare b c <= 0)%Z -> (compare a c <= 0)%Z) /\
  ((compare a b <= 0)%Z -> (compare b a <= 0)%Z -> ev_id a = ev_id b /\ ev_key a = ev_key b).
Proof.
  intros (A1 & A2 & A3) (B1 & B2 & B3) (C1 & C2 & C3).
  assert (Sab := compare_spec a b A3 B3 ltac:(lia)).
  assert (Sba := compare_spec b a B3 A3 ltac:(lia)).
  assert (Sbc := compare_spec b c B3 C3 ltac:(lia)).
  assert (Sac := compare_spec a c A3 C3 ltac:(lia)).
  assert (Saa := compare_spec a a A3 A3 ltac:(lia)).
  assert (E : forall x y, (compare x y ?= 0)%Z = ev_cmp x y ->
              ((compare x y <= 0)%Z <-> ev_le x y) /\ ((compare x y < 0)%Z <-> ev_lt x y) /\
              ((0 < compare x y)%Z <-> ev_lt y x)).
  { intros x y H. unfold ev_le, ev_lt. rewrite (ev_cmp_antisym x y), <- H.
    destruct (Z.compare_spec (compare x y) 0); simpl; repeat split; intros; try lia; congruence. }
  split; [|split; [|split]].
  - rewrite ev_cmp_refl in Saa. apply Z.compare_eq_iff in Saa. auto.
  - apply E in Sab, Sba. rewrite (proj1 (proj2 Sab)), (proj2 (proj2 Sba)). tauto.
  - apply E in Sab, Sbc, Sac. rewrite (proj1 Sab), (proj1 Sbc), (proj1 Sac). apply ev_le_trans.
  - intros H1 H2. apply ev_cmp_eq. rewrite <- Sab. rewrite (ev_cmp_antisym a b), <- Sab in Sba.
    destruct (Z.compare_spec (compare a b) 0), (Z.compare_spec (compare b a) 0); simpl in *; auto; try lia; discriminate.
Qed.

Lemma order_search a b : ev_ok a -> ev_ok b ->
  (- 2^31 <= Z.of_N (ev_id a) - Z.of_N (ev_id b) < 2^31)%Z ->
  Z.sgn (compare_int a b) = Z.sgn (compare a b).
Proof.
  intros Ha Hb Hd. pose proof (compare_int_exact a b Ha Hb Hd) as H. rewrite H. auto.
Qed.

Lemma search_lost : exists a b m prevs all,
  ev_ok a /\ ev_ok b /\ ev_id a <> ev_id b /\
  memtable_writes memtable_new [a; b] = Ok (m, prevs) /\
  memtable_scan m None = Ok all /\ lookup all a = None.
Proof.
  exists (ev_of (2^32)), (ev_of 0). do 3 eexists.
  split; [apply ev_ok_of; lia|]. split; [apply ev_ok_of; lia|]. split; [discriminate|].
  split; [vm_compute; reflexivity|]. split; vm_compute; reflexivity.
Qed.

Lemma order_wide : exists a b,
  ev_ok a /\ ev_ok b /\ (ev_id b < ev_id a)%N /\ (compare a b < 0)%Z.
Proof.
  exists (ev_of (2^63)), (ev_of 0).
  split; [apply ev_ok_of; lia|]. split; [apply ev_ok_of; lia|]. split; [reflexivity|].
  vm_compute. reflexivity.
Qed.

Lemma batch_undo lo h1 h2 :
  Forall (fun e => ev_ok e /\ win lo e) (h1 ++ h2) -> distinct (h1 ++ h2) <= MEMTABLE_PAGE ->
  exists m0 p0 m1 p1 m2,
    memtable_writes memtable_new h1 = Ok (m0, p0) /\
    memtable_writes m0 h2 = Ok (m1, p1) /\
    memtable_undo m1 (combine h2 p1) = Ok m2 /\
    mt_count m2 = mt_count m0 /\
    memtable_scan m2 None = memtable_scan m0 None /\
    (forall k, ev_ok k -> win lo k -> memtable_scan m2 (Some k) = memtable_scan m0 (Some k)).
Proof.
  intros Hg Hd.
  assert (Hroom : forall x y, h1 ++ h2 = x ++ y -> length (content x) <= MEMTABLE_PAGE).
  { intros x y H. rewrite H in Hd. rewrite content_length. etransitivity; [apply distinct_prefix|eauto]. }
  apply Forall_app in Hg as [Hg1 Hg2].
  edestruct (writes_single lo h1 memtable_new []) as (m0 & Hw & Hsg & Hsz); auto.
  { apply single_new. } { constructor. } { unfold memtable_new, MEMTABLE_PAGE; simpl; lia. }
  { intros x y ->. change (length (content x) <= MEMTABLE_PAGE). apply (Hroom x (y ++ h2)).
    rewrite app_assoc; auto. }
  fold (content h1) in Hsg. destruct (content_spec h1) as [H1 H2].
  assert (Hgc : Forall (good lo) (content h1)) by (apply content_forall; auto).
  assert (Hsp : mt_size_page m0 = MEMTABLE_PAGE) by (destruct Hsz as [E _]; rewrite E; reflexivity).
  destruct (writes_single lo h2 m0 (content h1)) as (m1 & Hw1 & Hsg1 & Hsz1); auto.
  { rewrite Hsp; unfold MEMTABLE_PAGE; lia. }
  { intros x y ->. rewrite Hsp. unfold content. rewrite <- fold_left_app.
    apply (Hroom (h1 ++ x) y). rewrite app_assoc; auto. }
  destruct (undo_writes lo h2 m0 (content h1) m1) as (m2 & Hu & Hsg2 & Hsz2); auto.
  { apply Hsz1. } { rewrite Hsp; unfold MEMTABLE_PAGE; lia. }
  { apply (single_len _ _ Hsg). }
  exists m0, (prevs_of [] h1), m1, (prevs_of (content h1) h2), m2.
  split; auto. split; auto. split; auto.
  assert (Hcnt : forall m l, single m l -> mt_count m = N.of_nat (length l)) by (intros m l H; inversion H; auto).
  split; [rewrite (Hcnt _ _ Hsg), (Hcnt _ _ Hsg2); auto|].
  split.
  - rewrite (scan_single lo m2 _ None Hsg2), (scan_single lo m0 _ None Hsg); auto.
  - intros k Hk Hwk. rewrite (scan_single lo m2 _ (Some k) Hsg2), (scan_single lo m0 _ (Some k) Hsg); auto;
      split; auto.
Qed.

Lemma upsert_updated e l : ascending l -> updated l (upsert e l) e.
Proof. intros H. split; [apply upsert_ascending; auto|]. intros k. apply lookup_upsert; auto. Qed.

Lemma write_covered lo m e z pg :
  ascending (mt_events m) -> Forall (fun x => ev_ok x /\ win lo x) (mt_events m) ->
  ev_ok e -> win lo e ->
  wf (mt_tree m) -> mt_count_pages m <> 0%N -> pg_ev pg <> [] ->
  mt_size_split m <= mt_size_page m ->
  memtable_search_page m e = Ok z -> zelem z = Some pg -> zroot z = mt_tree m ->
  Forall (fun x => ev_lt x e) (pages_before z) -> Forall (fun x => ev_lt e x) (pages_after z) ->
  (length (pg_ev pg) < mt_size_page m \/ lookup (pg_ev pg) e <> None \/
   exists p c l, z = (p, Node c l pg Leaf)) ->
  exists m', memtable_set m e = Ok (m', lookup (mt_events m) e) /\
    updated (mt_events m) (mt_events m') e /\ wf (mt_tree m').
Proof.
  intros. destruct (set_covered lo m e z pg) as (m' & A & B & C); auto. { split; auto. }
  exists m'. split; auto. split; auto. rewrite C. apply upsert_updated; auto.
Qed.

Lemma cursor_insert lo m pg e c x :
  ascending (pg_ev pg) -> Forall (fun a => ev_ok a /\ win lo a) (pg_ev pg) -> ev_ok e -> win lo e ->
  length (pg_ev pg) < mt_size_page m ->
  nth_error (pg_ev pg) c = Some x ->
  lookup (pg_ev pg) e = None ->
  (ev_lt x e \/ exists y, In y (pg_ev pg) /\ ev_lt e y /\ ev_lt y x) ->
  exists pg' it',
    insert_with_iter m pg e (mk_pos (pg_id pg) c (Some x)) = Ok (pg', None, it') /\
    updated (pg_ev pg) (pg_ev pg') e /\ mp_page it' = pg_id pg' /\ mp_cur it' = Some x /\
    nth_error (pg_ev pg') (mp_pos it') = Some x /\
    skipn (S (mp_pos it')) (pg_ev pg') = filter (gtb x) (pg_ev pg').
Proof.
  intros. destruct (iter_stable lo m pg e c x) as (pg' & it' & A & B & C); auto. { split; auto. }
  exists pg', it'. split; auto. rewrite B in *. split; auto. apply upsert_updated; auto.
Qed.

Lemma cursor_rewrite lo m pg e c x z :
  ascending (pg_ev pg) -> Forall (fun a => ev_ok a /\ win lo a) (pg_ev pg) -> ev_ok e -> win lo e ->
  nth_error (pg_ev pg) c = Some x ->
  lookup (pg_ev pg) e = Some z -> ev_le x e ->
  exists pg' it' y,
    insert_with_iter m pg e (mk_pos (pg_id pg) c (Some x)) = Ok (pg', None, it') /\
    updated (pg_ev pg) (pg_ev pg') e /\ mp_page it' = pg_id pg' /\ mp_cur it' = Some y /\
    lookup (pg_ev pg') x = Some y /\
    nth_error (pg_ev pg') (mp_pos it') = Some y /\
    skipn (S (mp_pos it')) (pg_ev pg') = filter (gtb x) (pg_ev pg').
Proof.
  intros. destruct (iter_replace lo m pg e c x z) as (pg' & it' & y & A & B & C); auto. { split; auto. }
  exists pg', it', y. split; auto. rewrite B in *. split; auto. apply upsert_updated; auto.
Qed.
