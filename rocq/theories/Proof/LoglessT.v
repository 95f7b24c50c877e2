(* Statements about histories with and without the log. *)
From Coq Require Import NArith ZArith List Bool Sorted Lia Arith Permutation.
Import ListNotations.
From Verif Require Import Model.Base Model.Event Model.Rbtree Model.Memtable Model.Mapping Model.Merge
  Model.PartIter Model.Scan Model.Writer Model.Codec Model.Engine Spec.Order Spec.Merged Spec.Files Spec.Layout
  Spec.Regions Spec.View Spec.Engine Proof.OrderL Proof.MemtableL Proof.MergeL
  Proof.PartIterL Proof.MappingX Proof.ScanL Proof.EngineL Proof.EngineW Proof.EngineR Proof.EngineP Proof.CrashW
  Proof.CrashH Proof.DirL Proof.CrashD Proof.CrashP Proof.CrashT Proof.LoglessL Proof.LoglessP.
From Verif Require Import Model.Crash Spec.Crash Model.Logless Spec.Logless.
Local Arguments N.pow : simpl never.
Local Arguments N.add : simpl never.

Lemma evs_fst HM : map fst (evs HM) = map snd (map fst HM).
Proof. unfold evs. rewrite !map_map. reflexivity. Qed.
Lemma wsees lo w L HM e : winv lo w L HM -> (sees (w_db w) e <-> current (map fst (evs HM)) e).
Proof. intros D. rewrite evs_fst. exact (sees_current lo (with_log (w_db w) L) (map fst HM) e (wv_b _ _ _ _ D)). Qed.

Lemma logless_history : forall lo wal storages iv serial page region ops, limits lo iv -> storages_ok storages ->
  whist_fine lo (wnew wal storages iv serial page region) ops ->
  exists w M, wrun (wnew wal storages iv serial page region) ops = Ok w /\
    wmoves (wnew wal storages iv serial page region) [] ops w M /\
    (forall e, sees (w_db w) e <-> current (map fst M) e) /\
    forall key, start_fine lo key ->
    exists out n, (forall fuel, n < fuel -> monotone_scan fuel (en_map (db_en (w_db w))) key = Ok (Some out)) /\
      ascending out /\ forall e, In e out <-> current (map fst M) e /\ from key e.
Proof.
  intros lo wal sts iv serial page region ops [L1 L2] SO CF.
  destruct (wrun_ok lo ops _ _ _ (winv_new lo wal sts iv serial page region L1 L2 SO) CF) as (w & L & HM & E & WI & MV).
  exists w, (evs HM). split; auto. split; auto.
  assert (V : forall e, sees (w_db w) e <-> current (map fst (evs HM)) e) by (intros e; eapply wsees; eauto).
  split; auto. intros key Hk. destruct (scan_engine lo (en_map (db_en (w_db w))) key) as (out & n & H1 & H2 & H3).
  - exact (bi_map _ _ _ (wv_b _ _ _ _ WI)).
  - destruct key as [k|]; auto. destruct Hk as (A1 & A2 & A3). split; [split; auto|].
    intros s _. apply past_keys_keyless; auto.
  - exists out, n. split; auto. split; auto. intros e. rewrite H3.
    fold (parts (db_en (w_db w))). fold (sees (w_db w) e). rewrite V. tauto.
Qed.

Lemma pick_all {A} : forall (l : list A) k, length k = length l ->
  (forall i x, nth_error l i = Some x -> nth_error k i = Some true) -> pick l k = l.
Proof.
  induction l as [|x l IH]; intros [|c k] EL Hk; cbn in *; try discriminate; auto.
  pose proof (Hk 0 x eq_refl) as X. cbn in X. injection X as ->. f_equal. apply IH; auto.
  intros i y Hy. exact (Hk (S i) y Hy).
Qed.

Lemma logless_safe : forall lo wal storages iv serial page region ops w, limits lo iv -> storages_ok storages ->
  whist_fine lo (wnew wal storages iv serial page region) ops ->
  wrun (wnew wal storages iv serial page region) ops = Ok w ->
  exists M, wmoves (wnew wal storages iv serial page region) [] ops w M /\
    (forall e, sees (w_db w) e <-> current (map fst M) e) /\
    (Forall (fun x => snd x = Safe) M -> forall cuts wal', wop_fine lo w (WStart cuts wal') ->
     exists w', wstep w (WStart cuts wal') = Ok w' /\ forall e, sees (w_db w') e <-> sees (w_db w) e).
Proof.
  intros lo wal sts iv serial page region ops w [L1 L2] SO CF R.
  destruct (wrun_ok lo ops _ _ _ (winv_new lo wal sts iv serial page region L1 L2 SO) CF) as (w0 & L & HM & E & WI & MV).
  assert (w0 = w) by congruence. subst w0. exists (evs HM). split; auto.
  split; [intros e; eapply wsees; eauto|]. intros SF cuts wal' Hf.
  pose proof (start_ok lo w L HM cuts wal' WI Hf) as X. unfold step_ok in X.
  destruct (wstep w (WStart cuts wal')) as [w'| |]; try contradiction; try discriminate.
  destruct X as (L' & HM' & WI' & NX). exists w'. split; auto. intros e.
  rewrite (wsees lo w' L' HM' e WI'), (wsees lo w L HM e WI).
  assert (EE : map fst (evs HM') = map fst (evs HM)); [|rewrite EE; tauto].
  cbn [wnext] in NX. destruct (w_wal w && wal')%bool.
  - rewrite NX, map_map. reflexivity.
  - destruct NX as (k & (K1 & K2 & _) & ->). rewrite map_map. cbn [fst]. rewrite pick_all; auto.
    intros i [x c] Hx. apply (K2 i x). rewrite Forall_forall in SF. rewrite Hx. f_equal. f_equal.
    apply (SF (x, c)). eapply nth_error_In; eauto.
Qed.
