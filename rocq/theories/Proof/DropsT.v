(* Statements about histories with DROP and restarts. *)
From Coq Require Import NArith ZArith List Bool Sorted Lia Arith Permutation.
Import ListNotations.
From Verif Require Import Model.Base Model.Event Model.Rbtree Model.Memtable Model.Mapping Model.Merge
  Model.PartIter Model.Scan Model.Writer Model.Codec Model.Engine Spec.Order Spec.Merged Spec.Files Spec.Layout
  Spec.Regions Spec.View Spec.Engine Proof.OrderL Proof.RbtreeL Proof.MemtableL Proof.MemtableL2 Proof.MergeL
  Proof.PartIterL
  Proof.MappingL Proof.MappingP Proof.MappingX Proof.ScanL Proof.EngineL Proof.EngineW Proof.EngineR Proof.EngineP Proof.CrashW
  Proof.CrashH Proof.DirL Proof.CrashD Proof.CrashP Proof.CrashT Proof.Cells Proof.DropsL Proof.DropsR Proof.DropsP.
From Verif Require Import Model.Crash Spec.Crash Spec.Drops.
Local Arguments N.pow : simpl never.
Local Arguments N.add : simpl never.
Implicit Types (s t : slice part) (m : mapping part) (H : hist) (d : dir) (r : range) (R : list range).

Lemma dsees lo R b H e : dinv lo R b H -> (sees b e <-> current (map snd H) e).
Proof. intros D. exact (sees_current lo (quiet R b) H e (dv_b _ _ _ _ D)). Qed.

Lemma dreach_inv lo R b h : dreachable lo R b h -> exists H, dinv lo R b H /\ map snd H = h.
Proof.
  intros (sts & iv & serial & page & region & ops & [L1 L2] & SO & CF & E & -> & ->).
  destruct (drun_spec lo ops [] (db_new sts iv serial page region) [] (dinv_new lo sts iv serial page region L1 L2 SO) CF)
    as (b' & H' & E' & B & EH).
  assert (b' = b) by congruence. subst. eauto.
Qed.

Lemma drops_history : forall lo storages iv serial page region ops, limits lo iv -> storages_ok storages ->
  dhist_fine lo [] (db_new storages iv serial page region) ops ->
  exists b, crun (db_new storages iv serial page region) ops = Ok b /\
    (forall e, sees b e <-> current (dacked (db_new storages iv serial page region) ops []) e) /\
    forall key, start_fine lo key ->
    exists out n, (forall fuel, n < fuel -> monotone_scan fuel (en_map (db_en b)) key = Ok (Some out)) /\
      ascending out /\
      forall e, In e out <-> current (dacked (db_new storages iv serial page region) ops []) e /\ from key e.
Proof.
  intros lo sts iv serial page region ops [L1 L2] SO CF.
  destruct (drun_spec lo ops [] (db_new sts iv serial page region) [] (dinv_new lo sts iv serial page region L1 L2 SO) CF)
    as (b & H & E & B & EH). cbn [map] in EH. exists b. split; auto.
  assert (V : forall e, sees b e <-> current (dacked (db_new sts iv serial page region) ops []) e).
  { intros e. rewrite <- EH. eapply dsees; eauto. }
  split; auto. intros key Hk. destruct (scan_engine lo (en_map (db_en b)) key) as (out & n & H1 & H2 & H3).
  - exact (bi_map _ _ _ (dv_b _ _ _ _ B)).
  - destruct key as [k|]; auto. destruct Hk as (A1 & A2 & A3). split; [split; auto|].
    intros s _. apply past_keys_keyless; auto.
  - exists out, n. split; auto. split; auto. intros e. rewrite H3.
    fold (parts (db_en b)). fold (sees b e). rewrite V. tauto.
Qed.

Lemma drops_gone : forall lo R b h, dreachable lo R b h ->
  (forall e, sees b e -> gone R (ev_id e) = false) /\
  (forall s r, In s (mapping_list (en_map (db_en b))) -> In r R -> forall x, in_range x r -> ~ in_range x (range_of s)).
Proof.
  intros lo R b h DR. destruct (dreach_inv lo R b h DR) as (H & D & _). split.
  - intros e Se. apply (dsees lo R b H e D) in Se as [Se _]. apply last_write_in in Se as [Se _].
    apply in_map_iff in Se as (x & <- & Hx). eapply dinv_gone; eauto.
  - intros s r Hs Hr x X1 X2. destruct D as [B C CR F _]. pose proof (bi_iv _ _ _ B) as Hiv. cbn [quiet with_log db_en] in Hiv.
    unfold cells in *. rewrite Forall_forall in C, CR. apply (F (range_of s)); [apply in_map; auto|].
    rewrite (cell_in (en_interval (db_en b)) (range_of s) x); auto; try tauto; [|apply C; apply in_map; auto].
    rewrite <- (cell_in (en_interval (db_en b)) r x); auto; try tauto.
Qed.

Lemma dcrash_same lo R b H cuts : dinv lo R b H -> dop_fine lo R b (CCrash cuts) ->
  exists b', cstep b (CCrash cuts) = Ok b' /\ dinv lo R b' H /\ tidy (db_dir b').
Proof.
  intros DI Hf. pose proof DI as [B C CR F CL]. pose proof (bi_iv _ _ _ B) as Hiv. cbn [quiet with_log db_en] in Hiv.
  cbn [cstep dop_fine] in *. pose proof (binv_good _ _ _ B) as GD. cbn [quiet with_log db_storages db_dir] in GD.
  destruct (interrupted_spec (db_storages b) (proj1 (bi_sto _ _ _ B)) cuts (db_dir b) GD) as (d1 & E1 & G1 & S1).
  rewrite E1 in Hf |- *. cbn [bind].
  pose proof (binv_disk lo (quiet R b) H [] B ltac:(constructor) hsorted_nil [] eq_refl ltac:(constructor)) as DK.
  rewrite !app_nil_r in DK. cbn [quiet with_log db_storages db_dir db_log] in DK.
  destruct (dstart lo R (db_en b) (db_storages b) H d1 (db_log b)) as (b' & -> & B' & T & Ei); eauto.
  - eapply disk_surv; eauto.
  - apply B.
  - eapply binv_lo; eauto.
  - eapply dinv_gone; eauto.
  - eapply dinv_surv; eauto.
Qed.

Lemma drops_restart : forall lo R b h cuts, dreachable lo R b h -> dop_fine lo R b (CCrash cuts) ->
  exists b', cstep b (CCrash cuts) = Ok b' /\ tidy (db_dir b') /\ forall e, sees b' e <-> sees b e.
Proof.
  intros lo R b h cuts DR Hf. destruct (dreach_inv lo R b h DR) as (H & D & _).
  destruct (dcrash_same lo R b H cuts D Hf) as (b' & E & D' & T). exists b'. split; auto. split; auto.
  intros e. rewrite (dsees lo R b' H e D'), (dsees lo R b H e D). tauto.
Qed.

Lemma current_filter (f : N -> bool) h e : current (filter (fun x => f (ev_id x)) h) e <-> current h e /\ f (ev_id e) = true.
Proof.
  unfold current, last_write. rewrite <- filter_rev. destruct (f (ev_id e)) eqn:E.
  - rewrite find_filter, E. tauto.
  - split; [|intros [_ X]; discriminate]. intros [X _]. apply find_some in X as [X _]. apply filter_In in X as [_ X]. congruence.
Qed.

Lemma drops_drop : forall lo R b h id cuts, dreachable lo R b h ->
  dhist_fine lo R b [CDrop id; CCrash cuts] ->
  match cstep b (CDrop id) with
  | Ok b1 => (forall e, sees b1 e <-> sees b e /\ gone (dropped b (CDrop id)) (ev_id e) = false) /\
      exists b2, cstep b1 (CCrash cuts) = Ok b2 /\ tidy (db_dir b2) /\ forall e, sees b2 e <-> sees b1 e
  | Err => exists j s, In j (db_jobs b) /\ In s (mapping_list (en_map (db_en b))) /\ in_range id (range_of s) /\ jb_ref j = s_min s
  | UB => False
  end.
Proof.
  intros lo R b h id cuts DR HF. destruct (dreach_inv lo R b h DR) as (H & D & _). cbn [dhist_fine] in HF.
  destruct HF as [F1 F2]. pose proof (dstep_spec lo R b H (CDrop id) D F1) as X.
  destruct (cstep b (CDrop id)) as [b1| |] eqn:E; auto.
  - destruct X as (H1 & D1 & E1). destruct F2 as [F2 _].
    destruct (dcrash_same lo _ b1 H1 cuts D1 F2) as (b2 & E2 & D2 & T). split.
    + intros e. rewrite (dsees lo _ b1 H1 e D1), (dsees lo R b H e D), E1. cbn [cack_step].
      rewrite (current_filter (fun x => negb (gone (dropped b (CDrop id)) x))), negb_true_iff. tauto.
    + exists b2. split; auto. split; auto. intros e. rewrite (dsees lo _ b2 H1 e D2), (dsees lo _ b1 H1 e D1). tauto.
  - clear X. destruct F1 as (Hw & HL & _). pose proof (bi_map _ _ _ (dv_b _ _ _ _ D)) as I. cbn [quiet with_log db_en] in I.
    cbn [cstep] in E. pose proof (part_slice_spec lo _ id (mi_map _ _ I)) as PS.
    destruct (part_slice (en_map (db_en b)) id) as [s|] eqn:Es.
    + destruct (existsb _ _) eqn:Ex.
      * apply existsb_exists in Ex as (j & Hj & Ej). apply N.eqb_eq in Ej. exists j, s. tauto.
      * destruct (drop_run lo b id s I Hw HL Es) as (m & E' & _). congruence.
    + destruct (existsb _ _) eqn:Ex; [|unfold db_drop in E; rewrite Es in E; discriminate].
      apply existsb_exists in Ex as (j & _ & Ej). discriminate.
Qed.
