(* Statements about histories with DROP of a database whose log and partition files are bytes. *)
From Coq Require Import NArith ZArith List Bool Lia Arith Permutation Sorted.
Import ListNotations.
From Verif Require Import Model.Base Model.Rbtree Model.Event Model.Memtable Model.Mapping Model.PartIter Model.Merge Model.Scan Model.Codec
  Model.File Model.Wal Model.Writer Model.Engine Spec.Order Spec.Checksum Spec.Codecs Spec.Layout Spec.Regions Spec.Files Spec.Merged
  Spec.View Spec.Engine Spec.Log Spec.FileLimits
  Proof.WalP Proof.MappingL Proof.PartIterL Proof.EngineL Proof.EngineP Proof.EngineR Proof.MappingX Proof.ScanL Proof.CrashW Proof.CrashH Proof.DirL Proof.CrashD Proof.CrashP Proof.CrashT
  Proof.Cells Proof.DropsL Proof.DropsR Proof.DropsP Proof.DropsT
  Proof.WholeD Proof.WholeL Proof.WholeS Proof.WholeP Proof.WholeDropsL Proof.WholeDropsP.
From Verif Require Import Model.Crash Spec.Crash Spec.Drops Model.Whole Spec.Whole Model.WholeDrops Spec.WholeDrops.
Local Arguments N.pow : simpl never.
Local Arguments N.add : simpl never.
Local Open Scope N_scope.

Section Drops.
Variable compress : N -> nat -> list byte -> list byte.
Variable decompress : N -> list byte -> N -> res (list byte).
Variable encrypt : N -> nat -> list byte -> list byte.
Variable decrypt : N -> list byte -> res (list byte).
Hypothesis CO : codecs_ok compress decompress encrypt decrypt.
Variable src : source.
Hypothesis SO : settings_ok src.
Variable wal_crc : bool.
Notation absd := (absd decompress decrypt).
Notation dc := (dir_content decompress decrypt).
Notation step := (estep compress decompress encrypt decrypt src wal_crc).
Notation run := (erun compress decompress encrypt decrypt src wal_crc).
Notation hist_fine := (ehist_fine compress decompress encrypt decrypt src wal_crc).
Notation op_fine := (eop_fine compress decompress encrypt decrypt src wal_crc).
Notation acked := (eacked compress decompress encrypt decrypt src wal_crc).
Notation gones := (all_gone compress decompress encrypt decrypt src wal_crc).
Notation reaches := (ereachable compress decompress encrypt decrypt src wal_crc).
Notation einv := (einv decompress decrypt src wal_crc).

Lemma esees lo R w H a e : einv lo R w H a -> (wsees w e <-> current (map snd H) e).
Proof. intros [D _ _]. exact (dsees lo R (absd w a) H e D). Qed.
Lemma ereach_inv lo R w h : reaches lo R w h -> exists H a, einv lo R w H a /\ map snd H = h.
Proof.
  intros (sts & iv & serial & page & ops & L & ST & F & E & -> & ->).
  destruct (erun_spec compress decompress encrypt decrypt CO src SO wal_crc lo ops [] _ [] [(1, [])]
    (einv_new decompress decrypt src wal_crc lo sts iv serial page L ST) F) as (w' & H & a & E' & I & EH).
  assert (w' = w) by congruence. subst. eauto.
Qed.

Lemma wdrops_history : forall lo storages iv serial page ops, limits lo iv -> storages_ok storages ->
  hist_fine lo [] (whole_new src storages iv serial page) ops ->
  exists w, run (whole_new src storages iv serial page) ops = Ok w /\
    (forall e, wsees w e <-> current (acked (whole_new src storages iv serial page) ops []) e) /\
    forall key, start_fine lo key ->
    exists out n, (forall fuel, (n < fuel)%nat -> monotone_scan fuel (en_map (wh_en w)) key = Ok (Some out)) /\
      ascending out /\
      forall e, In e out <-> current (acked (whole_new src storages iv serial page) ops []) e /\ from key e.
Proof.
  intros lo sts iv serial page ops L ST F.
  destruct (erun_spec compress decompress encrypt decrypt CO src SO wal_crc lo ops [] _ [] [(1, [])]
    (einv_new decompress decrypt src wal_crc lo sts iv serial page L ST) F) as (w & H & a & E & I & EH).
  cbn [map] in EH. exists w. split; auto.
  assert (V : forall e, wsees w e <-> current (acked (whole_new src sts iv serial page) ops []) e).
  { intros e. rewrite <- EH. eapply esees; eauto. }
  split; auto. intros key Hk. destruct (scan_engine lo (en_map (wh_en w)) key) as (out & n & H1 & H2 & H3).
  - apply (bi_map _ _ _ (dv_b _ _ _ _ (ev_d _ _ _ _ _ _ _ _ _ I))).
  - destruct key as [k|]; auto. destruct Hk as (A1 & A2 & A3). split; [split; auto|].
    intros s _. apply past_keys_keyless; auto.
  - exists out, n. split; auto. split; auto. intros e. rewrite H3.
    fold (parts (wh_en w)). fold (wsees w e). rewrite V. tauto.
Qed.

Lemma wdrops_gone : forall lo R w h, reaches lo R w h ->
  (forall e, wsees w e -> gone R (ev_id e) = false) /\
  (forall s r, In s (mapping_list (en_map (wh_en w))) -> In r R -> forall x, in_range x r -> ~ in_range x (range_of s)).
Proof.
  intros lo R w h DR. destruct (ereach_inv lo R w h DR) as (H & a & I & _). split.
  - intros e Se. apply (esees lo R w H a e I) in Se as [Se _]. apply last_write_in in Se as [Se _].
    apply in_map_iff in Se as (x & <- & Hx). eapply dinv_gone; eauto. apply I.
  - intros s r Hs Hr x X1 X2. destruct I as [D _ _].
    assert (G : gone R x = true) by (apply gone_in; eauto).
    pose proof (gone_slice lo R (absd w a) H x D G) as N0. cbn [WholeS.absd db_en] in N0.
    unfold part_slice in N0. apply in_slice in X2. eapply find_none in N0; eauto. congruence.
Qed.

(* stops and starts only *)
Definition estop_op (o : eop) : Prop := match o with EStop _ _ => True | _ => False end.
Lemma stops_same lo : forall l R w H a, einv lo R w H a -> hist_fine lo R w l -> Forall estop_op l ->
  exists w' a', run w l = Ok w' /\ einv lo R w' H a'.
Proof.
  induction l as [|o l IH]; intros R w H a I F Q; cbn [erun ehist_fine] in *; [eauto|].
  inversion Q as [|? ? Q1 Q2]; subst. destruct o as [| |cuts ids]; try contradiction. destruct F as [F1 F2].
  destruct (stop_sim compress decompress encrypt decrypt src wal_crc lo R w H a cuts ids I F1) as (w1 & X & E & I1 & _).
  rewrite E in *. cbn [edropped app] in F2. eapply IH; eauto.
Qed.
Lemma wdrops_repeat : forall lo R w h l, reaches lo R w h -> hist_fine lo R w l -> Forall estop_op l ->
  exists w', run w l = Ok w' /\ forall e, wsees w' e <-> wsees w e.
Proof.
  intros lo R w h l DR F Q. destruct (ereach_inv lo R w h DR) as (H & a & I & _).
  destruct (stops_same lo l R w H a I F Q) as (w' & a' & E & I'). exists w'. split; auto.
  intros e. rewrite (esees lo R w' H a' e I'), (esees lo R w H a e I). tauto.
Qed.
Lemma wdrops_log : forall lo R w h cuts ids, reaches lo R w h -> op_fine lo R w (EStop cuts ids) ->
  exists w' l, step w (EStop cuts ids) = Ok w' /\ tidy (dc (wh_dir w')) /\
    log_read wal_crc w' = log_read wal_crc w ++ l /\
    Forall (fun r => exists n id, r = Wal.LDrop n id /\ gone R id = true) l /\
    (length l <= length (filter is_drop (log_read wal_crc w)))%nat.
Proof.
  intros lo R w h cuts ids DR F. destruct (ereach_inv lo R w h DR) as (H & a & I & _).
  destruct (stop_sim compress decompress encrypt decrypt src wal_crc lo R w H a cuts ids I F)
    as (w1 & X & E & I1 & TI & DX & LX & E1 & E2).
  exists w1, (map rec_logged X). split; auto. split; auto. split; [rewrite E2, map_app, E1; auto|].
  split; [|rewrite map_length; auto]. apply Forall_forall. intros r Hr. apply in_map_iff in Hr as (y & <- & Hy).
  rewrite Forall_forall in DX. destruct (DX y Hy) as (n & i & ->). exists n, i. split; auto.
  apply (closed_in lo R (db_log (absd w1 (put_last a X))) n).
  - apply (ev_d _ _ _ _ _ _ _ _ _ I1).
  - cbn [WholeS.absd db_log]. change (Crash.LDrop n i) with (lrec_of (RDrop n i)). apply in_map.
    rewrite put_last_recs by (eapply wlog_some; apply I). apply in_or_app. auto.
Qed.
Lemma wdrops_drop : forall lo R w h id l, reaches lo R w h -> hist_fine lo R w (EDrop id :: l) -> Forall estop_op l ->
  match step w (EDrop id) with
  | Ok w1 => (forall e, wsees w1 e <-> wsees w e /\ gone (edropped w (EDrop id)) (ev_id e) = false) /\
      exists w2, run w1 l = Ok w2 /\ forall e, wsees w2 e <-> wsees w1 e
  | Err => exists j s, In j (wh_jobs w) /\ In s (mapping_list (en_map (wh_en w))) /\ in_range id (range_of s) /\ jb_ref j = s_min s
  | UB => False
  end.
Proof.
  intros lo R w h id l DR [F1 F2] Q. destruct (ereach_inv lo R w h DR) as (H & a & I & _).
  pose proof (estep_spec compress decompress encrypt decrypt CO src SO wal_crc lo R w H a (EDrop id) I F1) as X.
  unfold estep_ok in X. destruct (step w (EDrop id)) as [w1| |] eqn:E; auto.
  - destruct X as (H1 & a1 & I1 & E1). split.
    + intros e. rewrite (esees lo _ w1 H1 a1 e I1), (esees lo R w H a e I), E1. cbn [eack_step].
      rewrite (current_filter (fun x => negb (gone (edropped w (EDrop id)) x))), negb_true_iff. tauto.
    + destruct (stops_same lo l _ w1 H1 a1 I1 F2 Q) as (w2 & a2 & E2 & I2). exists w2. split; auto.
      intros e. rewrite (esees lo _ w2 H1 a2 e I2), (esees lo _ w1 H1 a1 e I1). tauto.
  - clear X. destruct F1 as (LR & Hw & HL & _). destruct I as [D WL RG].
    pose proof (bi_map _ _ _ (dv_b _ _ _ _ D)) as IM. cbn [quiet with_log WholeS.absd db_en] in IM.
    pose proof (part_slice_spec lo _ id (mi_map _ _ IM)) as PS. cbn [estep] in E.
    destruct (part_slice (en_map (wh_en w)) id) as [s|] eqn:Es.
    + destruct (existsb _ _) eqn:Ex.
      * apply existsb_exists in Ex as (j & Hj & Ej). apply N.eqb_eq in Ej. exists j, s. tauto.
      * destruct (drop_run lo (absd w a) id s IM Hw HL Es) as (m & E' & _).
        assert (Hi : id < 2^64).
        { pose proof (binv_lo _ _ _ (dv_b _ _ _ _ D)) as LO. rewrite MappingL.u64_max_eq in LO. lia. }
        pose proof (drop_sim decompress decrypt wal_crc w a id WL Hi) as S. rewrite E' in S.
        destruct S as (w' & X & S & _). congruence.
    + destruct (existsb _ _) eqn:Ex.
      * apply existsb_exists in Ex as (j & _ & Ej). discriminate.
      * unfold whole_drop in E. rewrite Es in E. discriminate.
Qed.
End Drops.
