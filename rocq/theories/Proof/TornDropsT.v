(* Stops inside of records, of drops and of new files of any database that can be reached. *)
From Coq Require Import NArith ZArith List Bool Lia Arith Permutation Sorted.
Import ListNotations.
From Verif Require Import Model.Base Model.Event Model.Memtable Model.Mapping Model.PartIter Model.Scan Model.Codec
  Model.File Model.Wal Model.Engine Spec.Order Spec.Codecs Spec.Layout Spec.Regions
  Spec.View Spec.Engine Spec.Log Spec.FileLimits Proof.WholeS Proof.WholeDropsP Proof.WholeDropsT Proof.TornDropsP.
From Verif Require Import Model.Crash Spec.Crash Spec.Drops Model.Whole Spec.Whole Model.WholeDrops Spec.WholeDrops
  Model.TornDrops Spec.TornDrops.
Local Open Scope N_scope.

Section Torn.
Variable compress : N -> nat -> list byte -> list byte.
Variable decompress : N -> list byte -> N -> res (list byte).
Variable encrypt : N -> nat -> list byte -> list byte.
Variable decrypt : N -> list byte -> res (list byte).
Hypothesis CO : codecs_ok compress decompress encrypt decrypt.
Variable src : source.
Hypothesis SO : settings_ok src.
Variable wal_crc : bool.
Notation step := (estep compress decompress encrypt decrypt src wal_crc).
Notation op_fine := (eop_fine compress decompress encrypt decrypt src wal_crc).
Notation hist_fine := (ehist_fine compress decompress encrypt decrypt src wal_crc).
Notation reaches := (ereachable compress decompress encrypt decrypt src wal_crc).
Notation inv := (ereach_inv compress decompress encrypt decrypt CO src SO wal_crc).

Lemma stopped_batch : forall lo R w h l m n ids, reaches lo R w h -> op_fine lo R w (EDo (WWrite l m None)) ->
  op_fine lo R w (EStop [] ids) -> log_room w (length (the_record wal_crc w l m)) ->
  (n < length (the_record wal_crc w l m))%nat -> n = 0%nat \/ drops_last wal_crc w ->
  exists w', stop_batch decompress decrypt wal_crc w l m n ids = Ok w' /\ forall e, wsees w' e <-> wsees w e.
Proof.
  intros lo R w h l m n ids DR F1 F2 RM HN G. destruct (inv lo R w h DR) as (H & a & I & _). eapply torn_batch; eauto.
Qed.
Lemma stopped_after : forall lo R w h l m n ids, reaches lo R w h ->
  hist_fine lo R w [EDo (WWrite l m None); EStop [] ids] -> (length (the_record wal_crc w l m) <= n)%nat ->
  exists w1 w', step w (EDo (WWrite l m None)) = Ok w1 /\ step w1 (EStop [] ids) = Ok w' /\
    stop_batch decompress decrypt wal_crc w l m n ids = Ok w' /\ forall e, wsees w' e <-> wsees w1 e.
Proof.
  intros lo R w h l m n ids DR [F1 F2] HN. destruct (inv lo R w h DR) as (H & a & I & _).
  destruct (whole_batch compress decompress encrypt decrypt CO src SO wal_crc lo R w H a l m n ids I F1 HN) as (w1 & E1 & E2).
  rewrite E1 in F2. destruct F2 as [F2 _].
  pose proof (estep_spec compress decompress encrypt decrypt CO src SO wal_crc lo R w H a _ I F1) as X. unfold estep_ok in X. rewrite E1 in X.
  destruct X as (H1 & a1 & I1 & _).
  destruct (stop_sim compress decompress encrypt decrypt src wal_crc lo _ w1 H1 a1 [] ids I1 F2) as (w' & X & E & I' & _).
  exists w1, w'. rewrite E2. split; auto. split; auto. split; auto. intros e.
  rewrite (esees decompress decrypt src wal_crc lo _ w' H1 _ e I').
  symmetry. exact (esees decompress decrypt src wal_crc lo _ w1 H1 a1 e I1).
Qed.
Lemma stopped_drop : forall lo R w h id n ids, reaches lo R w h -> drop_stop_fine decompress decrypt wal_crc lo R w id ->
  elog_fine wal_crc w ids -> log_room w 29 -> (n < 29)%nat -> n = 0%nat \/ drops_last wal_crc w ->
  part_slice (en_map (wh_en w)) id <> None ->
  exists w', stop_drop decompress decrypt wal_crc w id n ids = Ok w' /\
    forall e, (wsees w' e -> wsees w e) /\
      (gone (edropped w (EDrop id)) (ev_id e) = false -> wsees w e -> wsees w' e).
Proof.
  intros lo R w h id n ids DR F1 F2 RM HN G P. destruct (inv lo R w h DR) as (H & a & I & _). eapply torn_drop; eauto.
Qed.
Lemma stopped_dropped : forall lo R w h id n ids w1, reaches lo R w h -> hist_fine lo R w [EDrop id; EStop [] ids] ->
  step w (EDrop id) = Ok w1 -> (29 <= n)%nat ->
  exists w', step w1 (EStop [] ids) = Ok w' /\ stop_drop decompress decrypt wal_crc w id n ids = Ok w' /\
    forall e, wsees w' e <-> wsees w e /\ gone (edropped w (EDrop id)) (ev_id e) = false.
Proof.
  intros lo R w h id n ids w1 DR F E HN. rewrite (whole_dropped compress decompress encrypt decrypt src wal_crc w id n ids w1 HN E).
  pose proof (wdrops_drop compress decompress encrypt decrypt CO src SO wal_crc lo R w h id [EStop [] ids] DR F) as X.
  rewrite E in X. destruct X as [X1 (w2 & X2 & X3)]; [repeat constructor|].
  cbn [erun] in X2. destruct (step w1 (EStop [] ids)) as [w'| |]; cbn [estops] in X2; try discriminate X2.
  inversion X2; subst w'. exists w2. split; auto. split; auto. intros e. rewrite X3. apply X1.
Qed.
Lemma stopped_file : forall lo R w h j ref x n cuts ids, reaches lo R w h ->
  find (fun j => jb_ref j =? ref) (wh_jobs w) = Some j -> jb_stage j = 1%nat ->
  op_fine lo R (begun w ref) (EStop cuts ids) ->
  exists w', stop_file compress decompress encrypt decrypt src wal_crc w ref x n cuts ids = Ok w' /\
    step (begun w ref) (EStop cuts ids) = Ok w' /\
    tidy (dir_content decompress decrypt (wh_dir w')) /\ forall e, wsees w' e <-> wsees w e.
Proof.
  intros lo R w h j ref x n cuts ids DR E S F. destruct (inv lo R w h DR) as (H & a & I & _). eapply torn_file; eauto.
Qed.
End Torn.
