(* Texts stopped inside of one of the things that they do. *)
From Coq Require Import NArith ZArith List Bool Lia Arith Permutation Sorted.
Import ListNotations.
From Verif Require Import Model.Base Model.Show Model.Lex Model.Parse Spec.Units Spec.Command.
From Verif Require Import Proof.CrashH Proof.DropsL Proof.DropsR Proof.DropsP Proof.DropsT Model.Event Model.Memtable Model.Mapping Model.PartIter Model.Merge Model.Scan Model.Codec
  Model.File Model.Wal Model.Engine Spec.Order Spec.Codecs Spec.Layout Spec.Regions Spec.Files
  Spec.View Spec.Engine Spec.Log Spec.FileLimits Proof.OrdersP Proof.OrdersT
  Proof.WholeS Proof.WholeDropsP Proof.WholeDropsT Proof.WholeOrdersP Proof.WholeOrdersT Proof.TornDropsP.
From Verif Require Import Model.Crash Model.Orders Spec.Crash Spec.Drops Spec.Orders Model.Whole Spec.Whole Model.WholeDrops Spec.WholeDrops
  Model.WholeOrders Spec.WholeOrders Model.TornDrops Spec.TornDrops Model.TornOrders Spec.TornOrders.
Local Arguments N.pow : simpl never.
Local Arguments N.add : simpl never.
Local Open Scope N_scope.

Section Texts.
Variable compress : N -> nat -> list byte -> list byte.
Variable decompress : N -> list byte -> N -> res (list byte).
Variable encrypt : N -> nat -> list byte -> list byte.
Variable decrypt : N -> list byte -> res (list byte).
Hypothesis CO : codecs_ok compress decompress encrypt decrypt.
Variable src : source.
Hypothesis SO : settings_ok src.
Variable wal_crc : bool.
Variable names : list byte -> option N.
Variable strtod : list byte -> option (N * nat).
Variable e : env.
Notation absd := (absd decompress decrypt).
Notation einv := (einv decompress decrypt src wal_crc).
Notation step := (estep compress decompress encrypt decrypt src wal_crc).
Notation op_fine := (eop_fine compress decompress encrypt decrypt src wal_crc).
Notation hist_fine := (ehist_fine compress decompress encrypt decrypt src wal_crc).
Notation brun := (brun compress decompress encrypt decrypt src wal_crc).
Notation bstep := (bstep compress decompress encrypt decrypt src wal_crc).
Notation bstopped := (bstopped compress decompress encrypt decrypt src wal_crc names strtod e).
Notation btext_fine := (btext_fine compress decompress encrypt decrypt src wal_crc names strtod e).
Notation reaches := (breachable compress decompress encrypt decrypt src wal_crc names strtod e).
Notation next_act := (next_act compress decompress encrypt decrypt src wal_crc names strtod e).
Notation stop_text := (stop_text compress decompress encrypt decrypt src wal_crc names strtod e).
Notation stop_inside := (stop_inside compress decompress encrypt decrypt src wal_crc).
Notation inside_fine := (inside_fine compress decompress encrypt decrypt src wal_crc).

Lemma stop_same lo R w H a cuts ids : einv lo R w H a -> op_fine lo R w (EStop cuts ids) ->
  exists w', step w (EStop cuts ids) = Ok w' /\ forall y, wsees w' y <-> wsees w y.
Proof.
  intros I F. destruct (stop_sim compress decompress encrypt decrypt src wal_crc lo R w H a cuts ids I F) as (w' & X & E & I' & _).
  exists w'. split; auto. intros y. rewrite (esees decompress decrypt src wal_crc lo R w' H _ y I').
  symmetry. exact (esees decompress decrypt src wal_crc lo R w H a y I).
Qed.
Lemma dropped_stop lo R w H a id ids w1 : einv lo R w H a -> hist_fine lo R w [EDrop id; EStop [] ids] -> step w (EDrop id) = Ok w1 ->
  exists w', step w1 (EStop [] ids) = Ok w' /\
    forall y, wsees w' y <-> wsees w y /\ gone (edropped w (EDrop id)) (ev_id y) = false.
Proof.
  intros I [F1 F2] E. pose proof (estep_spec compress decompress encrypt decrypt CO src SO wal_crc lo R w H a (EDrop id) I F1) as X.
  unfold estep_ok in X. rewrite E in X, F2. destruct X as (H1 & a1 & I1 & E1). destruct F2 as [F2 _].
  destruct (stop_same lo _ w1 H1 a1 [] ids I1 F2) as (w' & E2 & S). exists w'. split; auto. intros y. rewrite S.
  rewrite (esees decompress decrypt src wal_crc lo _ w1 H1 a1 y I1), (esees decompress decrypt src wal_crc lo R w H a y I), E1. cbn [eack_step].
  rewrite (current_filter (fun x => negb (gone (edropped w (EDrop id)) x))), negb_true_iff. tauto.
Qed.
(* one thing *)
Lemma inside_run lo R w H a c k cuts ids : einv lo R w H a ->
  match c with Some b => exists w1, bstep w b = Ok w1 | None => True end -> inside_fine lo R w c k cuts ids ->
  exists w', stop_inside w c k cuts ids = Ok w' /\ (forall y, wsees w' y -> wsees w y) /\
    (forall y, wsees w y -> gone (inside_lost w c) (ev_id y) = false -> wsees w' y) /\
    (match c with Some (BDo (EDrop _)) => (29 <= k)%nat | _ => True end ->
     forall y, wsees w' y <-> wsees w y /\ gone (inside_lost w c) (ev_id y) = false).
Proof.
  intros I B F.
  assert (PL : forall f w', step w (EStop cuts ids) = Ok w' \/ f = Ok w' -> (forall y, wsees w' y <-> wsees w y) ->
     (forall y, wsees w' y -> wsees w y) /\ (forall y, wsees w y -> gone [] (ev_id y) = false -> wsees w' y) /\
     (forall y, wsees w' y <-> wsees w y /\ gone [] (ev_id y) = false)).
  { intros f w' _ S. split; [intros y; apply S|]. split; [intros y Hy _; apply S; auto|]. intros y. rewrite S. cbn [gone existsb]. tauto. }
  assert (ST : op_fine lo R w (EStop cuts ids) -> exists w', bstep w (BDo (EStop cuts ids)) = Ok w' /\
     (forall y, wsees w' y -> wsees w y) /\ (forall y, wsees w y -> gone [] (ev_id y) = false -> wsees w' y) /\
     (True -> forall y, wsees w' y <-> wsees w y /\ gone [] (ev_id y) = false)).
  { intros F'. destruct (stop_same lo R w H a cuts ids I F') as (w' & E & S). exists w'. split; auto.
    destruct (PL (Ok w') w' (or_introl E) S) as (P1 & P2 & P3). repeat (split; auto); apply P3; auto. }
  destruct c as [[[o|id|]|id]|]; cbn [TornOrders.stop_inside Spec.TornOrders.inside_fine inside_lost] in *; auto.
  - destruct o; auto. destruct F as [F1 F2]. unfold writing. destruct (find _ (wh_jobs w)) as [j|] eqn:Ej; auto.
    destruct (jb_stage j =? 1)%nat eqn:Es; auto. apply Nat.eqb_eq in Es.
    destruct (torn_file compress decompress encrypt decrypt src wal_crc lo R w H a j ref x k cuts ids I Ej Es F2) as (w' & E & _ & _ & S).
    exists w'. split; auto. destruct (PL (Ok w') w' (or_intror eq_refl) S) as (P1 & P2 & P3). repeat (split; auto); apply P3; auto.
  - destruct F as [F1 F2]. destruct (le_lt_dec 29 k) as [K|K].
    + destruct B as (w1 & B). cbn [WholeOrders.bstep] in B.
      rewrite (whole_dropped compress decompress encrypt decrypt src wal_crc w id k ids w1 K B).
      destruct (dropped_stop lo R w H a id ids w1 I (F1 K) B) as (w' & E & S). exists w'. split; auto.
      split; [intros y Hy; apply S; auto|]. split; [intros y Y1 Y2; apply S; auto|auto].
    + destruct (F2 K) as (G1 & G2 & G3 & G4).
      destruct (part_slice (en_map (wh_en w)) id) as [s|] eqn:Es.
      * destruct (torn_drop decompress decrypt src wal_crc lo R w H a id k ids I G2 (proj1 G1) G3 K G4) as (w' & E & S);
          [congruence|].
        exists w'. split; auto. split; [intros y; apply S|]. split; [intros y Y1 Y2; apply S; auto|intros K'; lia].
      * destruct (stop_same lo R w H a [] ids I G1) as (w' & E & S). exists w'. unfold stop_drop. rewrite Es.
        split; [exact E|]. split; [intros y; apply S|]. split; [intros y Y1 Y2; apply S; auto|intros K'; lia].
Qed.

Lemma text_inside : forall lo R w h x text n k cuts ids w1, reaches lo R w h -> btext_fine lo R w x text ->
  bstopped w x text n = Ok w1 -> inside_fine lo (missed w w1 ++ R) w1 (next_act w x text n) k cuts ids ->
  exists w2, stop_text x w text n k cuts ids = Ok w2 /\
    (forall y, wsees w1 y <-> wsees w y /\ gone (missed w w1) (ev_id y) = false) /\
    (forall y, wsees w2 y -> wsees w1 y) /\
    (forall y, wsees w1 y -> gone (inside_lost w1 (next_act w x text n)) (ev_id y) = false -> wsees w2 y) /\
    (match next_act w x text n with Some (BDo (EDrop _)) => (29 <= k)%nat | _ => True end ->
     forall y, wsees w2 y <-> wsees w1 y /\ gone (inside_lost w1 (next_act w x text n)) (ev_id y) = false).
Proof.
  intros lo R w h x text n k cuts ids w1 RE F E1 FI.
  destruct (breach_inv compress decompress encrypt decrypt CO src SO wal_crc names strtod e lo R w h RE) as (H & a & I & _).
  destruct (stopped_run compress decompress encrypt decrypt CO src SO wal_crc names strtod e lo R w H a x text n I F)
    as (w1' & a1 & H1 & E1' & I1 & EH). assert (w1' = w1) by congruence. subst w1'. clear E1'.
  assert (V : forall y, wsees w1 y <-> wsees w y /\ gone (missed w w1) (ev_id y) = false).
  { intros y. change (missed w w1) with (vanished (absd w a) (absd w1 a1)). apply (mid_sees lo R H (absd w a) (absd w1 a1)); [apply I|].
    exists H1. split; [apply I1|exact EH]. }
  destruct (btell_run compress decompress encrypt decrypt CO src SO wal_crc names strtod e lo R w H a x text I F)
    as (_ & p & q & _ & Ep & (_ & _ & Br & _) & _).
  unfold Spec.WholeOrders.bstopped in E1. unfold TornOrders.stop_text. unfold Spec.TornOrders.next_act in *. rewrite Ep in *. cbn [bind].
  rewrite E1. cbn [bind].
  destruct (inside_run lo _ w1 H1 a1 (nth_error (bp_acts p) n) k cuts ids I1) as (w2 & E2 & S1 & S2 & S3); auto.
  - destruct (nth_error (bp_acts p) n) as [c|] eqn:En; auto.
    assert (L : bp_acts p = firstn n (bp_acts p) ++ c :: skipn (S n) (bp_acts p)).
    { clear - En. revert n En. induction (bp_acts p) as [|z l IH]; intros [|n] En; try discriminate En; cbn in *; [congruence|].
      f_equal. apply IH. auto. }
    rewrite L in Br. rewrite (brun_app compress decompress encrypt decrypt src wal_crc _ _ _ _ E1) in Br. cbn [WholeOrders.brun] in Br.
    destruct (bstep w1 c) as [w3| |]; try discriminate Br. eauto.
  - exists w2. repeat (split; auto); apply V.
Qed.
Lemma text_batch : forall lo R w h l m n ids, reaches lo R w h -> op_fine lo R w (EDo (WWrite l m None)) ->
  op_fine lo R w (EStop [] ids) -> log_room w (length (the_record wal_crc w l m)) ->
  (n < length (the_record wal_crc w l m))%nat -> n = 0%nat \/ drops_last wal_crc w ->
  exists w', stop_batch decompress decrypt wal_crc w l m n ids = Ok w' /\ forall y, wsees w' y <-> wsees w y.
Proof.
  intros lo R w h l m n ids DR F1 F2 RM HN G.
  destruct (breach_inv compress decompress encrypt decrypt CO src SO wal_crc names strtod e lo R w h DR) as (H & a & I & _).
  eapply torn_batch; eauto.
Qed.
End Texts.
