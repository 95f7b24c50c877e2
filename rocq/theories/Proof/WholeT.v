(* Statements about histories of a database whose log and partition files are bytes. *)
From Coq Require Import NArith ZArith List Bool Lia Arith Permutation Sorted.
Import ListNotations.
From Verif Require Import Model.Base Model.Rbtree Model.Event Model.Memtable Model.Mapping Model.PartIter Model.Merge Model.Scan Model.Codec
  Model.File Model.Wal Model.Writer Model.Engine Spec.Order Spec.Checksum Spec.Codecs Spec.Layout Spec.Regions Spec.Files Spec.Merged
  Spec.View Spec.Engine Spec.Log Spec.FileLimits
  Proof.WalP Proof.PartIterL Proof.EngineL Proof.EngineP Proof.EngineR Proof.MappingX Proof.ScanL Proof.CrashW Proof.CrashH Proof.DirL Proof.CrashD Proof.CrashP Proof.CrashT
  Proof.WholeD Proof.WholeL Proof.WholeS Proof.WholeP.
From Verif Require Import Model.Crash Spec.Crash Model.Whole Spec.Whole.
Local Arguments N.pow : simpl never.
Local Arguments N.add : simpl never.
Local Open Scope N_scope.

Section Whole.
Variable compress : N -> nat -> list byte -> list byte.
Variable decompress : N -> list byte -> N -> res (list byte).
Variable encrypt : N -> nat -> list byte -> list byte.
Variable decrypt : N -> list byte -> res (list byte).
Hypothesis CO : codecs_ok compress decompress encrypt decrypt.
Variable src : source.
Hypothesis SO : settings_ok src.
Variable wal_crc : bool.
Notation absd := (absd decompress decrypt).
Notation winv := (winv decompress decrypt src wal_crc).
Notation step := (wstep compress decompress encrypt decrypt src wal_crc).
Notation run := (wrun compress decompress encrypt decrypt src wal_crc).
Notation op_fine := (wop_fine compress decompress encrypt decrypt src wal_crc).
Notation hist_fine := (whist_fine compress decompress encrypt decrypt src wal_crc).
Notation acked := (wacked compress decompress encrypt decrypt src wal_crc).
Notation cleans := (clean_run compress decompress encrypt decrypt src wal_crc).
Notation reaches := (wreachable compress decompress encrypt decrypt src wal_crc).

Lemma wrun_spec lo : forall l w H clean a tail, winv lo w H clean a tail -> hist_fine lo w clean l ->
  exists w' H' a' tail', run w l = Ok w' /\ winv lo w' H' (cleans w clean l) a' tail' /\ map snd H' = acked w l (map snd H).
Proof.
  induction l as [|o l IH]; intros w H clean a tail I F; cbn [wrun whist_fine clean_run wacked] in *.
  - exists w, H, a, tail. auto.
  - destruct F as [F1 F2]. pose proof (wstep_spec compress decompress encrypt decrypt CO src SO wal_crc lo w H clean a tail o I F1) as X.
    unfold step_ok in X. destruct (step w o) as [w1| |]; [|destruct X as [X1 X2]|contradiction].
    + destruct X as (H1 & a1 & t1 & I1 & E1). rewrite <- E1. eapply IH; eauto.
    + rewrite X1, X2. eapply IH; eauto.
Qed.
Lemma winv_new lo storages iv serial page : limits lo iv -> storages_ok storages ->
  winv lo (whole_new src storages iv serial page) [] true [(1, [])] [].
Proof.
  intros [L1 L2] ST. constructor; auto.
  - apply (binv_new lo storages iv serial page _ L1 L2 ST).
  - apply tholds_nil. apply (open_holds wal_crc).
  - constructor.
  - left. reflexivity.
Qed.
Lemma wreach_inv lo w clean h : reaches lo w clean h ->
  exists H a tail, winv lo w H clean a tail /\ map snd H = h.
Proof.
  intros (sts & iv & serial & page & ops & L & ST & F & E & -> & ->).
  destruct (wrun_spec lo ops _ [] true [(1, [])] [] (winv_new lo sts iv serial page L ST) F) as (w' & H & a & tail & E' & I & EH).
  assert (w' = w) by congruence. subst. exists H, a, tail. auto.
Qed.
Lemma wsees_current lo w H clean a tail e : winv lo w H clean a tail -> (wsees w e <-> current (map snd H) e).
Proof. intros I. apply (sees_current lo (absd w a)). apply I. Qed.

Lemma whole_history : forall lo storages iv serial page ops, limits lo iv -> storages_ok storages ->
  hist_fine lo (whole_new src storages iv serial page) true ops ->
  exists w, run (whole_new src storages iv serial page) ops = Ok w /\
    (forall e, wsees w e <-> current (acked (whole_new src storages iv serial page) ops []) e) /\
    forall key, start_fine lo key ->
    exists out n, (forall fuel, (n < fuel)%nat -> monotone_scan fuel (en_map (wh_en w)) key = Ok (Some out)) /\
      ascending out /\
      forall e, In e out <-> current (acked (whole_new src storages iv serial page) ops []) e /\ from key e.
Proof.
  intros lo sts iv serial page ops L ST F.
  destruct (wrun_spec lo ops _ [] true [(1, [])] [] (winv_new lo sts iv serial page L ST) F) as (w & H & a & tail & E & I & EH).
  cbn [map] in EH. exists w. split; auto.
  assert (V : forall e, wsees w e <-> current (acked (whole_new src sts iv serial page) ops []) e).
  { intros e. rewrite <- EH. eapply wsees_current; eauto. }
  split; auto. intros key Hk. destruct (scan_engine lo (en_map (wh_en w)) key) as (out & n & H1 & H2 & H3).
  - apply (bi_map _ _ _ (wv_b _ _ _ _ _ _ _ _ _ _ I)).
  - destruct key as [k|]; auto. destruct Hk as (A1 & A2 & A3). split; [split; auto|].
    intros s _. apply past_keys_keyless; auto.
  - exists out, n. split; auto. split; auto. intros e. rewrite H3.
    fold (parts (wh_en w)). fold (wsees w e). rewrite V. tauto.
Qed.

Lemma whole_atomic : forall lo w h l m n ids, reaches lo w true h -> op_fine lo w true (WCrashIn l m n ids) ->
  exists w', step w (WCrashIn l m n ids) = Ok w' /\
    match engine_write (wh_en w) l true with
    | Ok (_, Some evs) =>
        if (length (log_record wal_crc (w64 (en_lsn (wh_en w) + 1)) (entries evs m)) <=? n)%nat
        then forall e, wsees w' e <-> current evs e \/ (last_write evs e = None /\ wsees w e)
        else forall e, wsees w' e <-> wsees w e
    | _ => forall e, wsees w' e <-> wsees w e
    end.
Proof.
  intros lo w h l m n ids R F. destruct (wreach_inv lo w true h R) as (H & a & tail & I & <-).
  pose proof (wstep_spec compress decompress encrypt decrypt CO src SO wal_crc lo w H true a tail _ I F) as X.
  unfold step_ok in X. destruct (step w (WCrashIn l m n ids)) as [w'| |] eqn:E; [|destruct X; discriminate|contradiction].
  destruct X as (H' & a' & t' & I' & EH). exists w'. split; auto. cbn [wack_step] in EH.
  assert (Same : map snd H' = map snd H -> forall e, wsees w' e <-> wsees w e).
  { intros Z e. rewrite (wsees_current _ _ _ _ _ _ e I'), (wsees_current _ _ _ _ _ _ e I), Z. tauto. }
  pose proof (wv_b _ _ _ _ _ _ _ _ _ _ I) as B. destruct F as (_ & _ & _ & BF & _).
  unfold complete_record, the_record in EH.
  destruct (write_grown lo (wh_en w) l true (bi_map _ _ _ B) (bi_iv _ _ _ B) BF) as [(m1 & EW & _)|(m1 & ssn & EW & _)];
    rewrite EW in *.
  - destruct (_ <=? n)%nat; auto. intros e.
    rewrite (wsees_current _ _ _ _ _ _ e I'), (wsees_current _ _ _ _ _ _ e I), EH. apply current_app.
  - auto.
Qed.

Definition silent (o : wop) : Prop := match o with WWrite _ _ _ | WCrashIn _ _ _ _ => False | _ => True end.
Lemma acked_silent : forall l w h, Forall silent l -> acked w l h = h.
Proof.
  induction l as [|o l IH]; intros w h Q; auto. inversion Q as [|? ? Q1 Q2]; subst. cbn [wacked].
  assert (Y : wack_step wal_crc w o h = h) by (destruct o; auto; contradiction). rewrite Y. destruct (step w o); auto.
Qed.
Lemma silent_run lo w clean h l : reaches lo w clean h -> hist_fine lo w clean l -> Forall silent l ->
  exists w', run w l = Ok w' /\ forall e, wsees w' e <-> wsees w e.
Proof.
  intros R F Q. destruct (wreach_inv lo w clean h R) as (H & a & tail & I & _).
  destruct (wrun_spec lo l w H clean a tail I F) as (w' & H' & a' & t' & E & I' & EH).
  rewrite acked_silent in EH by auto. exists w'. split; auto. intros e.
  rewrite (wsees_current _ _ _ _ _ _ e I'), (wsees_current _ _ _ _ _ _ e I), EH. tauto.
Qed.
Lemma whole_repeat : forall lo w clean h l, reaches lo w clean h -> hist_fine lo w clean l -> Forall wrestart_op l ->
  exists w', run w l = Ok w' /\ forall e, wsees w' e <-> wsees w e.
Proof.
  intros lo w clean h l R F Q. eapply silent_run; eauto. eapply Forall_impl; [|exact Q]. intros []; simpl; tauto.
Qed.
(* a refresh or a move stopped after any of its steps *)
Lemma whole_refresh : forall lo w clean h id to ref xs cuts ids, reaches lo w clean h ->
  hist_fine lo w clean (WBegin id to :: map (WStep ref) xs ++ [WCrash cuts ids]) ->
  exists w', run w (WBegin id to :: map (WStep ref) xs ++ [WCrash cuts ids]) = Ok w' /\ forall e, wsees w' e <-> wsees w e.
Proof.
  intros lo w clean h id to ref xs cuts ids R F. eapply silent_run; eauto.
  constructor; [exact Logic.I|]. apply Forall_app. split; [|repeat (constructor; auto)].
  rewrite Forall_map. apply Forall_forall. intros. exact Logic.I.
Qed.
(* ... or after any number of bytes of its file *)
Lemma whole_file : forall lo w clean h id to ref x x' n cuts ids, reaches lo w clean h ->
  hist_fine lo w clean [WBegin id to; WStep ref x; WCrashFile ref x' n cuts ids] ->
  exists w', run w [WBegin id to; WStep ref x; WCrashFile ref x' n cuts ids] = Ok w' /\ forall e, wsees w' e <-> wsees w e.
Proof.
  intros lo w clean h id to ref x x' n cuts ids R F. eapply silent_run; eauto.
  repeat (constructor; [exact Logic.I|]). constructor.
Qed.
End Whole.
