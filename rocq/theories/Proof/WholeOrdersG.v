(* What texts add to the log: one record for each partition that is dropped. *)
From Coq Require Import NArith ZArith List Bool Lia Arith Permutation Sorted.
Import ListNotations.
From Verif Require Import Model.Base Model.Show Model.Lex Model.Parse Spec.Units Spec.Command Proof.ParseT Proof.ParseL.
From Verif Require Import Model.Rbtree Model.Event Model.Memtable Model.Mapping Model.PartIter Model.Merge Model.Scan Model.Codec
  Model.File Model.Wal Model.Writer Model.Engine Spec.Order Spec.Checksum Spec.Codecs Spec.Layout Spec.Regions Spec.Files Spec.Merged
  Spec.View Spec.Engine Spec.Log Spec.FileLimits
  Proof.WalP Proof.MappingL Proof.PartIterL Proof.EngineL Proof.EngineP Proof.EngineR Proof.MappingX Proof.ScanL Proof.CrashW Proof.CrashH Proof.DirL Proof.CrashD Proof.CrashP Proof.CrashT
  Proof.Cells Proof.DropsL Proof.DropsR Proof.DropsP Proof.DropsT
  Proof.OrdersL Proof.OrdersP Proof.OrdersT Proof.OrdersH
  Proof.WholeD Proof.WholeL Proof.WholeS Proof.WholeP Proof.WholeDropsL Proof.WholeDropsP Proof.WholeDropsT Proof.WholeOrdersP Proof.WholeOrdersT.
From Verif Require Import Model.Crash Model.Orders Spec.Crash Spec.Drops Spec.Orders Model.Whole Spec.Whole Model.WholeDrops Spec.WholeDrops
  Model.WholeOrders Spec.WholeOrders.
Local Arguments N.pow : simpl never.
Local Arguments N.add : simpl never.
Local Open Scope N_scope.

Definition shrank (b0 b : db) : Prop :=
  exists l, db_log b = db_log b0 ++ l /\
    Forall (fun r => exists n id, r = Crash.LDrop n id /\ gone (vanished b0 b) id = true) l /\
    length l = length (vanished b0 b) /\ incl (places b) (places b0).
Lemma shrank_start b : shrank b b.
Proof. exists []. rewrite vanished_none, app_nil_r. split; auto. split; [constructor|]. split; auto. apply incl_refl. Qed.
Lemma shrank_keep b0 b b' : shrank b0 b -> db_log b' = db_log b -> places b' = places b -> shrank b0 b'.
Proof.
  intros (l & E & F & L & I) El Ep. exists l. rewrite (vanished_same b0 b' b Ep), Ep, El. auto.
Qed.
Lemma layout_nodup l : layout l -> NoDup l.
Proof.
  intros [S F]. induction S as [|r l S IH A]; constructor.
  - intros X. rewrite Forall_forall in A. specialize (A r X). inversion F; subst. lia.
  - apply IH. inversion F; auto.
Qed.
Definition plain (a : act) : Prop :=
  match a with Do (CBegin _ _) | Do (CStep _) | Do (CDrop _) | Offload _ => True | _ => False end.
Lemma shrank_step lo b0 b a b' : fit lo b0 -> fit lo b -> plain a -> astep b a = Ok b' -> shrank b0 b -> shrank b0 b'.
Proof.
  intros (R0 & H0 & D0) (R & H & D) PL E S. destruct a as [o|id]; cbn [astep plain] in *.
  - destruct o; try contradiction; cbn [cstep] in E.
    + destruct (begin_keeps _ _ _ _ E) as (K1 & _ & K2). exact (shrank_keep b0 b b' S K1 K2).
    + destruct (step_keeps _ _ _ E) as (K1 & _ & K2). exact (shrank_keep b0 b b' S K1 K2).
    + destruct (part_slice (en_map (db_en b)) id) as [s|] eqn:Es.
      2:{ destruct (existsb _ _); [discriminate|]. unfold db_drop in E. rewrite Es in E. inversion E; subst. exact S. }
      destruct (existsb _ _); [discriminate|].
      pose proof (part_slice_spec lo _ id (mi_map _ _ (dinv_map _ _ _ _ D))) as PS. rewrite Es in PS. destruct PS as [Hs Hr].
      pose proof (slice_window _ _ _ _ _ _ D Hs Hr) as Hw.
      destruct (drop_list lo (db_en b) id s (dinv_map _ _ _ _ D) Hw Hs Hr) as (m & E1 & I' & HM).
      unfold db_drop in E. rewrite Es, E1 in E. cbn [bind] in E. injection E as E.
      destruct S as (l & El & F & L & INC).
      assert (PL' : forall r, In r (places b') <-> In r (places b) /\ r <> range_of s).
      { intros r. subst b'. unfold places, ranges. cbn [db_en with_lsn with_map en_map].
        rewrite !in_map_iff. split.
        - intros (t & <- & Ht). apply HM in Ht as [Ht Hn]. split; eauto. intros Er. apply Hn.
          injection Er as Em _. apply (min_unique lo (en_map (db_en b))); auto. exact (mi_map _ _ (dinv_map _ _ _ _ D)).
        - intros [(t & <- & Ht) Hn]. exists t. split; auto. apply HM. split; auto. congruence. }
      assert (VE : forall r, In r (vanished b0 b') <-> r = range_of s \/ In r (vanished b0 b)).
      { intros r. rewrite !vanished_in, PL'. split.
        - intros [A B]. destruct (range_eqb (range_of s) r) eqn:Er; [apply range_eqb_eq in Er; auto|].
          right. split; auto. intros X. apply B. split; auto. intros ->. rewrite (proj2 (range_eqb_eq _ _) eq_refl) in Er. discriminate.
        - intros [->|[A B]]; [split; [apply INC; unfold places, ranges; apply in_map; auto|tauto]|tauto]. }
      assert (PM : Permutation (vanished b0 b') (range_of s :: vanished b0 b)).
      { pose proof (layout_nodup _ (dinv_layout _ _ _ _ D0)) as ND. apply NoDup_Permutation.
        - apply NoDup_filter. exact ND.
        - constructor; [|apply NoDup_filter; exact ND]. rewrite vanished_in. intros [_ X]. apply X. unfold places, ranges. apply in_map. auto.
        - intros r. rewrite VE. cbn [In]. intuition. }
      exists (l ++ [LDrop (w64 (en_lsn (db_en b) + 1)) id]). split; [subst b'; cbn [db_log]; rewrite El, app_assoc; auto|]. split.
      { apply Forall_app. split.
        - eapply Forall_impl; [|exact F]. intros r (n & i & -> & G). exists n, i. split; auto.
          apply gone_in in G as (r & A & B). apply gone_in. exists r. split; auto. apply VE. auto.
        - constructor; [|constructor]. eexists _, _. split; [reflexivity|]. apply gone_in. exists (range_of s). split; auto. apply VE. auto. }
      split; [rewrite app_length, (Permutation_length PM), L; cbn [length]; lia|].
      intros r Hr'. apply INC. apply PL'. auto.
  - injection E as E. subst b'. unfold db_offload. destruct (part_slice _ _) as [s|]; auto. destruct (pt_file (s_data s)); auto.
    eapply shrank_keep; eauto. unfold places. cbn [with_dir with_en with_map db_en en_map]. apply put_ranges.
Qed.
Lemma shrank_path lo b0 : fit lo b0 -> forall l b b', path (fit lo) b l b' -> Forall plain l -> shrank b0 b -> shrank b0 b'.
Proof.
  intros F0 l b b' P. induction P as [b|b a l b1 b2 A E P IH]; intros F S; auto. inversion F; subst. apply IH; auto.
  eapply shrank_step; eauto.
Qed.

Section Acts.
Variable names : list byte -> option N.
Definition plain_one (one : db -> N -> bool -> res report) : Prop :=
  forall b id ie q, one b id ie = Ok q -> Forall plain (rp_acts q).
Lemma perform_plain b l q : perform b l = Ok q -> Forall plain l -> Forall plain (rp_acts q).
Proof. unfold perform. destruct (arun b l) as [b'| |]; try discriminate. cbn [bind]. intros X. inversion X; subst. auto. Qed.
Lemma nothing_plain b o q : nothing b o = Ok q -> Forall plain (rp_acts q).
Proof. intros X. inversion X; subst. constructor. Qed.
Lemma with_plain b id ie k q : with_part b id ie k = Ok q -> (forall s, k s = Ok q -> Forall plain (rp_acts q)) -> Forall plain (rp_acts q).
Proof.
  unfold with_part. intros E K. destruct (part_slice _ _); [|eapply nothing_plain; eauto].
  destruct (existsb _ _); [eapply nothing_plain; eauto|eauto].
Qed.
Lemma drop_plain mask : plain_one (order_drop mask).
Proof.
  intros b id ie q E. unfold order_drop in E. eapply with_plain; [exact E|]. intros s Es. cbv beta in *.
  destruct (mask =? N.lor ID ID_CLOUD); [eapply perform_plain; eauto; repeat constructor|].
  destruct (has mask ID); [eapply perform_plain; eauto; repeat constructor|eapply nothing_plain; eauto].
Qed.
Lemma refresh_plain to : plain_one (order_refresh names to).
Proof.
  intros b id ie q E. unfold order_refresh in E. eapply with_plain; [exact E|]. intros s Es. cbv beta zeta in *.
  destruct to as [name|]; [|eapply perform_plain; eauto; repeat constructor].
  destruct (names name) as [st|]; [|eapply nothing_plain; eauto].
  destruct (st =? db_home b (s_min s)); [eapply nothing_plain; eauto|eapply perform_plain; eauto; repeat constructor].
Qed.
Lemma copy_plain ic : plain_one (order_copy ic).
Proof. intros b id ie q E. unfold order_copy in E. eapply with_plain; [exact E|]. intros s Es. cbv beta in *. eapply nothing_plain; eauto. Qed.
Lemma loop_plain one mx : plain_one one -> forall fuel b mn q, order_loop fuel one b mn mx = Ok q -> Forall plain (rp_acts q).
Proof.
  intros PO. induction fuel as [|fuel IH]; intros b mn q E; cbn [order_loop] in E; [eapply nothing_plain; eauto|].
  destruct (engine_foreach _ _ _ _) as [[[id next]|]| |]; try discriminate E; cbn [bind] in E; [|eapply nothing_plain; eauto].
  destruct (one b id true) as [q1| |] eqn:E1; try discriminate E. cbn [bind] in E. apply PO in E1.
  destruct (rp_end q1); try (inversion E; subst; auto; fail).
  destruct (order_loop fuel one (rp_db q1) next mx) as [q2| |] eqn:E2; try discriminate E. cbn [bind] in E. inversion E; subst q.
  cbn [rp_acts]. apply Forall_app. eauto.
Qed.
Lemma range_plain one b mn mx q : plain_one one -> order_range one b mn mx = Ok q -> Forall plain (rp_acts q).
Proof. intros PO E. eapply loop_plain; eauto. Qed.
Lemma order_plain b c q : order names b c = Ok q -> Forall plain (rp_acts q) \/ exists mn mx, rp_acts q = [Do (CCreate mn mx)].
Proof.
  intros E. destruct c; cbn [order] in E;
    try (left; exact (nothing_plain _ _ _ E)); try (left; exact (drop_plain _ _ _ _ _ E)); try (left; exact (refresh_plain _ _ _ _ _ E));
    try (left; exact (copy_plain _ _ _ _ _ E)); try (left; exact (range_plain _ _ _ _ _ (drop_plain _) E));
    try (left; exact (range_plain _ _ _ _ _ (refresh_plain _) E)); try (left; exact (range_plain _ _ _ _ _ (copy_plain _) E)).
  destruct (cstep b (CCreate min max)); try discriminate E; [|left; exact (nothing_plain _ _ _ E)].
  right. inversion E; subst. exists min, max. reflexivity.
Qed.
End Acts.

Lemma create_keeps lo b mn mx b' : fit lo b -> (mn <= mx -> near lo (mn, mx)) -> cstep b (CCreate mn mx) = Ok b' ->
  db_log b' = db_log b /\ vanished b b' = [].
Proof.
  intros (R & H & D) Hn E. cbn [cstep] in E. pose proof (mi_map _ _ (dinv_map _ _ _ _ D)) as G.
  destruct (N.ltb_spec mx mn) as [L|L].
  { unfold engine_fill in E. rewrite (proj2 (N.ltb_lt mx mn) L) in E. discriminate. }
  destruct (fill_spec_more part_new lo (en_map (db_en b)) mn mx G (Hn L) L) as (m & new & F1 & F2 & F3 & F4 & F5 & F6).
  rewrite F1 in E. cbn [bind] in E. injection E as E. subst b'. split; auto.
  match goal with |- ?v = [] => destruct v as [|r l] eqn:E end; auto. exfalso.
  assert (Y : In r (r :: l)) by (left; auto). rewrite <- E in Y. apply vanished_in in Y as [Y1 Y2]. apply Y2.
  unfold places, ranges in *. apply in_map_iff in Y1 as (s & <- & Hs). apply in_map. cbn [with_en with_map db_en en_map].
  eapply Permutation_in; [symmetry; exact F3|]. apply in_app_iff. auto.
Qed.

Section Log.
Variable compress : N -> nat -> list byte -> list byte.
Variable decompress : N -> list byte -> N -> res (list byte).
Variable encrypt : N -> nat -> list byte -> list byte.
Variable decrypt : N -> list byte -> res (list byte).
Hypothesis CO : codecs_ok compress decompress encrypt decrypt.
Variable src : source.
Hypothesis SO : settings_ok src.
Variable wal_crc : bool.
Variable names : list byte -> option N.
Variable strtod : list byte -> option (N * nat).
Variable e : env.
Notation rd := (eread decompress decrypt wal_crc).
Lemma btexts_log : forall lo R w h x text,
  breachable compress decompress encrypt decrypt src wal_crc names strtod e lo R w h ->
  btext_fine compress decompress encrypt decrypt src wal_crc names strtod e lo R w x text ->
  exists p, btell compress decompress encrypt decrypt src wal_crc names strtod e x w text = Ok p /\
    (files_short (wh_wal (bp_whole p)) ->
     exists l, map record_of (log_read wal_crc (bp_whole p)) = map record_of (log_read wal_crc w) ++ l /\
       Forall (fun r => exists n id, r = Crash.LDrop n id /\ gone (missed w (bp_whole p)) id = true) l /\
       length l = length (missed w (bp_whole p))).
Proof.
  intros lo R w h x text RE F. destruct (breach_inv compress decompress encrypt decrypt CO src SO wal_crc names strtod e lo R w h RE) as (H & a & I & _).
  destruct (btell_run compress decompress encrypt decrypt CO src SO wal_crc names strtod e lo R w H a x text I F)
    as (ER & p & q & Eq & Ep & (L & Ee & Br & a' & G) & PA & AF).
  exists p. split; [exact Ep|]. intros FS'. destruct G as (GA & GL & _).
  destruct (eread_absd decompress decrypt wal_crc (bp_whole p) a' GL FS') as [ER' _].
  change (map record_of (log_read wal_crc (bp_whole p))) with (db_log (rd (bp_whole p))).
  change (map record_of (log_read wal_crc w)) with (db_log (rd w)).
  change (missed w (bp_whole p)) with (vanished (rd w) (rd (bp_whole p))). rewrite ER', GA.
  assert (F0 : fit lo (rd w)). { exists R, H. rewrite ER. apply I. }
  assert (PF : path (fit lo) (rd w) (rp_acts q) (rp_db q)).
  { eapply path_impl; [|exact PA]. intros b (H' & D' & _). unfold fit. eauto. }
  destruct F as (_ & (ts & T & NC & HF) & _).
  unfold tell in Eq. destruct (parse strtod (env_at e (rd w)) text) as [[c|]| |] eqn:EP; try discriminate Eq.
  - destruct (order_plain names _ _ _ Eq) as [PL|(mn & mx & EA)].
    + destruct (shrank_path lo (rd w) F0 _ _ _ PF PL (shrank_start _)) as (l & A & B & C & _). eauto.
    + rewrite EA in PF. pose proof (path_run _ _ _ _ PF) as RUN. cbn [arun astep] in RUN.
      destruct (cstep (rd w) (CCreate mn mx)) as [b'| |] eqn:EC; try discriminate RUN. cbn [bind] in RUN.
      assert (b' = rp_db q) by congruence. subst b'. clear RUN.
      assert (c = CmdCreate mn mx).
      { destruct (order_plain names _ _ _ Eq) as [PL|_]; [rewrite EA in PL; inversion PL; contradiction|].
        destruct c; cbn [order] in Eq;
          try (exfalso; inversion Eq; subst q; discriminate EA);
          try (exfalso; pose proof (drop_plain _ _ _ _ _ Eq) as Y; rewrite EA in Y; inversion Y; contradiction);
          try (exfalso; pose proof (refresh_plain _ _ _ _ _ _ Eq) as Y; rewrite EA in Y; inversion Y; contradiction);
          try (exfalso; pose proof (copy_plain _ _ _ _ _ Eq) as Y; rewrite EA in Y; inversion Y; contradiction);
          try (exfalso; pose proof (range_plain _ _ _ _ _ (drop_plain _) Eq) as Y; rewrite EA in Y; inversion Y; contradiction);
          try (exfalso; pose proof (range_plain _ _ _ _ _ (refresh_plain _ _) Eq) as Y; rewrite EA in Y; inversion Y; contradiction);
          try (exfalso; pose proof (range_plain _ _ _ _ _ (copy_plain _) Eq) as Y; rewrite EA in Y; inversion Y; contradiction).
        destruct (cstep (rd w) (CCreate min max)); inversion Eq; subst q; cbn [rp_acts] in EA; congruence. }
      subst c. apply accepts in EP as (us & T1 & S1). rewrite (tokens_same strtod text us ts T1 T) in S1.
      pose proof (HF _ S1) as OF. cbn [order_fine dop_fine] in OF.
      destruct (create_keeps lo (rd w) mn mx (rp_db q) F0) as [A B]; [intros LE; apply (OF LE)|exact EC|].
      exists []. rewrite A, B, app_nil_r. split; auto.
  - inversion Eq; subst q. cbn [rp_db]. destruct (shrank_start (rd w)) as (l & A & B & C & _). eauto.
  - inversion Eq; subst q. cbn [rp_db]. destruct (shrank_start (rd w)) as (l & A & B & C & _). eauto.
Qed.
End Log.
