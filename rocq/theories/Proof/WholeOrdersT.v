(* Statements about texts in a database whose log and partition files are bytes. *)
From Coq Require Import NArith ZArith List Bool Lia Arith Permutation Sorted.
Import ListNotations.
From Verif Require Import Model.Base Model.Show Model.Lex Model.Parse Spec.Units Spec.Command Proof.ParseT Proof.ParseL.
From Verif Require Import Model.Rbtree Model.Event Model.Memtable Model.Mapping Model.PartIter Model.Merge Model.Scan Model.Codec
  Model.File Model.Wal Model.Writer Model.Engine Spec.Order Spec.Checksum Spec.Codecs Spec.Layout Spec.Regions Spec.Files Spec.Merged
  Spec.View Spec.Engine Spec.Log Spec.FileLimits
  Proof.WalP Proof.MappingL Proof.PartIterL Proof.EngineL Proof.EngineP Proof.EngineR Proof.MappingX Proof.ScanL Proof.CrashW Proof.CrashH Proof.DirL Proof.CrashD Proof.CrashP Proof.CrashT
  Proof.Cells Proof.DropsL Proof.DropsR Proof.DropsP Proof.DropsT
  Proof.OrdersL Proof.OrdersP Proof.OrdersT Proof.OrdersH
  Proof.WholeD Proof.WholeL Proof.WholeS Proof.WholeP Proof.WholeDropsL Proof.WholeDropsP Proof.WholeDropsT Proof.WholeOrdersP.
From Verif Require Import Model.Crash Model.Orders Spec.Crash Spec.Drops Spec.Orders Model.Whole Spec.Whole Model.WholeDrops Spec.WholeDrops
  Model.WholeOrders Spec.WholeOrders.
Local Arguments N.pow : simpl never.
Local Arguments N.add : simpl never.
Local Open Scope N_scope.

Section Texts.
Variable compress : N -> nat -> list byte -> list byte.
Variable decompress : N -> list byte -> N -> res (list byte).
Variable encrypt : N -> nat -> list byte -> list byte.
Variable decrypt : N -> list byte -> res (list byte).
Hypothesis CO : codecs_ok compress decompress encrypt decrypt.
Variable src : source.
Hypothesis SO : settings_ok src.
Variable wal_crc : bool.
Variable names : list byte -> option N.
Variable strtod : list byte -> option (N * nat).
Variable e : env.
Notation absd := (absd decompress decrypt).
Notation dc := (dir_content decompress decrypt).
Notation rd := (eread decompress decrypt wal_crc).
Notation einv := (einv decompress decrypt src wal_crc).
Notation trun := (trun compress decompress encrypt decrypt src wal_crc names strtod e).
Notation tstep := (tstep compress decompress encrypt decrypt src wal_crc names strtod e).
Notation btell := (btell compress decompress encrypt decrypt src wal_crc names strtod e).
Notation bstopped := (bstopped compress decompress encrypt decrypt src wal_crc names strtod e).
Notation top_fine := (top_fine compress decompress encrypt decrypt src wal_crc names strtod e).
Notation thist_fine := (thist_fine compress decompress encrypt decrypt src wal_crc names strtod e).
Notation tacked := (tacked compress decompress encrypt decrypt src wal_crc names strtod e).
Notation btext_fine := (btext_fine compress decompress encrypt decrypt src wal_crc names strtod e).
Notation reaches := (breachable compress decompress encrypt decrypt src wal_crc names strtod e).

Lemma breach_inv lo R w h : reaches lo R w h -> exists H a, einv lo R w H a /\ map snd H = h.
Proof.
  intros (sts & iv & serial & page & ops & L & ST & F & E & -> & ->).
  destruct (trun_run compress decompress encrypt decrypt CO src SO wal_crc names strtod e lo ops [] _ [] [(1, [])]
    (einv_new decompress decrypt src wal_crc lo sts iv serial page L ST) F) as (w' & H & a & E' & I & EH).
  assert (w' = w) by congruence. subst. eauto.
Qed.

Lemma btexts_history : forall lo storages iv serial page ops, limits lo iv -> storages_ok storages ->
  thist_fine lo [] (whole_new src storages iv serial page) ops ->
  exists w, trun (whole_new src storages iv serial page) ops = Ok w /\
    (forall x, wsees w x <-> current (tacked (whole_new src storages iv serial page) ops []) x) /\
    forall key, start_fine lo key ->
    exists out n, (forall fuel, (n < fuel)%nat -> monotone_scan fuel (en_map (wh_en w)) key = Ok (Some out)) /\
      ascending out /\
      forall x, In x out <-> current (tacked (whole_new src storages iv serial page) ops []) x /\ from key x.
Proof.
  intros lo sts iv serial page ops L ST F.
  destruct (trun_run compress decompress encrypt decrypt CO src SO wal_crc names strtod e lo ops [] _ [] [(1, [])]
    (einv_new decompress decrypt src wal_crc lo sts iv serial page L ST) F) as (w & H & a & E & I & EH).
  cbn [map] in EH. exists w. split; auto.
  assert (V : forall x, wsees w x <-> current (tacked (whole_new src sts iv serial page) ops []) x).
  { intros x. rewrite <- EH. exact (esees decompress decrypt src wal_crc lo _ w H a x I). }
  split; auto. intros key Hk. destruct (scan_engine lo (en_map (wh_en w)) key) as (out & n & H1 & H2 & H3).
  - apply (bi_map _ _ _ (dv_b _ _ _ _ (ev_d _ _ _ _ _ _ _ _ _ I))).
  - destruct key as [k|]; auto. destruct Hk as (A1 & A2 & A3). split; [split; auto|].
    intros s _. apply past_keys_keyless; auto.
  - exists out, n. split; auto. split; auto. intros x. rewrite H3.
    fold (parts (wh_en w)). fold (wsees w x). rewrite V. tauto.
Qed.

Lemma btexts_says : forall lo R w h x text ts, reaches lo R w h -> btext_fine lo R w x text -> tokens strtod text ts ->
  exists p b, btell x w text = Ok p /\ shows decompress decrypt (bp_whole p) b /\ bp_end p <> Endless /\
    (bp_end p = Waits -> exists j s, In j (wh_jobs w) /\ In s (mapping_list (en_map (wh_en w))) /\ jb_ref j = s_min s) /\
    (forall c, sentence (env_at e (rd w)) (with_units ts) (Some c) -> wh_jobs w = [] -> does names (rd w) c b (bp_end p)) /\
    (sentence (env_at e (rd w)) (with_units ts) None -> bp_whole p = w /\ bp_end p = Done) /\
    ((forall c, ~ sentence (env_at e (rd w)) (with_units ts) c) -> bp_whole p = w /\ bp_end p = Failed).
Proof.
  intros lo R w h x text ts RE F T. destruct (breach_inv lo R w h RE) as (H & a & I & _).
  destruct (btell_run compress decompress encrypt decrypt CO src SO wal_crc names strtod e lo R w H a x text I F)
    as (ER & p & q & Eq & Ep & (L & Ee & Br & a' & G) & PA & AF).
  destruct F as (FS & TF & _).
  assert (D : dinv lo R (rd w) H) by (rewrite ER; apply I).
  destruct (tell_run names strtod e lo R H (rd w) text D TF) as (q' & Eq' & _ & [N1 N2] & Q).
  assert (q' = q) by congruence. subst q'. clear Eq'. destruct (Q ts T) as (Q1 & _ & _).
  exists p, (rp_db q). split; [exact Ep|]. rewrite Ee.
  split; [destruct G as (<- & _); repeat split|]. split; [exact N1|].
  split; [|split; [exact Q1|]].
  - intros W. destruct (N2 W) as (s & Hs & j & Hj & Ej). exists j, s. auto.
  - rewrite <- Ee. unfold WholeOrders.btell in Ep. unfold tell in Eq.
    change (env_at e (rd w)) with (mk_env (en_uuid e) (en_key e) (en_compression e) (en_level e) (Model.Engine.en_interval (wh_en w))) in *. split.
    + intros S. assert (X : parse strtod (mk_env (en_uuid e) (en_key e) (en_compression e) (en_level e) (Model.Engine.en_interval (wh_en w))) text = Ok None)
        by (apply accepts; eauto). rewrite X in Ep. inversion Ep. auto.
    + intros NS. destruct (parse strtod _ text) as [o| |] eqn:X; try discriminate Ep.
      * exfalso. apply accepts in X as (us & T1 & S1). rewrite (tokens_same strtod text us ts T1 T) in S1. elim (NS _ S1).
      * inversion Ep. auto.
Qed.

Lemma btexts_stop : forall lo R w h x text n cuts ids, reaches lo R w h ->
  top_fine lo R w (TStop x text n cuts ids) ->
  exists w1 w2, bstopped w x text n = Ok w1 /\ tstep w (TStop x text n cuts ids) = Ok w2 /\
    tidy (dc (wh_dir w2)) /\
    (forall y, wsees w1 y <-> wsees w y /\ gone (missed w w1) (ev_id y) = false) /\
    (forall y, wsees w2 y <-> wsees w1 y).
Proof.
  intros lo R w h x text n cuts ids RE [F FC]. destruct (breach_inv lo R w h RE) as (H & a & I & _).
  destruct (stopped_run compress decompress encrypt decrypt CO src SO wal_crc names strtod e lo R w H a x text n I F)
    as (w1 & a1 & H1 & E1 & I1 & EH). rewrite E1 in FC.
  destruct (stop_sim compress decompress encrypt decrypt src wal_crc lo _ w1 H1 a1 cuts ids I1 FC) as (w2 & X & E2 & I2 & TI & _).
  exists w1, w2. split; auto. split.
  { unfold Spec.WholeOrders.bstopped in E1. cbn [WholeOrders.tstep]. destruct (btell x w text) as [p| |]; try discriminate E1. cbn [bind].
    rewrite E1. cbn [bind]. exact E2. }
  split; auto. split.
  - intros y. change (missed w w1) with (vanished (absd w a) (absd w1 a1)). apply (mid_sees lo R H (absd w a) (absd w1 a1)); [apply I|].
    exists H1. split; [apply I1|exact EH].
  - intros y. rewrite (esees decompress decrypt src wal_crc lo _ w2 H1 _ y I2), (esees decompress decrypt src wal_crc lo _ w1 H1 a1 y I1). tauto.
Qed.
Lemma btexts_gone : forall lo R w h, reaches lo R w h ->
  (forall x, wsees w x -> gone R (ev_id x) = false) /\
  (forall s r, In s (mapping_list (en_map (wh_en w))) -> In r R -> forall x, in_range x r -> ~ in_range x (range_of s)).
Proof.
  intros lo R w h DR. destruct (breach_inv lo R w h DR) as (H & a & I & _). split.
  - intros x Se. apply (esees decompress decrypt src wal_crc lo R w H a x I) in Se as [Se _]. apply last_write_in in Se as [Se _].
    apply in_map_iff in Se as (y & <- & Hx). eapply dinv_gone; eauto. apply I.
  - intros s r Hs Hr x X1 X2. destruct I as [D _ _].
    assert (G : gone R x = true) by (apply gone_in; eauto).
    pose proof (gone_slice lo R (absd w a) H x D G) as N0. cbn [WholeS.absd db_en] in N0.
    unfold part_slice in N0. apply in_slice in X2. eapply find_none in N0; eauto. congruence.
Qed.
End Texts.
