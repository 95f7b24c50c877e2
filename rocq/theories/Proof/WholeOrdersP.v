(* Texts over bytes do what texts over records do. *)
From Coq Require Import NArith ZArith List Bool Lia Arith Permutation Sorted.
Import ListNotations.
From Verif Require Import Model.Base Model.Show Model.Lex Model.Parse Spec.Units Spec.Command.
From Verif Require Import Model.Rbtree Model.Event Model.Memtable Model.Mapping Model.PartIter Model.Merge Model.Scan Model.Codec
  Model.File Model.Wal Model.Writer Model.Engine Spec.Order Spec.Checksum Spec.Codecs Spec.Layout Spec.Regions Spec.Files Spec.Merged
  Spec.View Spec.Engine Spec.Log Spec.FileLimits
  Proof.WalP Proof.MappingL Proof.PartIterL Proof.EngineL Proof.EngineP Proof.EngineR Proof.MappingX Proof.ScanL Proof.CrashW Proof.CrashH Proof.DirL Proof.CrashD Proof.CrashP Proof.CrashT
  Proof.Cells Proof.DropsL Proof.DropsR Proof.DropsP Proof.DropsT
  Proof.OrdersL Proof.OrdersP Proof.OrdersT Proof.OrdersH
  Proof.WholeD Proof.WholeL Proof.WholeS Proof.WholeP Proof.WholeDropsL Proof.WholeDropsP.
From Verif Require Import Model.Crash Model.Orders Spec.Crash Spec.Drops Spec.Orders Model.Whole Spec.Whole Model.WholeDrops Spec.WholeDrops
  Model.WholeOrders Spec.WholeOrders.
Local Arguments N.pow : simpl never.
Local Arguments N.add : simpl never.
Local Open Scope N_scope.

Section Sim.
Variable compress : N -> nat -> list byte -> list byte.
Variable decompress : N -> list byte -> N -> res (list byte).
Variable encrypt : N -> nat -> list byte -> list byte.
Variable decrypt : N -> list byte -> res (list byte).
Hypothesis CO : codecs_ok compress decompress encrypt decrypt.
Variable src : source.
Hypothesis SO : settings_ok src.
Variable wal_crc : bool.
Notation absd := (absd decompress decrypt).
Notation dc := (dir_content decompress decrypt).
Notation bstep := (bstep compress decompress encrypt decrypt src wal_crc).
Notation brun := (brun compress decompress encrypt decrypt src wal_crc).
Notation acts_fine := (acts_fine compress decompress encrypt decrypt src wal_crc).
Notation einv := (einv decompress decrypt src wal_crc).
Notation bperform := (bperform compress decompress encrypt decrypt src wal_crc).

(* the same database, over bytes and over records *)
Definition good (w : whole) (a : log) (b : db) : Prop :=
  absd w a = b /\ wlog wal_crc (wh_wal w) a /\ en_region (wh_en w) = Z.to_N (so_region_size src mod 2 ^ 32).
Definition fit lo (b : db) : Prop := exists R H, dinv lo R b H.

Lemma offload_sim w a id : absd (whole_offload w id) a = db_offload (absd w a) id.
Proof.
  unfold whole_offload, db_offload. cbn [WholeS.absd db_en db_home db_dir].
  destruct (part_slice (en_map (wh_en w)) id) as [s|]; auto. destruct (pt_file (s_data s)); auto.
  unfold WholeS.absd, with_dir, put_dir, put_bare, with_en, bare.
  cbn [wh_en wh_storages wh_home wh_dir wh_jobs db_en db_storages db_home db_dir db_log db_jobs].
  rewrite dc_set, dc_get. f_equal.
Qed.
Lemma offload_fields w id : wh_wal (whole_offload w id) = wh_wal w /\ en_region (wh_en (whole_offload w id)) = en_region (wh_en w).
Proof. unfold whole_offload. destruct (part_slice _ _); auto. destruct (pt_file _); auto. Qed.

Lemma act_sim lo x w a b o ba b' : good w a b -> fit lo b -> as_bytes x o = Some ba -> act_fine compress encrypt src w ba ->
  astep b o = Ok b' -> exists w' a', bstep w ba = Ok w' /\ good w' a' b'.
Proof.
  intros (<- & WL & RG) (R & H & D) L F E. destruct o as [o|id]; cbn [as_bytes] in L.
  - cbn [astep] in E. destruct o as [| id to|ref| | |id|mn mx| | | |]; try discriminate L; inversion L; subst ba; clear L; cbn [WholeOrders.bstep estep wstops wstep] in *.
    + cbn [cstep] in E. rewrite begin_sim in E. destruct (db_begin (bare w) id to) as [b1| |] eqn:E1; try discriminate E.
      cbn [rmap bind] in *. inversion E; subst b'. exists (put_bare w b1), a. split; auto. split; auto.
      destruct (begin_fields _ _ _ _ E1) as [F1 F2]. split; auto. cbn [put_bare wh_en]. rewrite F2. auto.
    + cbn [cstep] in E. cbn [act_fine] in F.
      rewrite (step_sim compress decompress encrypt decrypt CO src SO lo w (quiet R (absd w a)) H a ref (x ref) (dv_b _ _ _ _ D) eq_refl RG F) in E.
      destruct (whole_step compress encrypt src w ref (x ref)) as [w'| |] eqn:E1; try discriminate E. cbn [rmap] in E. inversion E; subst b'.
      exists w', a. split; auto. destruct (step_fields compress encrypt src w ref (x ref) w' E1) as (F0 & F1 & F2).
      split; auto. rewrite F0, F2. auto.
    + cbn [cstep] in E. cbn [WholeS.absd db_en db_jobs] in E.
      change (mk_db (wh_en w) (wh_storages w) (wh_home w) (dc (wh_dir w)) (map lrec_of (log_recs a)) (wh_jobs w)) with (absd w a) in E.
      destruct (existsb _ (wh_jobs w)); [discriminate E|].
      pose proof (bi_map _ _ _ (dv_b _ _ _ _ D)) as IM. cbn [quiet with_log WholeS.absd db_en] in IM.
      pose proof (part_slice_spec lo _ id (mi_map _ _ IM)) as PS.
      destruct (part_slice (en_map (wh_en w)) id) as [s|] eqn:Es.
      * assert (Hi : id < 2^64).
        { destruct PS as [Hs Hr]. pose proof (gm_near _ _ (mi_map _ _ IM)) as NR. rewrite Forall_forall in NR.
          specialize (NR (range_of s) (in_map _ _ _ Hs)). pose proof (gm_lo _ _ (mi_map _ _ IM)) as LO. rewrite u64_max_eq in LO.
          unfold near, in_range in *. lia. }
        pose proof (drop_sim decompress decrypt wal_crc w a id WL Hi) as S. rewrite E in S.
        destruct S as (w' & Y & S1 & S2 & S3 & S4 & _). rewrite S1. exists w', (put_last a Y). split; auto. split; auto. split; auto. congruence.
      * unfold db_drop in E. cbn [WholeS.absd db_en] in E. rewrite Es in E. inversion E; subst b'.
        unfold whole_drop. rewrite Es. exists w, a. split; auto. split; auto.
    + cbn [cstep] in E. cbn [WholeS.absd db_en] in E.
      destruct (engine_fill part_new (en_map (wh_en w)) mn mx) as [m| |]; try discriminate E. cbn [bind] in *. inversion E; subst b'.
      eexists. exists a. split; [reflexivity|]. split; auto.
  - inversion L; subst ba. cbn [astep] in E. inversion E; subst b'. cbn [WholeOrders.bstep]. exists (whole_offload w id), a. split; auto.
    destruct (offload_fields w id) as [F1 F2]. split; [apply offload_sim|]. rewrite F1, F2. auto.
Qed.

Definition lifts (x : N -> extra) : list act -> list bact -> Prop := Forall2 (fun o ba => as_bytes x o = Some ba).
Lemma acts_sim lo x acts bacts : lifts x acts bacts -> forall w a b b', good w a b -> path (fit lo) b acts b' -> acts_fine x w acts ->
  exists w' a', brun w bacts = Ok w' /\ good w' a' b'.
Proof.
  induction 1 as [|o ba acts bacts L _ IH]; intros w a b b' G P F; cbn [WholeOrders.brun].
  - inversion P; subst. eauto.
  - inversion P as [|? ? ? b1 ? Pb E P']; subst. cbn [Spec.WholeOrders.acts_fine] in F. rewrite L in F. destruct F as [F1 F2].
    destruct (act_sim lo x w a b o ba b1 G Pb L F1 E) as (w1 & a1 & E1 & G1). rewrite E1 in *. cbn [bind]. eapply IH; eauto.
Qed.
Lemma lifts_app x l1 l2 b1 b2 : lifts x l1 b1 -> lifts x l2 b2 -> lifts x (l1 ++ l2) (b1 ++ b2).
Proof. apply Forall2_app. Qed.
Lemma lifts_firstn x l bl : lifts x l bl -> forall n, lifts x (firstn n l) (firstn n bl).
Proof. induction 1 as [|o ba l bl L _ IH]; intros [|n]; cbn [firstn]; constructor; auto. apply IH. Qed.
Lemma path_firstn P b l b' : path P b l b' -> forall n, exists b1, path P b (firstn n l) b1.
Proof.
  induction 1 as [b A|b a l c1 c2 A E L IH]; intros n.
  - exists b. destruct n; constructor; auto.
  - destruct n as [|n]; [exists b; constructor; auto|]. destruct (IH n) as (b1 & X). exists b1. cbn [firstn]. econstructor; eauto.
Qed.
Lemma path_split P l1 : forall b l2 b', path P b (l1 ++ l2) b' -> exists b1, path P b l1 b1 /\ path P b1 l2 b'.
Proof.
  induction l1 as [|o l1 IH]; intros b l2 b' X; cbn [app] in X.
  - exists b. split; auto. constructor. inversion X; auto.
  - inversion X as [|? ? ? b1 ? Pb E X']; subst. apply IH in X' as (b2 & A & B). exists b2. split; auto. econstructor; eauto.
Qed.
Lemma acts_fine_firstn x l : forall w, acts_fine x w l -> forall n, acts_fine x w (firstn n l).
Proof.
  induction l as [|o l IH]; intros w F [|n]; cbn [firstn Spec.WholeOrders.acts_fine] in *; auto.
  destruct (as_bytes x o) as [ba|]; auto. destruct F as [F1 F2]. split; auto. destruct (bstep w ba); auto.
Qed.
Lemma acts_fine_split x l1 bl1 : lifts x l1 bl1 -> forall w l2, acts_fine x w (l1 ++ l2) ->
  acts_fine x w l1 /\ forall w', brun w bl1 = Ok w' -> acts_fine x w' l2.
Proof.
  induction 1 as [|o ba l bl L _ IH]; intros w l2 F; cbn [app Spec.WholeOrders.acts_fine WholeOrders.brun] in *.
  - split; auto. intros w' E. inversion E; subst; auto.
  - rewrite L in *. destruct F as [F1 F2]. destruct (bstep w ba) as [w1| |]; cbn [bind].
    + destruct (IH w1 l2 F2) as [A B]. auto.
    + split; auto. discriminate.
    + split; auto. discriminate.
Qed.

(* reports that tell the same *)
Definition rel (x : N -> extra) (w : whole) (p : breport) (q : report) : Prop :=
  lifts x (rp_acts q) (bp_acts p) /\ bp_end p = rp_end q /\ brun w (bp_acts p) = Ok (bp_whole p) /\ exists a, good (bp_whole p) a (rp_db q).
Definition can lo x w (q : report) b : Prop := path (fit lo) b (rp_acts q) (rp_db q) /\ acts_fine x w (rp_acts q).

Lemma nothing_sim lo x w a b o q : good w a b -> nothing b o = Ok q -> can lo x w q b ->
  exists p, bnothing w o = Ok p /\ rel x w p q.
Proof.
  intros G E C. inversion E; subst q. eexists. split; [reflexivity|]. split; [constructor|]. split; auto. split; auto. exists a. auto.
Qed.
Lemma perform_sim lo x w a b l bl q : good w a b -> lifts x l bl -> perform b l = Ok q -> can lo x w q b ->
  exists p, bperform w bl = Ok p /\ rel x w p q.
Proof.
  intros G L E [P F]. unfold perform in E. destruct (arun b l) as [b'| |] eqn:ER; try discriminate E. cbn [bind] in E. inversion E; subst q.
  cbn [rp_acts rp_db] in *. destruct (acts_sim lo x l bl L w a b b' G P F) as (w' & a' & E' & G').
  unfold WholeOrders.bperform. rewrite E'. cbn [bind]. eexists. split; [reflexivity|]. split; auto. split; auto. split; auto. exists a'. auto.
Qed.

(* one partition *)
Definition same_one lo x (one : db -> N -> bool -> res report) (bone : whole -> N -> bool -> res breport) : Prop :=
  forall w a b id ie q, good w a b -> one b id ie = Ok q -> can lo x w q b -> exists p, bone w id ie = Ok p /\ rel x w p q.
Definition runs_one (one : db -> N -> bool -> res report) : Prop :=
  forall b id ie q, one b id ie = Ok q -> arun b (rp_acts q) = Ok (rp_db q).
Lemma with_part_sim lo x w a b id ie k bk q : good w a b -> with_part b id ie k = Ok q -> can lo x w q b ->
  (forall s, k s = Ok q -> exists p, bk s = Ok p /\ rel x w p q) ->
  exists p, bwith_part w id ie bk = Ok p /\ rel x w p q.
Proof.
  intros G E C K. unfold with_part in E. unfold bwith_part. pose proof G as (GE & _).
  assert (HM : en_map (db_en b) = en_map (wh_en w)) by (rewrite <- GE; reflexivity).
  assert (HJ : db_jobs b = wh_jobs w) by (rewrite <- GE; reflexivity). rewrite HM, HJ in E.
  destruct (part_slice (en_map (wh_en w)) id) as [s|]; [|eapply nothing_sim; eauto].
  destruct (existsb _ (wh_jobs w)); [eapply nothing_sim; eauto|auto].
Qed.
Lemma perform_runs b l q : perform b l = Ok q -> arun b (rp_acts q) = Ok (rp_db q).
Proof. unfold perform. destruct (arun b l) as [b'| |] eqn:E; try discriminate. cbn [bind]. intros X. inversion X; subst. auto. Qed.
Lemma nothing_runs b o q : nothing b o = Ok q -> arun b (rp_acts q) = Ok (rp_db q).
Proof. intros X. inversion X; subst. auto. Qed.
Lemma with_part_runs b id ie k q : with_part b id ie k = Ok q -> (forall s, k s = Ok q -> arun b (rp_acts q) = Ok (rp_db q)) ->
  arun b (rp_acts q) = Ok (rp_db q).
Proof.
  unfold with_part. intros E K. destruct (part_slice _ _); [|eapply nothing_runs; eauto].
  destruct (existsb _ _); [eapply nothing_runs; eauto|eauto].
Qed.

Lemma drop_one lo x mask : same_one lo x (order_drop mask) (border_drop compress decompress encrypt decrypt src wal_crc mask).
Proof.
  intros w a b id ie q G E C. unfold order_drop, border_drop in *. eapply with_part_sim; eauto. intros s Es. cbv beta in *.
  destruct (mask =? N.lor ID ID_CLOUD); [eapply perform_sim; eauto; repeat constructor|].
  destruct (has mask ID); [eapply perform_sim; eauto; repeat constructor|eapply nothing_sim; eauto].
Qed.
Lemma drop_runs mask : runs_one (order_drop mask).
Proof.
  intros b id ie q E. eapply with_part_runs; eauto. intros s Es. cbv beta in *.
  destruct (mask =? N.lor ID ID_CLOUD); [eapply perform_runs; eauto|].
  destruct (has mask ID); [eapply perform_runs; eauto|eapply nothing_runs; eauto].
Qed.
Variable names : list byte -> option N.
Lemma refresh_one lo x to : same_one lo x (order_refresh names to) (border_refresh compress decompress encrypt decrypt src wal_crc names x to).
Proof.
  intros w a b id ie q G E C. unfold order_refresh, border_refresh in *. eapply with_part_sim; eauto. intros s Es. cbv beta zeta in *.
  pose proof G as (GE & _).
  assert (HH : db_home b = wh_home w) by (rewrite <- GE; reflexivity).
  destruct to as [name|]; [|eapply perform_sim; eauto; repeat constructor].
  destruct (names name) as [st|]; [|eapply nothing_sim; eauto]. rewrite HH in Es.
  destruct (st =? wh_home w (s_min s)); [eapply nothing_sim; eauto|]. eapply perform_sim; eauto; repeat constructor.
Qed.
Lemma refresh_runs to : runs_one (order_refresh names to).
Proof.
  intros b id ie q E. eapply with_part_runs; eauto. intros s Es. cbv beta zeta in *.
  destruct to as [name|]; [|eapply perform_runs; eauto].
  destruct (names name) as [st|]; [|eapply nothing_runs; eauto].
  destruct (st =? db_home b (s_min s)); [eapply nothing_runs; eauto|eapply perform_runs; eauto].
Qed.
Lemma copy_one lo x ic : same_one lo x (order_copy ic) (border_copy ic).
Proof.
  intros w a b id ie q G E C. unfold order_copy, border_copy in *. eapply with_part_sim; eauto. intros s Es. eapply nothing_sim; eauto.
Qed.
Lemma copy_runs ic : runs_one (order_copy ic).
Proof.
  intros b id ie q E. unfold order_copy in E. eapply with_part_runs; [exact E|]. intros s Es. cbv beta in Es. eapply nothing_runs; eauto.
Qed.

Lemma brun_app l1 : forall w l2 w1, brun w l1 = Ok w1 -> brun w (l1 ++ l2) = brun w1 l2.
Proof.
  induction l1 as [|o l1 IH]; intros w l2 w1 E; cbn [app WholeOrders.brun] in *; [inversion E; auto|].
  destruct (bstep w o); try discriminate E. cbn [bind] in *. auto.
Qed.
Lemma loop_sim lo x one bone mx : same_one lo x one bone -> runs_one one -> forall fuel w a b mn q, good w a b ->
  order_loop fuel one b mn mx = Ok q -> can lo x w q b ->
  exists p, border_loop fuel bone w mn mx = Ok p /\ rel x w p q.
Proof.
  intros SM RN. induction fuel as [|fuel IH]; intros w a b mn q G E C; cbn [order_loop border_loop] in *.
  - eapply nothing_sim; eauto.
  - pose proof G as (GE & _). assert (HM : en_map (db_en b) = en_map (wh_en w)) by (rewrite <- GE; reflexivity). rewrite HM in E.
    destruct (engine_foreach part_new (en_map (wh_en w)) mn mx) as [[[id next]|]| |]; try discriminate E; cbn [bind] in *;
      [|eapply nothing_sim; eauto].
    destruct (one b id true) as [q1| |] eqn:E1; try discriminate E. cbn [bind] in E.
    assert (CASE : rp_end q1 <> Done -> Ok q1 = Ok q -> exists p, bind (bone w id true) (fun p => match bp_end p with
          | Done => bind (border_loop fuel bone (bp_whole p) next mx) (fun q => Ok (mk_breport (bp_acts p ++ bp_acts q) (bp_whole q) (bp_end q)))
          | _ => Ok p end) = Ok p /\ rel x w p q).
    { intros ND X. inversion X; subst q1. destruct (SM w a b id true q G E1 C) as (p & Ep & Rp). rewrite Ep. cbn [bind].
      exists p. split; auto. destruct Rp as (_ & Re & _). rewrite Re. destruct (rp_end q); congruence. }
    destruct (rp_end q1) eqn:EE; try (apply CASE; [discriminate|exact E]).
    destruct (order_loop fuel one (rp_db q1) next mx) as [q2| |] eqn:E2; try discriminate E. cbn [bind] in E. inversion E; subst q. clear E.
    destruct C as [P F]. cbn [rp_acts rp_db] in P, F. apply path_split in P as (b1 & P1 & P2).
    assert (EB : b1 = rp_db q1). { pose proof (path_run _ _ _ _ P1) as Y. rewrite (RN _ _ _ _ E1) in Y. congruence. } subst b1.
    destruct (SM w a b id true q1 G E1) as (p1 & Ep1 & L1 & Re1 & Br1 & a1 & G1).
    { split; auto. replace (rp_acts q1) with (firstn (length (rp_acts q1)) (rp_acts q1 ++ rp_acts q2)).
      - apply acts_fine_firstn. exact F.
      - rewrite firstn_app, Nat.sub_diag, firstn_all. apply app_nil_r. }
    rewrite Ep1. cbn [bind]. rewrite Re1, EE.
    destruct (IH (bp_whole p1) a1 (rp_db q1) next q2 G1 E2) as (p2 & Ep2 & L2 & Re2 & Br2 & a2 & G2).
    { split; auto. apply (acts_fine_split x _ _ L1 w (rp_acts q2) F). exact Br1. }
    rewrite Ep2. cbn [bind]. eexists. split; [reflexivity|]. unfold rel. cbn [bp_acts bp_end bp_whole rp_acts rp_end rp_db].
    split; [apply lifts_app; auto|]. split; auto. split; [|exists a2; auto]. rewrite (brun_app _ _ _ _ Br1). exact Br2.
Qed.
Lemma range_sim lo x one bone w a b mn mx q : same_one lo x one bone -> runs_one one -> good w a b ->
  order_range one b mn mx = Ok q -> can lo x w q b ->
  exists p, border_range bone w mn mx = Ok p /\ rel x w p q.
Proof.
  intros SM RN G E C. unfold order_range, border_range in *. pose proof G as (GE & _).
  assert (HM : en_map (db_en b) = en_map (wh_en w)) by (rewrite <- GE; reflexivity). rewrite HM in E. eapply loop_sim; eauto.
Qed.

Notation border := (border compress decompress encrypt decrypt src wal_crc names).
Lemma order_sim lo x w a b c q : good w a b -> fit lo b -> order names b c = Ok q -> can lo x w q b ->
  exists p, border x w c = Ok p /\ rel x w p q.
Proof.
  intros G FI E C. destruct c; cbn [order WholeOrders.border] in *; try (eapply nothing_sim; eauto; fail);
    try (eapply range_sim; eauto; [apply drop_one|apply drop_runs]; fail);
    try (eapply range_sim; eauto; [apply refresh_one|apply refresh_runs]; fail);
    try (eapply range_sim; eauto; [apply copy_one|apply copy_runs]; fail);
    try (eapply drop_one; eauto; fail); try (eapply refresh_one; eauto; fail); try (eapply copy_one; eauto; fail).
  destruct (cstep b (CCreate min max)) as [b'| |] eqn:EC; try discriminate E.
  - inversion E; subst q. cbn [rp_acts rp_db] in C. destruct C as [P F]. cbn [Spec.WholeOrders.acts_fine as_bytes] in F. destruct F as [F1 F2].
    destruct (act_sim lo x w a b (Do (CCreate min max)) _ b' G FI eq_refl F1 EC) as (w' & a' & E1 & G1). rewrite E1.
    eexists. split; [reflexivity|]. split; [repeat constructor|]. split; auto. split; [|exists a'; auto].
    cbn [bp_acts bp_whole WholeOrders.brun]. rewrite E1. auto.
  - destruct (bstep w (BDo (EDo (WCreate min max)))) as [w'| |] eqn:E1.
    + exfalso. destruct G as (<- & _). cbn [cstep WholeS.absd db_en] in EC. cbn [WholeOrders.bstep estep wstops wstep] in E1.
      destruct (engine_fill _ _ _ _); discriminate.
    + eapply nothing_sim; eauto.
    + exfalso. destruct G as (<- & _). cbn [cstep WholeS.absd db_en] in EC. cbn [WholeOrders.bstep estep wstops wstep] in E1.
      destruct (engine_fill _ _ _ _); discriminate.
Qed.
Variable strtod : list byte -> option (N * nat).
Variable e : env.
Notation btell := (btell compress decompress encrypt decrypt src wal_crc names strtod e).
Lemma tell_sim lo x w a b text q : good w a b -> fit lo b -> tell names strtod e b text = Ok q -> can lo x w q b ->
  exists p, btell x w text = Ok p /\ rel x w p q.
Proof.
  intros G FI E C. unfold tell, env_at in E. unfold WholeOrders.btell. pose proof G as (GE & _).
  assert (HE : db_en b = wh_en w) by (rewrite <- GE; reflexivity). rewrite HE in E.
  destruct (parse strtod _ text) as [[c|]| |]; try discriminate E; [eapply order_sim; eauto|eapply nothing_sim; eauto|eapply nothing_sim; eauto].
Qed.

(* --- texts and histories --- *)
Notation text_ok := (btext_fine compress decompress encrypt decrypt src wal_crc names strtod e).
Notation rd := (eread decompress decrypt wal_crc).
Lemma einv_good lo R w H a : einv lo R w H a -> good w a (absd w a).
Proof. intros [D WL RG]. split; auto. Qed.
Lemma good_einv lo R w H a b : good w a b -> dinv lo R b H -> einv lo R w H a.
Proof. intros (<- & WL & RG) D. constructor; auto. Qed.
Lemma btell_run lo R w H a x text : einv lo R w H a -> text_ok lo R w x text ->
  rd w = absd w a /\
  exists p q, tell names strtod e (rd w) text = Ok q /\ btell x w text = Ok p /\ rel x w p q /\
    path (midx lo R H (rd w)) (rd w) (rp_acts q) (rp_db q) /\ acts_fine x w (rp_acts q).
Proof.
  intros I (FS & TF & AF). destruct (eread_absd decompress decrypt wal_crc w a (ev_log _ _ _ _ _ _ _ _ _ I) FS) as [ER _]. split; auto.
  assert (D : dinv lo R (rd w) H) by (rewrite ER; apply I).
  destruct (tell_run names strtod e lo R H (rd w) text D TF) as (q & E & PA & _).
  specialize (AF q E).
  destruct (tell_sim lo x w a (rd w) text q) as (p & Ep & Rp); auto.
  - rewrite ER. eapply einv_good; eauto.
  - exists R, H. exact D.
  - split; auto. eapply path_impl; [|exact PA]. intros b' (H' & D' & _). unfold fit. eauto.
  - exists p, q. auto.
Qed.
Lemma missed_vanished w w' a a' : missed w w' = vanished (absd w a) (absd w' a').
Proof. reflexivity. Qed.
Notation tstep := (tstep compress decompress encrypt decrypt src wal_crc names strtod e).
Notation tlost := (tlost compress decompress encrypt decrypt src wal_crc names strtod e).
Notation top_fine := (top_fine compress decompress encrypt decrypt src wal_crc names strtod e).
Notation bstopped := (bstopped compress decompress encrypt decrypt src wal_crc names strtod e).
Lemma stopped_run lo R w H a x text n : einv lo R w H a -> text_ok lo R w x text ->
  exists w1 a1 H1, bstopped w x text n = Ok w1 /\ einv lo (missed w w1 ++ R) w1 H1 a1 /\
    map snd H1 = filter (fun e => negb (gone (missed w w1) (ev_id e))) (map snd H).
Proof.
  intros I F. destruct (btell_run lo R w H a x text I F) as (ER & p & q & Eq & Ep & (L & Ee & Br & a' & G) & PA & AF).
  destruct (path_firstn _ _ _ _ PA n) as (b1 & P1). pose proof (path_end _ _ _ _ P1) as (H1 & D1 & EH1).
  destruct (acts_sim lo x _ _ (lifts_firstn x _ _ L n) w a (rd w) b1) as (w1 & a1 & E1 & G1).
  - rewrite ER. eapply einv_good; eauto.
  - eapply path_impl; [|exact P1]. intros b' (H' & D' & _). unfold fit. eauto.
  - apply acts_fine_firstn. exact AF.
  - exists w1, a1, H1. unfold Spec.WholeOrders.bstopped. rewrite Ep. split; auto.
    assert (EV : missed w w1 = vanished (rd w) b1) by (destruct G1 as (<- & _); rewrite ER; apply missed_vanished).
    rewrite EV. split; auto. eapply good_einv; eauto.
Qed.
Lemma tstep_run lo R w H a h : einv lo R w H a -> top_fine lo R w h ->
  exists w' H' a', tstep w h = Ok w' /\ einv lo (tlost w h ++ R) w' H' a' /\
    map snd H' = filter (fun x' => negb (gone (tlost w h) (ev_id x'))) (tack w h (map snd H)).
Proof.
  intros I F. destruct h as [x text|x text n cuts ids|o]; cbn [Spec.WholeOrders.top_fine tack] in *.
  - destruct (btell_run lo R w H a x text I F) as (ER & p & q & Eq & Ep & (L & Ee & Br & a' & G) & PA & AF).
    destruct (path_end _ _ _ _ PA) as (H' & D' & EH).
    assert (EE : tstep w (TSay x text) = Ok (bp_whole p)) by (cbn [WholeOrders.tstep]; rewrite Ep; auto).
    exists (bp_whole p), H', a'. split; auto. unfold Spec.WholeOrders.tlost. rewrite EE.
    assert (EV : missed w (bp_whole p) = vanished (rd w) (rp_db q)) by (destruct G as (<- & _); rewrite ER; apply missed_vanished).
    rewrite EV. split; auto. eapply good_einv; eauto.
  - destruct F as [F FC]. destruct (stopped_run lo R w H a x text n I F) as (w1 & a1 & H1 & E1 & I1 & EH). rewrite E1 in FC.
    destruct (stop_sim compress decompress encrypt decrypt src wal_crc lo _ w1 H1 a1 cuts ids I1 FC) as (w2 & X & E2 & I2 & _).
    exists w2, H1, (put_last a1 X). unfold Spec.WholeOrders.tlost. rewrite E1. split; auto.
    unfold Spec.WholeOrders.bstopped in E1. cbn [WholeOrders.tstep]. destruct (btell x w text) as [p| |]; try discriminate E1. cbn [bind].
    rewrite E1. cbn [bind]. exact E2.
  - pose proof (estep_spec compress decompress encrypt decrypt CO src SO wal_crc lo R w H a o I F) as X. unfold estep_ok in X.
    unfold Spec.WholeOrders.tlost. cbn [WholeOrders.tstep WholeOrders.bstep].
    destruct (estep compress decompress encrypt decrypt src wal_crc w o) as [w'| |]; [| |contradiction].
    + destruct X as (H' & a' & I' & EH). exists w', H', a'. auto.
    + destruct X as [X1 X2]. rewrite X1. exists w, H, a. split; auto. split; auto. rewrite X2. symmetry. apply filter_none.
Qed.
Lemma trun_run lo : forall l R w H a, einv lo R w H a ->
  thist_fine compress decompress encrypt decrypt src wal_crc names strtod e lo R w l ->
  exists w' H' a', trun compress decompress encrypt decrypt src wal_crc names strtod e w l = Ok w' /\
    einv lo (all_missed compress decompress encrypt decrypt src wal_crc names strtod e R w l) w' H' a' /\
    map snd H' = tacked compress decompress encrypt decrypt src wal_crc names strtod e w l (map snd H).
Proof.
  induction l as [|h l IH]; intros R w H a I Hf; cbn [trun all_missed tacked thist_fine] in *; [eauto 6|].
  destruct Hf as [F1 F2]. destruct (tstep_run lo R w H a h I F1) as (w1 & H1 & a1 & E & I1 & EH). rewrite E in *. cbn [bind].
  destruct (IH _ w1 H1 a1 I1 F2) as (w2 & H2 & a2 & E2 & I2 & EH2). exists w2, H2, a2. rewrite <- EH. auto.
Qed.
End Sim.
