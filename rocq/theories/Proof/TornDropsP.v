(* Stops inside of records, of drops and of new files. *)
From Coq Require Import NArith ZArith List Bool Lia Arith Permutation Sorted.
Import ListNotations.
From Verif Require Import Model.Base Model.Rbtree Model.Event Model.Memtable Model.Mapping Model.PartIter Model.Scan Model.Codec
  Model.File Model.Wal Model.Writer Model.Engine Spec.Order Spec.Checksum Spec.Codecs Spec.Layout Spec.Regions
  Spec.View Spec.Engine Spec.Log Spec.FileLimits
  Proof.FileW Proof.FileR Proof.FileP Proof.WalL Proof.WalR Proof.WalH Proof.WalP Proof.MappingL Proof.MappingP
  Proof.EngineL Proof.EngineW Proof.EngineR Proof.CrashW Proof.CrashH Proof.DirL Proof.CrashD Proof.CrashP Proof.CrashT
  Proof.Cells Proof.DropsL Proof.DropsR Proof.DropsP Proof.DropsT
  Proof.WholeD Proof.WholeL Proof.WholeS Proof.WholeP Proof.WholeDropsL Proof.WholeDropsP Proof.WholeDropsT Proof.TornDropsL.
From Verif Require Import Model.Crash Spec.Crash Spec.Drops Model.Whole Spec.Whole Model.WholeDrops Spec.WholeDrops
  Model.TornDrops Spec.TornDrops.
Local Arguments N.pow : simpl never.
Local Arguments N.add : simpl never.
Local Open Scope N_scope.

(* --- histories without a part of a range --- *)
Definition part_of (f : N -> bool) (H0 X : hist) : hist := hout f H0 ++ X.
Lemma part_in f H0 X x : In x (part_of f H0 X) -> In x (H0 ++ X).
Proof.
  unfold part_of. intros Hx. apply in_app_or in Hx as [Hx|Hx]; apply in_or_app; auto. apply hout_in in Hx. tauto.
Qed.
Lemma part_sorted f X : forall H0, hsorted (H0 ++ X) -> hsorted (part_of f H0 X).
Proof.
  unfold part_of. induction H0 as [|x H0 IH]; cbn [app]; intros S; auto. inversion S as [|? ? S1 S2]; subst.
  unfold hout. cbn [filter]. destruct (f (ev_id (snd x))); [|apply IH; auto]. cbn [app]. constructor; [apply IH; auto|].
  rewrite Forall_forall in *. intros y Hy. apply S2. exact (part_in f H0 X y Hy).
Qed.
Lemma part_hout f H0 X : hout f (part_of f H0 X) = hout f (H0 ++ X).
Proof. unfold part_of. rewrite !hout_app. f_equal. apply hout_hout. auto. Qed.
Lemma part_same f H0 X e : f (ev_id e) = true -> (current (map snd (part_of f H0 X)) e <-> current (map snd (H0 ++ X)) e).
Proof.
  intros E. pose proof (current_filter f (map snd (part_of f H0 X)) e) as A. pose proof (current_filter f (map snd (H0 ++ X)) e) as B.
  rewrite <- hout_snd, part_hout, hout_snd in A. tauto.
Qed.
Lemma part_less f H0 X e : current (map snd (part_of f H0 X)) e -> current (map snd (H0 ++ X)) e.
Proof.
  intros C. destruct (f (ev_id e)) eqn:E; [apply part_same in C; auto|].
  unfold part_of, current in *. rewrite map_app in *. rewrite last_write_over in *. unfold over in *.
  destruct (last_write (map snd X) e) as [y|]; auto. exfalso. destruct C as [C _].
  apply last_write_in in C as [C _]. rewrite hout_snd in C. apply filter_In in C as [_ C]. congruence.
Qed.

Section Torn.
Variable compress : N -> nat -> list byte -> list byte.
Variable decompress : N -> list byte -> N -> res (list byte).
Variable encrypt : N -> nat -> list byte -> list byte.
Variable decrypt : N -> list byte -> res (list byte).
Hypothesis CO : codecs_ok compress decompress encrypt decrypt.
Variable src : source.
Hypothesis SO : settings_ok src.
Variable wal_crc : bool.
Notation dc := (dir_content decompress decrypt).
Notation absd := (absd decompress decrypt).
Notation rd := (eread decompress decrypt wal_crc).
Notation start := (drops_start decompress decrypt wal_crc).
Notation step := (estep compress decompress encrypt decrypt src wal_crc).
Notation op_fine := (eop_fine compress decompress encrypt decrypt src wal_crc).
Notation einv := (einv decompress decrypt src wal_crc).
Notation like := (like decompress decrypt).

(* --- the log after a part of a record --- *)
Lemma append_some g a data n : wlog wal_crc g a -> exists a1 id rs g', a = a1 ++ [(id, rs)] /\
  wal_file_append g data (Some n) = Ok (g', false) /\
  wl_files g' = log_files wal_crc a1 ++ [(id, flat_map (rec_bytes wal_crc) rs ++ firstn n data)] /\
  wl_list g' = wl_list g /\
  wl_current g' = Some (id, N.of_nat (length (flat_map (rec_bytes wal_crc) rs ++ firstn n data))).
Proof.
  intros [Hf Hli (a1 & id & rs & Ea & Hcu) Hr Hinc _ _]. subst a.
  exists a1, id, rs. unfold wal_file_append. rewrite Hcu, Hf, ids_sorted_file_of by auto.
  eexists. split; [reflexivity|]. split; [reflexivity|]. cbn [wl_files wl_list wl_current].
  rewrite Nat2N.id, overwrite_end, file_put_last by auto. split; auto. split; auto.
  f_equal. f_equal. rewrite app_length. lia.
Qed.
Lemma last_writes w a1 id rs : wlog wal_crc (wh_wal w) (a1 ++ [(id, rs)]) -> drops_last wal_crc w -> files_short (wh_wal w) ->
  Forall is_write (log_recs a1).
Proof.
  intros WL DL FS. pose proof (wg_inc _ _ _ WL) as I. pose proof (wg_recs _ _ _ WL) as R. pose proof (wg_top _ _ _ WL) as T.
  unfold drops_last in DL. unfold files_short in FS. rewrite (wg_files _ _ _ WL) in DL, FS. rewrite (wg_list _ _ _ WL), last_ids in DL.
  unfold log_files in DL, FS. rewrite Forall_map, map_app in DL || rewrite Forall_map in DL. rewrite Forall_map in FS.
  apply Forall_app in DL as [DL _]. apply Forall_app in FS as [FS _]. rewrite log_recs_app in R. apply Forall_app in R as [R _].
  unfold log_ids in I, T. rewrite map_app in I, T. cbn [map fst] in I. apply Forall_app in T as [T _].
  destruct (increasing_mid _ _ _ I) as (NI & _ & _). clear I WL.
  induction a1 as [|[i qs] a1 IH]; [constructor|].
  unfold log_recs in *. cbn [flat_map snd] in *. apply Forall_app in R as [R1 R2]. cbn [map fst] in *.
  apply Forall_cons_iff in DL as [D1 D2], FS as [F1 F2], T as [T1 T2]. apply Forall_app. split.
  2:{ apply IH; auto. intros X. apply NI. right. auto. }
  cbn [fst snd] in *. destruct D1 as [D1|D1]; [exfalso; apply NI; left; auto|].
  pose proof (read_log wal_crc [(i, qs)]) as RD. unfold log_recs, log_files, log_ids in RD. cbn [flat_map map fst snd] in RD.
  rewrite app_nil_r in RD. rewrite RD in D1; auto.
  - cbn [fst] in D1. clear - D1. induction qs as [|[n l|n j] qs IH]; [constructor| |discriminate D1].
    constructor; [exact I|]. apply IH. exact D1.
  - constructor; [exact F1|constructor].
  - constructor; constructor.
Qed.
Lemma part_start w en sts d ids a r n b : wlog wal_crc (wh_wal w) a -> rec_ok wal_crc r -> (n < length (rec_bytes wal_crc r))%nat ->
  elog_fine wal_crc w ids -> log_room w (length (rec_bytes wal_crc r)) -> n = 0%nat \/ drops_last wal_crc w ->
  main_start en sts (dc d) (map lrec_of (log_recs a)) = Ok b ->
  (forall k i, In (RDrop k i) (log_recs a) -> part_slice (en_map (db_en b)) i = None) ->
  exists g w', wal_file_append (log_of w) (rec_bytes wal_crc r) (Some n) = Ok (g, false) /\
    start en sts d g ids = Ok w' /\ like w' b.
Proof.
  intros WL RO HN [P FS] RM GU EC GO.
  assert (FS' : files_short (wh_wal w)).
  { unfold files_short. eapply Forall_impl; [|exact FS]. cbv beta. intros. lia. }
  assert (WL' : wlog wal_crc (log_of w) a) by (eapply wlog_lsn; eauto).
  destruct (append_some (log_of w) a (rec_bytes wal_crc r) n WL') as (a1 & id & rs & g & Ea & EA & G1 & G2 & G3).
  exists g. rewrite EA. cbn [log_of wl_list] in G2.
  assert (PI : Permutation ids (log_ids a)) by (rewrite <- (wg_list _ _ _ WL); exact P).
  assert (SH : short wal_crc a) by (eapply short_wlog; eauto).
  destruct GU as [->|DL].
  - cbn [firstn] in G1, G3. rewrite app_nil_r in G1, G3.
    destruct (clean_start decompress decrypt wal_crc en sts d g ids a b) as (w' & E & LK); eauto.
    + pose proof WL as [W1 W2 (c1 & i & qs & W3 & W4) W5 W6 W7 W8].
      assert (Eq : c1 = a1 /\ (i, qs) = (id, rs)) by (apply app_inj_tail; congruence). destruct Eq as [-> Eq]. inversion Eq; subst i qs.
      apply (wlog_lsn wal_crc (wh_wal w)); auto.
      * rewrite W1, Ea, G1. unfold log_files. rewrite map_app. auto.
      * congruence.
    + rewrite G2. exact P.
    + destruct (eread_absd decompress decrypt wal_crc w a WL FS') as [_ E2]. rewrite <- drops_filter, <- E2.
      unfold budget. rewrite (wg_files _ _ _ WL) in FS. unfold log_files in FS. rewrite Forall_map in FS. exact FS.
  - pose proof WL as WLa. rewrite Ea in WLa. pose proof (last_writes w a1 id rs WLa DL FS') as IW. subst a.
    destruct (torn_start decompress decrypt wal_crc en sts d g ids a1 id rs (firstn n (rec_bytes wal_crc r)) b) as (w' & E & LK); eauto.
    + apply WL.
    + apply WL.
    + pose proof (wg_recs _ _ _ WL) as R. rewrite log_recs_app in R. apply Forall_app in R. tauto.
    + unfold short in *. apply Forall_app in SH. tauto.
    + pose proof (wg_recs _ _ _ WL) as R. rewrite log_recs_app in R. apply Forall_app in R as [_ R]. unfold log_recs in R.
      cbn [flat_map snd] in R. rewrite app_nil_r in R.
      unfold log_room in RM. rewrite (wg_files _ _ _ WL) in RM. unfold log_files in RM. rewrite Forall_map in RM.
      apply Forall_app in RM as [_ RM]. apply Forall_cons_iff in RM as [RM _]. cbn [snd] in RM.
      split; [exact R|]. cbn [fst snd]. split.
      * apply (torn_cut wal_crc _ r (firstn n (rec_bytes wal_crc r)) (skipn n (rec_bytes wal_crc r))); auto.
        -- rewrite firstn_skipn. auto.
        -- intros X. apply (f_equal (@length _)) in X. rewrite skipn_length in X. cbn [length] in X. lia.
        -- unfold recs_bytes. lia.
      * unfold tbytes, recs_bytes. cbn [fst snd]. rewrite app_length, firstn_length. lia.
Qed.
Lemma like_sees w b e : like w b -> (wsees w e <-> sees b e).
Proof. intros (E & _). unfold wsees, sees. rewrite E. tauto. Qed.
Lemma log_gone lo R b H en sts d (a : log) n i : dinv lo R b H -> main_start en sts d (map lrec_of (log_recs a)) = Ok b ->
  In (RDrop n i) (log_recs a) -> part_slice (en_map (db_en b)) i = None.
Proof.
  intros DB EC Hin. apply (gone_slice lo R b H i DB). destruct (start_log _ _ _ _ _ EC) as (X0 & EX0).
  apply (closed_in lo R (db_log b) n); [apply DB|]. rewrite EX0. apply in_or_app. left.
  change (Crash.LDrop n i) with (lrec_of (RDrop n i)). apply in_map. exact Hin.
Qed.

(* --- inside of the record of a batch --- *)
Lemma torn_batch lo R w H a l m n ids : einv lo R w H a -> op_fine lo R w (EDo (WWrite l m None)) ->
  op_fine lo R w (EStop [] ids) -> log_room w (length (the_record wal_crc w l m)) ->
  (n < length (the_record wal_crc w l m))%nat -> n = 0%nat \/ drops_last wal_crc w ->
  exists w', stop_batch decompress decrypt wal_crc w l m n ids = Ok w' /\ forall e, wsees w' e <-> wsees w e.
Proof.
  intros [D WL RG] (LR & F & RF & _) [EF FC] RM HN GU. unfold lsn_room in LR. pose proof EF as [P FS].
  assert (FS' : files_short (wh_wal w)).
  { unfold files_short. eapply Forall_impl; [|exact FS]. cbv beta. intros. lia. }
  destruct (eread_absd decompress decrypt wal_crc w a WL FS') as [E1 E2]. rewrite E1 in FC.
  destruct (dcrash_same lo R (absd w a) H [] D FC) as (b & EC & DB & TI).
  cbn [cstep interrupted bind WholeS.absd db_storages db_dir db_en db_log] in EC.
  unfold stop_batch. unfold record_fine in RF. unfold the_record in RM, HN.
  destruct (engine_write (wh_en w) l true) as [[en [evs|]]| |]; cbn [length] in HN; try lia.
  cbn [bind snd]. destruct RF as [BO STB].
  destruct (part_start w (wh_en w) (wh_storages w) (wh_dir w) ids a (RWrite (w64 (en_lsn (wh_en w) + 1)) (entries evs m)) n b)
    as (g & w' & EA & ES & LK); auto.
  - split; auto. unfold w64, two64. apply N.mod_lt. lia.
  - intros k i Hin. eapply log_gone; eauto.
  - cbn [rec_bytes] in EA. rewrite EA. cbn [bind fst]. exists w'. split; [exact ES|]. intros e.
    rewrite (like_sees w' b e LK), (dsees lo R b H e DB). symmetry. exact (dsees lo R (absd w a) H e D).
Qed.

(* --- inside of a drop --- *)
Lemma torn_drop lo R w H a id n ids : einv lo R w H a -> drop_stop_fine decompress decrypt wal_crc lo R w id ->
  elog_fine wal_crc w ids -> log_room w 29 -> (n < 29)%nat -> n = 0%nat \/ drops_last wal_crc w ->
  part_slice (en_map (wh_en w)) id <> None ->
  exists w', stop_drop decompress decrypt wal_crc w id n ids = Ok w' /\
    forall e, (wsees w' e -> wsees w e) /\
      (gone (edropped w (EDrop id)) (ev_id e) = false -> wsees w e -> wsees w' e).
Proof.
  intros [D WL RG] [F FJ] EF RM HN GU NS. pose proof EF as [P FS].
  assert (FS' : files_short (wh_wal w)).
  { unfold files_short. eapply Forall_impl; [|exact FS]. cbv beta. intros. lia. }
  destruct (eread_absd decompress decrypt wal_crc w a WL FS') as [E1 E2]. rewrite E1 in *.
  unfold stop_drop. cbn [edropped]. destruct (part_slice (en_map (wh_en w)) id) as [s|] eqn:Es; [|contradiction]. clear NS.
  destruct (FJ s eq_refl) as [NJ RF]. clear FJ. destruct F as (Hw & HL & HLo).
  set (b := absd w a) in *. pose proof D as [B C CR FR CL]. pose proof (bi_map _ _ _ B) as I. pose proof (bi_iv _ _ _ B) as Hiv.
  cbn [quiet with_log db_en] in I, Hiv. change (en_map (wh_en w)) with (en_map (db_en b)) in Es.
  pose proof (part_slice_spec lo _ id (mi_map _ _ I)) as PS. rewrite Es in PS. destruct PS as [Hs Hr].
  destruct (drop_run lo b id s I Hw HL Es) as (m & _ & I' & HM).
  assert (HJ : job_of (db_jobs b) (s_min s) = None).
  { apply job_none. intros j Hj. rewrite Forall_forall in NJ. apply NJ. exact Hj. }
  set (f := offr (range_of s)).
  pose proof (drop_binv lo (quiet R b) H m s (live (range_of s :: R) (db_log b)) B Hs I' HM HJ (HLo s Hs Hr)
    (live_writes _ _ _ (proj1 (bi_log _ _ _ B))) (drop_flat _ _ _)) as B1.
  pose proof (binv_disk lo _ _ [] B1 ltac:(constructor) hsorted_nil [] eq_refl ltac:(constructor)) as DK.
  rewrite !app_nil_r in DK.
  cbn [with_log dropped_db dropped_at with_lsn with_map db_en db_storages db_dir db_log quiet] in DK. fold f in DK.
  change (db_home (quiet R b)) with (db_home b) in DK.
  assert (ED : dc (without w s) = dset (db_dir b) (db_home b (s_min s), s_min s)
     (mk_slot None (sl_inc (dget (db_dir b) (db_home b (s_min s), s_min s))) (sl_comp (dget (db_dir b) (db_home b (s_min s), s_min s))))).
  { unfold without. rewrite dc_set. unfold slot_content at 1. cbn [sl_id sl_inc sl_comp option_map].
    cbn [b WholeS.absd db_dir db_home]. rewrite dc_get. reflexivity. }
  destruct (bi_log _ _ _ B) as (LW & H0 & EH & ST). cbn [quiet with_log db_log] in LW, EH. cbn [quiet with_log db_dir] in ST.
  set (H1 := part_of f H0 (flat (live R (db_log b)))).
  assert (SUB : forall x, In x H1 -> In x H) by (intros x Hx; rewrite EH; exact (part_in _ _ _ _ Hx)).
  assert (SR : forall mn c, surv (dc (without w s)) mn c -> exists f0, c = Some f0 /\ In (frange f0) (ranges m)).
  { intros mn c Sc. rewrite ED in Sc. destruct (bi_surv _ _ _ B1 mn c Sc) as (f0 & X1 & _ & X2 & _). exists f0. split; auto. }
  assert (RM2 : forall r, In r (ranges m) -> is_cell (en_interval (db_en b)) r /\ ~ In r R /\ forall x, in_range x r -> f x = true).
  { intros r Hr'. apply in_map_iff in Hr' as (t & <- & Ht). apply HM in Ht as [Ht Hn].
    assert (Hc : forall z, In z (mapping_list (en_map (db_en b))) -> is_cell (en_interval (db_en b)) (range_of z)).
    { intros z Hz. unfold cells in C. rewrite Forall_forall in C. apply C. apply in_map. auto. }
    split; [apply Hc; auto|]. split; [apply FR; apply in_map; auto|]. intros x Hx. apply offr_in. intros Hx'. apply Hn.
    apply (min_unique lo (en_map (db_en b))); auto; [apply I|].
    assert (Er : range_of t = range_of s).
    { rewrite (cell_in (en_interval (db_en b)) (range_of t) x), (cell_in (en_interval (db_en b)) (range_of s) x); auto; lia. }
    unfold range_of in Er. inversion Er. auto. }
  assert (DK1 : disk lo (db_storages b) H1 (dc (without w s)) (live R (db_log b))).
  { rewrite <- ED in DK. destruct DK as [K1 K2 K3 K4 K5 (K6 & H0' & K7 & K8)]. constructor; auto.
    - apply part_sorted. rewrite <- EH. apply (bi_sort _ _ _ B).
    - rewrite Forall_forall. intros x Hx. pose proof (bi_top _ _ _ B) as T. rewrite Forall_forall in T. apply SUB in Hx. apply T in Hx. lia.
    - intros mn c Sc. destruct (K4 mn c Sc) as (f0 & top & -> & A1 & A2 & A3 & [G1 G2 G3 G4]). exists f0, top.
      repeat (split; auto). intros k Hk. rewrite G4 by auto. f_equal.
      destruct (SR mn (Some f0) Sc) as (f1 & X1 & X2). inversion X1; subst f1. destruct (RM2 _ X2) as (_ & _ & X3).
      rewrite <- (lw_hout f _ H1 k) by auto. unfold H1. rewrite part_hout, <- EH. auto.
    - split; auto. exists (hout f H0). split; auto. intros x Hx. apply K8.
      assert (X : hout f H0 = H0'); [|rewrite <- X; auto].
      apply (app_inv_tail (hout f (flat (live R (db_log b))))). rewrite <- hout_app, <- EH. rewrite K7. f_equal.
      unfold f. symmetry. symmetry. apply drop_flat. }
  unfold drestart_fine in RF.
  destruct (dstart lo R (db_en b) (db_storages b) H1 (dc (without w s)) (db_log b)) as (b' & EM & B' & _); auto.
  - apply B.
  - eapply binv_lo; eauto.
  - intros x Hx. eapply dinv_gone; eauto.
  - intros f0 Sf. destruct (SR _ _ Sf) as (f1 & X1 & X2). inversion X1; subst f1. destruct (RM2 _ X2) as (X3 & X4 & _). auto.
  - assert (Hi : id < 2^64).
    { pose proof (binv_lo _ _ _ B) as LO. rewrite MappingL.u64_max_eq in LO. lia. }
    destruct (part_start w (wh_en w) (wh_storages w) (without w s) ids a (RDrop (w64 (en_lsn (wh_en w) + 1)) id) n b')
      as (g & w' & EA & ES & LK); rewrite ?drop_length; auto.
    + split; auto. unfold w64, two64. apply N.mod_lt. lia.
    + intros k i Hin. eapply log_gone; eauto. exact EM.
    + cbn [rec_bytes] in EA. rewrite EA. cbn [bind fst]. exists w'. split; [exact ES|]. intros e.
      rewrite (like_sees w' b' e LK), (dsees lo R b' H1 e B').
      change (wsees w e) with (sees b e). rewrite (dsees lo R b H e D), EH. split.
      * apply part_less.
      * intros G. apply part_same. unfold f, offr. cbn [gone existsb] in G. rewrite orb_false_r in G. rewrite G. auto.
Qed.

(* --- whole records --- *)
Lemma append_full g data n : (length data <= n)%nat ->
  match wal_file_append g data None with
  | Ok (g', _) => wal_file_append g data (Some n) = Ok (g', false)
  | Err => wal_file_append g data (Some n) = Err
  | UB => wal_file_append g data (Some n) = UB
  end.
Proof.
  intros L. unfold wal_file_append. destruct (wl_current g) as [[i z]|]; auto. destruct (file_of i (wl_files g)); auto.
  rewrite firstn_all2 by auto. auto.
Qed.
Lemma append_true g data g' ok : wal_file_append g data None = Ok (g', ok) -> ok = true.
Proof.
  unfold wal_file_append. destruct (wl_current g) as [[i z]|]; try discriminate. destruct (file_of i (wl_files g)); try discriminate.
  intros E. inversion E. auto.
Qed.
Lemma start_like en en' sts d g g' ids : wl_files g' = wl_files g -> en_interval en' = en_interval en ->
  en_serial en' = en_serial en -> en_page en' = en_page en -> en_region en' = en_region en ->
  start en' sts d g' ids = start en sts d g ids.
Proof.
  intros E1 E2 E3 E4 E5. unfold drops_start, whole_recover. rewrite E1, E2, E3, E4, E5. reflexivity.
Qed.
Lemma whole_batch lo R w H a l m n ids : einv lo R w H a -> op_fine lo R w (EDo (WWrite l m None)) ->
  (length (the_record wal_crc w l m) <= n)%nat ->
  exists w1, step w (EDo (WWrite l m None)) = Ok w1 /\
    stop_batch decompress decrypt wal_crc w l m n ids = step w1 (EStop [] ids).
Proof.
  intros I F HN. pose proof (estep_spec compress decompress encrypt decrypt CO src SO wal_crc lo R w H a _ I F) as X.
  unfold estep_ok in X. destruct (step w (EDo (WWrite l m None))) as [w1| |] eqn:E; [|exfalso|contradiction].
  2:{ clear X. destruct I as [D WL RG]. destruct F as (LR & (BF & _) & RF & _). unfold lsn_room in LR.
      cbn [estep wstops wstep] in E. unfold whole_write in E. unfold record_fine in RF.
      destruct (write_grown lo (wh_en w) l true (bi_map _ _ _ (dv_b _ _ _ _ D)) (bi_iv _ _ _ (dv_b _ _ _ _ D)) BF)
        as [(m1 & E1 & _)|(m1 & ssn & E1 & _)]; rewrite E1 in *; cbn [bind] in E; [|discriminate E].
      destruct RF as [BO STB]. assert (WL' : wlog wal_crc (log_of w) a) by (eapply wlog_lsn; eauto).
      destruct (write_wlog wal_crc (log_of w) a _ (en_lsn (wh_en w)) WL' BO STB eq_refl) as (g & EG & _); [lia|].
      rewrite EG in E. cbn [bind snd fst] in E. discriminate E. }
  exists w1. split; auto. clear X. destruct I as [D WL RG]. destruct F as (LR & (BF & _) & RF & _).
  cbn [estep interrupted bind wstops wstep] in E |- *. unfold whole_write in E. unfold stop_batch. unfold the_record in HN.
  destruct (write_grown lo (wh_en w) l true (bi_map _ _ _ (dv_b _ _ _ _ D)) (bi_iv _ _ _ (dv_b _ _ _ _ D)) BF)
    as [(m1 & E1 & _)|(m1 & ssn & E1 & _)]; rewrite E1 in *; cbn [bind snd] in *.
  - unfold wal_write in E. pose proof (append_full (log_of w) _ n HN) as Y. cbn [log_of wl_lsn] in E.
    destruct (wal_file_append (log_of w) _ None) as [[g ok]| |] eqn:EA in Y; cbn [log_of] in EA; rewrite EA in E; try discriminate E.
    rewrite Y. cbn [bind fst snd] in E |- *.
    pose proof (append_true _ _ _ _ EA) as ->.
    inversion E; subst w1. apply start_like; reflexivity.
  - inversion E; subst w1. symmetry. apply start_like; reflexivity.
Qed.
Lemma whole_dropped w id n ids w1 : (29 <= n)%nat -> step w (EDrop id) = Ok w1 ->
  stop_drop decompress decrypt wal_crc w id n ids = step w1 (EStop [] ids).
Proof.
  intros HN E. cbn [estep interrupted bind] in *. destruct (existsb _ (wh_jobs w)); [discriminate E|].
  unfold whole_drop in E. unfold stop_drop. destruct (part_slice (en_map (wh_en w)) id) as [s|]; [|inversion E; subst; auto].
  destruct (engine_drop (wh_en w) id) as [en| |] eqn:Ed; try discriminate E. cbn [bind] in E.
  unfold wal_write_drop in E. cbn [log_of wl_lsn] in E.
  pose proof (append_full (log_of w) (drop_record wal_crc (w64 (en_lsn (wh_en w) + 1)) id) n) as Y.
  rewrite (drop_length wal_crc (w64 (en_lsn (wh_en w) + 1)) id : length (drop_record wal_crc _ id) = 29%nat) in Y. specialize (Y HN).
  destruct (wal_file_append (log_of w) _ None) as [[g ok]| |] eqn:EA in Y; cbn [log_of] in EA; rewrite EA in E; try discriminate E.
  rewrite Y. pose proof (append_true _ _ _ _ EA) as ->. cbn [bind fst] in E |- *. inversion E; subst w1.
  cbn [wh_en wh_storages wh_dir wh_wal].
  unfold engine_drop in Ed. destruct (engine_drop_reference _ _); try discriminate Ed. cbn [bind] in Ed. inversion Ed; subst.
  symmetry. apply start_like; reflexivity.
Qed.

(* --- inside of a new file --- *)
Definition blank (d : bdir) : bdir := dmap (fun c => c) (fun _ : list byte => @nil byte) d.
Lemma blank_settled d : (forall k, sl_inc (dget d k) = None) -> NoDup (map fst d) -> blank d = d.
Proof.
  intros A W1. assert (E : forall x, In x d -> sl_inc (snd x) = None).
  { intros x Hx. specialize (A (fst x)). unfold dget in A.
    destruct (find (fun y => dkey_eqb (fst y) (fst x)) d) as [y|] eqn:Ey.
    - apply find_some in Ey as [Y1 Y2]. apply dkey_eqb_true in Y2. assert (y = x); [|subst; auto].
      clear - W1 Hx Y1 Y2. induction d as [|z d IH]; [contradiction|]. cbn in W1. apply NoDup_cons_iff in W1 as [W0 W1].
      destruct Hx as [->|Hx], Y1 as [->|Y1]; auto.
      + exfalso. apply W0. rewrite <- Y2. apply in_map. auto.
      + exfalso. apply W0. rewrite Y2. apply in_map. auto.
    - exfalso. eapply find_none in Ey; [|exact Hx]. cbn in Ey. rewrite dkey_eqb_refl in Ey. discriminate. }
  clear - E. unfold blank, dmap. induction d as [|[k [x y z]] d IH]; auto. cbn [map].
  rewrite IH by (intros; apply E; right; auto). f_equal. unfold smap. cbn [fst snd sl_id sl_inc sl_comp].
  specialize (E _ (or_introl eq_refl)). cbn [snd sl_inc] in E. subst y. destruct x, z; auto.
Qed.
Lemma blank_recover en sts d d' en1 d1 : blank d' = blank d -> whole_recover decompress decrypt en sts d = Ok (en1, d1) ->
  (forall k, sl_inc (dget d1 k) = None) -> NoDup (map fst d1) -> whole_recover decompress decrypt en sts d' = Ok (en1, d1).
Proof.
  intros EB ER T ND. unfold whole_recover in *.
  destruct (validate_all sts d (worklist sts d)) as [d2| |] eqn:EV; try discriminate ER. cbn [bind] in ER.
  destruct (open_all mapping_init 0 (dc d2) (worklist sts d2)) as [[m n]| |] eqn:EO; try discriminate ER. cbn [bind] in ER.
  inversion ER; subst. clear ER.
  assert (Y : validate_all sts (blank d) (worklist sts (blank d)) = Ok (blank d1)).
  { unfold blank. rewrite worklist_map, validate_all_map, EV. auto. }
  rewrite <- EB in Y. unfold blank at 1 2 in Y. rewrite worklist_map, validate_all_map in Y.
  apply rmap_ok in Y as (d3 & E3 & E4). fold (blank d3) in E4. rewrite (blank_settled d1 T ND) in E4.
  assert (F3 : d3 = d1).
  { rewrite <- E4. symmetry. apply blank_settled.
    - intros k. specialize (T k). rewrite <- E4 in T. unfold blank in T. rewrite dget_map in T. cbn [smap sl_inc] in T.
      destruct (sl_inc (dget d3 k)); auto. discriminate T.
    - rewrite <- E4 in ND. unfold blank in ND. rewrite keys_map in ND. auto. }
  subst d3. rewrite E3. cbn [bind]. rewrite EO. cbn [bind]. auto.
Qed.
Lemma blank_set d k x y z z' : blank (dset d k (mk_slot x (Some z) y)) = blank (dset d k (mk_slot x (Some z') y)).
Proof. unfold blank. rewrite <- !(dset_map (fun c : list byte => c) (fun _ => @nil byte)). reflexivity. Qed.

Lemma torn_file lo R w H a j ref x n cuts ids : einv lo R w H a ->
  find (fun j => jb_ref j =? ref) (wh_jobs w) = Some j -> jb_stage j = 1%nat ->
  op_fine lo R (begun w ref) (EStop cuts ids) ->
  exists w', stop_file compress decompress encrypt decrypt src wal_crc w ref x n cuts ids = Ok w' /\
    step (begun w ref) (EStop cuts ids) = Ok w' /\ tidy (dc (wh_dir w')) /\ forall e, wsees w' e <-> wsees w e.
Proof.
  intros IV Ej ST F. pose proof IV as [DI WL RG]. pose proof DI as [B C CR FR CL].
  apply find_some in Ej as Ej'. destruct Ej' as [Hj Er]. apply N.eqb_eq in Er. subst ref.
  destruct (bi_jobs _ _ _ B) as (_ & J). destruct (J j Hj) as (Hto & s & Hs & Es).
  pose proof (bi_desc _ _ _ B s Hs) as D. unfold job_of in D. cbn [quiet with_log WholeS.absd db_jobs db_dir db_home db_en] in D. rewrite Es in D. rewrite Ej in D.
  cbn [desc] in D. unfold jdesc in D. rewrite ST in D. destruct D as [Hh D]. rewrite Es in D.
  unfold stop_file. rewrite Ej.
  cbn [quiet with_log WholeS.absd db_en] in Hs.
  destruct (ref_slice (en_map (wh_en w)) (jb_ref j)) as [s1| |] eqn:ES.
  2,3: exfalso; unfold ref_slice in ES; destruct (find _ _) eqn:EF in ES; try discriminate ES;
    pose proof (find_none _ _ EF s Hs) as Z0; cbn beta in Z0; rewrite Es, N.eqb_refl in Z0; discriminate Z0.
  destruct (ref_slice_in _ _ _ ES) as [Hs1 _].
  pose proof (mi_parts _ _ (bi_map _ _ _ B)) as MP. rewrite Forall_forall in MP. specialize (MP s1 Hs1).
  destruct (merger_spec lo (s_data s1) (sf_prev _ _ MP) (sf_file _ _ MP)) as (l & EL & _).
  cbn [bind]. unfold new_bytes. rewrite EL. cbn [bind].
  set (f := write_file _ _ _ _ _).
  assert (EB : begun w (jb_ref j) = put_dir w (dset (wh_dir w) (jb_to j, jb_ref j)
     (mk_slot (sl_id (dget (wh_dir w) (jb_to j, jb_ref j))) (Some []) (sl_comp (dget (wh_dir w) (jb_to j, jb_ref j)))))).
  { unfold begun. rewrite Ej. auto. }
  rewrite EB in *. clear EB.
  match type of F with eop_fine _ _ _ _ _ _ _ _ ?x _ => set (w0 := x) in * end.
  pose proof (D (jb_to j)) as Dt. rewrite dc_get in Dt. rewrite (at_same (jb_to j)) in Dt.
  destruct (dget (wh_dir w) (jb_to j, jb_ref j)) as [i0 n0 c0] eqn:EG. rewrite slot_sim in Dt. cbn [sl_id sl_comp] in *.
  assert (Ed : dc (wh_dir w0) = dset (dc (wh_dir w)) (jb_to j, jb_ref j) (dget (dc (wh_dir w)) (jb_to j, jb_ref j))).
  { cbn [w0 put_dir wh_dir]. rewrite dc_set, dc_get, EG, !slot_sim. cbn [option_map]. rewrite fc_empty. f_equal.
    inversion Dt as [[X1 X2 X3]]. rewrite X2. auto. }
  assert (B0 : binv lo (quiet R (absd w0 a)) H).
  { change (quiet R (absd w0 a)) with (with_dir (quiet R (absd w a)) (dc (wh_dir w0))). apply binv_dir; auto.
    - rewrite Ed. apply wfd_set. apply B.
    - intros k. cbn [quiet with_log WholeS.absd db_dir]. rewrite Ed. destruct (dkey_dec (jb_to j, jb_ref j) k) as [<-|K].
      + rewrite dget_set_same. auto.
      + rewrite dget_set_other by auto. auto. }
  assert (I0 : einv lo R w0 H a).
  { constructor; auto. constructor; auto. }
  destruct (stop_sim compress decompress encrypt decrypt src wal_crc lo R w0 H a cuts ids I0 F) as (w' & X & E & I' & TI & _).
  exists w'. split.
  2:{ split; auto. split; auto. intros e. rewrite (esees decompress decrypt src wal_crc lo R w' H _ e I').
      symmetry. exact (esees decompress decrypt src wal_crc lo R w H a e IV). }
  cbn [estep] in E. change (wh_storages w0) with (wh_storages w) in E. change (wh_en w0) with (wh_en w) in E.
  change (wh_wal w0) with (wh_wal w) in E.
  destruct (interrupted (wh_storages w) (wh_dir w0) cuts) as [d1| |] eqn:EI; try discriminate E. cbn [bind] in E.
  match goal with |- context[interrupted _ ?y cuts] => set (d2 := y) end.
  assert (BL : blank d2 = blank (wh_dir w0)) by apply blank_set.
  assert (Y : interrupted (wh_storages w) (blank (wh_dir w0)) cuts = Ok (blank d1)) by (unfold blank; rewrite interrupted_map, EI; auto).
  rewrite <- BL in Y. unfold blank at 1 in Y. rewrite interrupted_map in Y. apply rmap_ok in Y as (d3 & E3 & E4). fold (blank d3) in E4.
  rewrite E3. cbn [bind]. unfold drops_start in E |- *.
  destruct (whole_recover decompress decrypt (wh_en w) (wh_storages w) d1) as [[en1 d4]| |] eqn:EW; try discriminate E.
  assert (SET : (forall k, sl_inc (dget d4 k) = None) /\ NoDup (map fst d4)).
  { pose proof (binv_good _ _ _ B0) as GD. cbn [quiet with_log db_storages db_dir WholeS.absd] in GD.
    change (wh_storages w0) with (wh_storages w) in GD.
    destruct (interrupted_spec (wh_storages w) (proj1 (bi_sto _ _ _ B)) cuts _ GD) as (d1' & X1 & X2 & _).
    rewrite dc_map, interrupted_map, EI in X1. cbn [rmap] in X1. inversion X1 as [X3]. rewrite <- dc_map in X3. subst d1'. clear X1.
    destruct (validated (wh_storages w) (dc d1) (proj1 (bi_sto _ _ _ B)) X2) as (d5 & V1 & V2).
    unfold whole_recover in EW. rewrite dc_map, worklist_map, validate_all_map in V1.
    destruct (validate_all (wh_storages w) d1 (worklist (wh_storages w) d1)) as [d6| |]; try discriminate EW. cbn [bind rmap] in *.
    destruct (open_all mapping_init 0 (dc d6) (worklist (wh_storages w) d6)) as [[mm nn]| |]; try discriminate EW. cbn [bind] in EW.
    inversion EW; subst d6. inversion V1 as [V3]. rewrite <- dc_map in V3. subst d5.
    destruct V2 as (V4 & V5 & _). split.
    - intros k. specialize (V5 k). rewrite dc_get in V5. unfold slot_content in V5.
      destruct (dget d4 k) as [y1 y2 y3]. cbn [sl_id sl_inc sl_comp] in *. destruct y2; auto.
      destruct V5 as [V5|V5]; [discriminate V5|]. unfold only_id in V5. cbn [sl_inc option_map] in V5. destruct V5 as (? & ? & ?). discriminate.
    - destruct (gd_wf _ _ V4) as [ND _]. rewrite dc_map, keys_map in ND. exact ND. }
  rewrite (blank_recover (wh_en w) (wh_storages w) d1 d3 en1 d4 E4 EW); try apply SET. exact E.
Qed.
End Torn.
