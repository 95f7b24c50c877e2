(* Starts from a log whose last file may end in a part of a record. *)
From Coq Require Import NArith ZArith List Bool Lia Arith Permutation Sorted.
Import ListNotations.
From Verif Require Import Model.Base Model.Rbtree Model.Event Model.Memtable Model.Mapping Model.PartIter Model.Scan Model.Codec
  Model.File Model.Wal Model.Writer Model.Engine Spec.Order Spec.Checksum Spec.Codecs Spec.Layout Spec.Regions
  Spec.View Spec.Engine Spec.Log Spec.FileLimits
  Proof.FileW Proof.FileR Proof.FileP Proof.WalL Proof.WalR Proof.WalH Proof.WalP Proof.MappingL Proof.MappingP
  Proof.EngineL Proof.EngineW Proof.EngineR Proof.CrashW Proof.CrashH Proof.DirL Proof.CrashD Proof.CrashP
  Proof.Cells Proof.DropsL Proof.DropsR Proof.DropsP Proof.DropsT
  Proof.WholeD Proof.WholeL Proof.WholeS Proof.WholeP Proof.WholeDropsL Proof.WholeDropsP.
From Verif Require Import Model.Crash Spec.Crash Spec.Drops Model.Whole Spec.Whole Model.WholeDrops Spec.WholeDrops
  Model.TornDrops Spec.TornDrops.
Local Arguments N.pow : simpl never.
Local Arguments N.add : simpl never.
Local Open Scope N_scope.

(* --- files --- *)
Lemma file_of_mid id b : forall F1 F2, ~ In id (map fst F1) -> file_of id (F1 ++ (id, b) :: F2) = Some b.
Proof.
  induction F1 as [|[i c] F1 IH]; intros F2 N; cbn [app file_of map fst] in *.
  - rewrite N.eqb_refl. auto.
  - destruct (N.eqb_spec i id) as [E|E]; [exfalso; apply N; left; auto|]. apply IH. intros Hin. apply N. right. auto.
Qed.
Lemma increasing_mid : forall pre (id : N) post, increasing (pre ++ id :: post) ->
  ~ In id pre /\ increasing (id :: post) /\ Forall (fun i => i < id) pre.
Proof.
  induction pre as [|i pre IH]; intros id post I; cbn [app] in I.
  - split; auto.
  - inversion I as [|? ? I1 I2]; subst. destruct (IH _ _ I1) as (A1 & A2 & A3). rewrite Forall_forall in I2.
    assert (i < id) by (apply I2; apply in_or_app; right; left; auto). split; [intros [E|E]; [lia|auto]|]. auto.
Qed.
Lemma next_mid : forall pre id post, increasing (pre ++ id :: post) ->
  wal_id_next id (pre ++ id :: post) = match post with [] => u64_max | i :: _ => i end.
Proof.
  induction pre as [|i pre IH]; intros id post I; cbn [app wal_id_next].
  - rewrite N.ltb_irrefl. cbn [app] in I. inversion I as [|? ? I1 I2]; subst. destruct post as [|j post]; auto. cbn [wal_id_next].
    inversion I2; subst. replace (id <? j) with true; auto. symmetry. apply N.ltb_lt. auto.
  - pose proof (increasing_mid (i :: pre) id post I) as (_ & _ & F). inversion F; subst. inversion I; subst.
    replace (id <? i) with false; [apply IH; auto|]. symmetry. apply N.ltb_ge. lia.
Qed.

Section Torn.
Variable compress : N -> nat -> list byte -> list byte.
Variable decompress : N -> list byte -> N -> res (list byte).
Variable encrypt : N -> nat -> list byte -> list byte.
Variable decrypt : N -> list byte -> res (list byte).
Hypothesis CO : codecs_ok compress decompress encrypt decrypt.
Variable src : source.
Hypothesis SO : settings_ok src.
Variable wal_crc : bool.
Notation dc := (dir_content decompress decrypt).
Notation absd := (absd decompress decrypt).
Notation start := (drops_start decompress decrypt wal_crc).

(* the database up to its log *)
Definition like (w : whole) (b : db) : Prop :=
  wh_en w = db_en b /\ wh_storages w = db_storages b /\ wh_home w = db_home b /\ dc (wh_dir w) = db_dir b /\ wh_jobs w = db_jobs b.
(* the last file is there *)
Definition writable (g : wal) (L : list N) : Prop :=
  wl_list g = L /\ exists id n b, wl_current g = Some (id, n) /\ file_of id (wl_files g) = Some b.

Lemma file_put_of id b : forall fs, file_of id (file_put id b fs) = Some b.
Proof.
  induction fs as [|[i c] fs IH]; cbn [file_put file_of].
  - rewrite N.eqb_refl. auto.
  - destruct (N.eqb_spec i id) as [E|E]; cbn [file_of].
    + subst. rewrite N.eqb_refl. auto.
    + destruct (N.eqb_spec i id); [contradiction|auto].
Qed.
Lemma drop_like w b b' id L : like w b -> writable (wh_wal w) L -> db_drop b id = Ok b' ->
  exists w', whole_drop wal_crc w id = Ok w' /\ like w' b' /\ writable (wh_wal w') L.
Proof.
  intros (E1 & E2 & E3 & E4 & E5) (L1 & i & n & by_ & L2 & L3) ED. unfold db_drop in ED. unfold whole_drop. rewrite E1.
  destruct (part_slice (en_map (db_en b)) id) as [s|].
  2:{ inversion ED; subst. exists w. repeat (split; auto). exists i, n, by_. auto. }
  destruct (engine_drop (db_en b) id) as [en| |]; try discriminate ED. cbn [bind] in ED |- *.
  unfold wal_write_drop, wal_file_append, log_of. cbn [wl_current wl_files wl_list wl_lsn]. rewrite L2, L3. cbn [bind fst].
  eexists. split; [reflexivity|]. cbn [wh_wal wh_en wh_storages wh_home wh_dir wh_jobs wl_lsn].
  inversion ED; subst. split.
  - unfold like. cbn [wh_wal wh_en wh_storages wh_home wh_dir wh_jobs db_en db_storages db_home db_dir db_jobs wl_lsn].
    rewrite dc_set, E3, E4, E1. unfold slot_content. cbn [sl_id sl_inc sl_comp option_map]. rewrite <- E4, dc_get. repeat (split; auto).
  - split; auto. eexists _, _, _. cbn [wl_current wl_files]. split; [reflexivity|]. apply file_put_of.
Qed.
Lemma records_like L rs : forall w b b', like w b -> writable (wh_wal w) L -> replay_log b (map lrec_of rs) = Ok b' ->
  exists w', replay_records wal_crc w (map rec_logged rs) = Ok w' /\ like w' b' /\ writable (wh_wal w') L /\
    (Forall is_write rs -> wh_wal w' = wh_wal w).
Proof.
  induction rs as [|[n l|n id] rs IH]; intros w b b' LK WR E; cbn [map lrec_of rec_logged replay_log replay_records] in *.
  - inversion E; subst. exists w. auto.
  - pose proof LK as (E1 & E2 & E3 & E4 & E5). rewrite E1.
    destruct (engine_write_replay (db_en b) n (map le_event l)) as [en| |]; try discriminate E. cbn [bind] in E |- *.
    destruct (IH (put_bare w (with_en (bare w) en)) (with_en b en) b') as (w' & A1 & A2 & A3 & A4); auto.
    + unfold like. cbn. auto.
    + exists w'. split; auto. split; auto. split; auto. intros F. inversion F; subst. rewrite A4; auto.
  - destruct (db_drop b id) as [b1| |] eqn:ED; try discriminate E. cbn [bind] in E.
    destruct (drop_like w b b1 id L LK WR ED) as (w1 & D1 & D2 & D3). rewrite D1. cbn [bind].
    destruct (IH w1 b1 b' D2 D3 E) as (w' & A1 & A2 & A3 & A4). exists w'. split; auto. split; auto. split; auto.
    intros F. inversion F; subst. contradiction.
Qed.

(* file after file *)
Lemma files_like idl rsl tail a1 : let L := log_ids (a1 ++ [(idl, rsl)]) in
  increasing L -> Forall (fun i => i < u64_max) L -> Forall (rec_ok wal_crc) (log_recs a1) ->
  Forall is_write (log_recs a1) -> short wal_crc a1 -> tfile_ok wal_crc (idl, (rsl, tail)) ->
  forall fuel pre post w b b', a1 = pre ++ post ->
  wl_files (wh_wal w) = log_files wal_crc a1 ++ [(idl, flat_map (rec_bytes wal_crc) rsl ++ tail)] ->
  like w b -> writable (wh_wal w) L -> (length post < fuel)%nat ->
  replay_log b (map lrec_of (log_recs post ++ rsl)) = Ok b' ->
  exists w', replay_files wal_crc fuel w (match post with [] => idl | f :: _ => fst f end) = Ok w' /\ like w' b'.
Proof.
  intros L I T R W S TF. induction fuel as [|fuel IH]; intros pre post w b b' Ea EF LK WR HF E; [lia|].
  cbn [replay_files]. pose proof WR as [WL _].
  assert (EI : L = log_ids a1 ++ [idl]) by (unfold L, log_ids; rewrite map_app; auto).
  destruct post as [|[id rs] post].
  - rewrite app_nil_r in Ea. subst pre. cbn [log_recs flat_map app] in E.
    assert (NI : ~ In idl (map fst (log_files wal_crc a1))).
    { unfold log_files. rewrite map_map. cbn [fst]. rewrite EI in I. apply (increasing_mid _ _ _ I). }
    rewrite EF, file_of_mid by exact NI.
    pose proof (read_tlog wal_crc [(idl, (rsl, tail))]) as RD. unfold tfiles, tids, trecs, tbytes, recs_bytes in RD.
    cbn [map flat_map fst snd] in RD. rewrite app_nil_r in RD. rewrite RD.
    2:{ split; [constructor; [exact TF|constructor]|]. unfold tids. cbn [map fst].
        rewrite EI in T. apply Forall_app in T as [_ T]. split; [constructor; constructor|exact T]. }
    destruct (records_like L rsl w b b' LK WR E) as (w' & A1 & A2 & [A3 _] & _). rewrite A1. cbn [bind].
    rewrite A3, EI, next_mid by (rewrite <- EI; exact I). rewrite N.eqb_refl. eauto.
  - subst a1. cbn [fst].
    assert (I' : increasing (log_ids pre ++ id :: (log_ids post ++ [idl]))).
    { rewrite EI in I. unfold log_ids in I |- *. rewrite map_app in I. cbn [map fst] in I. rewrite <- app_assoc in I. exact I. }
    assert (EI' : L = log_ids pre ++ id :: (log_ids post ++ [idl])).
    { rewrite EI. unfold log_ids. rewrite map_app. cbn [map fst]. rewrite <- app_assoc. reflexivity. }
    assert (EF' : wl_files (wh_wal w) = log_files wal_crc pre ++ (id, flat_map (rec_bytes wal_crc) rs) ::
       (log_files wal_crc post ++ [(idl, flat_map (rec_bytes wal_crc) rsl ++ tail)])).
    { rewrite EF. unfold log_files. rewrite map_app. cbn [map fst snd]. rewrite <- app_assoc. reflexivity. }
    rewrite EF', file_of_mid.
    2:{ unfold log_files. rewrite map_map. cbn [fst]. apply (increasing_mid _ _ _ I'). }
    rewrite log_recs_app in R, W. apply Forall_app in R as [R1 R], W as [W1 W].
    unfold log_recs in R, W. cbn [flat_map snd] in R, W. apply Forall_app in R as [R R2], W as [W W2].
    assert (TI : id < u64_max /\ match post with [] => idl | f :: _ => fst f end < u64_max).
    { rewrite EI' in T. apply Forall_app in T as [_ T]. apply Forall_cons_iff in T as [T0 T]. split; auto.
      destruct post; apply Forall_cons_iff in T; apply T. }
    destruct TI as [T1 T2].
    pose proof (read_log wal_crc [(id, rs)]) as RD. unfold log_recs, log_files, log_ids in RD. cbn [flat_map map fst snd] in RD.
    rewrite app_nil_r in RD. rewrite RD; auto.
    2:{ unfold short in S. apply Forall_app in S as [_ S]. apply Forall_cons_iff in S as [S _]. constructor; [exact S|constructor]. }
    2:{ constructor; constructor. }
    unfold log_recs in E. cbn [flat_map snd] in E. rewrite <- app_assoc, map_app, replay_app in E.
    destruct (replay_log b (map lrec_of rs)) as [b1| |] eqn:E1; try discriminate E. cbn [bind] in E.
    destruct (records_like L rs w b b1 LK WR E1) as (w1 & A1 & A2 & A3 & A4). rewrite A1. cbn [bind].
    rewrite (A4 W), WL, EI', next_mid by exact I'.
    replace (match log_ids post ++ [idl] with [] => u64_max | i :: _ => i end) with (match post with [] => idl | f :: _ => fst f end)
      by (destruct post; auto).
    replace (_ =? u64_max) with false by (symmetry; apply N.eqb_neq; lia).
    apply (IH (pre ++ [(id, rs)]) post w1 b1 b'); auto.
    + rewrite <- app_assoc. auto.
    + rewrite (A4 W). exact EF.
    + cbn [length] in HF. lia.
Qed.

Lemma torn_start en sts d g ids a1 id rs tail b : let a := a1 ++ [(id, rs)] in
  wl_files g = log_files wal_crc a1 ++ [(id, flat_map (rec_bytes wal_crc) rs ++ tail)] ->
  increasing (log_ids a) -> Forall (fun i => i < u64_max) (log_ids a) -> Forall (rec_ok wal_crc) (log_recs a1) ->
  Forall is_write (log_recs a1) -> short wal_crc a1 -> tfile_ok wal_crc (id, (rs, tail)) -> Permutation ids (log_ids a) ->
  main_start en sts (dc d) (map lrec_of (log_recs a)) = Ok b ->
  exists w', start en sts d g ids = Ok w' /\ like w' b.
Proof.
  intros a EF I T R W S TF P EC. unfold main_start in EC. unfold drops_start.
  destruct (engine_recover en sts (dc d)) as [[en1 d1]| |] eqn:ER; try discriminate EC.
  cbn [bind] in EC. destruct (recover_sim decompress decrypt _ _ _ _ _ ER) as (d' & EW & E3). rewrite EW. cbn [bind].
  assert (NI : ~ In id (map fst (log_files wal_crc a1))).
  { unfold log_files. rewrite map_map. cbn [fst]. unfold a, log_ids in I. rewrite map_app in I. apply (increasing_mid _ _ _ I). }
  assert (EO : wal_open (wl_files g) ids (en_lsn en1) =
    Ok (mk_wal (wl_files g) (log_ids a) (Some (id, N.of_nat (length (flat_map (rec_bytes wal_crc) rs ++ tail)))) (en_lsn en1))).
  { unfold wal_open. rewrite (recover_perm ids (log_ids a) I P).
    assert (Hmax : wal_id_max (log_ids a) = id) by apply last_ids.
    destruct (log_ids a) as [|i0 l0] eqn:Ei.
    - exfalso. unfold a, log_ids in Ei. rewrite map_app in Ei. apply app_eq_nil in Ei as [_ Ei]. discriminate Ei.
    - rewrite Hmax, EF, file_of_mid by exact NI. auto. }
  rewrite EO. cbn [bind wl_list].
  assert (ED : worklist sts d1 = worklist sts d').
  { rewrite <- E3, dc_map, worklist_map. auto. }
  rewrite ED in EC. set (home := home_of (worklist sts d') (hd 0 sts)) in *.
  set (w1 := mk_whole en1 sts home d' _ []).
  destruct (replay_log _ (map lrec_of (log_recs a))) as [b1| |] eqn:EL; try discriminate EC. cbn [bind] in EC.
  inversion EC; subst b. clear EC.
  assert (EM : wal_id_min (log_ids a) = match a1 with [] => id | f :: _ => fst f end).
  { unfold a. destruct a1; reflexivity. }
  rewrite EM.
  assert (T2 : match a1 with [] => id | f :: _ => fst f end < u64_max).
  { unfold a, log_ids in T. rewrite map_app in T. destruct a1; apply Forall_cons_iff in T; apply T. }
  replace (_ =? u64_max) with false by (symmetry; apply N.eqb_neq; lia).
  destruct (files_like id rs tail a1 I T R W S TF (length (log_ids a)) [] a1 w1
    (mk_db en1 sts home d1 (map lrec_of (log_recs a)) []) b1) as (w2 & A1 & A2); auto.
  - unfold like. cbn. auto.
  - split; auto. unfold w1. cbn [wh_wal wl_current wl_files]. eexists _, _, _. split; [reflexivity|].
    rewrite EF. apply file_of_mid. exact NI.
  - unfold a, log_ids. rewrite map_length, app_length. cbn [length]. lia.
  - replace (log_recs a1 ++ rs) with (log_recs a); [exact EL|]. unfold a. rewrite log_recs_app. f_equal. unfold log_recs.
    cbn [flat_map snd]. apply app_nil_r.
  - rewrite A1. cbn [bind]. eexists. split; [reflexivity|]. destruct A2 as (F1 & F2 & F3 & F4 & F5).
    unfold like. cbn. rewrite F1. auto.
Qed.

(* a log that ends in a whole record *)
Lemma clean_start en sts d g ids a b : wlog wal_crc g a -> Permutation ids (wl_list g) ->
  budget wal_crc a (N.of_nat (length (filter logdrop (map lrec_of (log_recs a))))) ->
  main_start en sts (dc d) (map lrec_of (log_recs a)) = Ok b ->
  (forall n i, In (RDrop n i) (log_recs a) -> part_slice (en_map (db_en b)) i = None) ->
  exists w', start en sts d g ids = Ok w' /\ like w' b.
Proof.
  intros WL P BU EC GO. unfold main_start in EC. unfold drops_start.
  destruct (engine_recover en sts (dc d)) as [[en1 d1]| |] eqn:ER; try discriminate EC.
  cbn [bind] in EC. destruct (recover_sim decompress decrypt _ _ _ _ _ ER) as (d' & EW & E3). rewrite EW. cbn [bind].
  destruct (open_wlog wal_crc g a ids (en_lsn en1) WL P) as (g' & EO & WG & _). rewrite EO. cbn [bind].
  assert (ED : worklist sts d1 = worklist sts d').
  { rewrite <- E3, dc_map, worklist_map. auto. }
  rewrite ED in EC. set (home := home_of (worklist sts d') (hd 0 sts)) in *.
  set (w1 := mk_whole en1 sts home d' g' []).
  change (mk_db en1 sts home d1 (map lrec_of (log_recs a)) []) with
    (mk_db (wh_en w1) (wh_storages w1) (wh_home w1) d1 (map lrec_of (log_recs a)) (wh_jobs w1)) in EC.
  rewrite <- E3 in EC. change d' with (wh_dir w1) in EC at 1. fold (absd w1 a) in EC.
  destruct (replay_log (absd w1 a) (map lrec_of (log_recs a))) as [b1| |] eqn:EL; try discriminate EC. cbn [bind] in EC.
  assert (NE : a <> []) by (eapply wlog_some; eauto).
  destruct a as [|[id0 rs0] post]; [contradiction|].
  assert (ID : wal_id_min (wl_list g') = id0) by (rewrite (wg_list _ _ _ WG); reflexivity). rewrite ID.
  pose proof (wg_top _ _ _ WG) as T. cbn [log_ids map fst] in T. apply Forall_cons_iff in T as [T _].
  replace (id0 =? u64_max) with false by (symmetry; apply N.eqb_neq; lia).
  assert (EB : b = with_en b1 (if en_serial en1 then engine_set_serial (db_en b1) else db_en b1)) by (inversion EC; auto).
  assert (EM : en_map (db_en b1) = en_map (db_en b)).
  { rewrite EB. cbn [with_en db_en]. destruct (en_serial en1); auto. destruct (set_serial_fields (db_en b1)) as (Y & _). auto. }
  destruct (files_sim decompress decrypt wal_crc (length (wl_list g')) w1 [] id0 rs0 post b1) as (w2 & X & B1 & B2 & B3 & B4 & B5); cbn [app]; auto.
  - rewrite (wg_list _ _ _ WG). unfold log_ids. rewrite map_length. cbn [length]. lia.
  - pose proof (replay_grows _ _ _ EL) as GR. cbn [WholeS.absd db_log] in GR. rewrite map_length in GR.
    unfold budget in *. eapply Forall_impl; [|exact BU]. cbv beta. cbn [snd]. intros f Y. lia.
  - intros n i Hin. rewrite EM. apply (GO n i). exact Hin.
  - rewrite B1. cbn [bind]. eexists. split; [reflexivity|]. rewrite EB, <- B2. unfold like. cbn. auto.
Qed.
End Torn.
