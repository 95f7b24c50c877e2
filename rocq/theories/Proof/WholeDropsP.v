(* A database with bytes and drops makes the steps of the database of Crash.v. *)
From Coq Require Import NArith ZArith List Bool Lia Arith Permutation Sorted.
Import ListNotations.
From Verif Require Import Model.Base Model.Rbtree Model.Event Model.Memtable Model.Mapping Model.PartIter Model.Scan Model.Codec
  Model.File Model.Wal Model.Writer Model.Engine Spec.Order Spec.Checksum Spec.Codecs Spec.Layout Spec.Regions
  Spec.View Spec.Engine Spec.Log Spec.FileLimits
  Proof.FileW Proof.FileR Proof.FileP Proof.WalL Proof.WalR Proof.WalH Proof.WalP Proof.MappingL Proof.MappingP
  Proof.EngineL Proof.EngineW Proof.EngineR Proof.CrashW Proof.CrashH Proof.DirL Proof.CrashD Proof.CrashP
  Proof.Cells Proof.DropsL Proof.DropsR Proof.DropsP Proof.DropsT
  Proof.WholeD Proof.WholeL Proof.WholeS Proof.WholeP Proof.WholeDropsL.
From Verif Require Import Model.Crash Spec.Crash Spec.Drops Model.Whole Spec.Whole Model.WholeDrops Spec.WholeDrops.
Local Arguments N.pow : simpl never.
Local Arguments N.add : simpl never.
Local Open Scope N_scope.

(* --- replays --- *)
Lemma replay_app l1 l2 b : replay_log b (l1 ++ l2) = bind (replay_log b l1) (fun b => replay_log b l2).
Proof.
  revert b. induction l1 as [|[n e|n i] l1 IH]; intros b; cbn [app replay_log]; auto.
  - destruct (engine_write_replay (db_en b) n e); cbn [bind]; auto.
  - destruct (db_drop b i); cbn [bind]; auto.
Qed.
Lemma replay_gone X b : Forall (fun r => exists n i, r = RDrop n i /\ part_slice (en_map (db_en b)) i = None) X ->
  replay_log b (map lrec_of X) = Ok b.
Proof.
  induction 1 as [|r X (n & i & -> & E) _ IH]; auto. cbn [map lrec_of replay_log]. unfold db_drop. rewrite E. exact IH.
Qed.
Definition logdrop (r : Crash.lrec) : bool := match r with Crash.LDrop _ _ => true | _ => false end.
Lemma replay_grows l : forall b b', replay_log b l = Ok b' ->
  (length (db_log b) <= length (db_log b') <= length (db_log b) + length (filter logdrop l))%nat.
Proof.
  induction l as [|[n e|n i] l IH]; intros b b' E; cbn [replay_log filter logdrop length] in *.
  - inversion E; subst. lia.
  - destruct (engine_write_replay (db_en b) n e) as [en| |]; try discriminate E. cbn [bind] in E. apply IH in E.
    cbn [with_en db_log] in E. lia.
  - destruct (db_drop b i) as [b1| |] eqn:Ed; try discriminate E. cbn [bind] in E. apply IH in E.
    unfold db_drop in Ed. destruct (part_slice _ _) as [s|]; [|inversion Ed; subst; lia].
    destruct (engine_drop _ _) as [en| |]; try discriminate Ed. cbn [bind] in Ed. inversion Ed; subst. cbn [db_log] in E.
    rewrite app_length in E. cbn [length] in E. lia.
Qed.

Section Drops.
Variable compress : N -> nat -> list byte -> list byte.
Variable decompress : N -> list byte -> N -> res (list byte).
Variable encrypt : N -> nat -> list byte -> list byte.
Variable decrypt : N -> list byte -> res (list byte).
Hypothesis CO : codecs_ok compress decompress encrypt decrypt.
Variable src : source.
Hypothesis SO : settings_ok src.
Variable wal_crc : bool.
Notation dc := (dir_content decompress decrypt).
Notation absd := (absd decompress decrypt).
Notation rd := (eread decompress decrypt wal_crc).
Notation step := (estep compress decompress encrypt decrypt src wal_crc).
Notation op_fine := (eop_fine compress decompress encrypt decrypt src wal_crc).

(* --- one drop --- *)
Lemma drop_sim w a id : wlog wal_crc (wh_wal w) a -> id < 2^64 ->
  match db_drop (absd w a) id with
  | Ok b' => exists w' X, whole_drop wal_crc w id = Ok w' /\ absd w' (put_last a X) = b' /\
      wlog wal_crc (wh_wal w') (put_last a X) /\ en_region (wh_en w') = en_region (wh_en w) /\
      Forall (fun r => exists n, r = RDrop n id) X
  | Err => whole_drop wal_crc w id = Err
  | UB => whole_drop wal_crc w id = UB
  end.
Proof.
  intros WL Hi. unfold db_drop, whole_drop. cbn [WholeS.absd db_en db_home db_dir db_log db_storages db_jobs].
  destruct (part_slice (en_map (wh_en w)) id) as [s|].
  2:{ exists w, []. rewrite put_last_nil. auto. }
  destruct (engine_drop (wh_en w) id) as [en| |] eqn:Ed; cbn [bind]; auto.
  assert (WL' : wlog wal_crc (log_of w) a) by (eapply wlog_lsn; eauto).
  destruct (drop_wlog wal_crc (log_of w) a id WL' Hi) as (g & E & El & Wg). rewrite E. cbn [bind fst].
  eexists. exists [RDrop (w64 (wl_lsn (log_of w) + 1)) id]. split; [reflexivity|].
  cbn [log_of wl_lsn] in *. split; [|split; [|split]].
  - unfold WholeS.absd. cbn [wh_en wh_storages wh_home wh_dir wh_jobs].
    rewrite put_last_recs by (eapply wlog_some; eauto). rewrite map_app. cbn [map lrec_of].
    rewrite dc_set, dc_get, El. f_equal.
  - exact Wg.
  - cbn [wh_en]. unfold engine_drop in Ed. destruct (engine_drop_reference _ _); try discriminate Ed. cbn [bind] in Ed.
    inversion Ed; subst. reflexivity.
  - constructor; eauto.
Qed.

(* --- the records of a file --- *)
Lemma replay_sim rs : Forall (rec_ok wal_crc) rs -> forall w a b', wlog wal_crc (wh_wal w) a ->
  replay_log (absd w a) (map lrec_of rs) = Ok b' ->
  exists w' X, replay_records wal_crc w (map rec_logged rs) = Ok w' /\ absd w' (put_last a X) = b' /\
    wlog wal_crc (wh_wal w') (put_last a X) /\ en_region (wh_en w') = en_region (wh_en w) /\
    Forall (fun r => exists n i, r = RDrop n i /\ exists n', In (RDrop n' i) rs) X.
Proof.
  induction 1 as [|r rs Hr _ IH]; intros w a b' WL E; cbn [map] in *.
  - cbn [replay_log] in E. inversion E; subst. exists w, []. rewrite put_last_nil. auto.
  - destruct r as [n l|n id]; cbn [lrec_of rec_logged replay_log replay_records] in *.
    + cbn [WholeS.absd db_en] in E. destruct (engine_write_replay (wh_en w) n (map le_event l)) as [en| |] eqn:Ew; try discriminate E.
      cbn [bind] in E |- *.
      destruct (IH (put_bare w (with_en (bare w) en)) a b' WL) as (w' & X & A1 & A2 & A3 & A4 & A5); [exact E|].
      exists w', X. split; auto. split; auto. split; auto. split.
      * rewrite A4. apply replay_ev_fields in Ew as [Ew _]. exact Ew.
      * eapply Forall_impl; [|exact A5]. cbv beta. intros r (n0 & i & -> & n1 & Hin). exists n0, i. split; auto. exists n1. right. auto.
    + pose proof (drop_sim w a id WL (proj2 Hr)) as D.
      destruct (db_drop (absd w a) id) as [b1| |]; try discriminate E. cbn [bind] in E.
      destruct D as (w1 & X1 & D1 & D2 & D3 & D4 & D5). rewrite D1. cbn [bind]. subst b1.
      destruct (IH w1 (put_last a X1) b' D3 E) as (w' & X & A1 & A2 & A3 & A4 & A5).
      exists w', (X1 ++ X). rewrite put_last_twice in A2, A3. split; auto. split; auto. split; auto. split; [congruence|].
      apply Forall_app. split.
      * eapply Forall_impl; [|exact D5]. cbv beta. intros r (n0 & ->). exists n0, id. split; auto. exists n. left. auto.
      * eapply Forall_impl; [|exact A5]. cbv beta. intros r (n0 & i & -> & n1 & Hin). exists n0, i. split; auto. exists n1. right. auto.
Qed.

(* --- file after file --- *)
Definition budget (a : log) (k : N) : Prop :=
  Forall (fun f => N.of_nat (length (flat_map (rec_bytes wal_crc) (snd f))) + 29 * k + 21 < 2^32) a.
Lemma drops_length X : Forall (fun r => exists n i, r = RDrop n i) X ->
  N.of_nat (length (flat_map (rec_bytes wal_crc) X)) = 29 * N.of_nat (length X).
Proof.
  induction 1 as [|r X (n & i & ->) _ IH]; auto. cbn [flat_map length]. rewrite app_length, drop_length. lia.
Qed.
Lemma budget_put a X k : Forall (fun r => exists n i, r = RDrop n i) X -> budget a (N.of_nat (length X) + k) ->
  budget (put_last a X) k.
Proof.
  intros HX B. destruct a as [|f a]; [constructor|].
  destruct (@exists_last _ (f :: a)) as (a1 & [i r] & E); [discriminate|]. rewrite E in *.
  rewrite put_last_snoc. unfold budget in *. apply Forall_app in B as [B1 B2]. apply Forall_cons_iff in B2 as [B2 _].
  cbn [snd] in B2. apply Forall_app. split.
  - eapply Forall_impl; [|exact B1]. cbv beta. intros. lia.
  - constructor; [|constructor]. cbn [snd]. rewrite flat_map_app, app_length. pose proof (drops_length X HX). lia.
Qed.
Lemma files_sim : forall fuel w pre id rs post b', let a := pre ++ (id, rs) :: post in
  wlog wal_crc (wh_wal w) a -> (length post < fuel)%nat ->
  replay_log (absd w a) (map lrec_of (rs ++ log_recs post)) = Ok b' ->
  budget a (N.of_nat (length (db_log b') - length (log_recs a))) ->
  (forall n i, In (RDrop n i) (rs ++ log_recs post) -> part_slice (en_map (db_en b')) i = None) ->
  exists w' X, replay_files wal_crc fuel w id = Ok w' /\ absd w' (put_last a X) = b' /\
    wlog wal_crc (wh_wal w') (put_last a X) /\ en_region (wh_en w') = en_region (wh_en w) /\
    Forall (fun r => exists n i, r = RDrop n i) X.
Proof.
  induction fuel as [|fuel IH]; intros w pre id rs post b' a WL HF ER BU GO; [lia|].
  cbn [replay_files]. rewrite (file_at_wlog wal_crc _ pre id rs post WL).
  assert (SH : N.of_nat (length (flat_map (rec_bytes wal_crc) rs)) + 21 < 2^32).
  { unfold budget, a in BU. apply Forall_app in BU as [_ BU]. apply Forall_cons_iff in BU as [BU _]. cbn [snd] in BU. lia. }
  destruct (read_file_wlog wal_crc _ pre id rs post WL SH) as (ERD & Hid & RO). rewrite ERD.
  rewrite map_app, replay_app in ER. destruct (replay_log (absd w a) (map lrec_of rs)) as [b1| |] eqn:E1; try discriminate ER.
  cbn [bind] in ER. destruct (replay_sim rs RO w a b1 WL E1) as (w1 & X & A1 & A2 & A3 & A4 & A5).
  rewrite A1. cbn [bind].
  assert (DX : Forall (fun r => exists n i, r = RDrop n i) X).
  { eapply Forall_impl; [|exact A5]. cbv beta. intros r (n & i & -> & _). eauto. }
  destruct post as [|[id2 rs2] post].
  - cbn [log_recs flat_map map replay_log] in ER. inversion ER; subst b'.
    unfold a in A3. rewrite put_last_snoc in A3. pose proof (next_wlog wal_crc _ pre id (rs ++ X) [] A3) as NX. cbn in NX.
    rewrite NX, N.eqb_refl. exists w1, X. unfold a. rewrite put_last_snoc. split; auto. split; [|auto].
    rewrite <- A2. unfold a. rewrite put_last_snoc. auto.
  - assert (EP : put_last a X = (pre ++ [(id, rs)]) ++ put_last ((id2, rs2) :: post) X).
    { unfold a. rewrite (put_last_app pre) by discriminate. rewrite put_last_cons, <- app_assoc. auto. }
    destruct (put_last ((id2, rs2) :: post) X) as [|[id3 rs3] post3] eqn:EL.
    { apply (f_equal (@length _)) in EL. rewrite put_last_length in EL. discriminate EL. }
    assert (E3 : id3 = id2).
    { pose proof (put_last_ids ((id2, rs2) :: post) X) as Y. rewrite EL in Y. cbn in Y. inversion Y. auto. }
    subst id3.
    assert (LEN : length post3 = length post).
    { pose proof (put_last_length ((id2, rs2) :: post) X) as Y. rewrite EL in Y. cbn in Y. lia. }
    assert (RE : rs3 ++ log_recs post3 = log_recs ((id2, rs2) :: post) ++ X).
    { rewrite <- put_last_recs by discriminate. rewrite EL. reflexivity. }
    rewrite EP in A2, A3.
    pose proof A3 as A3'. rewrite <- app_assoc in A3'. cbn [app] in A3'.
    pose proof (next_wlog wal_crc _ pre id rs ((id2, rs3) :: post3) A3') as NX. cbn [fst] in NX. rewrite NX.
    pose proof (wg_top _ _ _ A3) as T. unfold log_ids in T. rewrite map_app in T. apply Forall_app in T as [_ T].
    apply Forall_cons_iff in T as [T _]. cbn [fst] in T.
    replace (id2 =? u64_max) with false by (symmetry; apply N.eqb_neq; lia).
    pose proof (replay_grows _ _ _ E1) as G1. pose proof (replay_grows _ _ _ ER) as G2.
    rewrite <- A2 in G1, G2, ER. cbn [WholeS.absd db_log] in G1, G2. rewrite !map_length in G1, G2. rewrite <- EP in G1, G2.
    pose proof (wlog_some _ _ _ WL) as NE. fold a in NE. rewrite put_last_recs in G1, G2 by exact NE.
    rewrite app_length in G2.
    destruct (IH w1 (pre ++ [(id, rs)]) id2 rs3 post3 b') as (w' & X2 & B1 & B2 & B3 & B4 & B5).
    + exact A3.
    + cbn [length] in HF. lia.
    + rewrite RE, map_app, replay_app, ER. cbn [bind]. apply replay_gone.
      eapply Forall_impl; [|exact A5]. cbv beta. intros r (n & i & -> & n' & Hin). exists n, i. split; auto.
      apply (GO n'). apply in_or_app. auto.
    + rewrite <- EP. apply budget_put; auto. rewrite put_last_recs by exact NE. rewrite app_length.
      replace (N.of_nat (length X) + N.of_nat (length (db_log b') - (length (log_recs a) + length X)))
        with (N.of_nat (length (db_log b') - length (log_recs a))) by lia. exact BU.
    + intros n i Hin. rewrite RE in Hin. apply in_app_or in Hin as [Hin|Hin].
      * apply (GO n). apply in_or_app. auto.
      * rewrite Forall_forall in A5. destruct (A5 _ Hin) as (n0 & i0 & Y & n1 & Hin'). inversion Y; subst.
        apply (GO n1). apply in_or_app. auto.
    + exists w', (X ++ X2). rewrite <- EP, put_last_twice in B2, B3. split; auto. split; auto. split; auto.
      split; [congruence|]. apply Forall_app; auto.
Qed.

(* --- starts --- *)
Lemma record_of_rec r : record_of (rec_logged r) = lrec_of r.
Proof. destruct r; auto. Qed.
Lemma eread_absd w a : wlog wal_crc (wh_wal w) a -> files_short (wh_wal w) ->
  rd w = absd w a /\ log_read wal_crc w = map rec_logged (log_recs a).
Proof.
  intros WL FS. assert (E : log_read wal_crc w = map rec_logged (log_recs a)).
  { unfold log_read. rewrite (read_wlog wal_crc (wh_wal w) a WL FS). reflexivity. }
  split; auto. unfold eread, WholeS.absd. rewrite E, map_map. f_equal. apply map_ext. apply record_of_rec.
Qed.
Lemma drops_filter l : length (filter is_drop (map rec_logged l)) = length (filter logdrop (map lrec_of l)).
Proof. induction l as [|[n e|n i] l IH]; cbn; auto. Qed.
Lemma gone_slice lo R b H id : dinv lo R b H -> gone R id = true -> part_slice (en_map (db_en b)) id = None.
Proof.
  intros [B C CR F _] G. pose proof (bi_iv _ _ _ B) as Hiv. cbn [quiet with_log db_en] in Hiv.
  pose proof (mi_map _ _ (bi_map _ _ _ B)) as GM. cbn [quiet with_log db_en] in GM.
  pose proof (part_slice_spec lo _ id GM) as PS. destruct (part_slice (en_map (db_en b)) id) as [s|]; auto.
  destruct PS as [Hs Hr]. exfalso. apply (gone_cell (en_interval (db_en b))) in G; auto; [|lia].
  assert (Hin : In (range_of s) (ranges (en_map (db_en b)))) by (apply in_map; auto).
  apply (F (range_of s) Hin). rewrite (cell_in (en_interval (db_en b)) (range_of s) id); auto; [lia|].
  unfold cells in C. rewrite Forall_forall in C. auto.
Qed.
Lemma closed_in lo R l n id : closed lo R l -> In (Crash.LDrop n id) l -> gone R id = true.
Proof.
  induction l as [|[k e|k i] l IH]; cbn [closed In]; [tauto| |]; intros C [E|Hin].
  - discriminate E.
  - apply IH; tauto.
  - inversion E; subst. tauto.
  - apply IH; tauto.
Qed.
Lemma start_log en sts d log b : main_start en sts d log = Ok b -> exists X, db_log b = log ++ X.
Proof.
  unfold main_start. destruct (engine_recover en sts d) as [[en1 d1]| |]; try discriminate. cbn [bind].
  destruct (replay_log _ log) as [b1| |] eqn:E; try discriminate. cbn [bind]. intros Y. inversion Y; subst. cbn [with_en db_log].
  enough (Z : forall l b0 b2, replay_log b0 l = Ok b2 -> exists X, db_log b2 = db_log b0 ++ X).
  { apply Z in E. exact E. }
  clear. induction l as [|[n e|n i] l IH]; intros b0 b2 E; cbn [replay_log] in E.
  - inversion E; subst. exists []. rewrite app_nil_r. auto.
  - destruct (engine_write_replay (db_en b0) n e); try discriminate E. cbn [bind] in E. apply IH in E. exact E.
  - unfold db_drop in E. destruct (part_slice _ _); [|apply IH in E; exact E].
    destruct (engine_drop _ _); try discriminate E. cbn [bind] in E. apply IH in E as (X & E). cbn [db_log] in E.
    eexists. rewrite E, <- app_assoc. reflexivity.
Qed.

Record einv (lo : N) (R : list range) (w : whole) (H : hist) (a : log) : Prop := {
  ev_d : dinv lo R (absd w a) H;
  ev_log : wlog wal_crc (wh_wal w) a;
  ev_region : en_region (wh_en w) = Z.to_N (so_region_size src mod 2 ^ 32)
}.

Lemma stop_sim lo R w H a cuts ids : einv lo R w H a -> op_fine lo R w (EStop cuts ids) ->
  exists w' X, step w (EStop cuts ids) = Ok w' /\ einv lo R w' H (put_last a X) /\ tidy (dc (wh_dir w')) /\
    Forall (fun r => exists n i, r = RDrop n i) X /\ (length X <= length (filter is_drop (log_read wal_crc w)))%nat /\
    log_read wal_crc w = map rec_logged (log_recs a) /\ log_read wal_crc w' = map rec_logged (log_recs a ++ X).
Proof.
  intros [D WL RG] [[P FS] F].
  assert (FS' : files_short (wh_wal w)).
  { unfold files_short. eapply Forall_impl; [|exact FS]. cbv beta. intros. lia. }
  destruct (eread_absd w a WL FS') as [E1 E2]. rewrite E1 in F.
  destruct (dcrash_same lo R (absd w a) H cuts D F) as (b & EC & DB & TI).
  pose proof EC as EC'. cbn [cstep] in EC'. cbn [WholeS.absd db_storages db_dir db_en db_log] in EC'.
  cbn [estep].
  rewrite dc_map, interrupted_map in EC'. destruct (interrupted (wh_storages w) (wh_dir w) cuts) as [d0| |]; try discriminate EC'.
  cbn [rmap bind] in EC' |- *. rewrite <- dc_map in EC'.
  destruct (start_log _ _ _ _ _ EC') as (X0 & EX0).
  unfold main_start in EC'. unfold drops_start.
  destruct (engine_recover (wh_en w) (wh_storages w) (dc d0)) as [[en1 d1]| |] eqn:ER; try discriminate EC'.
  cbn [bind] in EC'. destruct (recover_sim decompress decrypt _ _ _ _ _ ER) as (d' & EW & E3). rewrite EW. cbn [bind].
  destruct (open_wlog wal_crc (wh_wal w) a ids (en_lsn en1) WL P) as (g & EO & WG & _). rewrite EO. cbn [bind].
  assert (ED : worklist (wh_storages w) d1 = worklist (wh_storages w) d').
  { rewrite <- E3, dc_map, worklist_map. auto. }
  rewrite ED in EC'. set (home := home_of (worklist (wh_storages w) d') (hd 0 (wh_storages w))) in *.
  set (w1 := mk_whole en1 (wh_storages w) home d' g []).
  change (mk_db en1 (wh_storages w) home d1 (map lrec_of (log_recs a)) []) with
    (mk_db (wh_en w1) (wh_storages w1) (wh_home w1) d1 (map lrec_of (log_recs a)) (wh_jobs w1)) in EC'.
  rewrite <- E3 in EC'. change d' with (wh_dir w1) in EC' at 1. fold (absd w1 a) in EC'.
  destruct (replay_log (absd w1 a) (map lrec_of (log_recs a))) as [b1| |] eqn:EL; try discriminate EC'. cbn [bind] in EC'.
  assert (NE : a <> []) by (eapply wlog_some; eauto).
  destruct a as [|[id0 rs0] post]; [contradiction|].
  assert (ID : wal_id_min (wl_list g) = id0) by (rewrite (wg_list _ _ _ WG); reflexivity). rewrite ID.
  pose proof (wg_top _ _ _ WG) as T. cbn [log_ids map fst] in T. apply Forall_cons_iff in T as [T _].
  replace (id0 =? u64_max) with false by (symmetry; apply N.eqb_neq; lia).
  assert (EB : b = with_en b1 (if en_serial en1 then engine_set_serial (db_en b1) else db_en b1)) by (inversion EC'; auto).
  assert (EM : en_map (db_en b1) = en_map (db_en b)).
  { rewrite EB. cbn [with_en db_en]. destruct (en_serial en1); auto. destruct (set_serial_fields (db_en b1)) as (Y & _). auto. }
  destruct (files_sim (length (wl_list g)) w1 [] id0 rs0 post b1) as (w2 & X & B1 & B2 & B3 & B4 & B5); cbn [app]; auto.
  - rewrite (wg_list _ _ _ WG). unfold log_ids. rewrite map_length. cbn [length]. lia.
  - pose proof (replay_grows _ _ _ EL) as GR. cbn [WholeS.absd db_log] in GR. rewrite map_length in GR.
    rewrite <- drops_filter, <- E2 in GR.
    unfold budget. rewrite (wg_files _ _ _ WL) in FS. unfold log_files in FS. rewrite Forall_map in FS.
    eapply Forall_impl; [|exact FS]. cbv beta. cbn [snd]. intros f Y. lia.
  - intros n i Hin. rewrite EM. apply (gone_slice lo R b H i DB). apply (closed_in lo R (db_log b) n).
    + apply DB.
    + rewrite EX0. apply in_or_app. left. change (Crash.LDrop n i) with (lrec_of (RDrop n i)). apply in_map. exact Hin.
  - rewrite B1. cbn [bind]. eexists. exists X. split; [reflexivity|].
    assert (RG1 : en_region en1 = en_region (wh_en w)).
    { clear - ER. unfold engine_recover in ER. destruct (validate_all _ _ _); try discriminate ER. cbn [bind] in ER.
      destruct (open_all _ _ _ _) as [[]| |]; try discriminate ER. cbn [bind] in ER. inversion ER; subst. auto. }
    set (en2 := if en_serial en1 then engine_set_serial (wh_en w2) else wh_en w2).
    assert (EA : absd (put_bare w2 (with_en (bare w2) en2)) (put_last ((id0, rs0) :: post) X) = b).
    { rewrite EB. rewrite <- B2. reflexivity. }
    split.
    + constructor.
      * rewrite EA. exact DB.
      * exact B3.
      * cbn [put_bare with_en bare wh_en db_en]. unfold en2.
        assert (Y : en_region (wh_en w2) = Z.to_N (so_region_size src mod 2 ^ 32)) by (rewrite B4; cbn [w1 wh_en]; congruence).
        destruct (en_serial en1); auto. destruct (set_serial_fields (wh_en w2)) as (_ & _ & _ & _ & _ & Z). congruence.
    + split; [rewrite <- EA in TI; exact TI|]. split; [exact B5|].
      pose proof (replay_grows _ _ _ EL) as GR. rewrite <- B2 in GR. cbn [WholeS.absd db_log] in GR. rewrite !map_length in GR.
      cbn [app] in GR. rewrite put_last_recs in GR by exact NE. rewrite app_length, <- drops_filter, <- E2 in GR.
      assert (LX : (length X <= length (filter is_drop (log_read wal_crc w)))%nat) by lia.
      split; [exact LX|]. split; [exact E2|].
      unfold log_read. cbn [put_bare with_en bare wh_wal].
      rewrite (read_wlog wal_crc (wh_wal w2) _ B3).
      * cbn [fst]. rewrite put_last_recs by exact NE. reflexivity.
      * unfold files_short. rewrite (wg_files _ _ _ B3). unfold log_files. rewrite Forall_map. cbn [snd].
        assert (BP : budget (put_last ((id0, rs0) :: post) X) 0).
        { apply budget_put; auto. unfold budget. rewrite (wg_files _ _ _ WL) in FS. unfold log_files in FS. rewrite Forall_map in FS.
          eapply Forall_impl; [|exact FS]. cbv beta. cbn [snd]. intros f Y. lia. }
        eapply Forall_impl; [|exact BP]. cbv beta. intros. lia.
Qed.

(* --- the other steps --- *)
Definition estep_ok lo R w (H : hist) o : Prop :=
  match step w o with
  | Ok w' => exists H' a', einv lo (edropped w o ++ R) w' H' a' /\
      map snd H' = filter (fun e => negb (gone (edropped w o) (ev_id e))) (eack_step w o (map snd H))
  | Err => estops o = false /\ eack_step w o (map snd H) = map snd H
  | UB => False
  end.
Lemma keep_log lo R w w' H a : einv lo R w H a -> dinv lo R (absd w' a) H -> wh_wal w' = wh_wal w ->
  en_region (wh_en w') = en_region (wh_en w) -> einv lo R w' H a.
Proof. intros [D WL RG] D' E1 E2. constructor; auto; congruence. Qed.
Lemma ebegin_ok lo R w H a id to : einv lo R w H a -> op_fine lo R w (EDo (WBegin id to)) ->
  estep_ok lo R w H (EDo (WBegin id to)).
Proof.
  intros I F. pose proof (dstep_spec lo R (absd w a) H (CBegin id to) (ev_d _ _ _ _ _ I) F) as X.
  cbn [cstep dropped app cack_step stops] in X. rewrite begin_sim in X.
  unfold estep_ok. cbn [estep wstops wstep edropped app estops eack_step].
  destruct (db_begin (bare w) id to) as [b| |] eqn:E; cbn [rmap bind] in *; auto.
  destruct X as (H' & D & EH). exists H', a. rewrite filter_none in *. split; auto.
  destruct (begin_fields _ _ _ _ E) as [F1 F2]. destruct I as [_ WL RG]. constructor; auto. cbn [put_bare wh_en]. rewrite F2. auto.
Qed.
Lemma eone_ok lo R w H a ref x : einv lo R w H a -> op_fine lo R w (EDo (WStep ref x)) ->
  estep_ok lo R w H (EDo (WStep ref x)).
Proof.
  intros I [F NF]. pose proof (ev_d _ _ _ _ _ I) as D.
  pose proof (dstep_spec lo R (absd w a) H (CStep ref) D F) as X.
  cbn [cstep dropped app cack_step stops] in X.
  rewrite (step_sim compress decompress encrypt decrypt CO src SO lo w (quiet R (absd w a)) H a ref x (dv_b _ _ _ _ D) eq_refl
    (ev_region _ _ _ _ _ I) NF) in X.
  unfold estep_ok. cbn [estep wstops wstep edropped app estops eack_step].
  destruct (whole_step compress encrypt src w ref x) as [w'| |] eqn:E; cbn [rmap bind] in *; auto.
  destruct X as (H' & D' & EH). exists H', a. rewrite filter_none in *. split; auto.
  destruct (step_fields compress encrypt src w ref x w' E) as (F0 & F1 & F2). destruct I as [_ WL RG]. constructor; auto; congruence.
Qed.
Lemma efail_ok lo R w H a ref : einv lo R w H a -> op_fine lo R w (EDo (WFail ref)) ->
  estep_ok lo R w H (EDo (WFail ref)).
Proof.
  intros I F. pose proof (dstep_spec lo R (absd w a) H (CFail ref) (ev_d _ _ _ _ _ I) F) as X.
  cbn [cstep dropped app cack_step stops] in X.
  unfold estep_ok. cbn [estep wstops wstep edropped app estops eack_step].
  destruct X as (H' & D & EH). exists H', a. rewrite filter_none in *. split; auto.
  destruct I as [_ WL RG]. constructor; auto.
Qed.
Lemma ecreate_ok lo R w H a mn mx : einv lo R w H a -> op_fine lo R w (EDo (WCreate mn mx)) ->
  estep_ok lo R w H (EDo (WCreate mn mx)).
Proof.
  intros I F. pose proof (dstep_spec lo R (absd w a) H (CCreate mn mx) (ev_d _ _ _ _ _ I) F) as X.
  cbn [cstep dropped app cack_step stops] in X. cbn [WholeS.absd db_en] in X.
  unfold estep_ok. cbn [estep wstops wstep edropped app estops eack_step].
  destruct (engine_fill part_new (en_map (wh_en w)) mn mx) as [m| |]; cbn [bind] in *; auto.
  destruct X as (H' & D & EH). exists H', a. rewrite filter_none in *. split; auto.
  destruct I as [_ WL RG]. constructor; auto.
Qed.
Lemma logged_lsn_rec r : logged_lsn (rec_logged r) = Log.rec_lsn r.
Proof. destruct r; auto. Qed.
Lemma erotate_ok lo R w H a wm : einv lo R w H a -> op_fine lo R w (EDo (WRotate wm)) ->
  estep_ok lo R w H (EDo (WRotate wm)).
Proof.
  intros [D WL RG] [LR RF]. unfold lsn_room in LR.
  assert (WL' : wlog wal_crc (log_of w) a) by (eapply wlog_lsn; eauto).
  destruct (rotate_wlog wal_crc (log_of w) a wm WL') as (a' & WG & ER & EL).
  - cbn [log_of wl_lsn]. unfold u64_max. lia.
  - cbn [log_of wl_lsn]. intros Y. destruct (RF Y) as (FS & R1 & R2). rewrite (wg_list _ _ _ WL) in R1. split; auto.
    destruct (eread_absd w a WL FS) as [_ E]. rewrite E, Forall_map in R2. eapply Forall_impl; [|exact R2].
    cbv beta. intros r. rewrite logged_lsn_rec. auto.
  - unfold estep_ok. cbn [estep wstops wstep edropped app estops eack_step].
    exists H, a'. rewrite filter_none. split; auto. constructor; auto.
    unfold WholeS.absd in *. cbn [put_log wh_en wh_storages wh_home wh_dir wh_jobs]. rewrite ER. auto.
Qed.
Lemma egc_ok lo R w H a : einv lo R w H a -> op_fine lo R w (EDo WGc) -> estep_ok lo R w H (EDo WGc).
Proof.
  intros [D WL RG] F. assert (WL' : wlog wal_crc (log_of w) a) by (eapply wlog_lsn; eauto).
  destruct (gc_wlog wal_crc (log_of w) a (gc_min (wh_en w)) WL') as (g & a1 & a2 & E & Ea & WG & EL & LT).
  unfold estep_ok. cbn [estep wstops wstep edropped app estops eack_step]. rewrite E. cbn [bind].
  assert (LG : map lrec_of (log_recs a) = map lrec_of (log_recs a1) ++ map lrec_of (log_recs a2)).
  { rewrite Ea, log_recs_app, map_app. auto. }
  pose proof (dstep_spec lo R (absd w a) H (CGc (length (map lrec_of (log_recs a1)))) D F) as X.
  cbn [cstep dropped app cack_step stops] in X. unfold db_gc in X. cbn [WholeS.absd db_log db_en] in X. rewrite LG in X.
  rewrite firstn_app, Nat.sub_diag, firstn_all, app_nil_r in X. rewrite skipn_app, Nat.sub_diag, skipn_all in X. cbn [skipn app] in X.
  replace (forallb (fun r => Crash.rec_lsn r <? gc_min (wh_en w)) (map lrec_of (log_recs a1))) with true in X.
  2:{ symmetry. apply forallb_forall. intros r Hr. apply in_map_iff in Hr as (q & <- & Hq). rewrite rec_lsn_of.
      rewrite Forall_forall in LT. apply N.ltb_lt. auto. }
  destruct X as (H' & D' & EH). exists H', a2. rewrite filter_none in *. split; auto. constructor; auto.
Qed.
Lemma ewrite_ok lo R w H a l m fail : einv lo R w H a -> op_fine lo R w (EDo (WWrite l m fail)) ->
  estep_ok lo R w H (EDo (WWrite l m fail)).
Proof.
  intros [D WL RG] (LR & F & RF & ->). unfold lsn_room in LR.
  pose proof (dstep_spec lo R (absd w a) H (CWrite l true) D F) as X.
  cbn [cstep dropped app cack_step stops] in X. cbn [WholeS.absd db_en] in X.
  unfold estep_ok. cbn [estep wstops wstep edropped app estops eack_step]. unfold whole_write. unfold record_fine in RF.
  destruct (engine_write (wh_en w) l true) as [[en r]| |] eqn:EW; cbn [bind] in *; auto.
  assert (RE : en_region en = en_region (wh_en w)).
  { destruct F as (BF & _ & _). pose proof (bi_map _ _ _ (dv_b _ _ _ _ D)) as IM. pose proof (bi_iv _ _ _ (dv_b _ _ _ _ D)) as IV.
    destruct (write_grown lo (wh_en w) l true IM IV BF) as [(m1 & E1 & _)|(m1 & ssn & E1 & _)];
      rewrite E1 in EW; inversion EW; reflexivity. }
  destruct r as [evs|]; cbn [bind] in *.
  - destruct RF as [BO STB]. assert (WL' : wlog wal_crc (log_of w) a) by (eapply wlog_lsn; eauto).
    destruct (write_wlog wal_crc (log_of w) a (entries evs m) (en_lsn (wh_en w)) WL' BO STB eq_refl) as (g & EG & EL & WG); [lia|].
    rewrite EG. cbn [bind snd fst]. destruct X as (H' & D' & EH).
    exists H', (put_last a [RWrite (en_lsn (wh_en w) + 1) (entries evs m)]). split; auto. constructor.
    + assert (EB : absd (put_log (put_bare w (with_en (bare w) en)) g) (put_last a [RWrite (en_lsn (wh_en w) + 1) (entries evs m)]) =
        with_log (with_en (absd w a) en) (map lrec_of (log_recs a) ++ [write_rec (absd w a) evs])).
      { unfold WholeS.absd. cbn [put_log put_bare with_en bare wh_en wh_storages wh_home wh_dir wh_jobs db_en db_storages db_home db_jobs with_log db_dir].
        rewrite put_last_recs by (eapply wlog_some; eauto). rewrite map_app. cbn [map lrec_of]. rewrite entries_events.
        unfold write_rec. cbn [db_en]. rewrite (w64_small (en_lsn (wh_en w) + 1)) by lia. reflexivity. }
      rewrite EB. exact D'.
    + exact WG.
    + cbn [put_log put_bare with_en bare wh_en db_en]. congruence.
  - destruct X as (H' & D' & EH). exists H', a. split; auto. constructor; auto. cbn [put_bare with_en bare wh_en db_en]. congruence.
Qed.
Lemma edrop_ok lo R w H a id : einv lo R w H a -> op_fine lo R w (EDrop id) -> estep_ok lo R w H (EDrop id).
Proof.
  intros [D WL RG] (LR & F).
  pose proof (dstep_spec lo R (absd w a) H (CDrop id) D F) as X.
  cbn [cstep dropped cack_step stops] in X. cbn [WholeS.absd db_en db_jobs] in X.
  change (mk_db (wh_en w) (wh_storages w) (wh_home w) (dc (wh_dir w)) (map lrec_of (log_recs a)) (wh_jobs w)) with (absd w a) in X.
  unfold estep_ok. cbn [estep edropped estops eack_step].
  destruct (existsb _ (wh_jobs w)); auto.
  assert (Hi : id < 2^64).
  { destruct F as (Hw & _). pose proof (binv_lo _ _ _ (dv_b _ _ _ _ D)) as LO. rewrite u64_max_eq in LO. lia. }
  pose proof (drop_sim w a id WL Hi) as S. destruct (db_drop (absd w a) id) as [b| |].
  - destruct S as (w' & Y & S1 & S2 & S3 & S4 & _). rewrite S1. destruct X as (H' & D' & EH).
    exists H', (put_last a Y). split; auto. constructor; auto; [rewrite S2; exact D'|congruence].
  - rewrite S. exact X.
  - contradiction.
Qed.

Lemma estep_spec lo R w H a o : einv lo R w H a -> op_fine lo R w o -> estep_ok lo R w H o.
Proof.
  intros I F. destruct o as [o|id|cuts ids].
  - destruct o; try contradiction.
    + eapply ewrite_ok; eauto.
    + eapply ebegin_ok; eauto.
    + eapply eone_ok; eauto.
    + eapply efail_ok; eauto.
    + eapply erotate_ok; eauto.
    + eapply egc_ok; eauto.
    + eapply ecreate_ok; eauto.
  - eapply edrop_ok; eauto.
  - destruct (stop_sim lo R w H a cuts ids I F) as (w' & X & E & I' & _). unfold estep_ok. rewrite E.
    exists H, (put_last a X). cbn [edropped app eack_step]. rewrite filter_none. auto.
Qed.
Lemma erun_spec lo : forall ops R w H a, einv lo R w H a ->
  ehist_fine compress decompress encrypt decrypt src wal_crc lo R w ops ->
  exists w' H' a', erun compress decompress encrypt decrypt src wal_crc w ops = Ok w' /\
    einv lo (all_gone compress decompress encrypt decrypt src wal_crc R w ops) w' H' a' /\
    map snd H' = eacked compress decompress encrypt decrypt src wal_crc w ops (map snd H).
Proof.
  induction ops as [|o ops IH]; intros R w H a I Hf; cbn [erun eacked all_gone ehist_fine] in *; [eauto 6|].
  destruct Hf as [H1 H2]. pose proof (estep_spec lo R w H a o I H1) as Hs. unfold estep_ok in Hs.
  destruct (step w o) as [w1| |]; try contradiction.
  - destruct Hs as (H' & a' & I' & E). destruct (IH _ w1 H' a' I' H2) as (w' & H'' & a'' & A1 & A2 & A3).
    exists w', H'', a''. rewrite <- E. auto.
  - destruct Hs as [E1 E2]. rewrite E1, E2. eapply IH; eauto.
Qed.
Lemma einv_new lo storages iv serial page : limits lo iv -> storages_ok storages ->
  einv lo [] (whole_new src storages iv serial page) [] [(1, [])].
Proof.
  intros [L1 L2] ST. constructor.
  - apply (dinv_new lo storages iv serial page (Z.to_N (so_region_size src mod 2 ^ 32)) L1 L2 ST).
  - apply wlog_new.
  - reflexivity.
Qed.
End Drops.
