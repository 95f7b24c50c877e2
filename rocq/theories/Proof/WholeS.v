(* One step of a database with bytes is one step of the database of Crash.v. *)
From Coq Require Import NArith ZArith List Bool Lia Arith Permutation Sorted.
Import ListNotations.
From Verif Require Import Model.Base Model.Event Model.Memtable Model.Mapping Model.PartIter Model.Scan Model.Codec
  Model.File Model.Wal Model.Writer Model.Engine Spec.Order Spec.Checksum Spec.Codecs Spec.Layout Spec.Regions
  Spec.View Spec.Engine Spec.Log Spec.FileLimits
  Proof.FileW Proof.FileR Proof.FileP Proof.WalL Proof.WalR Proof.WalH Proof.WalP Proof.MappingL Proof.MappingP
  Proof.EngineL Proof.EngineW Proof.EngineR Proof.CrashW Proof.CrashH Proof.DirL Proof.CrashD Proof.CrashP
  Proof.WholeD Proof.WholeL.
From Verif Require Import Model.Crash Spec.Crash Model.Whole Spec.Whole.
Local Arguments N.pow : simpl never.
Local Arguments N.add : simpl never.
Local Open Scope N_scope.

(* --- starts from directories that differ in incomplete files --- *)
Lemma dull_inc d k : sl_inc (dget (dull d) k) = option_map (fun _ => None) (sl_inc (dget d k)).
Proof. unfold dull. rewrite dget_map. auto. Qed.
Lemma wfd_dull d : wfd (dull d) -> wfd d.
Proof.
  intros [A B]. unfold dull in A. rewrite keys_map in A. split; auto. rewrite Forall_forall in *. intros x Hx E.
  apply (B (fst x, smap (fun c => c) (fun _ => None) (snd x))).
  - unfold dull, dmap. apply in_map_iff. exists x. auto.
  - cbn [snd]. rewrite E. auto.
Qed.
Lemma rmap_ok {A B} (h : A -> B) r y : rmap h r = Ok y -> exists x, r = Ok x /\ h x = y.
Proof. destruct r; cbn; intros E; try discriminate E. inversion E. eauto. Qed.
Lemma dull_start sts d d' cuts d1 en log b : writes log -> dull d = dull d' ->
  interrupted sts d cuts = Ok d1 -> main_start en sts d1 log = Ok b -> tidy (db_dir b) -> wfd (db_dir b) ->
  exists d1', interrupted sts d' cuts = Ok d1' /\ main_start en sts d1' log = Ok b.
Proof.
  intros W ED EI EM [T _] WF.
  assert (X : interrupted sts (dull d) cuts = Ok (dull d1)) by (unfold dull; rewrite interrupted_map, EI; auto).
  rewrite ED in X. unfold dull at 1 in X. rewrite interrupted_map in X. apply rmap_ok in X as (d1' & E1 & E2).
  fold (dull d1') in E2. exists d1'. split; auto.
  destruct (start_shape en sts d1 log b W EM) as (en1 & d2 & en2 & ER & R & _ & _ & S & Eb).
  assert (Ed2 : db_dir b = d2) by (rewrite Eb; auto). rewrite Ed2 in *.
  unfold engine_recover in ER. destruct (validate_all sts d1 (worklist sts d1)) as [d2'| |] eqn:EV; try discriminate ER.
  cbn [bind] in ER. destruct (open_all mapping_init 0 d2' (worklist sts d2')) as [[m n]| |] eqn:EO; try discriminate ER.
  cbn [bind] in ER. inversion ER; subst d2'. clear ER.
  assert (Y : validate_all sts (dull d1) (worklist sts (dull d1)) = Ok (dull d2)).
  { unfold dull. rewrite worklist_map, validate_all_map, EV. auto. }
  rewrite <- E2 in Y. unfold dull at 1 2 in Y. rewrite worklist_map, validate_all_map in Y.
  apply rmap_ok in Y as (d3 & E3 & E4). fold (dull d3) in E4.
  assert (F2 : dull d2 = d2) by (apply dull_settled; auto; intros; apply T).
  assert (F3 : dull d3 = d3).
  { apply dull_settled.
    - intros k. assert (Z : sl_inc (dget (dull d3) k) = None) by (rewrite E4, F2; apply T).
      rewrite dull_inc in Z. destruct (sl_inc (dget d3 k)); auto. discriminate Z.
    - apply wfd_dull. rewrite E4, F2. auto. }
  assert (F4 : d3 = d2) by congruence. subst d3.
  unfold main_start, engine_recover. rewrite E3. cbn [bind]. rewrite EO. cbn [bind].
  rewrite (R (mk_db _ sts (home_of (worklist sts d2) (hd 0 sts)) d2 log []) (eq_trans eq_refl H0)). cbn [bind].
  rewrite Eb. rewrite H0, S. auto.
Qed.

(* a database with the same files under the same names *)
Lemma binv_dir lo b H d' : binv lo b H -> wfd d' -> (forall k, dget d' k = dget (db_dir b) k) -> binv lo (with_dir b d') H.
Proof.
  intros B W E.
  assert (SV : forall mn c, surv d' mn c <-> surv (db_dir b) mn c) by (intros; apply surv_local; intros; apply E).
  destruct B as [B1 B2 B3 B4 B5 B6 B7 B8 B9 B10 B11 B12 B13 B14 (B15 & H0 & E15 & S15)].
  constructor; cbn [with_dir db_en db_storages db_home db_dir db_log db_jobs]; auto.
  - intros k. rewrite E. auto.
  - intros. rewrite E. auto.
  - intros s Hs. specialize (B12 s Hs). unfold desc, jdesc in *. destruct (job_of (db_jobs b) (s_min s)) as [j|].
    + destruct (jb_stage j) as [|[|[|[|[|[|n]]]]]]; auto.
      * destruct B12 as [X1 X2]. split; auto. intros. rewrite E. auto.
      * destruct B12 as [X1 X2]. split; auto. intros. rewrite E. auto.
      * destruct B12 as (X1 & l & X2 & X3). split; auto. exists l. split; auto. intros. rewrite E. auto.
      * destruct B12 as (X1 & X0 & old & X2 & X3). split; auto. split; auto. exists old. split; auto. intros. rewrite E. auto.
      * destruct B12 as (X1 & X0 & old & X2 & X3). split; auto. split; auto. exists old. split; auto. intros. rewrite E. auto.
      * destruct B12 as (X1 & X0 & X3). split; auto. split; auto. intros. rewrite E. auto.
    + intros st. rewrite E. auto.
  - intros mn c Hc. apply B14. apply SV. auto.
  - split; auto. exists H0. split; auto. intros x Hx. destruct (S15 x Hx) as (f & A1 & A2). exists f. split; auto. apply SV; auto.
Qed.

Section Whole.
Variable compress : N -> nat -> list byte -> list byte.
Variable decompress : N -> list byte -> N -> res (list byte).
Variable encrypt : N -> nat -> list byte -> list byte.
Variable decrypt : N -> list byte -> res (list byte).
Hypothesis CO : codecs_ok compress decompress encrypt decrypt.
Variable src : source.
Hypothesis SO : settings_ok src.
Variable wal_crc : bool.
Notation fc := (file_content decompress decrypt).
Notation dc := (dir_content decompress decrypt).
Notation rd := (as_read decompress decrypt wal_crc).

Lemma dc_map d : dc d = dmap fc fc d.
Proof. reflexivity. Qed.
Lemma dc_get d k : dget (dc d) k = slot_content decompress decrypt (dget d k).
Proof. rewrite dc_map. apply dget_map. Qed.
Lemma dc_set d k s : dc (dset d k s) = dset (dc d) k (slot_content decompress decrypt s).
Proof. rewrite !dc_map. symmetry. apply (dset_map fc fc). Qed.
Lemma fc_empty : fc [] = None.
Proof. reflexivity. Qed.

Definition absd (w : whole) (a : log) : db :=
  mk_db (wh_en w) (wh_storages w) (wh_home w) (dc (wh_dir w)) (map lrec_of (log_recs a)) (wh_jobs w).
Definition last_of (n : N) (H : hist) : Prop := n = 0 \/ exists e, In (n, e) H.
Record winv (lo : N) (w : whole) (H : hist) (clean : bool) (a : log) (tail : list byte) : Prop := {
  wv_b : binv lo (absd w a) H;
  wv_log : tholds wal_crc (log_of w) a tail;
  wv_clean : clean = true -> tail = [];
  wv_writes : Forall is_write (log_recs a);
  wv_region : en_region (wh_en w) = Z.to_N (so_region_size src mod 2 ^ 32);
  wv_last : last_of (en_lsn (wh_en w)) H
}.

(* --- starts --- *)
Lemma is_writes a : Forall is_write (log_recs a) -> Forall (rec_ok wal_crc) (log_recs a) ->
  Forall (fun r => 1 <= Log.rec_lsn r) (log_recs a) -> writes (map lrec_of (log_recs a)).
Proof.
  intros A B C. unfold writes. rewrite Forall_map. rewrite Forall_forall in *. intros r Hr.
  specialize (A r Hr). specialize (C r Hr). destruct r; [exact C|contradiction].
Qed.
Lemma recover_sim en sts d en1 d1 : engine_recover en sts (dc d) = Ok (en1, d1) ->
  exists d', whole_recover decompress decrypt en sts d = Ok (en1, d') /\ dc d' = d1.
Proof.
  unfold engine_recover, whole_recover. rewrite dc_map, worklist_map, validate_all_map.
  destruct (validate_all sts d (worklist sts d)) as [d'| |]; cbn [rmap bind]; try discriminate.
  rewrite worklist_map. rewrite dc_map. destruct (open_all mapping_init 0 (dmap fc fc d') (worklist sts d')) as [[m n]| |];
    cbn [bind]; try discriminate.
  intros E. inversion E; subst. exists d'. auto.
Qed.
Definition log_at (w : whole) (n : N) : wal := mk_wal (wl_files (wh_wal w)) (wl_list (wh_wal w)) (wl_current (wh_wal w)) n.
Lemma log_at_of w : log_of w = log_at w (en_lsn (wh_en w)).
Proof. reflexivity. Qed.
Lemma restart_sim w top cuts ids a tail d1 b : tholds wal_crc (log_at w top) a tail -> files_short (wh_wal w) ->
  top + 1 < u64_max -> Permutation ids (wl_list (wh_wal w)) ->
  Forall is_write (log_recs a) -> writes (map lrec_of (log_recs a)) ->
  interrupted (wh_storages w) (dc (wh_dir w)) cuts = Ok d1 ->
  main_start (wh_en w) (wh_storages w) d1 (map lrec_of (log_recs a)) = Ok b ->
  exists w', restart decompress decrypt wal_crc w cuts ids = Ok w' /\ absd w' a = b /\
    wl_files (wh_wal w') = wl_files (wh_wal w) /\ wl_list (wh_wal w') = wl_list (wh_wal w) /\
    wl_current (wh_wal w') = wl_current (wh_wal w) /\
    en_region (wh_en w') = en_region (wh_en w).
Proof.
  intros TH FS LR P IW W EI EM.
  rewrite dc_map, interrupted_map in EI. apply rmap_ok in EI as (d0 & EI & E0).
  rewrite <- (dc_map d0) in E0. subst d1.
  destruct (start_shape _ _ _ _ _ W EM) as (en1 & d2 & en2 & ER & RL & RG & _ & S & Eb).
  destruct (recover_sim _ _ _ _ _ ER) as (d' & EW & E2).
  unfold restart. rewrite EI. cbn [bind]. unfold whole_start. rewrite EW. cbn [bind].
  destruct (tholds_open wal_crc (log_at w top) a tail ids (en_lsn en1) TH P) as (g & EO & G1 & G2 & G3 & G4).
  cbn [log_at wl_files wl_list wl_current] in EO, G1, G2, G3. rewrite EO. cbn [bind].
  rewrite G1, G2. pose proof (tholds_read wal_crc (log_at w top) a tail TH FS LR) as RD. cbn [log_at wl_files wl_list] in RD.
  rewrite RD. rewrite log_writes_spec by auto. cbn [bind]. rewrite RL by auto. cbn [bind with_en db_en].
  eexists. split; [reflexivity|]. cbn [wh_wal wh_en wh_dir absd]. rewrite S. repeat (split; auto).
  - assert (WL : worklist (wh_storages w) d' = worklist (wh_storages w) d2).
    { rewrite <- E2, dc_map, worklist_map. auto. }
    rewrite Eb, WL. unfold absd. cbn [wh_en wh_storages wh_home wh_dir wh_jobs]. rewrite E2. auto.
  - destruct (en_serial (wh_en w)); [|auto]. destruct (set_serial_fields en2) as (_ & _ & _ & _ & _ & Y). congruence.
Qed.

(* the records of a log in use *)
Lemma flat_recs a r : Forall is_write (log_recs a) -> Forall (rec_ok wal_crc) (log_recs a) -> In r (log_recs a) ->
  exists e, In (Log.rec_lsn r, e) (flat (map lrec_of (log_recs a))).
Proof.
  intros W K Hr. rewrite Forall_forall in W, K. pose proof (W r Hr) as Wr. pose proof (K r Hr) as Kr.
  destruct r as [n l|]; [|contradiction]. destruct Kr as (_ & (Hne & _) & _). destruct l as [|x l]; [contradiction|].
  exists (le_event x). clear W K Hne. induction (log_recs a) as [|q rs IH]; [contradiction|].
  destruct Hr as [->|Hr].
  - cbn. auto.
  - specialize (IH Hr). destruct q; cbn; auto. apply in_or_app. auto.
Qed.
Lemma after_start lo w w' top H a tail clean :
  tholds wal_crc (log_at w top) a tail -> (clean = true -> tail = []) -> Forall is_write (log_recs a) ->
  en_region (wh_en w) = Z.to_N (so_region_size src mod 2 ^ 32) -> last_of top H ->
  binv lo (absd w' a) H -> en_lsn (wh_en w') <= top ->
  wl_files (wh_wal w') = wl_files (wh_wal w) -> wl_list (wh_wal w') = wl_list (wh_wal w) ->
  wl_current (wh_wal w') = wl_current (wh_wal w) -> en_region (wh_en w') = en_region (wh_en w) ->
  winv lo w' H clean a tail.
Proof.
  intros TH CL IW RG LA B LE F1 F2 F3 F4.
  assert (E : en_lsn (wh_en w') = top).
  { pose proof (bi_top _ _ _ B) as T. rewrite Forall_forall in T. destruct LA as [E|(e & He)]; [lia|].
    apply T in He. cbn [absd db_en fst] in He. lia. }
  constructor; auto.
  - eapply tholds_lsn; eauto; cbn [log_of wl_lsn]; rewrite E; apply TH.
  - congruence.
  - rewrite E. auto.
Qed.

Lemma as_read_absd w a tail : tholds wal_crc (log_of w) a tail -> files_short (wh_wal w) ->
  en_lsn (wh_en w) + 1 < u64_max -> Forall is_write (log_recs a) -> rd w = absd w a.
Proof.
  intros TH FS LR IW. unfold as_read, absd. f_equal.
  pose proof (tholds_read wal_crc (log_of w) a tail TH FS LR) as RD. cbn [log_of wl_files wl_list] in RD.
  rewrite RD. cbn [fst]. rewrite log_writes_spec by auto. auto.
Qed.

Lemma short_more w more ids : log_fine w more ids -> files_short (wh_wal w).
Proof.
  intros (_ & _ & F). unfold files_short. eapply Forall_impl; [|exact F]. cbn. intros. lia.
Qed.
Lemma room_u64 w : lsn_room w -> en_lsn (wh_en w) + 2 < u64_max.
Proof. unfold lsn_room, u64_max. lia. Qed.

(* a stop and a start: the files of the partitions are those of [d] up to incomplete ones *)
Lemma stop_start lo w d H a tail clean top cuts ids :
  tholds wal_crc (log_at w top) a tail -> (clean = true -> tail = []) -> Forall is_write (log_recs a) ->
  en_region (wh_en w) = Z.to_N (so_region_size src mod 2 ^ 32) -> last_of top H ->
  top + 1 < u64_max -> files_short (wh_wal w) -> Permutation ids (wl_list (wh_wal w)) ->
  disk lo (wh_storages w) H d (map lrec_of (log_recs a)) -> storages_ok (wh_storages w) ->
  lo + 2^31 <= u64_max -> 0 < en_interval (wh_en w) <= u64_max ->
  dull d = dull (dc (wh_dir w)) -> (forall mn f, surv d mn (Some f) -> df_lsn f <= top) ->
  match interrupted (wh_storages w) d cuts with
  | Ok d1 => match engine_recover (wh_en w) (wh_storages w) d1 with
             | Ok (en1, _) => replay_fine lo en1 (map lrec_of (log_recs a))
             | _ => True
             end
  | _ => True
  end ->
  exists w', restart decompress decrypt wal_crc w cuts ids = Ok w' /\ winv lo w' H clean a tail.
Proof.
  intros TH CL IW RG LA LR FS PM DK ST LO IV ED SL CF.
  pose proof (dk_dir _ _ _ _ _ DK) as GD.
  destruct (interrupted_spec (wh_storages w) (proj1 ST) cuts d GD) as (d1 & EI & G1 & S1).
  rewrite EI in CF.
  destruct (start_spec lo (wh_en w) (wh_storages w) H d1 (map lrec_of (log_recs a))) as (b' & EM & B' & T'); auto.
  - eapply disk_surv; eauto.
  - destruct (dk_log _ _ _ _ _ DK) as (WR & H0 & EH & _).
    destruct (dull_start _ _ _ _ _ _ _ _ WR ED EI EM T' (bi_wf _ _ _ B')) as (d1' & EI' & EM').
    destruct (restart_sim w top cuts ids a tail d1' b' TH FS LR PM IW WR EI' EM') as (w' & ER & EA & F1 & F2 & F3 & F4).
    exists w'. split; auto.
    apply (after_start lo w w' top); auto.
    + rewrite EA. auto.
    + replace (en_lsn (wh_en w')) with (en_lsn (db_en b')) by (rewrite <- EA; auto).
      eapply (start_top (wh_en w) (wh_storages w) d1); eauto.
      * apply ST.
      * intros mn f Hs. apply S1 in Hs. eapply SL; eauto.
      * rewrite Forall_map. eapply Forall_impl; [|apply (th_lsn _ _ _ _ TH)]. cbn. intros r Hr. rewrite rec_lsn_of. auto.
Qed.
(* the same from a state of the database *)
Lemma stop_start_b lo w b H a tail clean cuts ids :
  tholds wal_crc (log_of w) a tail -> (clean = true -> tail = []) -> Forall is_write (log_recs a) ->
  en_region (wh_en w) = Z.to_N (so_region_size src mod 2 ^ 32) -> last_of (en_lsn (wh_en w)) H ->
  log_fine w [] ids ->
  binv lo b H -> db_en b = wh_en w -> db_storages b = wh_storages w -> dull (db_dir b) = dull (dc (wh_dir w)) ->
  db_log b = map lrec_of (log_recs a) ->
  cop_fine lo b (CCrash cuts) ->
  exists w', restart decompress decrypt wal_crc w cuts ids = Ok w' /\ winv lo w' H clean a tail.
Proof.
  intros TH CL IW RG LA LF B E1 E2 E3 E4 CF.
  pose proof (room_u64 _ (proj1 LF)) as LR.
  pose proof (binv_disk lo b H [] B ltac:(constructor) hsorted_nil [] eq_refl ltac:(constructor)) as DK.
  rewrite !app_nil_r in DK. cbn [cop_fine] in CF. unfold restart_fine in CF. rewrite E1, E2, E4 in CF. rewrite E2, E4 in DK.
  apply (stop_start lo w (db_dir b) H a tail clean (en_lsn (wh_en w))); auto.
  - lia.
  - eapply short_more; eauto.
  - apply LF.
  - rewrite <- E2. apply B.
  - eapply binv_lo; eauto.
  - rewrite <- E1. apply B.
  - intros mn f Hs. apply (bi_surv _ _ _ B) in Hs as (f' & Ef & _ & _ & FG). inversion Ef; subst f'. rewrite <- E1. apply FG.
Qed.
End Whole.
