(* Starts with the log and the files as bytes. *)
From Coq Require Import NArith ZArith List Bool Lia Arith Permutation Sorted.
Import ListNotations.
From Verif Require Import Model.Base Model.Event Model.Memtable Model.Mapping Model.PartIter Model.Scan Model.Codec
  Model.File Model.Wal Model.Engine Spec.Order Spec.Checksum Spec.Log Spec.FileLimits
  Proof.WalL Proof.WalR Proof.WalH Proof.WalP Proof.DirL Proof.CrashD Proof.WholeD.
From Verif Require Import Model.Crash Spec.Crash Model.Whole.
Local Arguments N.pow : simpl never.
Local Arguments N.add : simpl never.
Local Open Scope N_scope.

(* --- records --- *)
Definition lrec_of (r : rec) : Crash.lrec :=
  match r with
  | RWrite n l => Crash.LWrite n (map le_event l)
  | RDrop n id => Crash.LDrop n id
  end.
Definition is_write (r : rec) : Prop := match r with RWrite _ _ => True | RDrop _ _ => False end.
Lemma log_writes_spec l : Forall is_write l -> log_writes (map rec_logged l) = Ok (map lrec_of l).
Proof.
  induction 1 as [|r l Hr Hl IH]; auto. destruct r; [|contradiction]. cbn. rewrite IH. auto.
Qed.
Lemma rec_lsn_of r : Crash.rec_lsn (lrec_of r) = Log.rec_lsn r.
Proof. destruct r; auto. Qed.
Lemma entries_events l m : map le_event (entries l m) = l.
Proof.
  unfold entries. rewrite map_map. cbn [le_event]. revert m. induction l as [|e l IH]; intros m; auto.
  cbn. f_equal. apply IH.
Qed.
Lemma behind_fst {A} (none : A) l : forall m, map fst (behind none l m) = l.
Proof. induction l as [|e l IH]; intros m; auto. cbn. f_equal. auto. Qed.

(* --- replay keeps to the engine --- *)
Lemma replay_en l : writes l -> forall b b', replay_log b l = Ok b' ->
  b' = with_en b (db_en b') /\
  forall b2, db_en b2 = db_en b -> replay_log b2 l = Ok (with_en b2 (db_en b')).
Proof.
  induction 1 as [|r l Hr Hl IH]; intros b b' E; cbn [replay_log] in *.
  - inversion E; subst. split; [destruct b'; auto|]. intros b2 E2. rewrite <- E2. destruct b2; auto.
  - destruct r as [n evs|]; [|contradiction].
    destruct (engine_write_replay (db_en b) n evs) as [en| |] eqn:Ew; try discriminate E. cbn [bind] in E.
    destruct (IH _ _ E) as [A1 A2]. split; [rewrite A1; auto|].
    intros b2 E2. rewrite E2, Ew. cbn [bind]. rewrite (A2 (with_en b2 en) eq_refl). auto.
Qed.
Lemma replay_ev_fields en n evs en' : engine_write_replay en n evs = Ok en' ->
  en_region en' = en_region en /\ en_lsn en' = N.max (en_lsn en) n.
Proof.
  unfold engine_write_replay. destruct (replay_loop _ _ _ _) as [w| |]; try discriminate. cbn [bind].
  destruct (engine_commit _ _ _) as [m| |]; try discriminate. cbn [bind]. intros E. inversion E; subst. cbn.
  split; auto. destruct (N.ltb_spec (en_lsn en) n); lia.
Qed.
Lemma replay_fields l : writes l -> forall b b', replay_log b l = Ok b' ->
  en_region (db_en b') = en_region (db_en b) /\
  forall B, en_lsn (db_en b) <= B -> Forall (fun r => Crash.rec_lsn r <= B) l -> en_lsn (db_en b') <= B.
Proof.
  induction 1 as [|r l Hr Hl IH]; intros b b' E; cbn [replay_log] in *.
  - inversion E; subst. auto.
  - destruct r as [n evs|]; [|contradiction].
    destruct (engine_write_replay (db_en b) n evs) as [en| |] eqn:Ew; try discriminate E. cbn [bind] in E.
    destruct (IH _ _ E) as [A1 A2]. apply replay_ev_fields in Ew as [F1 F2]. cbn [with_en db_en] in *.
    split; [congruence|]. intros B L F. apply Forall_cons_iff in F as [F F']. apply A2; auto.
    cbn in F. lia.
Qed.

Lemma open_top d B : forall l m n m' n', open_all m n d l = Ok (m', n') -> n <= B ->
  (forall k f, In k l -> sl_id (dget d k) = Some (Some f) -> df_lsn f <= B) -> n' <= B.
Proof.
  induction l as [|k l IH]; intros m n m' n' E L F; cbn [open_all] in E.
  - inversion E; subst. auto.
  - destruct (sl_id (dget d k)) as [[f|]|] eqn:Ek; try discriminate E.
    destruct (mapping_add _ _) as [m1| |]; try discriminate E. cbn [bind] in E.
    apply IH in E; auto; [|intros; eapply F; simpl; eauto].
    specialize (F k f (or_introl eq_refl) Ek). lia.
Qed.

(* the start with files and log that were read *)
Lemma start_shape en sts d log b : writes log -> main_start en sts d log = Ok b ->
  exists en1 d' en2, engine_recover en sts d = Ok (en1, d') /\
    (forall b1, db_en b1 = en1 -> replay_log b1 log = Ok (with_en b1 en2)) /\
    en_region en2 = en_region en /\
    (forall B, en_lsn en1 <= B -> Forall (fun r => Crash.rec_lsn r <= B) log -> en_lsn en2 <= B) /\
    en_serial en1 = en_serial en /\
    b = mk_db (if en_serial en then engine_set_serial en2 else en2) sts (home_of (worklist sts d') (hd 0 sts)) d' log [].
Proof.
  intros W E. unfold main_start in E. destruct (engine_recover en sts d) as [[en1 d']| |] eqn:ER; try discriminate E.
  cbn [bind] in E.
  destruct (replay_log (mk_db en1 sts (home_of (worklist sts d') (hd 0 sts)) d' log []) log) as [b1| |] eqn:EL; try discriminate E.
  cbn [bind] in E. destruct (replay_en log W _ _ EL) as [A1 A2]. destruct (replay_fields log W _ _ EL) as [A3 A4].
  cbn [db_en] in *.
  assert (X : en_serial en1 = en_serial en /\ en_region en1 = en_region en).
  { unfold engine_recover in ER. destruct (validate_all sts d _); try discriminate ER. cbn [bind] in ER.
    destruct (open_all _ _ _ _) as [[]| |]; try discriminate ER. cbn [bind] in ER. inversion ER; subst. auto. }
  destruct X as [X1 X2]. exists en1, d', (db_en b1). split; auto.
  split; [intros; apply A2; auto|]. split; [congruence|]. split; auto. split; auto.
  rewrite X1 in E. rewrite A1 in E. cbn [with_en db_en db_storages db_home db_dir db_log db_jobs] in E. inversion E. auto.
Qed.

(* sequence numbers do not grow when a database starts *)
Lemma start_top en sts d log b B : NoDup sts -> good_dir sts d -> writes log -> main_start en sts d log = Ok b ->
  (forall mn f, surv d mn (Some f) -> df_lsn f <= B) -> Forall (fun r => Crash.rec_lsn r <= B) log ->
  en_lsn (db_en b) <= B.
Proof.
  intros ND GD W E F R. destruct (start_shape en sts d log b W E) as (en1 & d' & en2 & ER & _ & _ & A & _ & ->).
  cbn [db_en]. 
  assert (X : en_lsn (if en_serial en then engine_set_serial en2 else en2) = en_lsn en2).
  { destruct (en_serial en); auto. apply (set_serial_fields en2). }
  rewrite X. apply A; auto. unfold engine_recover in ER.
  destruct (validated sts d ND GD) as (d2 & EV & GD' & SE & SS). rewrite EV in ER. cbn [bind] in ER.
  destruct (open_all mapping_init 0 d2 (worklist sts d2)) as [[m n]| |] eqn:EO; try discriminate ER. cbn [bind] in ER.
  inversion ER; subst. cbn [en_lsn]. eapply open_top; eauto; [lia|].
  intros [st mn] f _ Ei. apply (F mn). apply SS. left. eauto.
Qed.

(* --- a log whose last file may end in a part of a record --- *)
Record tholds (on : bool) (s : wal) (a : log) (tail : list byte) : Prop := {
  th_files : exists a1 id rs, a = a1 ++ [(id, rs)] /\
    wl_files s = log_files on a1 ++ [(id, flat_map (rec_bytes on) rs ++ tail)] /\
    wl_current s = Some (id, N.of_nat (length (flat_map (rec_bytes on) rs ++ tail))) /\
    (tail = [] \/ torn on (length (flat_map (rec_bytes on) rs)) tail);
  th_list : wl_list s = log_ids a;
  th_recs : Forall (rec_ok on) (log_recs a);
  th_ordered : ordered a;
  th_lsn : Forall (fun r => Log.rec_lsn r <= wl_lsn s) (log_recs a);
  th_ids : Forall (fun i => i <= wl_lsn s + 1) (log_ids a)
}.
Lemma tholds_nil on s a : tholds on s a [] <-> holds on s a.
Proof.
  split.
  - intros [(a1 & id & rs & -> & F & C & _) L R O N0 I0]. rewrite app_nil_r in *. constructor; auto.
    + rewrite F. unfold log_files. rewrite map_app. auto.
    + eauto.
  - intros [F L (a1 & id & rs & -> & C) R O N0 I0]. constructor; auto.
    exists a1, id, rs. rewrite app_nil_r. repeat (split; auto). rewrite F. unfold log_files. rewrite map_app. auto.
Qed.

Lemma tail_torn on rs tail : tail = [] \/ torn on (length (flat_map (rec_bytes on) rs)) tail ->
  N.of_nat (length (flat_map (rec_bytes on) rs ++ tail)) + 21 < 2^32 ->
  torn on (length (flat_map (rec_bytes on) rs)) tail.
Proof.
  intros [->|T] L; auto. apply torn_nil. rewrite app_nil_r in L. auto.
Qed.
Lemma files_recs on a : map fst (log_files on a) = log_ids a.
Proof. unfold log_files, log_ids. rewrite map_map. auto. Qed.
Lemma tholds_short on s a tail a1 id rs : a = a1 ++ [(id, rs)] ->
  wl_files s = log_files on a1 ++ [(id, flat_map (rec_bytes on) rs ++ tail)] -> files_short s ->
  short on a1 /\ N.of_nat (length (flat_map (rec_bytes on) rs ++ tail)) + 21 < 2^32.
Proof.
  intros -> F S. unfold files_short in S. rewrite F in S. apply Forall_app in S as [S1 S2].
  apply Forall_cons_iff in S2 as [S2 _]. split; auto. unfold short. unfold log_files in S1.
  rewrite Forall_forall in *. intros f Hf. apply (S1 (fst f, flat_map (rec_bytes on) (snd f))).
  apply in_map_iff. exists f. auto.
Qed.
Lemma tholds_read on s a tail : tholds on s a tail -> files_short s -> wl_lsn s + 1 < u64_max ->
  wal_read on (wl_files s) (wl_list s) = (map rec_logged (log_recs a), Ok tt).
Proof.
  intros [(a1 & id & rs & E & F & C & T) L R O N0 I0] S U.
  destruct (tholds_short _ _ _ _ _ _ _ E F S) as [S1 S2]. rewrite L, F, E in *.
  unfold log_ids. rewrite map_app. cbn [map fst]. rewrite log_recs_app in *. 
  unfold log_recs at 2. cbn [flat_map snd]. rewrite app_nil_r.
  apply Forall_app in R as [R1 R2]. unfold log_recs in R2. cbn [flat_map snd] in R2. rewrite app_nil_r in R2.
  destruct O as (O1 & _). unfold log_ids in O1, I0. rewrite map_app in O1, I0. cbn [map fst] in O1, I0.
  apply (read_tail on a1 id rs tail); auto.
  - eapply Forall_impl; [|exact I0]. cbn. intros. lia.
  - apply tail_torn; auto.
Qed.
(* opening what a log that was stopped left *)
Lemma file_of_last on a1 id rs b : increasing (log_ids (a1 ++ [(id, rs)])) -> file_of id (log_files on a1 ++ [(id, b)]) = Some b.
Proof.
  intros H. unfold log_ids in H. rewrite map_app in H. apply increasing_app in H as (_ & _ & H).
  assert (X : forall x, In x a1 -> fst x <> id).
  { intros x Hx. specialize (H (fst x) id (in_map _ _ _ Hx) (or_introl eq_refl)). lia. }
  clear H. induction a1 as [|[i r] a1 IH]; cbn.
  - rewrite N.eqb_refl. auto.
  - destruct (N.eqb_spec i id) as [Ei|_].
    + exfalso. apply (X (i, r)); [left; auto|auto].
    + apply IH. intros. apply X. right; auto.
Qed.
Lemma tholds_open on s a tail ids n : tholds on s a tail -> Permutation ids (wl_list s) ->
  exists g, wal_open (wl_files s) ids n = Ok g /\ wl_files g = wl_files s /\ wl_list g = wl_list s /\
    wl_current g = wl_current s /\ wl_lsn g = n.
Proof.
  intros [(a1 & id & rs & E & F & C & T) L R O N0 I0] P. unfold wal_open.
  rewrite L in P. rewrite (recover_perm ids (log_ids a) (proj1 O) P).
  assert (Hmax : wal_id_max (log_ids a) = id) by (rewrite E; apply last_ids).
  assert (Hfo : file_of id (wl_files s) = Some (flat_map (rec_bytes on) rs ++ tail)).
  { rewrite F. apply (file_of_last on a1 id rs). rewrite E in O. apply O. }
  destruct (log_ids a) as [|i0 l0] eqn:Ei.
  - exfalso. rewrite E in Ei. unfold log_ids in Ei. rewrite map_app in Ei. apply app_eq_nil in Ei as [_ Ei]. discriminate Ei.
  - rewrite Hmax, Hfo. eexists. split; [reflexivity|]. cbn. rewrite C, L. auto.
Qed.
Lemma tholds_lsn on s s' a tail : tholds on s a tail -> wl_files s' = wl_files s -> wl_list s' = wl_list s ->
  wl_current s' = wl_current s -> Forall (fun r => Log.rec_lsn r <= wl_lsn s') (log_recs a) ->
  Forall (fun i => i <= wl_lsn s' + 1) (log_ids a) -> tholds on s' a tail.
Proof.
  intros [(a1 & id & rs & E & F & C & T) L R O N0 I0] E1 E2 E3 A1 A2. constructor; auto; [|congruence].
  exists a1, id, rs. rewrite E1, E3. auto.
Qed.
