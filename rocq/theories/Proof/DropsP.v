(* Every step of a history with DROP and restarts keeps the invariant. *)
From Coq Require Import NArith ZArith List Bool Sorted Lia Arith Permutation.
Import ListNotations.
From Verif Require Import Model.Base Model.Event Model.Rbtree Model.Memtable Model.Mapping Model.Merge
  Model.PartIter Model.Scan Model.Writer Model.Codec Model.Engine Spec.Order Spec.Merged Spec.Files Spec.Layout
  Spec.Regions Spec.View Spec.Engine Proof.OrderL Proof.RbtreeL Proof.MemtableL Proof.MemtableL2 Proof.MergeL
  Proof.MappingL Proof.MappingP Proof.MappingX Proof.ScanL Proof.EngineL Proof.EngineW Proof.EngineR Proof.CrashW
  Proof.CrashH Proof.DirL Proof.CrashD Proof.CrashP Proof.Cells Proof.DropsL Proof.DropsR.
From Verif Require Import Model.Crash Spec.Crash Spec.Drops.
Local Arguments N.pow : simpl never.
Local Arguments N.add : simpl never.
Local Arguments N.sub : simpl never.
Implicit Types (s t : slice part) (m : mapping part) (H : hist) (d : dir) (r : range) (R : list range) (l : list lrec).

Definition quiet R (b : db) : db := with_log b (live R (db_log b)).
Record dinv (lo : N) R (b : db) H : Prop := {
  dv_b : binv lo (quiet R b) H;
  dv_cells : cells (en_interval (db_en b)) (ranges (en_map (db_en b)));
  dv_R : cells (en_interval (db_en b)) R;
  dv_free : forall r, In r (ranges (en_map (db_en b))) -> ~ In r R;
  dv_log : closed lo R (db_log b)
}.

Lemma dinv_gone lo R b H : dinv lo R b H -> forall x, In x H -> gone R (ev_id (snd x)) = false.
Proof.
  intros [B C CR F _] x Hx. destruct (gone R (ev_id (snd x))) eqn:E; auto. exfalso.
  pose proof (bi_iv _ _ _ B) as Hiv. cbn [quiet with_log db_en] in Hiv.
  apply (gone_cell (en_interval (db_en b))) in E; auto; [|lia].
  pose proof (bi_cov _ _ _ B x Hx) as (r & Hr & Hin). cbn [quiet with_log db_en] in Hr.
  apply (F r Hr). rewrite (cell_in (en_interval (db_en b)) r (ev_id (snd x))); auto; [lia|].
  unfold cells in C. rewrite Forall_forall in C. auto.
Qed.

Lemma rgrow_free iv ids m m' R : rgrow iv ids m m' -> (0 < iv)%N -> (forall id, In id ids -> gone R id = false) ->
  (forall r, In r (ranges m) -> ~ In r R) -> forall r, In r (ranges m') -> ~ In r R.
Proof.
  intros G Hiv N F r Hr HR. destruct (G r Hr) as [X|(id & Hi & ->)]; [eapply F; eauto|].
  specialize (N id Hi). rewrite (proj2 (gone_in R id)) in N; [discriminate|]. eexists. split; [exact HR|]. apply cell_self; auto.
Qed.

Lemma live_lsn R : forall l x, In x (live R l) -> exists y, In y l /\ rec_lsn y = rec_lsn x.
Proof.
  induction l as [|[n e|n i] l IH]; cbn [live]; intros x Hx; [destruct Hx| |].
  - destruct Hx as [<-|Hx]; [eexists; split; [left; reflexivity|reflexivity]|].
    destruct (IH x Hx) as (y & Hy & E). exists y. simpl; auto.
  - destruct (IH x Hx) as (y & Hy & E). exists y. simpl; auto.
Qed.

(* --- starts --- *)
Lemma dstart lo R en storages H d log : disk lo storages H d (live R log) -> storages_ok storages ->
  (lo + 2^31 <= u64_max)%N -> (0 < en_interval en <= u64_max)%N -> cells (en_interval en) R -> closed lo R log ->
  (forall x, In x H -> gone R (ev_id (snd x)) = false) ->
  (forall f, surv d (df_min f) (Some f) -> is_cell (en_interval en) (frange f) /\ ~ In (frange f) R) ->
  match engine_recover en storages d with
  | Ok (en1, d1) =>
      dreplay_fine lo (mk_db en1 storages (home_of (worklist storages d1) (hd 0%N storages)) d1 log []) log
  | _ => True
  end ->
  exists b, main_start en storages d log = Ok b /\ dinv lo R b H /\ tidy (db_dir b) /\
    en_interval (db_en b) = en_interval en.
Proof.
  intros D SO Hlo Hiv CR CL HG HF RF.
  destruct (start_gen lo en storages H d (live R log) D SO Hlo Hiv)
    as (en1 & d' & m1 & H0 & ER & EH & R1 & EM & Ei & Es & _ & _ & W & TD & HM & HD & K).
  rewrite ER in RF. unfold main_start. rewrite ER. cbn [bind].
  set (b0 := mk_db en1 storages (home_of (worklist storages d') (hd 0%N storages)) d' log []) in *.
  assert (RM : forall r, In r (ranges m1) -> is_cell (en_interval en) r /\ ~ In r R).
  { intros r Hr. apply in_map_iff in Hr as (t & <- & Ht). apply HM in Ht as (f & Sf & ->). apply HF; auto. }
  pose proof (dk_log _ _ _ _ _ D) as [WL _].
  destruct (dreplay_spec lo R H m1 d' (en_interval en) ltac:(lia) W HD CR
    ltac:(intros t Ht; apply RM; apply in_map; auto) log b0 H0) as (en2 & X & E & DX & R2 & Ei2 & Es2 & _ & _ & C2 & F2); auto.
  - cbn [b0 db_en]. rewrite EM. unfold cells. rewrite Forall_forall. intros r Hr. apply RM; auto.
  - eapply Forall_impl; [|exact WL]. intros [n e|n i]; cbn; tauto.
  - intros r Hr HR. exfalso. cbn [b0 db_en] in Hr. rewrite EM in Hr. apply (RM r Hr); auto.
  - rewrite E. cbn [bind]. eexists. split; [reflexivity|].
    rewrite (play_live lo (en_interval en) R) in R2; auto; [|lia|].
    2:{ intros x Hx Hg. exfalso. rewrite HG in Hg; [discriminate|]. rewrite EH. apply in_app_iff; auto. }
    rewrite hout_same, <- EH in R2.
    2:{ intros x Hx. unfold notgone. rewrite HG; auto. rewrite EH. apply in_app_iff; auto. }
    set (en3 := if en_serial en1 then engine_set_serial en2 else en2).
    assert (Q : en_map en3 = en_map en2 /\ en_interval en3 = en_interval en2 /\ en_lsn en3 = en_lsn en2).
    { unfold en3. destruct (en_serial en1); auto. pose proof (set_serial_fields en2) as (A1 & A2 & _ & A3 & _). auto. }
    destruct Q as (Q1 & Q2 & Q3).
    split; [|split].
    + constructor; unfold quiet, with_en, with_log, b0; cbn [db_en db_storages db_home db_dir db_log db_jobs];
        fold en3; rewrite ?Q1, ?Q2, ?Ei2; auto.
      * apply (K en2); auto.
        -- rewrite live_app, (drops_live lo R X DX), app_nil_r; auto.
        -- rewrite live_app, (drops_live lo R X DX), app_nil_r; auto.
      * apply closed_app; auto. apply drops_closed; auto.
    + exact TD.
    + unfold with_en, with_log. cbn [db_en]. fold en3. congruence.
Qed.

Lemma dinv_surv lo R b H d : dinv lo R b H -> (forall mn c, surv d mn c <-> surv (db_dir b) mn c) ->
  forall f, surv d (df_min f) (Some f) -> is_cell (en_interval (db_en b)) (frange f) /\ ~ In (frange f) R.
Proof.
  intros [B C CR F _] S f Sf. apply S in Sf. destruct (bi_surv _ _ _ B _ _ Sf) as (g & Eg & _ & Hr & _).
  inversion Eg; subst g. cbn [quiet with_log db_en] in Hr. split; auto. unfold cells in C. rewrite Forall_forall in C. auto.
Qed.

(* --- steps that leave the log alone --- *)
Definition on_log {A} (f : A -> A) (x : res A) : res A := match x with Ok b => Ok (f b) | Err => Err | UB => UB end.
Lemma begin_log b L id to : db_begin (with_log b L) id to = on_log (fun b => with_log b L) (db_begin b id to).
Proof.
  unfold db_begin. cbn [with_log db_en db_home db_jobs]. destruct (part_slice _ id) as [s|]; auto.
  destruct (existsb _ _); auto. destruct (match to with Some st => _ | None => false end); auto.
  destruct (refresh_begin (db_en b) id) as [[en ref]| |]; auto.
Qed.
Lemma begin_keeps b id to b' : db_begin b id to = Ok b' -> db_log b' = db_log b /\
  en_interval (db_en b') = en_interval (db_en b) /\ ranges (en_map (db_en b')) = ranges (en_map (db_en b)).
Proof.
  unfold db_begin. destruct (part_slice _ id) as [s|]; [|discriminate].
  destruct (existsb _ _); [discriminate|]. destruct (match to with Some st => _ | None => false end).
  { intros E; inversion E; auto. }
  destruct (refresh_begin (db_en b) id) as [[en ref]| |] eqn:ER; try discriminate. cbn [bind]. intros E; inversion E; subst.
  cbn [with_jobs with_en db_log db_en]. split; auto. unfold refresh_begin in ER.
  destruct (engine_lock _ _ _ _ _ _) as [[m0 oz]| |]; cbn [bind snd] in ER; try discriminate.
  destruct oz as [z|]; try discriminate. destruct (zelem z); try discriminate. inversion ER; subst.
  split; auto. apply put_ranges.
Qed.
Lemma job_step_log b L j : job_step (with_log b L) j =
  match job_step b j with Ok (b', x) => Ok (with_log b' L, x) | Err => Err | UB => UB end.
Proof.
  unfold job_step. cbn [with_log db_en db_dir db_home]. destruct (jb_stage j) as [|[|[|[|[|n]]]]]; auto.
  - destruct (ref_slice _ _); cbn [bind]; auto. destruct (new_file _ _); cbn [bind]; auto.
  - destruct (refresh_apply _ _); cbn [bind]; auto.
  - destruct (sl_inc _); auto.
  - destruct (sl_comp _); auto.
Qed.
Lemma step_log b L ref : db_step (with_log b L) ref = on_log (fun b => with_log b L) (db_step b ref).
Proof.
  unfold db_step. cbn [with_log db_jobs]. destruct (find _ (db_jobs b)) as [j|]; auto.
  change (job_step (mk_db (db_en b) (db_storages b) (db_home b) (db_dir b) L (db_jobs b)) j) with (job_step (with_log b L) j).
  rewrite job_step_log. destruct (job_step b j) as [[b' x]| |]; auto.
Qed.
Lemma step_keeps b ref b' : db_step b ref = Ok b' -> db_log b' = db_log b /\
  en_interval (db_en b') = en_interval (db_en b) /\ ranges (en_map (db_en b')) = ranges (en_map (db_en b)).
Proof.
  unfold db_step. destruct (find _ (db_jobs b)) as [j|]; [|discriminate].
  destruct (job_step b j) as [[b1 x]| |] eqn:EJ; try discriminate. cbn [bind]. intros E; inversion E; subst.
  cbn [with_jobs db_log db_en].
  unfold job_step in EJ. destruct (jb_stage j) as [|[|[|[|[|n]]]]].
  - inversion EJ; auto.
  - destruct (ref_slice _ _); cbn [bind] in EJ; try discriminate. destruct (new_file _ _); cbn [bind] in EJ; try discriminate.
    inversion EJ; auto.
  - destruct (refresh_apply _ _) as [en| |] eqn:ER; cbn [bind] in EJ; try discriminate. inversion EJ; subst.
    cbn [with_home with_en db_log db_en]. unfold refresh_apply in ER.
    destruct (ref_part _ _); cbn [bind] in ER; try discriminate. destruct (refresh_part _ _); cbn [bind] in ER; try discriminate.
    inversion ER; subst. split; auto. split; auto. apply put_ranges.
  - destruct (sl_inc _); inversion EJ; auto.
  - inversion EJ; auto.
  - destruct (sl_comp _); inversion EJ; auto.
Qed.

Lemma dinv_keep lo R b b' H H' : dinv lo R b H -> binv lo (quiet R b') H' -> db_log b' = db_log b ->
  en_interval (db_en b') = en_interval (db_en b) -> ranges (en_map (db_en b')) = ranges (en_map (db_en b)) ->
  dinv lo R b' H'.
Proof. intros [_ C CR F CL] B E1 E2 E3. constructor; rewrite ?E1, ?E2, ?E3; auto. Qed.

Lemma filter_all (f : event -> bool) (l : list event) : (forall e, In e l -> f e = true) -> filter f l = l.
Proof.
  induction l as [|a l IH]; intros A; cbn [filter]; auto. rewrite (A a) by (simpl; auto). f_equal. apply IH. intros e He.
  apply A. simpl; auto.
Qed.
Lemma filter_none (l : list event) : filter (fun e => negb (gone [] (ev_id e))) l = l.
Proof. induction l; cbn in *; f_equal; auto. Qed.

Lemma drop_flat R l r : flat (live (r :: R) l) = hout (offr r) (flat (live R l)).
Proof.
  rewrite !live_flat. induction (flat l) as [|x f IH]; auto. unfold hout in *. cbn [filter].
  unfold notgone at 1. cbn [gone existsb]. fold (gone R (ev_id (snd x))). rewrite negb_orb.
  fold (offr r (ev_id (snd x))). fold (notgone R (ev_id (snd x))).
  destruct (notgone R (ev_id (snd x))) eqn:E; cbn [filter].
  - rewrite andb_true_r. destruct (offr r (ev_id (snd x))); rewrite IH; auto.
  - rewrite andb_false_r. auto.
Qed.
Lemma live_writes R R' : forall l, writes (live R l) -> writes (live R' l).
Proof.
  induction l as [|[n e|n i] l IH]; cbn [live]; intros W; auto. inversion W; subst. constructor; auto. apply IH; auto.
Qed.

Lemma dstep_spec lo R b H o : dinv lo R b H -> dop_fine lo R b o ->
  match cstep b o with
  | Ok b' => exists H', dinv lo (dropped b o ++ R) b' H' /\
      map snd H' = filter (fun e => negb (gone (dropped b o) (ev_id e))) (cack_step b o (map snd H))
  | Err => stops o = false /\ cack_step b o (map snd H) = map snd H
  | UB => False
  end.
Proof.
  intros DI Hf. pose proof DI as [B C CR F CL]. pose proof (bi_map _ _ _ B) as I. pose proof (bi_iv _ _ _ B) as Hiv.
  cbn [quiet with_log db_en] in I, Hiv.
  destruct o; cbn [cstep cack_step stops dropped app] in *; rewrite ?filter_none.
  - (* write *)
    destruct Hf as (BF & HL & HU).
    pose proof (cstep_more lo (quiet R b) H (CWrite l logged) B (conj BF HL)) as X. cbn [cstep cack_step] in X.
    cbn [quiet with_log db_en] in X.
    destruct (engine_write (db_en b) l logged) as [[en [evs|]]| |] eqn:EW; cbn [bind] in *; try contradiction.
    + pose proof (write_rgrow lo (db_en b) l logged en (Some evs) I Hiv BF C EW) as RG.
      destruct (write_grown lo (db_en b) l logged I Hiv BF) as [(m & EW' & _)|(m & ssn & EW' & _)]; rewrite EW' in EW; inversion EW; subst.
      set (evs := assigned (en_serial (db_en b)) (en_ssn (db_en b)) l) in *.
      destruct X as (H' & B' & E & _). exists H'. rewrite ?filter_none. split; auto.
      assert (NG : forall id, In id (map ev_id evs) -> gone R id = false).
      { intros id Hi. apply in_map_iff in Hi as (e & <- & He). unfold unused in HU. rewrite Forall_forall in HU. auto. }
      assert (LE : live R (db_log b ++ [write_rec b evs]) = live R (db_log b) ++ [write_rec b evs]).
      { rewrite live_app. cbn [live write_rec]. unfold write_rec. do 3 f_equal.
        rewrite filter_all; auto. intros e He. unfold notgone. rewrite NG; auto.
        apply in_map; auto. }
      constructor; cbn [with_log with_en db_en db_log en_interval en_map] in *; auto.
      * unfold quiet. cbn [with_log with_en db_log]. rewrite LE. exact B'.
      * eapply rgrow_cells; eauto. lia.
      * eapply rgrow_free; eauto. lia.
      * apply closed_app; auto. cbn. split; auto. intros e He Hg. rewrite NG in Hg; [discriminate|]. apply in_map; auto.
    + pose proof (write_rgrow lo (db_en b) l logged en None I Hiv BF C EW) as RG.
      destruct (write_grown lo (db_en b) l logged I Hiv BF) as [(m & EW' & _)|(m & ssn & EW' & _)]; rewrite EW' in EW; inversion EW; subst.
      destruct X as (H' & B' & E & _). exists H'. rewrite ?filter_none. split; auto.
      assert (NG : forall id, In id (map ev_id (assigned (en_serial (db_en b)) (en_ssn (db_en b)) l)) -> gone R id = false).
      { intros id Hi. apply in_map_iff in Hi as (e & <- & He). unfold unused in HU. rewrite Forall_forall in HU. auto. }
      constructor; cbn [with_log with_en db_en db_log en_interval en_map] in *; auto.
      * eapply rgrow_cells; eauto. lia.
      * eapply rgrow_free; eauto. lia.
    + exact X.
  - (* refresh begins *)
    pose proof (begin_binv lo (quiet R b) H id to B Hf) as X. unfold quiet in X. rewrite begin_log in X.
    destruct (db_begin b id to) as [b'| |] eqn:E; cbn [on_log] in X; auto.
    destruct (begin_keeps b id to b' E) as (E1 & E2 & E3). exists H. rewrite ?filter_none. split; auto.
    eapply dinv_keep; eauto. unfold quiet. rewrite E1. exact X.
  - pose proof (step_binv lo (quiet R b) H ref B Hf) as X. unfold quiet in X. rewrite step_log in X.
    destruct (db_step b ref) as [b'| |] eqn:E; cbn [on_log] in X; auto.
    destruct (step_keeps b ref b' E) as (E1 & E2 & E3). exists H. rewrite ?filter_none. split; auto.
    eapply dinv_keep; eauto. unfold quiet. rewrite E1. exact X.
  - exists H. rewrite ?filter_none. split; auto. eapply dinv_keep; eauto. apply (fail_binv lo (quiet R b) H ref B Hf).
  - (* the log is cut *)
    unfold db_gc. destruct (forallb _ _) eqn:Ef; auto. exists H. rewrite ?filter_none. split; auto.
    set (k' := length (live R (firstn k (db_log b)))).
    assert (LS : live R (db_log b) = live R (firstn k (db_log b)) ++ live R (skipn k (db_log b))).
    { rewrite <- live_app, firstn_skipn. auto. }
    pose proof (gc_binv lo (quiet R b) H k' B Hf) as X. unfold db_gc in X.
    cbn [quiet with_log db_en db_log] in X. unfold k' in X. rewrite LS in X.
    rewrite firstn_app, firstn_all, Nat.sub_diag, skipn_app, skipn_all, Nat.sub_diag in X. cbn [firstn skipn app] in X.
    rewrite app_nil_r in X.
    replace (forallb _ (live R (firstn k (db_log b)))) with true in X.
    2:{ symmetry. apply forallb_forall. intros x Hx. destruct (live_lsn R _ x Hx) as (y & Hy & Ey). rewrite <- Ey.
        rewrite forallb_forall in Ef. apply (Ef y Hy). }
    constructor; auto. cbn [with_log db_log]. apply closed_skipn; auto.
  - (* drop *)
    destruct Hf as (Hw & HL & HLo).
    destruct (existsb _ (db_jobs b)) eqn:Ex; auto.
    destruct (part_slice (en_map (db_en b)) id) as [s|] eqn:Es.
    + pose proof (part_slice_spec lo _ id (mi_map _ _ I)) as PS. rewrite Es in PS. destruct PS as [Hs Hr].
      destruct (drop_run lo b id s I Hw HL Es) as (m & E & I' & HM). rewrite E.
      exists (hout (offr (range_of s)) H). split.
      2:{ rewrite hout_snd. apply filter_ext. intros e. unfold offr. cbn [gone existsb]. rewrite orb_false_r. auto. }
      assert (HJ : job_of (db_jobs b) (s_min s) = None).
      { apply job_none. intros j Hj Ej. assert (Y : existsb (fun j => (jb_ref j =? s_min s)%N) (db_jobs b) = true).
        { apply existsb_exists. exists j. split; auto. apply N.eqb_eq; auto. }
        congruence. }
      cbn [app]. constructor; cbn [with_log dropped_db dropped_at with_lsn with_map db_en db_log en_interval en_map]; auto.
      * unfold quiet. cbn [with_log db_log].
        apply (drop_binv lo (quiet R b) H m s (live (range_of s :: R) (db_log b ++ [LDrop (en_lsn (db_en b) + 1) id])) B); auto.
        -- exact (HLo s Hs Hr).
        -- rewrite live_app. cbn [live]. rewrite app_nil_r. eapply live_writes. apply B.
        -- rewrite live_app. cbn [live]. rewrite app_nil_r. apply drop_flat.
      * unfold cells in *. rewrite Forall_forall in *. intros r Hr'. apply in_map_iff in Hr' as (t & <- & Ht).
        apply HM in Ht as [Ht _]. apply C. apply in_map; auto.
      * constructor; auto. unfold cells in C. rewrite Forall_forall in C. apply C. apply in_map; auto.
      * intros r Hr'. apply in_map_iff in Hr' as (t & <- & Ht). apply HM in Ht as [Ht Hn]. intros [Er|HR].
        -- apply Hn. pose proof (mi_map _ _ I) as G. apply (min_unique lo (en_map (db_en b))); auto.
           unfold range_of in Er. inversion Er; auto.
        -- apply (F (range_of t)); auto. apply in_map; auto.
      * apply closed_drop; auto.
    + unfold db_drop. rewrite Es. exists H. rewrite ?filter_none. auto.
  - (* create *)
    pose proof (cstep_more lo (quiet R b) H (CCreate mn mx) B) as X. cbn [cstep cack_step cop_fine] in X.
    specialize (X (fun L => proj1 (Hf L))). cbn [quiet with_log db_en] in X.
    destruct (engine_fill part_new (en_map (db_en b)) mn mx) as [m| |] eqn:EF; cbn [bind] in *; auto.
    destruct X as (H' & B' & E & _). exists H'. rewrite ?filter_none. split; auto.
    assert (L : (mn <= mx)%N).
    { unfold engine_fill in EF. destruct (N.ltb_spec mx mn); [discriminate|auto]. }
    destruct (Hf L) as (N1 & N2 & N3). rewrite N2 in N1.
    assert (RG : rgrow (en_interval (db_en b)) [mn] (en_map (db_en b)) m).
    { apply (fill_rgrow lo _ _ _ (mi_map _ _ I) (proj1 Hiv) N1 C). rewrite <- N2. exact EF. }
    constructor; cbn [with_log with_en with_map db_en db_log en_interval en_map] in *; auto.
    + eapply rgrow_cells; eauto. lia.
    + eapply rgrow_free; eauto; [lia|]. intros i [<-|[]]. auto.
  - (* interval *)
    pose proof (cstep_more lo (quiet R b) H (CInterval n) B) as X. cbn [cstep cack_step cop_fine] in X.
    cbn [dop_fine] in Hf. subst n. cbn [quiet with_log db_en] in X. destruct (X Hiv) as (H' & B' & E & _). exists H'. rewrite ?filter_none. split; auto.
    eapply dinv_keep; eauto.
  - (* stop and start *)
    pose proof (binv_good _ _ _ B) as GD. cbn [quiet with_log db_storages db_dir] in GD.
    destruct (interrupted_spec (db_storages b) (proj1 (bi_sto _ _ _ B)) cuts (db_dir b) GD) as (d1 & E1 & G1 & S1).
    cbn [dop_fine] in Hf. rewrite E1 in Hf |- *. cbn [bind].
    pose proof (binv_disk lo (quiet R b) H [] B ltac:(constructor) hsorted_nil [] eq_refl ltac:(constructor)) as DK.
    rewrite !app_nil_r in DK. cbn [quiet with_log db_storages db_dir db_log] in DK.
    destruct (dstart lo R (db_en b) (db_storages b) H d1 (db_log b)) as (b' & -> & B' & _ & Ei); auto.
    + eapply disk_surv; eauto.
    + apply B.
    + eapply binv_lo; eauto.
    + eapply dinv_gone; eauto.
    + eapply dinv_surv; eauto.
    + exists H. rewrite ?filter_none. split; auto.
  - (* stop during a write *)
    destruct Hf as (BF & HL & HU & RF).
    destruct (write_grown lo (db_en b) l true I Hiv BF) as [(m & EW & _ & I' & G)|(m & ssn & EW & I' & E)];
      rewrite EW in *; cbn [bind snd] in *.
    + set (evs := assigned (en_serial (db_en b)) (en_ssn (db_en b)) l) in *.
      assert (NG : forall e, In e evs -> gone R (ev_id e) = false).
      { intros e He. unfold unused in HU. rewrite Forall_forall in HU. auto. }
      assert (LE : live R [write_rec b evs] = [write_rec b evs]).
      { cbn [live write_rec]. unfold write_rec. do 2 f_equal.
        rewrite filter_all; auto. intros e He. unfold notgone. rewrite NG; auto. }
      destruct whole.
      * assert (DK : disk lo (db_storages b) (H ++ map (pair (en_lsn (db_en b) + 1)%N) evs) (db_dir b)
           (live R (db_log b ++ [write_rec b evs]))).
        { rewrite live_app, LE. apply (binv_disk lo (quiet R b) H); auto.
          - rewrite Forall_forall. intros x Hx. apply in_map_iff in Hx as (e & <- & _). simpl. lia.
          - apply hsorted_const.
          - simpl. rewrite app_nil_r. f_equal. rewrite w64_next; auto.
          - constructor; [|constructor]. unfold write_rec. rewrite w64_next by auto. cbn. lia. }
        destruct (dstart lo R (db_en b) (db_storages b) _ (db_dir b) _ DK) as (b' & -> & B' & _ & Ei); auto.
        -- apply B.
        -- eapply binv_lo; eauto.
        -- apply closed_app; auto. cbn. split; auto. intros e He Hg. rewrite NG in Hg; [discriminate|auto].
        -- intros x Hx. apply in_app_iff in Hx as [Hx|Hx]; [eapply dinv_gone; eauto|].
           apply in_map_iff in Hx as (e & <- & He). auto.
        -- eapply dinv_surv; eauto. tauto.
        -- eexists. split; [exact B'|]. rewrite map_app, map_pair, ?filter_none. auto.
      * pose proof (binv_disk lo (quiet R b) H [] B ltac:(constructor) hsorted_nil [] eq_refl ltac:(constructor)) as DK.
        rewrite !app_nil_r in DK. cbn [quiet with_log db_storages db_dir db_log] in DK.
        destruct (dstart lo R (db_en b) (db_storages b) H (db_dir b) (db_log b) DK) as (b' & -> & B' & _ & Ei); auto.
        -- apply B.
        -- eapply binv_lo; eauto.
        -- eapply dinv_gone; eauto.
        -- eapply dinv_surv; eauto. tauto.
        -- exists H. rewrite ?filter_none. auto.
    + pose proof (binv_disk lo (quiet R b) H [] B ltac:(constructor) hsorted_nil [] eq_refl ltac:(constructor)) as DK.
      rewrite !app_nil_r in DK. cbn [quiet with_log db_storages db_dir db_log] in DK.
      destruct (dstart lo R (db_en b) (db_storages b) H (db_dir b) (db_log b) DK) as (b' & -> & B' & _ & Ei); auto.
      * apply B.
      * eapply binv_lo; eauto.
      * eapply dinv_gone; eauto.
      * eapply dinv_surv; eauto. tauto.
      * exists H. rewrite ?filter_none. auto.
  - contradiction.
Qed.

Lemma drun_spec lo : forall ops R b H, dinv lo R b H -> dhist_fine lo R b ops ->
  exists b' H', crun b ops = Ok b' /\ dinv lo (all_dropped R b ops) b' H' /\ map snd H' = dacked b ops (map snd H).
Proof.
  induction ops as [|o ops IH]; intros R b H B Hf; cbn [crun dacked all_dropped dhist_fine] in *; [eauto|].
  destruct Hf as [H1 H2]. pose proof (dstep_spec lo R b H o B H1) as Hs.
  destruct (cstep b o) as [b1| |]; try contradiction.
  - destruct Hs as (H' & B' & E). destruct (IH _ b1 H' B' H2) as (b' & H'' & A1 & A2 & A3).
    exists b', H''. rewrite <- E. auto.
  - destruct Hs as [E1 E2]. rewrite E1. rewrite E2. apply IH; auto.
Qed.

Lemma dinv_new lo storages iv serial page region : (lo + 2^31 <= u64_max)%N -> (0 < iv <= u64_max)%N ->
  storages_ok storages -> dinv lo [] (db_new storages iv serial page region) [].
Proof.
  intros L Hiv SO. constructor; try (constructor; fail).
  - apply (binv_new lo storages iv serial page region L Hiv SO).
  - intros r [].
Qed.
