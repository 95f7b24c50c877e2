(* Every step of a history with restarts keeps the invariant. *)
From Coq Require Import NArith ZArith List Bool Sorted Lia Arith Permutation.
Import ListNotations.
From Verif Require Import Model.Base Model.Event Model.Rbtree Model.Memtable Model.Mapping Model.Merge
  Model.PartIter Model.Scan Model.Writer Model.Codec Model.Engine Spec.Order Spec.Merged Spec.Files Spec.Layout
  Spec.Regions Spec.View Spec.Engine Proof.OrderL Proof.RbtreeL Proof.MemtableL Proof.MemtableL2 Proof.MergeL
  Proof.MappingL Proof.MappingP Proof.MappingX Proof.ScanL Proof.EngineL Proof.EngineW Proof.EngineR Proof.CrashW
  Proof.CrashH Proof.DirL Proof.CrashD.
From Verif Require Import Model.Crash Spec.Crash.
Local Arguments N.pow : simpl never.
Local Arguments N.add : simpl never.
Local Arguments N.sub : simpl never.
Implicit Types (s t : slice part) (m : mapping part) (H : hist) (d : dir).

Lemma fo_like s t : s_min t = s_min s -> s_max t = s_max s -> dlike (s_data s) (s_data t) -> fo t = fo s.
Proof. intros E1 E2 (D1 & D2 & D3). unfold fo. rewrite E1, E2, D2, D3. auto. Qed.
Lemma desc_like region d home s t o : s_min t = s_min s -> s_max t = s_max s -> dlike (s_data s) (s_data t) ->
  desc region d home s o -> desc region d home t o.
Proof.
  intros E1 E2 D. pose proof (fo_like s t E1 E2 D) as F. destruct D as (D1 & D2 & D3).
  destruct o as [j|]; cbn [desc].
  - unfold jdesc, merger_events, merger_lsn. rewrite E1, E2, F, D1, D2, D3. auto.
  - rewrite E1, F. auto.
Qed.

Lemma job_none jobs mn : (forall j, In j jobs -> jb_ref j <> mn) -> job_of jobs mn = None.
Proof.
  intros HN. unfold job_of. destruct (find _ jobs) as [j|] eqn:E; auto. apply find_some in E as [E1 E2].
  apply N.eqb_eq in E2. exfalso. eapply HN; eauto.
Qed.
Lemma job_some jobs mn j : job_of jobs mn = Some j -> In j jobs /\ jb_ref j = mn.
Proof. unfold job_of. intros E. apply find_some in E as [E1 E2]. apply N.eqb_eq in E2. auto. Qed.
Lemma job_in jobs j : NoDup (map jb_ref jobs) -> In j jobs -> job_of jobs (jb_ref j) = Some j.
Proof.
  unfold job_of. induction jobs as [|a l IH]; [contradiction|]. simpl. inversion 1 as [|? ? N1 N2]; subst.
  intros [->|Hj]; [rewrite N.eqb_refl; auto|]. destruct (N.eqb_spec (jb_ref a) (jb_ref j)) as [E|]; auto.
  exfalso. apply N1. rewrite E. apply in_map; auto.
Qed.
Definition others (jobs : list job) (r : N) : list job := filter (fun x => negb (jb_ref x =? r)%N) jobs.
Lemma job_others jobs r mn : job_of (others jobs r) mn = if (mn =? r)%N then None else job_of jobs mn.
Proof.
  unfold job_of, others. induction jobs as [|a l IH]; cbn [filter find]; [destruct (mn =? r)%N; auto|].
  destruct (N.eqb_spec (jb_ref a) r) as [E|E]; cbn [negb].
  - rewrite IH. destruct (N.eqb_spec mn r) as [|Hn]; auto. destruct (N.eqb_spec (jb_ref a) mn); congruence.
  - cbn [find]. rewrite IH. destruct (N.eqb_spec (jb_ref a) mn), (N.eqb_spec mn r); congruence.
Qed.
Lemma others_nodup jobs r : NoDup (map jb_ref jobs) -> NoDup (map jb_ref (others jobs r)).
Proof.
  unfold others. induction jobs as [|a l IH]; simpl; auto. inversion 1 as [|? ? N1 N2]; subst.
  destruct (negb _); auto. simpl. constructor; auto. intros Hin. apply N1.
  apply in_map_iff in Hin as (x & Ex & Hx). apply filter_In in Hx as [Hx _]. apply in_map_iff; eauto.
Qed.

Lemma surv_local d d' mn c : (forall st, dget d' (st, mn) = dget d (st, mn)) -> (surv d' mn c <-> surv d mn c).
Proof.
  intros E. unfold surv. split; (intros [(st & X)|[X1 (st & X)]]; [left; exists st|right; split; [intros st'; specialize (X1 st')|exists st]]);
    rewrite ?E in *; auto.
Qed.

(* the map changes by writes and new partitions *)
Lemma binv_map lo b H en' X r : binv lo b H -> minv lo (en_map en') -> (0 < en_interval en' <= u64_max)%N ->
  mlike (en_map (db_en b)) (en_map en') -> en_region en' = en_region (db_en b) ->
  (en_lsn (db_en b) <= en_lsn en')%N ->
  Forall (fun x => (en_lsn (db_en b) < fst x <= en_lsn en')%N) X -> hsorted X ->
  (forall t, In t (mapping_list (en_map en')) -> srel (H ++ X) (H ++ X) (en_lsn en') t) ->
  hcov (en_map en') (H ++ X) -> flat r = X -> writes r ->
  binv lo (with_log (with_en b en') (db_log b ++ r)) (H ++ X).
Proof.
  intros B I' Hiv ML ER HL HX HSX HS HC Er Wr.
  assert (DK : disk lo (db_storages b) (H ++ X) (db_dir b) (db_log b ++ r)).
  { eapply binv_disk; eauto. eapply Forall_impl; [|exact HX]. cbn beta. intros; lia. }
  destruct B as [I _ _ HT _ _ SO HO W IN KE DE (J1 & J2) SV _].
  constructor; cbn [with_log with_en db_en db_storages db_home db_dir db_log db_jobs]; auto.
  - apply DK.
  - apply Forall_app. split; [eapply Forall_impl; [|exact HT]|eapply Forall_impl; [|exact HX]]; cbn beta; intros; lia.
  - intros st mn Hno. apply KE. intros s Hs E. destruct (ml_old _ _ ML s Hs) as (q & Hq & _). apply (Hno _ Hq). auto.
  - intros t Ht. rewrite ER. destruct (ml_new _ _ ML t Ht) as [(p & Hp & D)|[Fr D]].
    + apply (desc_like _ _ _ (mk_slice (s_min t) (s_max t) p)); auto. apply (DE _ Hp).
    + assert (Hno : forall s, In s (mapping_list (en_map (db_en b))) -> s_min s <> s_min t).
      { intros s Hs E. destruct (range_in_near lo _ (range_of t) (mi_map _ _ I')) as [_ L1]; [apply in_map; auto|].
        destruct (range_in_near lo _ (range_of s) (mi_map _ _ I)) as [_ L2]; [apply in_map; auto|].
        apply (Fr (s_min t)); [split; simpl in *; lia|]. apply covered_slice. exists s. split; auto.
        split; simpl in *; lia. }
      rewrite job_none.
      * assert (Efo : fo t = None) by (unfold fo; destruct D as (_ & -> & _); reflexivity).
        cbn [desc]. intros st. rewrite KE by auto. rewrite Efo, at_none. auto.
      * intros j Hj E. destruct (J2 j Hj) as (_ & s & Hs & Es). apply (Hno s Hs). congruence.
  - split; auto. intros j Hj. destruct (J2 j Hj) as (A & s & Hs & Es). split; auto.
    destruct (ml_old _ _ ML s Hs) as (q & Hq & _). eauto.
  - intros mn c Sc. destruct (SV mn c Sc) as (f & -> & E & Hr & [F1 F2 F3 F4]). exists f. split; auto. split; auto.
    split; [apply (mlike_ranges _ _ ML); auto|]. constructor; auto; [lia|].
    intros k Hk. rewrite F4 by auto. f_equal. rewrite lw_app. symmetry. apply over_out. intros e He. exfalso.
    apply in_sel in He as (l & Hl & HP). rewrite Forall_forall in HX. specialize (HX _ Hl). apply N.leb_le in HP. simpl in HX. lia.
  - apply DK.
Qed.

(* one partition and its files change *)
Lemma ref_put_same lo m s : good_map lo m -> In s (mapping_list m) -> ref_put m (s_min s) (s_data s) = m.
Proof.
  intros G Hs. destruct m as [tr n]. unfold ref_put. cbn [mp_tree mp_count]. f_equal.
  assert (X : forall x, In x (elements tr) -> (if (s_min x =? s_min s)%N then mk_slice (s_min x) (s_max x) (s_data s) else x) = x).
  { intros x Hx. destruct (N.eqb_spec (s_min x) (s_min s)) as [E|]; auto.
    rewrite (min_unique lo (mk_mapping tr n) x s) by auto. apply slice_eta. }
  clear G Hs. induction tr as [|c l IHl x r IHr]; auto. cbn [tree_map]. cbn [elements] in X.
  rewrite IHl, IHr, X; auto; intros; rewrite ?in_app_iff in *; simpl; auto;
    apply X; rewrite in_app_iff; simpl; auto.
Qed.

Lemma binv_at lo b H s0 p d' home' jobs' : binv lo b H -> In s0 (mapping_list (en_map (db_en b))) ->
  sfine lo (mk_slice (s_min s0) (s_max s0) p) -> srel H H (en_lsn (db_en b)) (mk_slice (s_min s0) (s_max s0) p) ->
  (forall mn, mn <> s_min s0 -> home' mn = db_home b mn) -> In (home' (s_min s0)) (db_storages b) ->
  wfd d' -> (forall st mn, mn <> s_min s0 -> dget d' (st, mn) = dget (db_dir b) (st, mn)) ->
  (forall st, dget d' (st, s_min s0) <> no_files -> In st (db_storages b)) ->
  NoDup (map jb_ref jobs') ->
  (forall j, In j jobs' -> In (jb_to j) (db_storages b) /\ (jb_ref j = s_min s0 \/ In j (db_jobs b))) ->
  (forall mn, mn <> s_min s0 -> job_of jobs' mn = job_of (db_jobs b) mn) ->
  desc (en_region (db_en b)) d' home' (mk_slice (s_min s0) (s_max s0) p) (job_of jobs' (s_min s0)) ->
  (forall c, surv d' (s_min s0) c -> surv (db_dir b) (s_min s0) c \/
     exists f, c = Some f /\ frange f = range_of s0 /\ fgood lo H (en_lsn (db_en b)) f) ->
  (forall f, surv (db_dir b) (s_min s0) (Some f) -> exists f', surv d' (s_min s0) (Some f') /\
     (f' = f \/ (frange f' = range_of s0 /\ df_lsn f <= df_lsn f')%N)) ->
  binv lo (mk_db (with_map (db_en b) (ref_put (en_map (db_en b)) (s_min s0) p)) (db_storages b) home' d' (db_log b) jobs') H.
Proof.
  intros B Hs0 F S HH HI WD DO DI JN JI JO DS SA SB.
  pose proof B as [I Hiv HS HT HC HR SO HO W IN KE DE (J1 & J2) SV (LW & H0 & EH & ST)].
  set (m := en_map (db_en b)) in *. pose proof (mi_map _ _ I) as G.
  assert (PI : forall t, In t (mapping_list (ref_put m (s_min s0) p)) <->
     t = mk_slice (s_min s0) (s_max s0) p \/ (In t (mapping_list m) /\ t <> s0)) by (intros; apply (put_in lo); auto).
  assert (NM : forall t, In t (mapping_list m) -> t <> s0 -> s_min t <> s_min s0).
  { intros t Ht Hn E. apply Hn. apply (min_unique lo m); auto. }
  constructor; cbn [with_map en_map en_interval en_lsn en_region db_en db_storages db_home db_dir db_log db_jobs]; auto.
  - apply put_inv; auto.
  - intros x Hx. rewrite put_ranges. auto.
  - intros t Ht. apply PI in Ht as [->|[Ht _]]; auto.
  - intros mn. destruct (N.eq_dec mn (s_min s0)) as [->|Hn]; auto. rewrite HH; auto.
  - intros [st mn] Hk. cbn [fst]. destruct (N.eq_dec mn (s_min s0)) as [->|Hn]; auto.
    rewrite DO in Hk by auto. apply (IN (st, mn)); auto.
  - intros st mn Hno. assert (Hn : mn <> s_min s0).
    { intros ->. apply (Hno (mk_slice (s_min s0) (s_max s0) p)); auto. apply PI; auto. }
    rewrite DO by auto. apply KE. intros t Ht E. destruct (N.eq_dec (s_min t) (s_min s0)); [congruence|].
    apply (Hno t); auto. apply PI. right. split; auto. congruence.
  - intros t Ht. apply PI in Ht as [->|[Ht Hn]]; auto. specialize (NM t Ht Hn). rewrite JO by auto. specialize (DE t Ht).
    assert (DG : forall st, dget d' (st, s_min t) = dget (db_dir b) (st, s_min t)) by (intros; apply DO; auto).
    destruct (job_of (db_jobs b) (s_min t)) as [j|]; cbn [desc] in *.
    + unfold jdesc in *. rewrite HH by auto.
      destruct (jb_stage j) as [|[|[|[|[|[|n]]]]]]; try contradiction.
      * destruct DE as [A DE]. split; auto. intros st. rewrite DG; auto.
      * destruct DE as [A DE]. split; auto. intros st. rewrite DG; auto.
      * destruct DE as [A (l & L & DE)]. split; auto. exists l. split; auto. intros st. rewrite DG; auto.
      * destruct DE as (A1 & A2 & old & A3 & DE). split; auto. split; auto. exists old. split; auto. intros st. rewrite DG; auto.
      * destruct DE as (A1 & A2 & old & A3 & DE). split; auto. split; auto. exists old. split; auto. intros st. rewrite DG; auto.
      * destruct DE as (A1 & A2 & DE). split; auto. split; auto. intros st. rewrite DG; auto.
    + intros st. rewrite DG, HH by auto. auto.
  - split; auto. intros j Hj. destruct (JI j Hj) as [A [E|Hin]]; split; auto.
    + exists (mk_slice (s_min s0) (s_max s0) p). split; auto. apply PI; auto.
    + destruct (J2 j Hin) as (_ & s & Hs & Es). destruct (N.eq_dec (s_min s) (s_min s0)) as [E|E].
      * exists (mk_slice (s_min s0) (s_max s0) p). split; [apply PI; auto|]. simpl. congruence.
      * exists s. split; auto. apply PI. right. split; auto. congruence.
  - intros mn c Sc. rewrite put_ranges. destruct (N.eq_dec mn (s_min s0)) as [->|Hn].
    + destruct (SA c Sc) as [Sc'|(f & -> & Ef & Fg)]; [apply SV; auto|]. exists f. split; auto.
      split; [unfold frange, range_of in Ef; inversion Ef; auto|]. split; auto. rewrite Ef. apply in_map; auto.
    + apply (SV mn c). apply (surv_local _ d'); auto.
  - split; auto. exists H0. split; auto. intros x Hx. destruct (ST x Hx) as (f & Sf & Hr & Hle).
    destruct (N.eq_dec (df_min f) (s_min s0)) as [E|Hn].
    + rewrite E in Sf. destruct (SB f Sf) as (f' & Sf' & [->|[Ef Lf]]).
      * exists f. rewrite E. auto.
      * exists f'. split; [|split; [|lia]].
        -- unfold frange, range_of in Ef. inversion Ef as [[E1 E2]]. rewrite E1. auto.
        -- destruct (SV _ _ Sf) as (g & Eg & _ & Hg & _). inversion Eg; subst g. rewrite Ef.
           apply in_map_iff in Hg as (u & Eu & Hu).
           assert (u = s0).
           { apply (min_unique lo m); auto. unfold frange, range_of in Eu. inversion Eu. congruence. }
           subst u. rewrite Eu. auto.
    + exists f. split; auto. apply (surv_local (db_dir b)); auto.
Qed.

(* starting a refresh *)
Lemma part_slice_spec lo m id : good_map lo m ->
  match part_slice m id with
  | Some s => In s (mapping_list m) /\ in_range id (range_of s)
  | None => ~ covered (ranges m) id
  end.
Proof.
  intros G. unfold part_slice. destruct (find _ _) as [s|] eqn:E.
  - apply find_some in E as [E1 E2]. split; auto. apply in_slice; auto.
  - intros Hc. apply covered_slice in Hc as (s & Hs & Hr). apply in_slice in Hr. eapply find_none in E; eauto. congruence.
Qed.

Lemma with_map_id en : with_map en (en_map en) = en.
Proof. destruct en; auto. Qed.

Lemma begin_binv lo b H id to : binv lo b H -> cop_fine lo b (CBegin id to) ->
  match db_begin b id to with Ok b' => binv lo b' H | Err => True | UB => False end.
Proof.
  intros B (Hid & Hto & Hfine). pose proof B as [I Hiv HS HT HC HR SO HO W IN KE DE (J1 & J2) SV LG].
  set (m := en_map (db_en b)) in *. pose proof (mi_map _ _ I) as G. unfold db_begin. fold m.
  pose proof (part_slice_spec lo m id G) as PS. destruct (part_slice m id) as [s|]; auto.
  destruct PS as [Hs Hr]. destruct (existsb _ _) eqn:Ex; auto.
  assert (Hnj : forall j, In j (db_jobs b) -> jb_ref j <> s_min s).
  { intros j Hj E. assert (X : existsb (fun j => (jb_ref j =? s_min s)%N) (db_jobs b) = true).
    { apply existsb_exists. exists j. split; auto. apply N.eqb_eq; auto. } congruence. }
  destruct (match to with Some st => _ | None => _ end); auto.
  destruct (begin_spec lo (db_en b) id I Hid) as [(-> & Hn)|(s' & Hs' & Hr' & -> & I' & _)].
  { exfalso. apply Hn. apply covered_slice. eauto. }
  fold m in Hs'. assert (s' = s) by (apply (layout_unique (mapping_list m) s' s id); auto; exact (gm_layout _ _ G)).
  subst s'. cbn [bind]. destruct (Hfine s Hs Hr) as [(j & Hj & Ej)|[HP HL]]; [exfalso; eapply Hnj; eauto|].
  pose proof (mi_parts _ _ I) as FP. rewrite Forall_forall in FP. pose proof (FP s Hs) as Fs.
  pose proof (DE s Hs) as D0. rewrite job_none in D0 by auto. cbn [desc] in D0.
  set (st := match to with Some st => st | None => db_home b (s_min s) end).
  assert (Hst : In st (db_storages b)) by (unfold st; destruct to; auto).
  apply (binv_at lo b H s (part_memtable_rotate (s_data s)) (db_dir b) (db_home b)
           (mk_job (s_min s) (db_home b (s_min s)) st 0 :: db_jobs b)); auto.
  - apply sfine_rotate; auto.
  - apply (srel_rotate lo); auto.
  - intros x Hx. apply (IN (x, s_min s)); auto.
  - simpl. constructor; auto. intros Hin. apply in_map_iff in Hin as (j & Ej & Hj). eapply Hnj; eauto.
  - intros j [<-|Hj]; simpl; auto. destruct (J2 j Hj). auto.
  - intros mn Hn. unfold job_of. cbn [find jb_ref]. destruct (N.eqb_spec (s_min s) mn); congruence.
  - unfold job_of. cbn [find jb_ref]. rewrite N.eqb_refl. cbn [desc]. unfold jdesc. cbn [jb_stage jb_from s_min].
    split; auto. intros x. destruct (D0 x) as [D1 D2].
    assert (D3 : sl_inc (dget (db_dir b) (x, s_min s)) = None).
    { destruct (none_or (sl_inc (dget (db_dir b) (x, s_min s)))) as [|X]; auto. exfalso. apply HL. exists x. auto. }
    destruct (dget (db_dir b) (x, s_min s)) as [y1 y2 y3]; cbn [sl_id sl_inc sl_comp] in *; subst. f_equal.
  - intros f Sf. exists f. auto.
Qed.

Lemma at_eq {A} st x (o : option A) : st = x -> at_ st x o = o.
Proof. intros ->. apply at_same. Qed.
Lemma at_ne {A} st x (o : option A) : st <> x -> at_ st x o = None.
Proof. intros Hn. unfold at_. destruct (N.eqb_spec st x); congruence. Qed.

Lemma job_list jobs j (more : bool) mn : jb_ref j = mn ->
  job_of (if more then job_next j :: others jobs mn else others jobs mn) mn =
  if more then Some (job_next j) else None.
Proof.
  intros E. destruct more; [|rewrite job_others, N.eqb_refl; auto].
  unfold job_of. cbn [find job_next jb_ref]. rewrite E, N.eqb_refl. auto.
Qed.

(* a step of a refresh *)
Lemma step_binv_at lo b H ref : binv lo b H ->
  (forall j, job_of (db_jobs b) ref = Some j -> jb_stage j = 2 -> cop_fine lo b (CStep ref)) ->
  match db_step b ref with Ok b' => binv lo b' H | Err => True | UB => False end.
Proof.
  intros B Hw. pose proof B as [I Hiv HS HT HC HR SO HO W IN KE DE (J1 & J2) SV LG].
  set (m := en_map (db_en b)) in *. pose proof (mi_map _ _ I) as G. unfold db_step.
  fold (job_of (db_jobs b) ref). destruct (job_of (db_jobs b) ref) as [j|] eqn:Ej; auto.
  destruct (job_some _ _ _ Ej) as [Hj Er]. destruct (J2 j Hj) as (Hto & s & Hs & Es).
  assert (Em : ref = s_min s) by congruence. clear Es. subst ref.
  pose proof (DE s Hs) as D0. rewrite <- Em, Ej in D0. cbn [desc] in D0. rewrite Em in *.
  pose proof (mi_parts _ _ I) as FP. rewrite Forall_forall in FP. pose proof (FP s Hs) as Fs. pose proof (HR s Hs) as Rs.
  set (d := db_dir b) in *.
  (* the list of refreshes *)
  assert (JN : forall more : bool, NoDup (map jb_ref (if more then job_next j :: others (db_jobs b) (s_min s) else others (db_jobs b) (s_min s)))).
  { intros more. pose proof (others_nodup (db_jobs b) (s_min s) J1) as N0. destruct more; auto. simpl. constructor; auto.
    intros Hin. apply in_map_iff in Hin as (x & Ex & Hx). apply filter_In in Hx as [_ Hx].
    rewrite Ex, Em, N.eqb_refl in Hx. discriminate. }
  assert (JI : forall (more : bool) x, In x (if more then job_next j :: others (db_jobs b) (s_min s) else others (db_jobs b) (s_min s)) ->
     In (jb_to x) (db_storages b) /\ (jb_ref x = s_min s \/ In x (db_jobs b))).
  { intros more x Hx. assert (X : x = job_next j \/ In x (others (db_jobs b) (s_min s))) by (destruct more; simpl in Hx; intuition).
    destruct X as [->|X]; [simpl; auto|]. apply filter_In in X as [X _]. destruct (J2 x X). auto. }
  assert (JO : forall (more : bool) mn, mn <> s_min s -> job_of (if more then job_next j :: others (db_jobs b) (s_min s) else others (db_jobs b) (s_min s)) mn = job_of (db_jobs b) mn).
  { intros more mn Hn. assert (X : job_of (others (db_jobs b) (s_min s)) mn = job_of (db_jobs b) mn).
    { rewrite job_others. destruct (N.eqb_spec mn (s_min s)); congruence. }
    destruct more; auto. unfold job_of at 1. cbn [find job_next jb_ref]. rewrite Em.
    destruct (N.eqb_spec (s_min s) mn); [congruence|]. exact X. }
  (* steps that change files only *)
  assert (Files : forall (more : bool) a v,
     In a (db_storages b) -> let d' := dset d (a, s_min s) v in
     desc (en_region (db_en b)) d' (db_home b) s (if more then Some (job_next j) else None) ->
     (forall c, surv d' (s_min s) c -> surv d (s_min s) c \/ exists f, c = Some f /\ frange f = range_of s /\ fgood lo H (en_lsn (db_en b)) f) ->
     (forall f, surv d (s_min s) (Some f) -> exists f', surv d' (s_min s) (Some f') /\ (f' = f \/ (frange f' = range_of s /\ df_lsn f <= df_lsn f')%N)) ->
     binv lo (mk_db (db_en b) (db_storages b) (db_home b) d' (db_log b)
        (if more then job_next j :: others (db_jobs b) (s_min s) else others (db_jobs b) (s_min s))) H).
  { intros more a v Ha d' D1 A1 A2.
    pose proof (binv_at lo b H s (s_data s) d' (db_home b) (if more then job_next j :: others (db_jobs b) (s_min s) else others (db_jobs b) (s_min s)) B Hs) as X.
    rewrite slice_eta in X. rewrite (ref_put_same lo) in X by auto. rewrite with_map_id in X.
    apply X; auto.
    - apply wfd_set; auto.
    - intros st mn Hn. apply dget_set_other. congruence.
    - intros st Hk. destruct (N.eq_dec st a) as [->|Hn]; auto. unfold d' in Hk. rewrite dget_set_other in Hk by congruence.
      apply (IN (st, s_min s)); auto.
    - apply JI.
    - rewrite job_list; auto. }
  (* the file in use *)
  assert (FO : forall c, fo s = Some c -> exists f, c = Some f /\ frange f = range_of s /\ fgood lo H (en_lsn (db_en b)) f /\ df_lsn f = pt_lsn (s_data s)).
  { intros c Ec. assert (X : exists f, c = Some f /\ frange f = range_of s /\ df_lsn f = pt_lsn (s_data s)).
    { unfold fo in Ec. destruct (pt_file (s_data s)); [|discriminate]. inversion Ec. eexists. split; [reflexivity|]. split; reflexivity. }
    destruct X as (f & -> & X1 & X2). exists f. split; auto. split; auto. split; auto.
    eapply fo_good; eauto. }
  unfold job_step. rewrite Em. unfold jdesc in D0. fold d m.
  destruct (jb_stage j) as [|[|[|[|[|[|n]]]]]] eqn:Est; try contradiction.
  - (* create *)
    destruct D0 as [Hh D0]. cbn [bind]. rewrite D0.
    set (v := mk_slot _ _ _). 
    assert (D1 : forall st, dget (dset d (jb_to j, s_min s) v) (st, s_min s) =
      mk_slot (at_ st (jb_from j) (fo s)) (at_ st (jb_to j) (Some None)) None).
    { intros st. destruct (N.eq_dec st (jb_to j)) as [->|Hn].
      - rewrite dget_set_same, (at_same (jb_to j)). reflexivity.
      - rewrite dget_set_other by congruence. rewrite D0, (at_ne st (jb_to j)) by auto. reflexivity. }
    assert (SS : forall c, surv (dset d (jb_to j, s_min s) v) (s_min s) c <-> surv d (s_min s) c).
    { intros c.
      rewrite (surv_at _ (s_min s) (jb_from j) 0 (fo s) None); [|intros st; rewrite D1; rewrite ?at_none; reflexivity..].
      rewrite (surv_at d (s_min s) (jb_from j) 0 (fo s) None); [|intros st; rewrite D0; rewrite ?at_none; reflexivity..]. tauto. }
    apply (Files true (jb_to j) v); auto.
    + cbn [desc]. unfold jdesc. cbn [job_next jb_stage jb_from jb_to]. rewrite Est. auto.
    + intros c Sc. left. apply SS; auto.
    + intros f Sf. exists f. split; auto. apply SS; auto.
  - (* write *)
    destruct D0 as [Hh D0]. unfold ref_slice.
    assert (Efind : find (fun s1 => (s_min s1 =? s_min s)%N) (mapping_list m) = Some s).
    { destruct (find _ _) as [u|] eqn:Ef.
      - apply find_some in Ef as [E1 E2]. apply N.eqb_eq in E2. f_equal. apply (min_unique lo m); auto.
      - eapply find_none in Ef; eauto. rewrite N.eqb_refl in Ef. discriminate. }
    rewrite Efind. cbn [bind]. unfold new_file, refresh_part.
    destruct (merger_spec lo (s_data s) (sf_prev _ _ Fs) (sf_file _ _ Fs)) as (l & EM & _).
    rewrite EM. cbn [bind pt_file pt_lsn]. rewrite D0.
    set (v := mk_slot _ _ _).
    assert (D1 : forall st, dget (dset d (jb_to j, s_min s) v) (st, s_min s) =
      mk_slot (at_ st (jb_from j) (fo s)) (at_ st (jb_to j) (Some (Some (mk_dfile (s_min s) (s_max s) (merger_lsn (s_data s)) (cut_regions (en_region (db_en b)) l))))) None).
    { intros st. destruct (N.eq_dec st (jb_to j)) as [->|Hn].
      - rewrite dget_set_same, (at_same (jb_to j)). reflexivity.
      - rewrite dget_set_other by congruence. rewrite D0, !(at_ne st (jb_to j)) by auto. reflexivity. }
    assert (SS : forall c, surv (dset d (jb_to j, s_min s) v) (s_min s) c <-> surv d (s_min s) c).
    { intros c.
      rewrite (surv_at _ (s_min s) (jb_from j) 0 (fo s) None); [|intros st; rewrite D1; rewrite ?at_none; reflexivity..].
      rewrite (surv_at d (s_min s) (jb_from j) 0 (fo s) None); [|intros st; rewrite D0; rewrite ?at_none; reflexivity..]. tauto. }
    apply (Files true (jb_to j) v); auto.
    + cbn [desc]. unfold jdesc. cbn [job_next jb_stage jb_from jb_to]. rewrite Est. split; auto. exists l. auto.
    + intros c Sc. left. apply SS; auto.
    + intros f Sf. exists f. split; auto. apply SS; auto.
  - (* apply *)
    destruct D0 as [Hh (l & EM & D0)]. specialize (Hw j eq_refl Est s Hs eq_refl).
    destruct (apply_spec lo (db_en b) s I Hs Hw) as (p & EP & -> & I' & _). cbn [bind].
    destruct (refresh_part_spec lo (en_region (db_en b)) s Fs Hw) as (p' & l' & EP' & Fp & P1 & P2 & P3 & P4 & P5 & _).
    rewrite EP in EP'. inversion EP'; subst p'. clear EP'.
    assert (El : l' = l \/ cut_regions (en_region (db_en b)) l' = cut_regions (en_region (db_en b)) l).
    { right. unfold refresh_part in EP. rewrite EM in EP. cbn [bind] in EP. inversion EP as [EP2].
      rewrite <- EP2 in P3. cbn [pt_file] in P3. congruence. }
    assert (Ecut : cut_regions (en_region (db_en b)) l' = cut_regions (en_region (db_en b)) l) by (destruct El; congruence).
    apply (binv_at lo b H s p d (fun x => if (x =? s_min s)%N then jb_to j else db_home b x)
       (job_next j :: others (db_jobs b) (s_min s))); auto.
    + eapply srel_apply; eauto.
    + intros mn Hn. destruct (N.eqb_spec mn (s_min s)); congruence.
    + rewrite N.eqb_refl. auto.
    + intros st Hk. apply (IN (st, s_min s)); auto.
    + apply (JN true).
    + apply (JI true).
    + apply (JO true).
    + rewrite (job_list _ j true) by auto. cbn [desc]. unfold jdesc. cbn [job_next jb_stage jb_from jb_to s_min s_data].
      rewrite Est, N.eqb_refl, P3. split; auto. split; [discriminate|]. exists (fo s). split.
      * intros f Ef. unfold fo in Ef. destruct (pt_file (s_data s)) eqn:Efl; [|discriminate]. inversion Ef. cbn [df_lsn].
        rewrite P5. unfold merger_lsn. rewrite Efl. lia.
      * intros st. rewrite D0. unfold fo at 3. cbn [s_data s_min s_max]. rewrite P3, P5, Ecut. reflexivity.
    + intros f Sf. exists f. auto.
  - (* rename to complete *)
    destruct D0 as (Hh & Hpf & old & Hold & D0). rewrite D0. cbn [sl_inc]. rewrite at_same.
    assert (Hfo : exists c, fo s = Some c).
    { unfold fo. destruct (pt_file (s_data s)); [eauto|congruence]. }
    destruct Hfo as (c0 & Ec0). rewrite Ec0. cbn [bind sl_id].
    set (v := mk_slot _ _ _).
    assert (D1 : forall st, dget (dset d (jb_to j, s_min s) v) (st, s_min s) =
      mk_slot (at_ st (jb_from j) old) None (at_ st (jb_to j) (fo s))).
    { intros st. destruct (N.eq_dec st (jb_to j)) as [->|Hn].
      - rewrite dget_set_same, (at_same (jb_to j)), Ec0. reflexivity.
      - rewrite dget_set_other by congruence. rewrite D0, !(at_ne st (jb_to j)) by auto. reflexivity. }
    assert (S0 : forall c, surv d (s_min s) c <-> match old with Some x => c = x | None => None = Some c end).
    { apply (surv_at d (s_min s) (jb_from j) 0 old None); intros st; rewrite D0; rewrite ?at_none; reflexivity. }
    assert (S1 : forall c, surv (dset d (jb_to j, s_min s) v) (s_min s) c <-> match old with Some x => c = x | None => fo s = Some c end).
    { apply (surv_at _ (s_min s) (jb_from j) (jb_to j) old (fo s)); intros st; rewrite D1; reflexivity. }
    apply (Files true (jb_to j) v); auto.
    + cbn [desc]. unfold jdesc. cbn [job_next jb_stage jb_from jb_to]. rewrite Est. split; auto. split; auto. exists old. auto.
    + intros c Sc. apply S1 in Sc. destruct old as [x|]; [left; apply S0; auto|right].
      destruct (FO c Sc) as (f & A1 & A2 & A3 & _). eauto.
    + intros f Sf. apply S0 in Sf. exists f. split; auto. apply S1. destruct old; auto. discriminate.
  - (* remove the old file *)
    destruct D0 as (Hh & Hpf & old & Hold & D0). rewrite (D0 (jb_from j)). cbn [bind sl_inc sl_comp].
    set (v := mk_slot _ _ _).
    assert (D1 : forall st, dget (dset d (jb_from j, s_min s) v) (st, s_min s) =
      mk_slot None None (at_ st (jb_to j) (fo s))).
    { intros st. destruct (N.eq_dec st (jb_from j)) as [->|Hn].
      - rewrite dget_set_same. reflexivity.
      - rewrite dget_set_other by congruence. rewrite D0, (at_ne st (jb_from j)) by auto. reflexivity. }
    assert (S0 : forall c, surv d (s_min s) c <-> match old with Some x => c = x | None => fo s = Some c end).
    { apply (surv_at d (s_min s) (jb_from j) (jb_to j) old (fo s)); intros st; rewrite D0; reflexivity. }
    assert (S1 : forall c, surv (dset d (jb_from j, s_min s) v) (s_min s) c <-> fo s = Some c).
    { apply (surv_at _ (s_min s) 0 (jb_to j) None (fo s)); intros st; rewrite D1; rewrite ?at_none; reflexivity. }
    assert (Hfo : exists c, fo s = Some c).
    { unfold fo. destruct (pt_file (s_data s)); [eauto|congruence]. }
    destruct Hfo as (c0 & Ec0). destruct (FO c0 Ec0) as (f0 & -> & A1 & A2 & A3).
    assert (EdS : binv lo (mk_db (db_en b) (db_storages b) (db_home b) (dset d (jb_from j, s_min s) v) (db_log b)
        (job_next j :: others (db_jobs b) (s_min s))) H); [|exact EdS].
    assert (Hd' : forall st, dget (dset d (jb_from j, s_min s) v) (st, s_min s) <> no_files -> In st (db_storages b)).
    { intros st Hk. rewrite D1 in Hk. destruct (N.eq_dec st (jb_to j)) as [->|Hn]; auto.
      rewrite (at_ne st (jb_to j)) in Hk by auto. exfalso. apply Hk. reflexivity. }
    pose proof (binv_at lo b H s (s_data s) (dset d (jb_from j, s_min s) v) (db_home b)
       (job_next j :: others (db_jobs b) (s_min s)) B Hs) as X.
    rewrite slice_eta in X. rewrite (ref_put_same lo) in X by auto. rewrite with_map_id in X. apply X; auto.
    + apply wfd_set; auto.
    + intros st mn Hn. apply dget_set_other. congruence.
    + apply (JN true).
    + apply (JI true).
    + apply (JO true).
    + rewrite (job_list _ j true) by auto. cbn [desc]. unfold jdesc. cbn [job_next jb_stage jb_from jb_to]. rewrite Est. auto.
    + intros c Sc. right. apply S1 in Sc. destruct (FO c Sc) as (f & B1 & B2 & B3 & _). eauto.
    + intros f Sf. exists f0. split; [apply S1; auto|]. right. split; auto.
      apply S0 in Sf. destruct old as [x|].
      * rewrite A3. apply Hold. congruence.
      * rewrite Ec0 in Sf. inversion Sf; subst. lia.
  - (* rename to the final name *)
    destruct D0 as (Hh & Hpf & D0). rewrite D0. cbn [sl_comp]. rewrite at_same.
    assert (Hfo : exists c, fo s = Some c).
    { unfold fo. destruct (pt_file (s_data s)); [eauto|congruence]. }
    destruct Hfo as (c0 & Ec0). rewrite Ec0. cbn [bind sl_inc].
    set (v := mk_slot _ _ _).
    assert (D1 : forall st, dget (dset d (jb_to j, s_min s) v) (st, s_min s) = mk_slot (at_ st (jb_to j) (fo s)) None None).
    { intros st. destruct (N.eq_dec st (jb_to j)) as [->|Hn].
      - rewrite dget_set_same, (at_same (jb_to j)), Ec0. reflexivity.
      - rewrite dget_set_other by congruence. rewrite D0, !(at_ne st (jb_to j)) by auto. reflexivity. }
    assert (S0 : forall c, surv d (s_min s) c <-> fo s = Some c).
    { apply (surv_at d (s_min s) 0 (jb_to j) None (fo s)); intros st; rewrite D0; rewrite ?at_none; reflexivity. }
    assert (S1 : forall c, surv (dset d (jb_to j, s_min s) v) (s_min s) c <-> fo s = Some c).
    { intros c. rewrite (surv_at _ (s_min s) (jb_to j) 0 (fo s) None); [|intros st; rewrite D1; rewrite ?at_none; reflexivity..].
      rewrite Ec0. split; congruence. }
    apply (Files false (jb_to j) v); auto.
    + cbn [desc]. intros st. rewrite D1. rewrite Hh. auto.
    + intros c Sc. left. apply S0, S1; auto.
    + intros f Sf. exists f. split; auto. apply S1, S0; auto.
Qed.

Lemma step_binv lo b H ref : binv lo b H -> cop_fine lo b (CStep ref) ->
  match db_step b ref with Ok b' => binv lo b' H | Err => True | UB => False end.
Proof.
  intros B Hw. apply step_binv_at; auto.
Qed.

Lemma fail_binv lo b H ref : binv lo b H -> cop_fine lo b (CFail ref) ->
  binv lo (with_jobs b (others (db_jobs b) ref)) H.
Proof.
  intros B Hf. cbn [cop_fine] in Hf. pose proof B as [I Hiv HS HT HC HR SO HO W IN KE DE (J1 & J2) SV LG].
  destruct (job_of (db_jobs b) ref) as [j|] eqn:Ej.
  - destruct (job_some _ _ _ Ej) as [Hj Er]. destruct (J2 j Hj) as (Hto & s & Hs & Es).
    specialize (Hf j Hj Er). assert (Em : s_min s = ref) by congruence. clear Es. rewrite <- Em in *. clear ref Em.
    pose proof (binv_at lo b H s (s_data s) (db_dir b) (db_home b) (others (db_jobs b) (s_min s)) B Hs) as X.
    rewrite slice_eta in X. rewrite (ref_put_same lo) in X by (auto; apply (mi_map _ _ I)). rewrite with_map_id in X.
    unfold with_jobs. apply X; auto.
    + pose proof (mi_parts _ _ I) as FP. rewrite Forall_forall in FP. auto.
    + intros st Hk. apply (IN (st, s_min s)); auto.
    + apply others_nodup; auto.
    + intros x Hx. apply filter_In in Hx as [Hx _]. destruct (J2 x Hx). auto.
    + intros mn Hn. rewrite job_others. destruct (N.eqb_spec mn (s_min s)); congruence.
    + rewrite job_others, N.eqb_refl. specialize (DE s Hs). rewrite Ej in DE.
      cbn [desc] in *. unfold jdesc in DE. intros st. 
      destruct (jb_stage j) as [|[|[|n]]]; try lia.
      * destruct DE as [-> D]. rewrite D. auto.
      * destruct DE as [-> D]. rewrite D. auto.
      * destruct DE as [-> (l & _ & D)]. rewrite D. auto.
    + intros f Sf. exists f. auto.
  - assert (E : others (db_jobs b) ref = db_jobs b).
    { unfold others. clear -Ej. unfold job_of in Ej. induction (db_jobs b) as [|a l IH]; auto. simpl in *.
      destruct (jb_ref a =? ref)%N; [discriminate|]. simpl. f_equal. auto. }
    rewrite E. destruct b; exact B.
Qed.

Lemma fold_min_le l x a : In x l -> (fold_right N.min a l <= x)%N.
Proof. induction l as [|y l IH]; simpl; [contradiction|]. intros [->|Hx]; [lia|]. specialize (IH Hx). lia. Qed.

Lemma flat_in l x : In x (flat l) -> exists n evs e, In (LWrite n evs) l /\ x = (n, e) /\ In e evs.
Proof.
  induction l as [|[n evs|n i] l IH]; simpl; [contradiction| |].
  - intros Hx. apply in_app_iff in Hx as [Hx|Hx].
    + apply in_map_iff in Hx as (e & <- & He). eauto 10.
    + destruct (IH Hx) as (n' & evs' & e & A & B & C). eauto 10.
  - intros Hx. destruct (IH Hx) as (n' & evs' & e & A & B & C). eauto 10.
Qed.

Lemma gc_binv lo b H k : binv lo b H -> cop_fine lo b (CGc k) ->
  match db_gc b k with Ok b' => binv lo b' H | Err => True | UB => False end.
Proof.
  intros B Hf. cbn [cop_fine] in Hf. unfold db_gc. destruct (forallb _ _) eqn:Ef; auto.
  rewrite forallb_forall in Ef.
  destruct B as [I Hiv HS HT HC HR SO HO W IN KE DE (J1 & J2) SV (LW & H0 & EH & ST)].
  constructor; cbn [with_log db_en db_storages db_home db_dir db_log db_jobs]; auto.
  rewrite <- (firstn_skipn k (db_log b)) in EH. rewrite flat_app in EH.
  split.
  { rewrite <- (firstn_skipn k (db_log b)) in LW. apply Forall_app in LW. tauto. }
  exists (H0 ++ flat (firstn k (db_log b))). split; [rewrite <- app_assoc; auto|].
  intros x Hx. apply in_app_iff in Hx as [Hx|Hx]; auto.
  destruct (flat_in _ _ Hx) as (n & evs & e & Hr & -> & He).
  specialize (Ef _ Hr). cbn [rec_lsn] in Ef. apply N.ltb_lt in Ef.
  assert (HinH : In (n, e) H) by (rewrite EH, !in_app_iff; auto).
  pose proof (HC _ HinH) as Hc. apply covered_slice in Hc as (s & Hs & Hrr). cbn [snd] in Hrr.
  pose proof (HR s Hs) as [_ _ _ S4 S5 _].
  assert (M1 : (n < mt_lsn_min (pt_mem (s_data s)))%N /\ (n < mt_lsn_min (pt_prev (s_data s)))%N).
  { unfold gc_min in Ef. split; eapply N.lt_le_trans; try exact Ef; apply fold_min_le; apply in_flat_map; exists s; simpl; auto. }
  assert (Hb : (n < base (s_data s))%N).
  { destruct (N.lt_ge_cases n (base (s_data s))) as [|Hge]; auto. exfalso.
    destruct (N.lt_ge_cases n (cut (s_data s))) as [Hlt|Hge2].
    - specialize (S5 (n, e) HinH Hrr). cbn [fst] in S5. unfold pprev in S5.
      rewrite (proj2 (N.leb_le _ _) Hge), (proj2 (N.ltb_lt _ _) Hlt) in S5. specialize (S5 eq_refl). lia.
    - specialize (S4 (n, e) HinH Hrr Hge2). cbn [fst] in S4. lia. }
  unfold base in Hb. destruct (pt_file (s_data s)) as [f|] eqn:Efl; [|lia].
  exists (mk_dfile (s_min s) (s_max s) (pt_lsn (s_data s)) f). cbn [df_min df_lsn fst snd].
  split; [|split; [exact Hrr|lia]].
  apply (proj2 (desc_surv _ _ _ s _ (Some (mk_dfile (s_min s) (s_max s) (pt_lsn (s_data s)) f)) (DE s Hs)
    ltac:(destruct (job_of (db_jobs b) (s_min s)) as [j|] eqn:Ej; auto; apply Hf; apply (job_some _ _ _ Ej)))).
  unfold fo. rewrite Efl. auto.
Qed.

Lemma disk_surv lo storages H d d' log : disk lo storages H d log -> good_dir storages d' ->
  (forall mn c, surv d' mn c <-> surv d mn c) -> disk lo storages H d' log.
Proof.
  intros [D1 D2 D3 D4 D5 (D6 & H0 & EH & ST)] G S. constructor; auto.
  - intros mn c Sc. apply D4. apply S; auto.
  - intros f f' x A1 A2. apply D5; apply S; auto.
  - split; auto. exists H0. split; auto. intros x Hx. destruct (ST x Hx) as (f & A & B). exists f. split; auto. apply S; auto.
Qed.

Lemma binv_lo lo b H : binv lo b H -> (lo + 2^31 <= u64_max)%N.
Proof. intros B. apply (gm_lo lo (en_map (db_en b))). apply (mi_map _ _ (bi_map _ _ _ B)). Qed.

Lemma w64_next n : (n < u64_max)%N -> w64 (n + 1) = (n + 1)%N.
Proof. intros L. unfold w64. apply N.mod_small. unfold u64_max, two64 in *. lia. Qed.

Lemma hsorted_const n (l : list event) : hsorted (map (pair n) l).
Proof.
  induction l; simpl; constructor; auto. rewrite Forall_forall. intros x Hx. apply in_map_iff in Hx as (e & <- & _).
  simpl. lia.
Qed.

Lemma map_pair n (l : list event) : map (@snd N event) (map (pair n) l) = l.
Proof. rewrite map_map. apply map_id. Qed.

(* a history goes on *)
Definition more H H' : Prop := exists X, H' = H ++ X.
Lemma more_refl H : more H H.
Proof. exists []. rewrite app_nil_r. auto. Qed.
Lemma more_app H X : more H (H ++ X).
Proof. exists X. auto. Qed.
(* nothing leaves the history *)
Lemma cstep_app lo b H o : binv lo b H -> cop_fine lo b o ->
  match cstep b o with
  | Ok b' => exists H', binv lo b' H' /\ map snd H' = cack_step b o (map snd H) /\ more H H'
  | Err => stops o = false /\ cack_step b o (map snd H) = map snd H
  | UB => False
  end.
Proof.
  intros B Hf. pose proof (bi_map _ _ _ B) as I. pose proof (bi_iv _ _ _ B) as Hiv.
  destruct o as [l logged|id to|ref|ref|k|id|mn mx|n|cuts|l whole|id]; cbn [cstep cack_step].
  - (* write *)
    destruct Hf as [BF HL]. destruct (write_grown lo (db_en b) l logged I Hiv BF) as [(m & -> & _ & I' & G)|(m & ssn & -> & I' & E)].
    + cbn [bind]. rewrite w64_next in * by auto. set (n := (en_lsn (db_en b) + 1)%N) in *.
      set (evs := assigned (en_serial (db_en b)) (en_ssn (db_en b)) l) in *.
      exists (H ++ map (pair n) evs). split; [|split; [rewrite map_app, map_pair; auto|apply more_app]].
      destruct (srel_grown (fun _ => false) lo H H (en_lsn (db_en b)) n evs (en_map (db_en b)) m I (bi_cov _ _ _ B) (bi_srel _ _ _ B) G)
        as [S' C']; auto; [|lia|].
      { intros s Hs. destruct (sr_top _ _ _ _ (bi_srel _ _ _ B s Hs)) as (_ & T2 & T3). split; [|unfold n; lia].
        unfold skipped. unfold base in T3. destruct (pt_file (s_data s)); auto. symmetry. apply N.leb_gt. unfold n. lia. }
      replace (write_rec b evs) with (LWrite n evs) by (unfold write_rec; rewrite w64_next by auto; reflexivity).
      replace (N.max (en_lsn (db_en b)) n) with n in S' by (unfold n; lia).
      apply binv_map; cbn [en_map en_interval en_region en_lsn]; auto.
      * eapply grown_mlike; eauto.
      * unfold n; lia.
      * rewrite Forall_forall. intros x Hx. apply in_map_iff in Hx as (e & <- & _). simpl. unfold n. lia.
      * apply hsorted_const.
      * intros t Ht. apply srel_file; auto. intros x Hx. apply in_map_iff in Hx as (e & <- & _). cbn [fst].
        destruct (gw_new _ _ _ _ _ G t Ht) as [(p & Hp & [])|[_ []]].
        -- destruct (sr_top _ _ _ _ (bi_srel _ _ _ B _ Hp)) as (_ & _ & T3). unfold base in *. cbn [s_data] in T3.
           rewrite cp_file, cp_lsn. unfold n. lia.
        -- unfold base. rewrite cp_file. simpl. lia.
      * simpl. rewrite app_nil_r. auto.
      * constructor; [|constructor]. unfold n. lia.
    + cbn [bind]. exists H. split; [|split; [auto|apply more_refl]].
      destruct (srel_ext lo H H (en_lsn (db_en b)) (en_map (db_en b)) m I I' E (bi_cov _ _ _ B) (bi_srel _ _ _ B)) as [S' C'].
      pose proof (binv_map lo b H (mk_engine m (en_interval (db_en b)) (en_serial (db_en b)) ssn (en_lsn (db_en b)) (en_page (db_en b)) (en_region (db_en b))) [] []) as X.
      rewrite !app_nil_r in X. unfold with_log in X. apply X; cbn [en_map en_interval en_region en_lsn]; auto; try lia; try constructor.
      * eapply ext_mlike; eauto.
      * eapply ext_mlike; eauto.
  - pose proof (begin_binv lo b H id to B Hf) as X. destruct (db_begin b id to); eauto using more_refl.
  - pose proof (step_binv lo b H ref B Hf) as X. destruct (db_step b ref); eauto using more_refl.
  - exists H. split; [|split; [auto|apply more_refl]]. apply fail_binv; auto.
  - pose proof (gc_binv lo b H k B Hf) as X. destruct (db_gc b k); eauto using more_refl.
  - contradiction.
  - (* create *)
    cbn [cop_fine] in Hf. destruct (N.leb_spec mn mx) as [L|L].
    + destruct (fill_spec part_new lo (en_map (db_en b)) mn mx (mi_map _ _ I) (Hf L) L) as (m & new & -> & G' & HP & _).
      cbn [bind]. exists H. split; [|split; [auto|apply more_refl]].
      assert (I' : minv lo m) by (eapply perm_inv; eauto). assert (E : ext (en_map (db_en b)) m) by (eapply perm_ext; eauto).
      destruct (srel_ext lo H H (en_lsn (db_en b)) (en_map (db_en b)) m I I' E (bi_cov _ _ _ B) (bi_srel _ _ _ B)) as [S' C'].
      pose proof (binv_map lo b H (with_map (db_en b) m) [] []) as X.
      rewrite !app_nil_r in X. unfold with_log in X. apply X; cbn [with_map en_map en_interval en_region en_lsn]; auto; try lia; try constructor.
      * eapply ext_mlike; eauto.
      * eapply ext_mlike; eauto.
    + unfold engine_fill. destruct (N.ltb_spec mx mn); [|lia]. cbn [bind]. auto.
  - (* interval *)
    exists H. split; [|split; [auto|apply more_refl]]. cbn [cop_fine] in Hf.
    pose proof (binv_map lo b H (with_interval (db_en b) n) [] []) as X.
    rewrite !app_nil_r in X. unfold with_log in X.
    apply X; cbn [with_interval en_map en_interval en_region en_lsn]; auto; try lia; try constructor;
      try apply (mlike_refl (en_map (db_en b))); try apply (bi_srel _ _ _ B); try apply (bi_cov _ _ _ B); auto.
  - (* stop and start *)
    cbn [cop_fine] in Hf. pose proof (binv_good _ _ _ B) as GD.
    destruct (interrupted_spec (db_storages b) (proj1 (bi_sto _ _ _ B)) cuts (db_dir b) GD) as (d1 & E1 & G1 & S1).
    rewrite E1 in *. cbn [bind].
    pose proof (binv_disk lo b H [] B ltac:(constructor) hsorted_nil [] eq_refl ltac:(constructor)) as DK.
    rewrite !app_nil_r in DK.
    destruct (start_spec lo (db_en b) (db_storages b) H d1 (db_log b)) as (b' & -> & B' & _).
    + eapply disk_surv; eauto.
    + apply B.
    + eapply binv_lo; eauto.
    + auto.
    + exact Hf.
    + eauto using more_refl.
  - (* stop during a write *)
    destruct Hf as (BF & HL & RF). 
    destruct (write_grown lo (db_en b) l true I Hiv BF) as [(m & EW & _ & I' & G)|(m & ssn & EW & I' & E)];
      rewrite EW in *; cbn [bind snd] in *.
    + set (evs := assigned (en_serial (db_en b)) (en_ssn (db_en b)) l) in *.
      assert (DK : disk lo (db_storages b) (if whole then H ++ map (pair (en_lsn (db_en b) + 1)%N) evs else H) (db_dir b)
         (if whole then db_log b ++ [write_rec b evs] else db_log b)).
      { destruct whole.
        - apply binv_disk; auto.
          + rewrite Forall_forall. intros x Hx. apply in_map_iff in Hx as (e & <- & _). simpl. lia.
          + apply hsorted_const.
          + simpl. rewrite app_nil_r. f_equal. rewrite w64_next; auto.
          + constructor; [|constructor]. unfold write_rec. rewrite w64_next by auto. cbn. lia.
        - pose proof (binv_disk lo b H [] B ltac:(constructor) hsorted_nil [] eq_refl ltac:(constructor)) as DK.
          rewrite !app_nil_r in DK. auto. }
      destruct (start_spec lo (db_en b) (db_storages b) _ (db_dir b) _ DK) as (b' & -> & B' & _).
      * apply B.
      * eapply binv_lo; eauto.
      * auto.
      * exact RF.
      * eexists. split; [exact B'|]. destruct whole; [|split; [auto|apply more_refl]]. rewrite map_app, map_pair. split; [auto|apply more_app].
    + pose proof (binv_disk lo b H [] B ltac:(constructor) hsorted_nil [] eq_refl ltac:(constructor)) as DK.
      rewrite !app_nil_r in DK.
      destruct (start_spec lo (db_en b) (db_storages b) _ (db_dir b) _ DK) as (b' & -> & B' & _).
      * apply B.
      * eapply binv_lo; eauto.
      * auto.
      * exact RF.
      * eauto using more_refl.
  - contradiction.
Qed.

Lemma cstep_more lo b H o : binv lo b H -> cop_fine lo b o ->
  match cstep b o with
  | Ok b' => exists H', binv lo b' H' /\ map snd H' = cack_step b o (map snd H) /\ incl H H'
  | Err => stops o = false /\ cack_step b o (map snd H) = map snd H
  | UB => False
  end.
Proof.
  intros B Hf. pose proof (cstep_app lo b H o B Hf) as X. destruct (cstep b o); auto.
  destruct X as (H' & A1 & A2 & (X & ->)). exists (H ++ X). split; auto. split; auto. apply incl_appl, incl_refl.
Qed.

Lemma cstep_spec lo b H o : binv lo b H -> cop_fine lo b o ->
  match cstep b o with
  | Ok b' => exists H', binv lo b' H' /\ map snd H' = cack_step b o (map snd H)
  | Err => stops o = false /\ cack_step b o (map snd H) = map snd H
  | UB => False
  end.
Proof.
  intros B Hf. pose proof (cstep_more lo b H o B Hf) as X. destruct (cstep b o); auto.
  destruct X as (H' & A1 & A2 & _). eauto.
Qed.

Lemma crun_spec lo : forall l b H, binv lo b H -> chist_fine lo b l ->
  exists b' H', crun b l = Ok b' /\ binv lo b' H' /\ map snd H' = cacked b l (map snd H).
Proof.
  induction l as [|o l IH]; intros b H B Hf; cbn [crun cacked chist_fine] in *; [eauto|].
  destruct Hf as [H1 H2]. pose proof (cstep_spec lo b H o B H1) as Hs.
  destruct (cstep b o) as [b1| |]; try contradiction.
  - destruct Hs as (H' & B' & E). destruct (IH b1 H' B' H2) as (b' & H'' & A1 & A2 & A3).
    exists b', H''. rewrite <- E. auto.
  - destruct Hs as [E1 E2]. rewrite E1. rewrite E2. apply IH; auto.
Qed.

Lemma binv_new lo storages iv serial page region : (lo + 2^31 <= u64_max)%N -> (0 < iv <= u64_max)%N ->
  storages_ok storages -> binv lo (db_new storages iv serial page region) [].
Proof.
  intros L Hiv SO. constructor; cbn [db_new db_en db_storages db_home db_dir db_log db_jobs engine_new en_map en_interval en_lsn en_region]; auto.
  - constructor; [apply good_init; auto|constructor].
  - constructor.
  - intros x [].
  - intros s [].
  - intros _. destruct storages; [destruct SO; congruence|simpl; auto].
  - apply wfd_nil.
  - intros k Hk. exfalso. apply Hk. reflexivity.
  - intros s [].
  - split; [constructor|]. intros j [].
  - intros mn c [(st & E)|[_ (st & E)]]; discriminate.
  - split; [constructor|]. exists []. split; auto. intros x [].
Qed.

Lemma binv_einv lo b H : binv lo b H -> einv lo (db_en b) (map snd H).
Proof.
  intros B. constructor; try apply B. intros k. pose proof (bi_map _ _ _ B) as I.
  destruct (covered_dec (en_map (db_en b)) (ev_id k)) as [(s & Hs & Hr)|Hn].
  - rewrite (look_at lo _ s) by auto. eapply srel_read; eauto; [apply B|apply (bi_srel _ _ _ B); auto].
  - rewrite (look_out lo) by auto. cbn [liveo].
    destruct (last_write (map snd H) k) as [e|] eqn:E; auto. exfalso. apply Hn.
    apply last_write_in in E as [E1 E2]. apply in_map_iff in E1 as (x & <- & Hx). apply same_keyb_true in E2 as [E2 _].
    rewrite E2. apply (bi_cov _ _ _ B). auto.
Qed.

Lemma crash_tidy lo b H cuts b' : binv lo b H -> cop_fine lo b (CCrash cuts) ->
  cstep b (CCrash cuts) = Ok b' -> tidy (db_dir b').
Proof.
  intros B Hf E. cbn [cstep cop_fine] in *. pose proof (binv_good _ _ _ B) as GD.
  destruct (interrupted_spec (db_storages b) (proj1 (bi_sto _ _ _ B)) cuts (db_dir b) GD) as (d1 & E1 & G1 & S1).
  rewrite E1 in *. cbn [bind] in E.
  pose proof (binv_disk lo b H [] B ltac:(constructor) hsorted_nil [] eq_refl ltac:(constructor)) as DK.
  rewrite !app_nil_r in DK.
  destruct (start_spec lo (db_en b) (db_storages b) H d1 (db_log b)) as (b2 & E2 & _ & T2).
  - eapply disk_surv; eauto.
  - apply B.
  - eapply binv_lo; eauto.
  - apply B.
  - exact Hf.
  - congruence.
Qed.
