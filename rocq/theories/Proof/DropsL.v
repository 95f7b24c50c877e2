(* DROP PARTITION on a database with its files and log. *)
From Coq Require Import NArith ZArith List Bool Sorted Lia Arith Permutation.
Import ListNotations.
From Verif Require Import Model.Base Model.Event Model.Rbtree Model.Memtable Model.Mapping Model.Merge
  Model.PartIter Model.Scan Model.Writer Model.Codec Model.Engine Spec.Order Spec.Merged Spec.Files Spec.Layout
  Spec.Regions Spec.View Spec.Engine Proof.OrderL Proof.RbtreeL Proof.MemtableL Proof.MemtableL2 Proof.MergeL
  Proof.MappingL Proof.MappingP Proof.MappingX Proof.ScanL Proof.EngineL Proof.EngineW Proof.EngineR Proof.CrashW
  Proof.CrashH Proof.DirL Proof.CrashD Proof.CrashP Proof.Cells.
From Verif Require Import Model.Crash Spec.Crash Spec.Drops.
Local Arguments N.pow : simpl never.
Local Arguments N.add : simpl never.
Local Arguments N.sub : simpl never.
Implicit Types (s t : slice part) (m : mapping part) (H : hist) (d : dir) (r : range) (R : list range).

(* --- histories without some ids --- *)
Definition hout (f : N -> bool) H : hist := filter (fun x => f (ev_id (snd x))) H.
Lemma hout_app f H1 H2 : hout f (H1 ++ H2) = hout f H1 ++ hout f H2.
Proof. apply filter_app. Qed.
Lemma hout_in f H x : In x (hout f H) <-> In x H /\ f (ev_id (snd x)) = true.
Proof. apply filter_In. Qed.
Lemma hout_map f n (l : list event) : hout f (map (pair n) l) = map (pair n) (filter (fun e => f (ev_id e)) l).
Proof.
  unfold hout. induction l as [|e l IH]; auto. cbn [map filter snd]. rewrite IH. destruct (f (ev_id e)); auto.
Qed.
Lemma hout_snd f H : map snd (hout f H) = filter (fun e => f (ev_id e)) (map snd H).
Proof.
  unfold hout. induction H as [|x H IH]; auto. cbn [map filter]. rewrite <- IH. destruct (f (ev_id (snd x))); auto.
Qed.
Lemma hout_same f H : (forall x, In x H -> f (ev_id (snd x)) = true) -> hout f H = H.
Proof.
  unfold hout. induction H as [|x H IH]; auto. intros E. cbn [filter]. rewrite (E x) by (simpl; auto). f_equal. apply IH.
  intros; apply E; simpl; auto.
Qed.
Lemma hout_hout f g H : (forall x, f x = true -> g x = true) -> hout f (hout g H) = hout f H.
Proof.
  intros E. unfold hout. induction H as [|x H IH]; auto. cbn [filter]. destruct (g (ev_id (snd x))) eqn:Eg; cbn [filter].
  - rewrite IH. auto.
  - destruct (f (ev_id (snd x))) eqn:Ef; [apply E in Ef; congruence|auto].
Qed.
Lemma lw_hout f P H k : f (ev_id k) = true -> lw P (hout f H) k = lw P H k.
Proof.
  intros E. unfold lw, last_write.
  assert (S : sel P (hout f H) = filter (fun e => f (ev_id e)) (sel P H)).
  { unfold sel, hout. induction H as [|x H IH]; auto. cbn [filter].
    destruct (f (ev_id (snd x))) eqn:E1, (P (fst x)) eqn:E2; cbn [filter map]; rewrite ?E1, ?E2; cbn [map]; rewrite ?IH; auto. }
  rewrite S, <- filter_rev, find_filter, E. auto.
Qed.
Lemma hsorted_hout f H : hsorted H -> hsorted (hout f H).
Proof.
  intros HS. induction HS as [|x H HS IH HF]; [constructor|]. unfold hout in *. cbn [filter]. destruct (f _); auto. constructor; auto.
  rewrite Forall_forall in *. intros y Hy. apply hout_in in Hy as [Hy _]. auto.
Qed.
Lemma srel_hout f Hm Hf top s : srel Hm Hf top s -> (forall x, in_range x (range_of s) -> f x = true) ->
  srel (hout f Hm) Hf top s.
Proof.
  intros [S1 S2 S3 S4 S5 S6] E. constructor; auto.
  - intros k Hk. rewrite lw_hout; auto.
  - intros k Hk. rewrite lw_hout; auto.
  - intros x Hx. apply hout_in in Hx as [Hx _]. auto.
  - intros x Hx. apply hout_in in Hx as [Hx _]. auto.
Qed.
Lemma srel_hout_file f Hm Hf top s : srel Hm Hf top s -> (forall x, in_range x (range_of s) -> f x = true) ->
  srel Hm (hout f Hf) top s.
Proof.
  intros [S1 S2 S3 S4 S5 S6] E. constructor; auto. intros k Hk. rewrite lw_hout; auto.
Qed.
Lemma srel_up Hm Hf top top' s : srel Hm Hf top s -> (top <= top')%N -> srel Hm Hf top' s.
Proof. intros [S1 S2 S3 S4 S5 S6] L. constructor; auto. lia. Qed.

Lemma inb_in r x : inb r x = true <-> in_range x r.
Proof. unfold inb, in_range. rewrite andb_true_iff, !N.leb_le. tauto. Qed.
Lemma slice_inb s x : slice_in s x = inb (range_of s) x.
Proof. reflexivity. Qed.
Definition offr r (x : N) : bool := negb (inb r x).
Lemma offr_in r x : offr r x = true <-> ~ in_range x r.
Proof. unfold offr. rewrite negb_true_iff, <- inb_in. destruct (inb r x); intuition congruence. Qed.

Lemma off_other lo m s t x : good_map lo m -> In s (mapping_list m) -> In t (mapping_list m) -> t <> s ->
  in_range x (range_of t) -> offr (range_of s) x = true.
Proof.
  intros G Hs Ht Hn Hx. apply offr_in. intros Hx'. apply Hn.
  apply (layout_unique (mapping_list m) t s x); auto. exact (gm_layout _ _ G).
Qed.

Lemma drop_list lo en id s : minv lo (en_map en) -> (lo <= id < lo + 2^31)%N ->
  In s (mapping_list (en_map en)) -> in_range id (range_of s) ->
  exists m, engine_drop en id = Ok (with_map en m) /\ minv lo m /\
    forall t, In t (mapping_list m) <-> In t (mapping_list (en_map en)) /\ t <> s.
Proof.
  intros I Hid Hs Hr. destruct (drop_look lo en id I Hid) as (m & E & I' & Hl & _). exists m. split; auto. split; auto.
  intros t. rewrite Hl, filter_In, negb_true_iff. split; intros [A B]; split; auto.
  - intros ->. apply in_slice in Hr. congruence.
  - destruct (slice_in t id) eqn:Et; auto. exfalso. apply B. apply in_slice in Et.
    apply (layout_unique (mapping_list (en_map en)) t s id); auto. exact (gm_layout _ _ (mi_map _ _ I)).
Qed.

(* --- the files of other partitions --- *)
Lemma desc_local region d d' home home' s o :
  (forall st, dget d' (st, s_min s) = dget d (st, s_min s)) -> home' (s_min s) = home (s_min s) ->
  desc region d home s o -> desc region d' home' s o.
Proof.
  intros DG HH DE. destruct o as [j|]; cbn [desc] in *.
  - unfold jdesc in *. rewrite HH.
    destruct (jb_stage j) as [|[|[|[|[|[|n]]]]]]; try contradiction.
    + destruct DE as [A DE]. split; auto. intros st. rewrite DG; auto.
    + destruct DE as [A DE]. split; auto. intros st. rewrite DG; auto.
    + destruct DE as [A (l & L & DE)]. split; auto. exists l. split; auto. intros st. rewrite DG; auto.
    + destruct DE as (A1 & A2 & old & A3 & DE). split; auto. split; auto. exists old. split; auto. intros st. rewrite DG; auto.
    + destruct DE as (A1 & A2 & old & A3 & DE). split; auto. split; auto. exists old. split; auto. intros st. rewrite DG; auto.
    + destruct DE as (A1 & A2 & DE). split; auto. split; auto. intros st. rewrite DG; auto.
  - intros st. rewrite DG, HH. auto.
Qed.

Lemma slot_none {C} (x : gslot C) : sl_id x = None -> sl_inc x = None -> sl_comp x = None -> x = no_files.
Proof. destruct x; cbn. intros -> -> ->. reflexivity. Qed.

Definition dropped_at (n : N) (b : db) m s : db :=
  let k := (db_home b (s_min s), s_min s) in
  let f := dget (db_dir b) k in
  mk_db (with_lsn (with_map (db_en b) m) n) (db_storages b) (db_home b)
    (dset (db_dir b) k (mk_slot None (sl_inc f) (sl_comp f))) (db_log b) (db_jobs b).
Definition dropped_db (b : db) m s : db := dropped_at (en_lsn (db_en b) + 1) b m s.

Lemma drop_run lo b id s : minv lo (en_map (db_en b)) -> (lo <= id < lo + 2^31)%N -> (en_lsn (db_en b) < u64_max)%N ->
  part_slice (en_map (db_en b)) id = Some s ->
  exists m, db_drop b id = Ok (with_log (dropped_db b m s) (db_log b ++ [LDrop (en_lsn (db_en b) + 1) id])) /\
    minv lo m /\ forall t, In t (mapping_list m) <-> In t (mapping_list (en_map (db_en b))) /\ t <> s.
Proof.
  intros I Hid HL E. pose proof (part_slice_spec lo _ id (mi_map _ _ I)) as PS. rewrite E in PS. destruct PS as [Hs Hr].
  destruct (drop_list lo (db_en b) id s I Hid Hs Hr) as (m & E1 & I' & HM). exists m. split; auto.
  unfold db_drop. rewrite E, E1. cbn [bind]. rewrite w64_next by auto. reflexivity.
Qed.

Lemma drop_binv_at lo n b H m s L : (en_lsn (db_en b) <= n)%N -> binv lo b H -> In s (mapping_list (en_map (db_en b))) ->
  minv lo m -> (forall t, In t (mapping_list m) <-> In t (mapping_list (en_map (db_en b))) /\ t <> s) ->
  job_of (db_jobs b) (s_min s) = None -> ~ leftover b (s_min s) ->
  writes L -> flat L = hout (offr (range_of s)) (flat (db_log b)) ->
  binv lo (with_log (dropped_at n b m s) L) (hout (offr (range_of s)) H).
Proof.
  intros Hln B Hs I' HM HJ HLo WL FL.
  pose proof B as [I Hiv HS HT HC HR SO HO W IN KE DE (J1 & J2) SV (LW & H0 & EH & ST)].
  pose proof (mi_map _ _ I) as G. set (f := offr (range_of s)).
  assert (Inc : forall st, sl_inc (dget (db_dir b) (st, s_min s)) = None).
  { intros st. destruct (none_or (sl_inc (dget (db_dir b) (st, s_min s)))) as [|X]; auto. exfalso. apply HLo. exists st. auto. }
  assert (NJ : forall j, In j (db_jobs b) -> jb_ref j <> s_min s).
  { intros j Hj E. pose proof (job_in (db_jobs b) j J1 Hj) as X. rewrite E in X. congruence. }
  pose proof (DE s Hs) as D. rewrite HJ in D. cbn [desc] in D.
  unfold dropped_at. set (d' := dset _ _ _).
  assert (D1 : forall st, dget d' (st, s_min s) = no_files).
  { intros st. unfold d'. rewrite dget_set. destruct (dkey_dec _ _) as [E|E].
    - rewrite Inc. destruct (D (db_home b (s_min s))) as [_ ->]. reflexivity.
    - destruct (D st) as [X1 X2]. apply slot_none; auto. rewrite X1. unfold at_. destruct (N.eqb_spec st (db_home b (s_min s))); auto.
      exfalso. apply E. congruence. }
  assert (D2 : forall st mn, mn <> s_min s -> dget d' (st, mn) = dget (db_dir b) (st, mn)).
  { intros st mn Hn. unfold d'. apply dget_set_other. congruence. }
  assert (NM : forall t, In t (mapping_list (en_map (db_en b))) -> t <> s -> s_min t <> s_min s).
  { intros t Ht Hn E. apply Hn. apply (min_unique lo (en_map (db_en b))); auto. }
  assert (NS : forall c, ~ surv d' (s_min s) c).
  { intros c [(st & X)|[_ (st & X)]]; rewrite D1 in X; discriminate. }
  constructor; cbn [with_log with_lsn with_map en_map en_interval en_lsn en_region db_en db_storages db_home db_dir db_log db_jobs]; auto.
  - apply hsorted_hout; auto.
  - rewrite Forall_forall in *. intros x Hx. apply hout_in in Hx as [Hx _]. specialize (HT x Hx). lia.
  - intros x Hx. apply hout_in in Hx as [Hx Hf]. pose proof (HC x Hx) as Hc. apply covered_slice in Hc as (t & Ht & Hr).
    apply covered_slice. exists t. split; auto. apply HM. split; auto. intros ->. apply offr_in in Hf. auto.
  - intros t Ht. apply HM in Ht as [Ht Hn].
    assert (O : forall x, in_range x (range_of t) -> f x = true) by (intros; eapply off_other; eauto).
    apply (srel_up _ _ (en_lsn (db_en b))); [|lia]. apply srel_hout_file; auto. apply srel_hout; auto.
  - apply wfd_set; auto.
  - intros [st mn] Hk. destruct (N.eq_dec mn (s_min s)) as [->|Hn]; [rewrite D1 in Hk; congruence|].
    rewrite D2 in Hk by auto. apply (IN (st, mn)); auto.
  - intros st mn Hno. destruct (N.eq_dec mn (s_min s)) as [->|Hn]; auto. rewrite D2 by auto. apply KE.
    intros t Ht E. apply (Hno t); auto. apply HM. split; auto. congruence.
  - intros t Ht. apply HM in Ht as [Ht Hn]. apply (desc_local _ (db_dir b) d' (db_home b)); auto.
  - split; auto. intros j Hj. destruct (J2 j Hj) as (A & t & Ht & Et). split; auto. exists t. split; auto.
    apply HM. split; auto. intros ->. apply (NJ j Hj). auto.
  - intros mn c Sc. destruct (N.eq_dec mn (s_min s)) as [->|Hn]; [exfalso; eapply NS; eauto|].
    assert (Sc' : surv (db_dir b) mn c) by (apply (surv_local (db_dir b) d'); auto).
    destruct (SV mn c Sc') as (g & -> & E & Hr & [F1 F2 F3 F4]). exists g. split; auto. split; auto.
    apply in_map_iff in Hr as (u & Eu & Hu).
    assert (Hus : u <> s). { intros ->. apply Hn. inversion Eu. congruence. }
    split.
    + apply in_map_iff. exists u. split; auto. apply HM. auto.
    + constructor; auto; [lia|]. intros k Hk. rewrite F4 by auto. f_equal. symmetry. apply lw_hout.
      eapply (off_other lo _ s u); eauto. rewrite Eu. auto.
  - split; auto. exists (hout f H0). rewrite FL. unfold f. rewrite <- hout_app, <- EH. split; auto.
    intros x Hx. apply hout_in in Hx as [Hx Hf]. destruct (ST x Hx) as (g & Sg & Hr & Hle). exists g. split; auto.
    destruct (N.eq_dec (df_min g) (s_min s)) as [E|Hn].
    + exfalso. destruct (SV _ _ Sg) as (g' & Eg & _ & Hg & _). inversion Eg; subst g'.
      apply in_map_iff in Hg as (u & Eu & Hu).
      assert (u = s). { apply (min_unique lo (en_map (db_en b))); auto. inversion Eu. congruence. }
      subst u. apply offr_in in Hf. apply Hf. rewrite Eu. auto.
    + apply (surv_local (db_dir b) d'); auto.
Qed.
Lemma drop_binv lo b H m s L : binv lo b H -> In s (mapping_list (en_map (db_en b))) ->
  minv lo m -> (forall t, In t (mapping_list m) <-> In t (mapping_list (en_map (db_en b))) /\ t <> s) ->
  job_of (db_jobs b) (s_min s) = None -> ~ leftover b (s_min s) ->
  writes L -> flat L = hout (offr (range_of s)) (flat (db_log b)) ->
  binv lo (with_log (dropped_db b m s) L) (hout (offr (range_of s)) H).
Proof. intros. apply drop_binv_at; auto. lia. Qed.
