(* Events in files: what a refresh and a start keep. *)
From Coq Require Import NArith ZArith List Bool Sorted Lia Arith Permutation.
Import ListNotations.
From Verif Require Import Model.Base Model.Event Model.Rbtree Model.Memtable Model.Mapping Model.Merge
  Model.PartIter Model.Scan Model.Writer Model.Codec Model.Engine Spec.Order Spec.Merged Spec.Files Spec.Layout
  Spec.Regions Spec.View Spec.Engine Proof.OrderL Proof.RbtreeL Proof.MemtableL Proof.MemtableL2 Proof.MergeL
  Proof.MappingL Proof.MappingP Proof.MappingX Proof.ScanL Proof.EngineL Proof.EngineW Proof.EngineR Proof.CrashW
  Proof.CrashH Proof.DirL Proof.CrashD Proof.CrashP.
From Verif Require Import Model.Crash Spec.Crash Spec.Drops.
Local Arguments N.pow : simpl never.
Local Arguments N.add : simpl never.
Local Arguments N.sub : simpl never.
Implicit Types (s t : slice part) (m : mapping part) (H : hist) (d : dir).

(* --- the first tables --- *)
Lemma rotate_cut lo H top s : sfine lo s -> srel H H top s -> mt_events (pt_prev (s_data s)) = [] ->
  forall x, In x H -> in_range (ev_id (snd x)) (range_of s) -> (fst x < cut (part_memtable_rotate (s_data s)))%N.
Proof.
  intros F [S1 S2 S3 S4 S5 S6] HP x Hx Hr. rewrite HP in S2. set (p := s_data s) in *.
  change (cut (part_memtable_rotate p)) with (N.max (base p) (mt_lsn_max (pt_mem p) + 1)).
  destruct (N.lt_ge_cases (fst x) (base p)) as [|Hb]; [lia|].
  assert (N1 : pprev p (fst x) = false) by (apply (in_lw_none (pprev p) H (range_of s)); auto; intros k Hk; rewrite <- S2; auto).
  unfold pprev in N1. apply andb_false_iff in N1 as [X|X]; [apply N.leb_gt in X; lia|].
  apply N.ltb_ge in X. destruct (S4 x Hx Hr X). lia.
Qed.

(* --- what a step of a refresh changes --- *)
Lemma step_shape lo b H ref b' : binv lo b H -> cop_fine lo b (CStep ref) -> db_step b ref = Ok b' ->
  exists s j p, In s (mapping_list (en_map (db_en b))) /\ s_min s = ref /\ job_of (db_jobs b) ref = Some j /\ jb_stage j <= 5 /\
    db_jobs b' = (if (jb_stage j <=? 4)%nat then job_next j :: others (db_jobs b) ref else others (db_jobs b) ref) /\
    en_map (db_en b') = ref_put (en_map (db_en b)) ref p /\
    (jb_stage j = 2 -> base p = cut (s_data s)) /\ (jb_stage j <> 2 -> p = s_data s) /\
    (forall st mn, mn <> ref -> dget (db_dir b') (st, mn) = dget (db_dir b) (st, mn)) /\
    (jb_stage j = 2 -> db_dir b' = db_dir b) /\
    (jb_stage j = 3 -> forall st, sl_id (dget (db_dir b') (st, ref)) = sl_id (dget (db_dir b) (st, ref))) /\
    en_region (db_en b') = en_region (db_en b).
Proof.
  intros B Hw E. pose proof B as [I Hiv HS HT HC HR SO HO W IN KE DE (J1 & J2) SV LG].
  pose proof (mi_map _ _ I) as G. unfold db_step in E.
  fold (job_of (db_jobs b) ref) in E. destruct (job_of (db_jobs b) ref) as [j|] eqn:Ej; [|discriminate].
  destruct (job_some _ _ _ Ej) as [Hj Er]. destruct (J2 j Hj) as (Hto & s & Hs & Es).
  assert (Em : s_min s = ref) by congruence. pose proof (DE s Hs) as D0. rewrite Em, Ej in D0. cbn [desc] in D0. unfold jdesc in D0.
  pose proof (ref_put_same lo (en_map (db_en b)) s G Hs) as RP. rewrite Em in RP.
  destruct (job_step b j) as [[b1 more]| |] eqn:EJ; try discriminate. cbn [bind] in E. inversion E; subst b'. clear E.
  cbn [with_jobs db_jobs db_en db_dir]. unfold job_step in EJ. rewrite Er in EJ.
  exists s, j. destruct (jb_stage j) as [|[|[|[|[|[|n]]]]]] eqn:Est; try contradiction.
  - inversion EJ; subst. exists (s_data s). cbn [with_dir db_jobs db_en db_dir]. rewrite RP.
    do 8 (split; [auto; try lia; try discriminate|]).
    split; [intros st mn Hn; apply dget_set_other; congruence|]. split; [discriminate|]. split; [discriminate|auto].
  - destruct (ref_slice _ _); cbn [bind] in EJ; try discriminate. destruct (new_file _ _); cbn [bind] in EJ; try discriminate.
    inversion EJ; subst. exists (s_data s). cbn [with_dir db_jobs db_en db_dir]. rewrite RP.
    do 8 (split; [auto; try lia; try discriminate|]).
    split; [intros st mn Hn; apply dget_set_other; congruence|]. split; [discriminate|]. split; [discriminate|auto].
  - cbn [cop_fine] in Hw. specialize (Hw s Hs Em).
    pose proof (mi_parts _ _ I) as FP. rewrite Forall_forall in FP. pose proof (FP s Hs) as Fs.
    destruct (apply_spec lo (db_en b) s I Hs Hw) as (p & EP & EA & _). rewrite Em in EA. rewrite EA in EJ. cbn [bind] in EJ.
    destruct (refresh_part_spec lo (en_region (db_en b)) s Fs Hw) as (p' & l' & EP' & _ & P1 & P2 & P3 & P4 & P5 & _).
    rewrite EP in EP'. inversion EP'; subst p'. clear EP'.
    inversion EJ; subst. exists p. cbn [with_home with_en with_map db_jobs db_en db_dir en_map en_region].
    do 6 (split; [auto; try lia|]). split; [intros _; unfold base; rewrite P3, P5; apply merger_cut|].
    split; [congruence|]. split; [auto|]. split; [auto|]. split; [discriminate|auto].
  - destruct (sl_inc (dget (db_dir b) (jb_to j, ref))) as [c|] eqn:Ei; inversion EJ; subst; exists (s_data s);
      cbn [with_dir db_jobs db_en db_dir]; rewrite RP; (do 8 (split; [auto; try lia; try discriminate|])).
    + split; [intros st mn Hn; apply dget_set_other; congruence|]. split; [discriminate|]. split; auto.
      intros _ st. rewrite dget_set. destruct (dkey_dec _ _) as [Ek|Ek]; auto. inversion Ek; subst. reflexivity.
    + split; [auto|]. split; [discriminate|]. split; auto.
  - inversion EJ; subst. exists (s_data s). cbn [with_dir db_jobs db_en db_dir]. rewrite RP.
    do 8 (split; [auto; try lia; try discriminate|]).
    split; [intros st mn Hn; apply dget_set_other; congruence|]. split; [discriminate|]. split; [discriminate|auto].
  - destruct (sl_comp (dget (db_dir b) (jb_to j, ref))) as [c|] eqn:Ei; inversion EJ; subst; exists (s_data s);
      cbn [with_dir db_jobs db_en db_dir]; rewrite RP; (do 8 (split; [auto; try lia; try discriminate|])).
    + split; [intros st mn Hn; apply dget_set_other; congruence|]. split; [discriminate|]. split; [discriminate|auto].
    + split; [auto|]. split; [discriminate|]. split; [discriminate|auto].
Qed.

Lemma surv_ids d d' mn c : (forall st, sl_id (dget d' (st, mn)) = sl_id (dget d (st, mn))) ->
  (forall st, sl_comp (dget d (st, mn)) = None) -> surv d mn c -> surv d' mn c.
Proof.
  intros E1 E2 [(st & X)|[_ (st & X)]]; [left; exists st; rewrite E1; auto|]. rewrite E2 in X. discriminate.
Qed.
Lemma stage_surv region d home s j c : jdesc region d home s j -> jb_stage j = 4 ->
  surv d (s_min s) c -> match c with Some f => (df_lsn f <= pt_lsn (s_data s))%N | None => True end.
Proof.
  intros D Est Sc. unfold jdesc in D. rewrite Est in D. destruct D as (_ & _ & old & Hold & D0).
  rewrite (surv_at d (s_min s) (jb_from j) (jb_to j) old (fo s)) in Sc; [|intros st; rewrite D0; reflexivity..].
  destruct c as [f|]; auto. destruct old as [x|].
  - apply Hold. congruence.
  - unfold fo in Sc. destruct (pt_file (s_data s)); [|discriminate]. inversion Sc. cbn [df_lsn]. lia.
Qed.
(* the range of a file is that of its partition *)
Lemma surv_range lo b H f s : binv lo b H -> surv (db_dir b) (df_min f) (Some f) -> In s (mapping_list (en_map (db_en b))) ->
  df_min f = s_min s -> frange f = range_of s.
Proof.
  intros B Sf Hs E. destruct (bi_surv _ _ _ B _ _ Sf) as (g & Eg & _ & Hg & _). inversion Eg; subst g.
  apply in_map_iff in Hg as (u & Eu & Hu). assert (u = s).
  { apply (min_unique lo (en_map (db_en b))); auto; [apply (mi_map _ _ (bi_map _ _ _ B))|]. inversion Eu. congruence. }
  subst u. auto.
Qed.

(* what is in a file stays in one *)
Lemma step_stored lo b H ref b' x : binv lo b H -> cop_fine lo b (CStep ref) -> db_step b ref = Ok b' ->
  stored (db_dir b) x -> stored (db_dir b') x.
Proof.
  intros B Hw E (f & Sf & Hr & Hle). pose proof (step_binv lo b H ref B Hw) as B'. rewrite E in B'.
  destruct (step_shape lo b H ref b' B Hw E) as (s & j & p & Hs & Em & Ej & L5 & EJ & EM & P2 & Pn & DO & D2 & D3 & ER).
  destruct (N.eq_dec (df_min f) ref) as [Ef|Hn].
  2:{ exists f. split; auto. apply (surv_local (db_dir b)); auto. }
  pose proof (surv_range lo b H f s B Sf Hs ltac:(congruence)) as RF. rewrite Ef in Sf.
  pose proof (bi_desc _ _ _ B s Hs) as D. rewrite Em, Ej in D. cbn [desc] in D.
  assert (Hs' : In (mk_slice (s_min s) (s_max s) p) (mapping_list (en_map (db_en b')))).
  { rewrite EM, <- Em. apply (put_in lo); auto. apply (mi_map _ _ (bi_map _ _ _ B)). }
  pose proof (bi_desc _ _ _ B' _ Hs') as D'. cbn [s_min] in D'.
  assert (Same : surv (db_dir b') ref (Some f) -> stored (db_dir b') x) by (intros S'; exists f; rewrite Ef; auto).
  assert (JN : jb_stage j <= 4 -> job_of (db_jobs b') ref = Some (job_next j)).
  { intros L. rewrite EJ, (proj2 (Nat.leb_le _ _) L). apply (job_list (db_jobs b) j true). apply (job_some _ _ _ Ej). }
  destruct (Nat.eq_dec (jb_stage j) 2) as [E2|N2]; [apply Same; rewrite D2; auto|].
  specialize (Pn N2). subst p. rewrite slice_eta in D'.
  destruct (Nat.eq_dec (jb_stage j) 3) as [E3|N3].
  { apply Same. apply (surv_ids (db_dir b)); auto. unfold jdesc in D. rewrite E3 in D. destruct D as (_ & _ & old & _ & D).
    intros st. rewrite <- Em, D. reflexivity. }
  destruct (Nat.eq_dec (jb_stage j) 4) as [E4|N4].
  { rewrite Em, JN in D' by lia. cbn [desc] in D'.
    assert (Lf : (df_lsn f <= pt_lsn (s_data s))%N).
    { apply (stage_surv _ _ _ s j (Some f) D E4). rewrite Em. auto. }
    assert (PF : pt_file (s_data s) <> None) by (unfold jdesc in D; rewrite E4 in D; tauto).
    destruct (pt_file (s_data s)) as [g|] eqn:Eg; [|congruence].
    exists (mk_dfile (s_min s) (s_max s) (pt_lsn (s_data s)) g). cbn [df_min df_lsn]. split; [|split; [|lia]].
    - apply (desc_surv _ _ _ s (Some (job_next j)) _ D').
      + cbn [job_next jb_stage]. lia.
      + unfold fo. rewrite Eg. auto.
    - rewrite RF in Hr. exact Hr. }
  apply Same. rewrite <- Em in *. apply (proj1 (desc_surv _ _ _ s (Some j) (Some f) D ltac:(cbn beta iota; lia))) in Sf.
  destruct (Nat.eq_dec (jb_stage j) 5) as [E5|N5].
  - apply (desc_surv _ _ _ s (job_of (db_jobs b') (s_min s)) (Some f) D'); auto.
    rewrite EJ, E5. cbn [Nat.leb]. rewrite job_others, N.eqb_refl. auto.
  - rewrite JN in D' by lia. apply (desc_surv _ _ _ s _ (Some f) D'); auto. cbn [job_next jb_stage]. lia.
Qed.

(* what is below the number of the file in use is in it *)
Lemma base_stored lo b H s x : binv lo b H -> In s (mapping_list (en_map (db_en b))) -> in_range (ev_id (snd x)) (range_of s) ->
  match job_of (db_jobs b) (s_min s) with Some j => jb_stage j <= 2 \/ jb_stage j = 5 | None => True end ->
  (fst x < base (s_data s))%N -> stored (db_dir b) x.
Proof.
  intros B Hs Hr HJ Hb. unfold base in Hb. destruct (pt_file (s_data s)) as [f|] eqn:Ef; [|lia].
  exists (mk_dfile (s_min s) (s_max s) (pt_lsn (s_data s)) f). cbn [df_min df_lsn]. split; [|split; [exact Hr|lia]].
  apply (desc_surv _ _ _ s _ _ (bi_desc _ _ _ B s Hs) HJ). unfold fo. rewrite Ef. auto.
Qed.

(* --- what a start finds --- *)
Definition held storages d (x : N * event) : bool :=
  existsb (fun k => match sl_id (dget d k) with
                    | Some (Some f) => ((df_min f =? snd k) && inb (frange f) (ev_id (snd x)) && (fst x <=? df_lsn f))%bool%N
                    | _ => false
                    end) (worklist storages d).
Lemma stored_dec storages d : NoDup storages -> good_dir storages d ->
  exists sb : N * event -> bool, forall x, sb x = true <-> stored d x.
Proof.
  intros ND GD. destruct (validated storages d ND GD) as (d' & _ & GD' & SE & SS).
  exists (held storages d'). intros x. unfold held. rewrite existsb_exists. split.
  - intros ([st mn] & Hk & Hx). destruct (sl_id (dget d' (st, mn))) as [[f|]|] eqn:Ei; try discriminate.
    apply andb_true_iff in Hx as [Hx X3]. apply andb_true_iff in Hx as [X1 X2]. cbn [snd] in X1. apply N.eqb_eq in X1.
    apply N.leb_le in X3. exists f. split; [apply SS; left; exists st; rewrite X1; auto|].
    split; auto. unfold inb in X2. apply andb_true_iff in X2 as [X4 X5]. apply N.leb_le in X4. apply N.leb_le in X5. split; auto.
  - intros (f & Sf & Hr & Hle). apply SS in Sf. apply settled_surv in Sf; auto. destruct Sf as (st & Ei).
    exists (st, df_min f). split; [apply worklist_good; auto; intros X; rewrite X in Ei; discriminate|].
    rewrite Ei. cbn [snd]. rewrite N.eqb_refl. destruct Hr as [R1 R2]. unfold inb. rewrite !(proj2 (N.leb_le _ _)); auto.
Qed.

Lemma lw_cons P x H k : lw P (x :: H) k =
  match lw P H k with Some e => Some e | None => if (P (fst x) && same_keyb k (snd x))%bool then Some (snd x) else None end.
Proof.
  unfold lw, sel. cbn [filter]. destruct (P (fst x)); cbn [map andb].
  - unfold last_write. cbn [rev]. rewrite find_app. destruct (find _ (rev _)); auto.
  - destruct (last_write _ k); auto.
Qed.
Lemma lw_filter P (g : N * event -> bool) H k :
  (forall x, In x H -> P (fst x) = true -> same_keyb k (snd x) = true -> g x = true) ->
  lw P (filter g H) k = lw P H k.
Proof.
  induction H as [|x H IH]; intros A; auto. cbn [filter].
  assert (IH' : lw P (filter g H) k = lw P H k) by (apply IH; intros y Hy; apply A; simpl; auto).
  destruct (g x) eqn:Eg; rewrite !lw_cons, ?IH'; auto.
  destruct (lw P H k); auto. destruct (P (fst x)) eqn:E1; auto. destruct (same_keyb k (snd x)) eqn:E2; auto.
  rewrite (A x) in Eg; simpl; auto. discriminate.
Qed.
Lemma hsorted_filter g H : hsorted H -> hsorted (filter g H).
Proof.
  unfold hsorted. induction 1 as [|x H HS IH HF]; cbn [filter]; [constructor|]. destruct (g x); auto. constructor; auto.
  rewrite Forall_forall in *. intros y Hy. apply filter_In in Hy. apply HF; tauto.
Qed.

Lemma kept_disk lo storages H d log sb : disk lo storages H d log -> (forall x, sb x = true <-> stored d x) ->
  disk lo storages (filter sb H) d [].
Proof.
  intros [GD HS HP SV AP _] SB. constructor; auto.
  - apply hsorted_filter; auto.
  - rewrite Forall_forall in *. intros x Hx. apply filter_In in Hx. apply HP; tauto.
  - intros mn c Sc. destruct (SV mn c Sc) as (f & top & -> & E & N1 & N2 & [F1 F2 F3 F4]). exists f, top.
    do 4 (split; auto). constructor; auto. intros k Hk. rewrite F4 by auto. f_equal. symmetry. apply lw_filter.
    intros x Hx X1 X2. apply SB. exists f. split; [rewrite E; auto|]. apply N.leb_le in X1.
    apply same_keyb_true in X2 as [X2 _]. rewrite <- X2. auto.
  - split; [constructor|]. exists (filter sb H). rewrite app_nil_r. split; auto. intros x Hx. apply filter_In in Hx.
    apply SB; tauto.
Qed.

Lemma start_stored lo en storages H d log : disk lo storages H d log -> storages_ok storages ->
  (lo + 2^31 <= u64_max)%N -> (0 < en_interval en <= u64_max)%N ->
  match engine_recover en storages d with Ok (en1, _) => replay_fine lo en1 log | _ => True end ->
  exists b, main_start en storages d log = Ok b /\ binv lo b H /\ db_log b = log /\
    forall x, stored d x -> stored (db_dir b) x.
Proof.
  intros D SO Hlo Hiv RF.
  destruct (start_gen lo en storages H d log D SO Hlo Hiv) as (en1 & d' & m1 & H0 & ER & EH & R1 & _ & _ & _ & _ & _ & _ & _ & HM & _ & K).
  rewrite ER in RF. unfold main_start. rewrite ER. cbn [bind].
  destruct (replay_spec lo H m1 log (mk_db en1 storages (home_of (worklist storages d') (hd 0%N storages)) d' log []) H0 R1)
    as (en2 & -> & R2 & _); [apply D|exact RF|].
  cbn [bind]. rewrite <- EH in R2. set (en3 := if en_serial en1 then _ else _).
  assert (M3 : en_map en3 = en_map en2) by (unfold en3; destruct (en_serial en1); [apply (set_serial_fields en2)|auto]).
  assert (B' : binv lo (mk_db en3 storages (home_of (worklist storages d') (hd 0%N storages)) d' log []) H).
  { apply (K en2); auto; [| |apply D]; unfold en3; destruct (en_serial en1); auto; apply (set_serial_fields en2). }
  eexists. split; [reflexivity|]. split; [exact B'|]. split; [reflexivity|].
  intros x (f & Sf & Hr & Hle). exists f. split; auto.
  assert (Hf : In (file_slice f) (mapping_list m1)) by (apply HM; eauto).
  destruct (ml_old _ _ (ri_like _ _ _ _ _ R2) _ Hf) as (q & Hq & (Q1 & Q2 & Q3)). cbn [file_slice s_min s_max s_data pt_file pt_lsn] in Hq, Q2, Q3.
  assert (Hq' : In (mk_slice (df_min f) (df_max f) q) (mapping_list (en_map en3))) by (rewrite M3; exact Hq).
  pose proof (bi_desc _ _ _ B' _ Hq') as De. cbn [db_en db_dir db_home db_jobs job_of find s_min] in De.
  apply (proj2 (desc_surv _ _ _ (mk_slice (df_min f) (df_max f) q) None (Some f) De Logic.I)).
  unfold fo. cbn [s_data s_min s_max]. rewrite Q2, Q3. destruct f; reflexivity.
Qed.
