(* A refresh from its beginning to its end, and sets of dropped ranges. *)
From Coq Require Import NArith ZArith List Bool Sorted Lia Arith Permutation.
Import ListNotations.
From Verif Require Import Model.Base Model.Event Model.Rbtree Model.Memtable Model.Mapping Model.Merge
  Model.PartIter Model.Scan Model.Writer Model.Codec Model.Engine Spec.Order Spec.Merged Spec.Files Spec.Layout
  Spec.Regions Spec.View Spec.Engine Proof.OrderL Proof.RbtreeL Proof.MemtableL Proof.MemtableL2 Proof.MergeL
  Proof.PartIterL
  Proof.MappingL Proof.MappingP Proof.MappingX Proof.ScanL Proof.EngineL Proof.EngineW Proof.EngineR Proof.EngineP Proof.CrashW
  Proof.CrashH Proof.DirL Proof.CrashD Proof.CrashP Proof.CrashT Proof.Cells Proof.DropsL Proof.DropsR Proof.DropsP Proof.DropsT.
From Verif Require Import Model.Crash Model.Orders Spec.Crash Spec.Drops Spec.Orders.
Local Arguments N.pow : simpl never.
Local Arguments N.add : simpl never.
Implicit Types (s t : slice part) (m : mapping part) (H : hist) (d : dir) (r : range) (R : list range).

(* --- the same ranges in another order --- *)
Definition same R R' : Prop := forall r, In r R <-> In r R'.
Lemma gone_same R R' : same R R' -> forall id, gone R id = gone R' id.
Proof.
  intros E id. destruct (gone R' id) eqn:E1.
  - apply gone_in in E1 as (r & Hr & Hi). apply gone_in. exists r. split; auto. apply E; auto.
  - destruct (gone R id) eqn:E2; auto. apply gone_in in E2 as (r & Hr & Hi). rewrite <- E1. symmetry. apply gone_in. exists r. split; auto. apply E; auto.
Qed.
Lemma live_same R R' : same R R' -> forall l, live R l = live R' l.
Proof.
  intros E. induction l as [|[n e|n i] l IH]; cbn [live]; auto. rewrite IH. f_equal. f_equal. apply filter_ext. intros a.
  unfold notgone. rewrite (gone_same R R'); auto.
Qed.
Lemma later_same R R' : same R R' -> forall l x, later R l x -> later R' l x.
Proof. intros E l x (r & n & id & A & B & C & D). exists r, n, id. split; auto. apply E; auto. Qed.
Lemma closed_same lo R R' : same R R' -> forall l, closed lo R l -> closed lo R' l.
Proof.
  intros E. induction l as [|[n e|n i] l IH]; cbn [closed]; auto.
  - intros [A B]. split; auto. intros a Ha Hg. eapply later_same; eauto. apply A; auto. rewrite (gone_same R R'); auto.
  - intros (A & B & C). split; auto. split; auto. rewrite <- (gone_same R R'); auto.
Qed.
Lemma dinv_same lo R R' b H : same R R' -> dinv lo R b H -> dinv lo R' b H.
Proof.
  intros E [B C CR F CL]. constructor; auto.
  - unfold quiet in *. rewrite <- (live_same R R'); auto.
  - unfold cells in *. rewrite Forall_forall in *. intros r Hr. apply CR. apply E; auto.
  - intros r Hr HR. apply (F r Hr). apply E; auto.
  - eapply closed_same; eauto.
Qed.

(* --- all but one partition stay --- *)
Record frame (b b' : db) (mn : N) : Prop := {
  fr_slices : forall t, s_min t <> mn -> (In t (slices b') <-> In t (slices b));
  fr_dir : forall st x, x <> mn -> dget (db_dir b') (st, x) = dget (db_dir b) (st, x);
  fr_home : forall x, x <> mn -> db_home b' x = db_home b x;
  fr_sto : db_storages b' = db_storages b
}.
Lemma frame_refl b mn : frame b b mn.
Proof. constructor; auto. tauto. Qed.
Lemma frame_trans b b1 b2 mn : frame b b1 mn -> frame b1 b2 mn -> frame b b2 mn.
Proof.
  intros [A1 A2 A3 A4] [B1 B2 B3 B4]. constructor.
  - intros t Ht. rewrite B1, A1; auto. tauto.
  - intros st x Hx. rewrite B2, A2; auto.
  - intros x Hx. rewrite B3, A3; auto.
  - congruence.
Qed.
Lemma put_slices lo en s p t : minv lo (en_map en) -> In s (mapping_list (en_map en)) -> s_min t <> s_min s ->
  (In t (mapping_list (ref_put (en_map en) (s_min s) p)) <-> In t (mapping_list (en_map en))).
Proof.
  intros I Hs Ht. rewrite (put_in lo) by (auto; apply (mi_map _ _ I)). split.
  - intros [->|[X _]]; auto. cbn in Ht. congruence.
  - intros X. right. split; auto. congruence.
Qed.
Lemma dinv_map lo R b H : dinv lo R b H -> minv lo (en_map (db_en b)).
Proof. intros D. exact (bi_map _ _ _ (dv_b _ _ _ _ D)). Qed.
Lemma others_none js mn : job_of js mn = None -> others js mn = js.
Proof.
  unfold job_of, others. induction js as [|j js IH]; auto. cbn [find filter]. destruct (jb_ref j =? mn)%N; [discriminate|].
  intros X. cbn [negb]. rewrite IH; auto.
Qed.

Lemma begin_run lo R b H id to s st : dinv lo R b H -> window lo id -> part_slice (en_map (db_en b)) id = Some s ->
  job_of (db_jobs b) (s_min s) = None -> ready b s ->
  (match to with Some x => In x (db_storages b) /\ x <> db_home b (s_min s) | None => True end) ->
  st = match to with Some x => x | None => db_home b (s_min s) end ->
  exists b', db_begin b id to = Ok b' /\ dinv lo R b' H /\ places b' = places b /\ en_lsn (db_en b') = en_lsn (db_en b) /\
    db_jobs b' = mk_job (s_min s) (db_home b (s_min s)) st 0 :: db_jobs b /\ frame b b' (s_min s) /\
    In (mk_slice (s_min s) (s_max s) (part_memtable_rotate (s_data s))) (slices b').
Proof.
  intros D Hw Es Hj (R1 & R2 & R3) Hto Hst. pose proof (dinv_map _ _ _ _ D) as I. pose proof (mi_map _ _ I) as G.
  pose proof (part_slice_spec lo _ id G) as PS. rewrite Es in PS. destruct PS as [Hs Hr].
  assert (Hf : dop_fine lo R b (CBegin id to)).
  { cbn [dop_fine cop_fine]. split; auto. split; [destruct to; tauto|]. intros t Ht Htr. right.
    assert (t = s) by (apply (layout_unique (mapping_list (en_map (db_en b))) t s id); auto; exact (gm_layout _ _ G)). subst t. auto. }
  pose proof (dstep_spec lo R b H (CBegin id to) D Hf) as X. cbn [cstep dropped app cack_step] in X.
  assert (E : exists b', db_begin b id to = Ok b' /\ b' = with_jobs (with_en b (with_map (db_en b)
     (ref_put (en_map (db_en b)) (s_min s) (part_memtable_rotate (s_data s))))) (mk_job (s_min s) (db_home b (s_min s)) st 0 :: db_jobs b)).
  { unfold db_begin. rewrite Es.
    destruct (existsb _ _) eqn:Ex.
    { apply existsb_exists in Ex as (j & Hjj & Ej). unfold job_of in Hj. eapply find_none in Hj; eauto. congruence. }
    assert (Et : match to with Some x => (x =? db_home b (s_min s))%N | None => false end = false).
    { destruct to as [x|]; auto. apply N.eqb_neq. tauto. }
    rewrite Et. destruct (begin_spec lo (db_en b) id I Hw) as [(_ & Hn)|(s' & Hs' & Hr' & -> & _)].
    { exfalso. apply Hn. apply covered_slice. eauto. }
    assert (s' = s) by (apply (layout_unique (mapping_list (en_map (db_en b))) s' s id); auto; exact (gm_layout _ _ G)). subst s'.
    cbn [bind]. eexists. split; [reflexivity|]. rewrite Hst. reflexivity. }
  destruct E as (b' & E & Eb). rewrite E in X. destruct X as (H' & D' & EH). exists b'. split; auto.
  destruct (begin_keeps b id to b' E) as (E1 & E2 & E3).
  assert (D2 : dinv lo R b' H).
  { pose proof (begin_binv lo (quiet R b) H id to (dv_b _ _ _ _ D) Hf) as Y. unfold quiet in Y. rewrite begin_log, E in Y.
    cbn [on_log] in Y. eapply dinv_keep; eauto. unfold quiet. rewrite E1. exact Y. }
  split; auto. split; [exact E3|]. subst b'. cbn [with_jobs with_en with_map db_en en_lsn db_jobs]. split; auto. split; auto. split.
  - constructor; unfold slices; cbn [with_jobs with_en with_map db_en en_map db_dir db_home db_storages]; auto.
    intros t Ht. apply (put_slices lo); auto.
  - unfold slices. cbn [with_jobs with_en with_map db_en en_map]. apply (put_in lo); auto.
Qed.

Lemma find_min lo m s : good_map lo m -> In s (mapping_list m) -> find (fun x => (s_min x =? s_min s)%N) (mapping_list m) = Some s.
Proof.
  intros G Hs. destruct (find _ _) as [u|] eqn:Ef.
  - apply find_some in Ef as [E1 E2]. apply N.eqb_eq in E2. f_equal. apply (min_unique lo m); auto.
  - eapply find_none in Ef; eauto. rewrite N.eqb_refl in Ef. discriminate.
Qed.

Lemma step_run lo R b H s from to k js : dinv lo R b H -> In s (slices b) ->
  db_jobs b = mk_job (s_min s) from to k :: js -> job_of js (s_min s) = None -> k <= 5 ->
  (k = 2 -> (region_weight (concat (contents (s_data s))) < 2^32)%N) ->
  exists b' s', db_step b (s_min s) = Ok b' /\ dinv lo R b' H /\ places b' = places b /\ en_lsn (db_en b') = en_lsn (db_en b) /\
    db_jobs b' = (if k =? 5 then js else mk_job (s_min s) from to (S k) :: js) /\ frame b b' (s_min s) /\
    In s' (slices b') /\ range_of s' = range_of s /\ (k <> 2 -> s' = s) /\
    (k = 2 -> refresh_part (en_region (db_en b)) (s_data s) = Ok (s_data s')) /\
    (k = 5 -> db_home b' (s_min s) = to /\ exists f, pt_file (s_data s) = Some f /\
       forall x, dget (db_dir b') (x, s_min s) =
         if (x =? to)%N then mk_slot (Some (Some (mk_dfile (s_min s) (s_max s) (pt_lsn (s_data s)) f))) None None else no_files).
Proof.
  intros D Hs Ej Hjs Hk Hw. pose proof (dinv_map _ _ _ _ D) as I. pose proof (mi_map _ _ I) as G.
  pose proof (dv_b _ _ _ _ D) as B.
  assert (Hjob : job_of (db_jobs b) (s_min s) = Some (mk_job (s_min s) from to k)).
  { rewrite Ej. unfold job_of. cbn [find jb_ref]. rewrite N.eqb_refl. auto. }
  pose proof (bi_desc _ _ _ B s Hs) as DE. cbn [quiet with_log db_en db_dir db_home db_jobs] in DE. rewrite Hjob in DE. cbn [desc] in DE.
  pose proof (mi_parts _ _ I) as FP. rewrite Forall_forall in FP. pose proof (FP s Hs) as Fs.
  assert (X : match db_step b (s_min s) with Ok b' => dinv lo R b' H | Err => True | UB => False end).
  { pose proof (step_binv_at lo (quiet R b) H (s_min s) B) as Y. unfold quiet in Y. rewrite step_log in Y.
    cbn [with_log db_jobs db_en] in Y. assert (Y' := fun Z => Y Z). clear Y.
    destruct (db_step b (s_min s)) as [b'| |] eqn:E; cbn [on_log] in Y'; auto.
    - destruct (step_keeps b (s_min s) b' E) as (E1 & E2 & E3). eapply dinv_keep; eauto. unfold quiet. rewrite E1. apply Y'.
      intros j Hj Est t Ht Etm. cbn [with_log db_en] in Ht. assert (t = s) by (apply (min_unique lo (en_map (db_en b))); auto). subst t.
      rewrite Hjob in Hj. injection Hj as <-. auto.
    - apply Y'. intros j Hj Est t Ht Etm. cbn [with_log db_en] in Ht. assert (t = s) by (apply (min_unique lo (en_map (db_en b))); auto). subst t.
      rewrite Hjob in Hj. injection Hj as <-. auto. }
  pose proof (others_none js (s_min s) Hjs) as EO.
  assert (Sd : forall v a, frame b (with_jobs (with_dir b (dset (db_dir b) (a, s_min s) v))
      (if k =? 5 then js else mk_job (s_min s) from to (S k) :: js)) (s_min s)).
  { intros v a. constructor; unfold slices; cbn; auto; [tauto|]. intros st x Hx. apply dget_set_other. congruence. }
  assert (FL : filter (fun x => negb (jb_ref x =? s_min s)%N) (mk_job (s_min s) from to k :: js) = js).
  { cbn [filter jb_ref]. rewrite N.eqb_refl. cbn [negb]. exact EO. }
  unfold db_step in *. fold (job_of (db_jobs b) (s_min s)) in *. rewrite Hjob in *.
  unfold jdesc in DE. cbn [jb_stage jb_from jb_to] in DE.
  destruct k as [|[|[|[|[|[|k]]]]]]; [| | | | | |lia]; unfold job_step in *; cbn [jb_stage jb_ref jb_from jb_to bind] in *.
  - cbn [with_dir db_jobs] in *. rewrite Ej in *. rewrite FL in *. eexists _, s. split; [reflexivity|]. split; [exact X|].
    do 8 (split; [first [reflexivity|exact (Sd _ _)|exact Hs|intros; reflexivity|intros; exfalso; lia]|]). intros; exfalso; lia.
  - unfold ref_slice in *. rewrite (find_min lo _ s G Hs) in *. cbn [bind] in *. unfold new_file, refresh_part in *.
    destruct (merger_spec lo (s_data s) (sf_prev _ _ Fs) (sf_file _ _ Fs)) as (l & EM & _). rewrite EM in *. cbn [bind pt_file pt_lsn] in *.
    cbn [with_dir db_jobs] in *. rewrite Ej in *. rewrite FL in *. eexists _, s. split; [reflexivity|]. split; [exact X|].
    do 8 (split; [first [reflexivity|exact (Sd _ _)|exact Hs|intros; reflexivity|intros; exfalso; lia]|]). intros; exfalso; lia.
  - destruct (apply_spec lo (db_en b) s I Hs (Hw eq_refl)) as (p & EP & EA & I' & _). rewrite EA in *. cbn [bind] in *.
    cbn [with_home with_en db_jobs] in *. rewrite Ej in *. rewrite FL in *. eexists _, (mk_slice (s_min s) (s_max s) p).
    split; [reflexivity|]. split; [exact X|]. split; [unfold places; cbn; apply put_ranges|].
    split; [reflexivity|]. split; [reflexivity|]. split.
    { constructor; unfold slices; cbn; auto.
      - intros t Ht. apply (put_slices lo); auto.
      - intros x Hx. destruct (N.eqb_spec x (s_min s)); [congruence|auto]. }
    split; [unfold slices; cbn; apply (put_in lo); auto|]. split; [reflexivity|]. split; [intros Z; lia|]. split; [intros _; exact EP|].
    intros; lia.
  - destruct DE as (Hh & Hpf & old & Hold & D0). rewrite D0 in *. cbn [sl_inc sl_id sl_comp] in *. rewrite at_same in *.
    destruct (fo s) as [c0|] eqn:Ec0; [|unfold fo in Ec0; destruct (pt_file (s_data s)); congruence]. cbn [bind] in *.
    cbn [with_dir db_jobs] in *. rewrite Ej in *. rewrite FL in *. eexists _, s. split; [reflexivity|]. split; [exact X|].
    do 8 (split; [first [reflexivity|exact (Sd _ _)|exact Hs|intros; reflexivity|intros; exfalso; lia]|]). intros; exfalso; lia.
  - cbn [with_dir db_jobs] in *. rewrite Ej in *. rewrite FL in *. eexists _, s. split; [reflexivity|]. split; [exact X|].
    do 8 (split; [first [reflexivity|exact (Sd _ _)|exact Hs|intros; reflexivity|intros; exfalso; lia]|]). intros; exfalso; lia.
  - destruct DE as (Hh & Hpf & D0). rewrite D0 in *. cbn [sl_inc sl_id sl_comp] in *. rewrite at_same in *.
    destruct (pt_file (s_data s)) as [f|] eqn:Ef; [|congruence].
    assert (Ec0 : fo s = Some (Some (mk_dfile (s_min s) (s_max s) (pt_lsn (s_data s)) f))) by (unfold fo; rewrite Ef; auto).
    rewrite Ec0 in *. cbn [bind] in *. cbn [with_dir db_jobs] in *. rewrite Ej in *. rewrite FL in *. eexists _, s. split; [reflexivity|].
    split; [exact X|].
    do 8 (split; [first [reflexivity|exact (Sd _ _)|exact Hs|intros; reflexivity|intros; exfalso; lia]|]).
    intros _. cbn [with_jobs with_dir db_home db_dir]. split; auto. exists f. split; auto. intros x.
    destruct (N.eqb_spec x to) as [->|Hn]; [apply dget_set_same|]. rewrite dget_set_other by congruence. rewrite D0, at_ne by auto. reflexivity.
Qed.
