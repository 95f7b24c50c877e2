(* What one statement does: every partition of a range in turn, and the states on the way. *)
From Coq Require Import NArith ZArith List Bool Sorted Lia Arith Permutation.
Import ListNotations.
From Verif Require Import Model.Base Model.Event Model.Rbtree Model.Memtable Model.Mapping Model.Merge
  Model.PartIter Model.Scan Model.Writer Model.Codec Model.Engine Spec.Order Spec.Merged Spec.Files Spec.Layout
  Spec.Regions Spec.View Spec.Engine Proof.OrderL Proof.RbtreeL Proof.MemtableL Proof.MemtableL2 Proof.MergeL
  Proof.PartIterL
  Proof.MappingL Proof.MappingP Proof.MappingX Proof.ScanL Proof.EngineL Proof.EngineW Proof.EngineR Proof.EngineP Proof.CrashW
  Proof.CrashH Proof.DirL Proof.CrashD Proof.CrashP Proof.CrashT Proof.Cells Proof.DropsL Proof.DropsR Proof.DropsP Proof.DropsT
  Proof.OrdersL.
From Verif Require Import Model.Crash Model.Orders Spec.Crash Spec.Drops Spec.Orders.
Local Arguments N.pow : simpl never.
Local Arguments N.add : simpl never.
Implicit Types (s t : slice part) (m : mapping part) (H : hist) (d : dir) (r : range) (R : list range).

(* --- paths --- *)
Inductive path (P : db -> Prop) : db -> list act -> db -> Prop :=
| path_nil b : P b -> path P b [] b
| path_cons b a l b1 b2 : P b -> astep b a = Ok b1 -> path P b1 l b2 -> path P b (a :: l) b2.
Lemma path_run P b l b' : path P b l b' -> arun b l = Ok b'.
Proof. induction 1 as [|b a l b1 b2 A E L IH]; cbn [arun]; auto. rewrite E. exact IH. Qed.
Lemma path_end P b l b' : path P b l b' -> P b'.
Proof. induction 1; auto. Qed.
Lemma path_app P b l b1 l' b2 : path P b l b1 -> path P b1 l' b2 -> path P b (l ++ l') b2.
Proof. induction 1 as [|b a l c1 c2 A E L IH]; cbn [app]; auto. intros X. econstructor; eauto. Qed.
Lemma path_prefix P b l b' : path P b l b' -> forall n, exists b1, arun b (firstn n l) = Ok b1 /\ P b1.
Proof.
  induction 1 as [b A|b a l c1 c2 A E L IH]; intros n.
  - exists b. destruct n; auto.
  - destruct n as [|n]; [exists b; auto|]. cbn [firstn arun]. rewrite E. cbn [bind]. apply IH.
Qed.
Lemma path_impl (P Q : db -> Prop) b l b' : (forall x, P x -> Q x) -> path P b l b' -> path Q b l b'.
Proof. intros I. induction 1; econstructor; eauto. Qed.

(* --- partitions kept as they are --- *)
Definition kept (b : db) s (b' : db) : Prop :=
  In s (slices b') /\ db_home b' (s_min s) = db_home b (s_min s) /\
  forall st, dget (db_dir b') (st, s_min s) = dget (db_dir b) (st, s_min s).
Lemma kept_refl b s : In s (slices b) -> kept b s b.
Proof. split; auto. Qed.
Lemma kept_frame b s b1 b2 mn : kept b s b1 -> frame b1 b2 mn -> s_min s <> mn -> kept b s b2.
Proof.
  intros (A & B & C) F Hn. split; [apply (fr_slices _ _ _ F); auto|]. split; [rewrite (fr_home _ _ _ F); auto|].
  intros st. rewrite (fr_dir _ _ _ F); auto.
Qed.
Lemma filed_frame b b' r st mn : filed b r st -> frame b b' mn -> fst r <> mn -> filed b' r st.
Proof.
  intros (s & f & A & B & C & D & E & G & K) F Hn. subst r. cbn [range_of fst] in Hn. exists s, f.
  split; [apply (fr_slices _ _ _ F); auto|]. repeat (split; [auto; rewrite ?(fr_home _ _ _ F) by auto; auto|]).
  intros x. rewrite (fr_dir _ _ _ F); auto.
Qed.

(* --- the refresh of one partition --- *)
Lemma slice_at lo R b H s id : dinv lo R b H -> In s (slices b) -> in_range id (range_of s) -> part_slice (en_map (db_en b)) id = Some s.
Proof.
  intros D Hs Hr. pose proof (mi_map _ _ (dinv_map _ _ _ _ D)) as G. pose proof (part_slice_spec lo _ id G) as PS.
  destruct (part_slice (en_map (db_en b)) id) as [u|].
  - f_equal. destruct PS. apply (layout_unique (slices b) u s id); auto. exact (gm_layout _ _ G).
  - exfalso. apply PS. apply covered_slice. eauto.
Qed.
Lemma slice_le lo R b H s : dinv lo R b H -> In s (slices b) -> (s_min s <= s_max s)%N /\ near lo (range_of s).
Proof.
  intros D Hs. pose proof (mi_map _ _ (dinv_map _ _ _ _ D)) as G. split.
  - pose proof (gm_layout _ _ G) as [_ L]. rewrite Forall_forall in L. apply (L (range_of s)). apply in_map. exact Hs.
  - pose proof (gm_near _ _ G) as L. rewrite Forall_forall in L. apply L. apply in_map. exact Hs.
Qed.
Lemma slice_window lo R b H s id : dinv lo R b H -> In s (slices b) -> in_range id (range_of s) -> window lo id.
Proof. intros D Hs Hr. destruct (slice_le _ _ _ _ _ D Hs) as [A [B C]]. destruct Hr. unfold range_of, window in *. cbn [fst snd] in *. lia. Qed.

Definition calm lo R H b0 b : Prop := dinv lo R b H /\ places b = places b0 /\ en_lsn (db_en b) = en_lsn (db_en b0).
Lemma refresh_run lo R b H id to s st : dinv lo R b H -> In s (slices b) -> in_range id (range_of s) ->
  job_of (db_jobs b) (s_min s) = None -> ready b s ->
  (match to with Some x => In x (db_storages b) /\ x <> db_home b (s_min s) | None => True end) ->
  st = match to with Some x => x | None => db_home b (s_min s) end ->
  exists b', path (calm lo R H b) b (Do (CBegin id to) :: repeat (Do (CStep (s_min s))) 6) b' /\
    db_jobs b' = db_jobs b /\ frame b b' (s_min s) /\ filed b' (range_of s) st.
Proof.
  intros D Hs Hr Hj RD Hto Hst.
  destruct (begin_run lo R b H id to s st D (slice_window _ _ _ _ _ _ D Hs Hr) (slice_at _ _ _ _ _ _ D Hs Hr) Hj RD Hto Hst)
    as (b1 & E1 & D1 & P1 & L1 & J1 & F1 & S1).
  set (s1 := mk_slice (s_min s) (s_max s) (part_memtable_rotate (s_data s))) in *.
  set (hm := db_home b (s_min s)) in *. clearbody hm.
  assert (W : (region_weight (concat (contents (s_data s1))) < 2^32)%N).
  { destruct RD as (_ & _ & W). unfold s1. cbn [s_data]. rewrite weight_wsum, wsum_rotate, <- weight_wsum. exact W. }
  destruct (step_run lo R b1 H s1 hm st 0 (db_jobs b) D1 S1 J1 Hj ltac:(lia) ltac:(intros; lia))
    as (b2 & s2 & E2 & D2 & P2 & L2 & J2 & F2 & S2 & R2 & K2 & _). rewrite (K2 ltac:(lia)) in S2. clear R2 K2 s2.
  destruct (step_run lo R b2 H s1 hm st 1 (db_jobs b) D2 S2 J2 Hj ltac:(lia) ltac:(intros; lia))
    as (b3 & s3 & E3 & D3 & P3 & L3 & J3 & F3 & S3 & R3 & K3 & _). rewrite (K3 ltac:(lia)) in S3. clear R3 K3 s3.
  destruct (step_run lo R b3 H s1 hm st 2 (db_jobs b) D3 S3 J3 Hj ltac:(lia) ltac:(auto))
    as (b4 & s4 & E4 & D4 & P4 & L4 & J4 & F4 & S4 & R4 & _ & A4 & _). specialize (A4 eq_refl).
  injection R4 as R4m R4x. cbn [s1 s_min s_max] in R4m, R4x.
  change (s_min s1) with (s_min s) in *. rewrite <- R4m in Hj, J4.
  destruct (step_run lo R b4 H s4 hm st 3 (db_jobs b) D4 S4 J4 Hj ltac:(lia) ltac:(intros; lia))
    as (b5 & s5 & E5 & D5 & P5 & L5 & J5 & F5 & S5 & R5 & K5 & _). rewrite (K5 ltac:(lia)) in S5. clear R5 K5 s5.
  destruct (step_run lo R b5 H s4 hm st 4 (db_jobs b) D5 S5 J5 Hj ltac:(lia) ltac:(intros; lia))
    as (b6 & s6 & E6 & D6 & P6 & L6 & J6 & F6 & S6 & R6 & K6 & _). rewrite (K6 ltac:(lia)) in S6. clear R6 K6 s6.
  destruct (step_run lo R b6 H s4 hm st 5 (db_jobs b) D6 S6 J6 Hj ltac:(lia) ltac:(intros; lia))
    as (b7 & s7 & E7 & D7 & P7 & L7 & J7 & F7 & S7 & R7 & K7 & _ & A7). rewrite (K7 ltac:(lia)) in S7. clear R7 K7 s7.
  destruct (A7 eq_refl) as (HH & f & Hf & Hd). rewrite R4m in *. exists b7.
  assert (CA : forall x, dinv lo R x H -> places x = places b -> en_lsn (db_en x) = en_lsn (db_en b) -> calm lo R H b x)
    by (intros; split; auto).
  split.
  { cbn [repeat]. econstructor; [apply CA; auto|exact E1|].
    econstructor; [apply CA; auto|exact E2|]. econstructor; [apply CA; congruence|exact E3|]. econstructor; [apply CA; congruence|exact E4|].
    econstructor; [apply CA; congruence|exact E5|]. econstructor; [apply CA; congruence|exact E6|].
    econstructor; [apply CA; congruence|exact E7|]. constructor. apply CA; congruence. }
  split; [exact J7|]. split.
  { repeat (eapply frame_trans; [eassumption|]). apply frame_refl. }
  pose proof (mi_parts _ _ (dinv_map _ _ _ _ D3)) as FP. rewrite Forall_forall in FP.
  destruct (refresh_part_spec lo (en_region (db_en b3)) s1 (FP s1 S3) W) as (p & l & EP & _ & M1 & M2 & _).
  rewrite A4 in EP. injection EP as EP. rewrite EP in *. exists s4, f. split; auto. split; [unfold range_of; congruence|].
  rewrite EP, M1, M2. destruct RD as (RD & _). split; [exact RD|]. split; [reflexivity|]. split; [auto|].
  split; [rewrite R4m; auto|]. rewrite R4m, R4x in *. exact Hd.
Qed.

(* --- what is on the way of a statement --- *)
Definition mid lo R H (b0 b : db) : Prop := exists H',
  dinv lo (vanished b0 b ++ R) b H' /\
  map snd H' = filter (fun e => negb (gone (vanished b0 b) (ev_id e))) (map snd H) /\ incl (places b) (places b0).
Definition calls (b0 b : db) : Prop :=
  db_jobs b = db_jobs b0 /\ db_storages b = db_storages b0 /\
  (en_lsn (db_en b) + N.of_nat (length (slices b)) <= en_lsn (db_en b0) + N.of_nat (length (slices b0)))%N.
Lemma range_eqb_eq r r' : range_eqb r r' = true <-> r = r'.
Proof.
  unfold range_eqb. rewrite andb_true_iff, !N.eqb_eq. destruct r, r'; cbn [fst snd]. split; [intros [-> ->]; auto|]. intros X; injection X; auto.
Qed.
Lemma vanished_in b b' r : In r (vanished b b') <-> In r (places b) /\ ~ In r (places b').
Proof.
  unfold vanished. rewrite filter_In, negb_true_iff. split; intros [A B]; split; auto.
  - intros C. assert (X : existsb (range_eqb r) (places b') = true); [|congruence].
    apply existsb_exists. exists r. split; auto. apply range_eqb_eq; auto.
  - destruct (existsb _ _) eqn:E; auto. exfalso. apply existsb_exists in E as (r' & Hr & E). apply range_eqb_eq in E. congruence.
Qed.
Lemma vanished_none b : vanished b b = [].
Proof.
  destruct (vanished b b) as [|r l] eqn:E; auto. exfalso. assert (X : In r (vanished b b)) by (rewrite E; left; auto).
  apply vanished_in in X. tauto.
Qed.
Lemma vanished_same b b1 b2 : places b1 = places b2 -> vanished b b1 = vanished b b2.
Proof. intros E. unfold vanished. rewrite E. auto. Qed.
Lemma mid_start lo R H b : dinv lo R b H -> mid lo R H b b.
Proof.
  intros D. exists H. rewrite vanished_none. split; auto. split; [|apply incl_refl]. symmetry. apply filter_none.
Qed.
Lemma calls_start b : calls b b.
Proof. repeat (split; auto). lia. Qed.
Lemma mid_calm lo R H b0 b H' x : dinv lo (vanished b0 b ++ R) b H' ->
  map snd H' = filter (fun e => negb (gone (vanished b0 b) (ev_id e))) (map snd H) -> incl (places b) (places b0) ->
  calm lo (vanished b0 b ++ R) H' b x -> mid lo R H b0 x.
Proof.
  intros D EH I (D' & E & _). exists H'. rewrite (vanished_same b0 x b) by auto. split; auto. split; auto. rewrite E; auto.
Qed.
Lemma job_free b s : ~ locked b s -> job_of (db_jobs b) (s_min s) = None.
Proof. intros L. apply job_none. intros j Hj E. apply L. exists j. auto. Qed.
Lemma locked_dec b s : {locked b s} + {~ locked b s}.
Proof.
  destruct (existsb (fun j => (jb_ref j =? s_min s)%N) (db_jobs b)) eqn:E.
  - left. apply existsb_exists in E as (j & A & B). exists j. split; auto. apply N.eqb_eq; auto.
  - right. intros (j & A & B). assert (X : existsb (fun j => (jb_ref j =? s_min s)%N) (db_jobs b) = true); [|congruence].
    apply existsb_exists. exists j. split; auto. apply N.eqb_eq; auto.
Qed.
Lemma locked_eq b b' s : db_jobs b' = db_jobs b -> locked b' s <-> locked b s.
Proof. intros E. unfold locked. rewrite E. tauto. Qed.
Lemma ready_kept b0 s b : kept b0 s b -> ready b0 s -> ready b s.
Proof.
  intros (_ & _ & K) (A & B & C). split; auto. split; auto. intros (st & Hst). apply B. exists st. rewrite <- K. auto.
Qed.
Lemma left_kept b0 s b : kept b0 s b -> ~ leftover b0 (s_min s) -> ~ leftover b (s_min s).
Proof. intros (_ & _ & K) B (st & Hst). apply B. exists st. rewrite <- K. auto. Qed.

Lemma filter_filter {A} (f g : A -> bool) l : filter f (filter g l) = filter (fun x => g x && f x) l.
Proof.
  induction l as [|a l IH]; cbn [filter]; auto. destruct (g a); cbn [filter andb]; [destruct (f a)|]; rewrite IH; auto.
Qed.
Lemma drop_one_run lo R H b0 b s id : mid lo R H b0 b -> calls b0 b -> kept b0 s b -> ~ locked b0 s -> ~ leftover b0 (s_min s) ->
  (en_lsn (db_en b) < u64_max)%N -> in_range id (range_of s) ->
  exists b', cstep b (CDrop id) = Ok b' /\ mid lo R H b0 b' /\ calls b0 b' /\ frame b b' (s_min s) /\ ~ In (range_of s) (places b') /\ incl (places b') (places b).
Proof.
  intros (H' & D & EH & INC) (C1 & C2 & C3) K NL NF HL Hr. pose proof K as (Hs & _ & _).
  pose proof (slice_at _ _ _ _ _ _ D Hs Hr) as Es. pose proof (slice_window _ _ _ _ _ _ D Hs Hr) as Hw.
  assert (NL' : ~ locked b s) by (rewrite (locked_eq b0); auto).
  assert (Hf : dop_fine lo (vanished b0 b ++ R) b (CDrop id)).
  { split; auto. split; auto. intros t Ht Htr. assert (t = s).
    { apply (layout_unique (slices b) t s id); auto. exact (gm_layout _ _ (mi_map _ _ (dinv_map _ _ _ _ D))). }
    subst t. eapply left_kept; eauto. }
  pose proof (dstep_spec lo _ b H' (CDrop id) D Hf) as X.
  destruct (drop_run lo b id s (dinv_map _ _ _ _ D) Hw HL Es) as (m & E & I' & HM).
  assert (Ec : cstep b (CDrop id) = db_drop b id).
  { cbn [cstep]. rewrite Es. destruct (existsb _ _) eqn:Ex; auto. exfalso. apply NL'. apply existsb_exists in Ex as (j & A & B).
    exists j. split; auto. apply N.eqb_eq; auto. }
  rewrite Ec, E in X. rewrite Ec, E. cbn [dropped cack_step] in X. rewrite Es in X. destruct X as (H2 & D2 & E2).
  eexists. split; [reflexivity|]. set (b' := with_log _ _) in *.
  assert (PL : forall r, In r (places b') <-> In r (places b) /\ r <> range_of s).
  { intros r. unfold places, ranges. cbn [b' with_log dropped_db dropped_at with_lsn with_map db_en en_map].
    rewrite !in_map_iff. split.
    - intros (t & <- & Ht). apply HM in Ht as [Ht Hn]. split; eauto. intros Er. apply Hn.
      injection Er as Em _. apply (min_unique lo (en_map (db_en b))); auto. exact (mi_map _ _ (dinv_map _ _ _ _ D)).
    - intros [(t & <- & Ht) Hn]. exists t. split; auto. apply HM. split; auto. congruence. }
  assert (VE : same ([range_of s] ++ vanished b0 b) (vanished b0 b')).
  { intros r. cbn [app In]. rewrite !vanished_in, PL. split.
    - intros [<-|[A B]]; [split; [apply INC; unfold places, ranges; apply in_map; auto|tauto]|tauto].
    - intros [A B]. destruct (range_eqb (range_of s) r) eqn:Er; [apply range_eqb_eq in Er; auto|].
      right. split; auto. intros X. apply B. split; auto. intros ->. rewrite (proj2 (range_eqb_eq _ _) eq_refl) in Er. discriminate. }
  split.
  { exists H2. split; [|split].
    - eapply dinv_same; [|exact D2]. intros r. rewrite app_assoc, !in_app_iff. specialize (VE r). rewrite !in_app_iff in *. tauto.
    - rewrite E2, EH, filter_filter. apply filter_ext. intros a. rewrite <- negb_orb. f_equal. rewrite <- (gone_same _ _ VE).
      cbn [app gone existsb]. rewrite orb_false_r. apply orb_comm.
    - intros r Hr'. apply INC. apply PL; auto. }
  split.
  { split; auto. split; auto. cbn [b' with_log dropped_db dropped_at with_lsn with_map db_en en_lsn en_map slices].
    unfold slices in *. cbn [b' with_log dropped_db dropped_at with_lsn with_map db_en en_lsn en_map] in *.
    assert (ND : forall mm, minv lo mm -> NoDup (mapping_list mm)).
    { intros mm Im. pose proof (gm_layout _ _ (mi_map _ _ Im)) as L. apply layout_slices in L as [L Lf]. clear -L Lf.
      induction L as [|a l L IH A]; constructor.
      - intros Ha. rewrite Forall_forall in A. specialize (A a Ha). unfold slt in A. inversion Lf; subst. lia.
      - apply IH. inversion Lf; auto. }
    assert (LE : length (s :: mapping_list m) <= length (mapping_list (en_map (db_en b)))).
    { apply NoDup_incl_length.
      - constructor; [rewrite HM; tauto|auto].
      - intros t [<-|Ht]; auto. apply HM in Ht. tauto. }
    cbn [length] in LE. unfold slices in C3. lia. }
  split.
  { constructor; unfold slices; cbn [b' with_log dropped_db dropped_at with_lsn with_map db_en en_lsn en_map db_dir db_home db_storages]; auto.
    - intros t Ht. rewrite HM. split; [tauto|]. intros Y. split; auto. congruence.
    - intros st x Hx. apply dget_set_other. congruence. }
  split; [rewrite PL; tauto|]. intros r Hr'. apply PL; auto.
Qed.

(* --- all partitions of a range --- *)
Lemma sorted_same (l l' : list (slice part)) : StronglySorted slt l -> StronglySorted slt l' ->
  Forall (fun s => (s_min s <= s_max s)%N) l -> Forall (fun s => (s_min s <= s_max s)%N) l' ->
  (forall t, In t l <-> In t l') -> l = l'.
Proof.
  intros A. revert l'. induction A as [|a l A IH Fa]; intros l' B FL FL' E.
  - destruct l' as [|x l']; auto. exfalso. apply (E x). left; auto.
  - destruct B as [|x l' B Fx]; [exfalso; apply (E a); left; auto|].
    inversion FL as [|a0 l0 LA FL0]; subst. inversion FL' as [|a1 l1 LX FL1]; subst.
    rewrite Forall_forall in Fa, Fx. unfold slt in Fa, Fx.
    assert (a = x).
    { destruct (proj1 (E a) (or_introl eq_refl)) as [X|X]; auto. destruct (proj2 (E x) (or_introl eq_refl)) as [Y|Y]; auto.
      apply Fx in X. apply Fa in Y. lia. }
    subst x. f_equal. apply IH; auto. intros t. split; intros Ht.
    + destruct (proj1 (E t) (or_intror Ht)) as [X|X]; auto. subst t. apply Fa in Ht. lia.
    + destruct (proj2 (E t) (or_intror Ht)) as [X|X]; auto. subst t. apply Fx in Ht. lia.
Qed.
Lemma sorted_filter {A} (lt : A -> A -> Prop) f l : StronglySorted lt l -> StronglySorted lt (filter f l).
Proof.
  induction 1 as [|a l A0 IH Fa]; cbn [filter]; [constructor|]. destruct (f a); auto. constructor; auto.
  rewrite Forall_forall in *. intros x Hx. apply filter_In in Hx. apply Fa; tauto.
Qed.
Lemma Forall_filter {A} (P : A -> Prop) f l : Forall P l -> Forall P (filter f l).
Proof. rewrite !Forall_forall. intros X x Hx. apply filter_In in Hx. apply X; tauto. Qed.

Section LOOP.
Variables (lo : N) (R : list range) (H : hist) (b0 : db).
Variable one : db -> N -> bool -> res report.
Variables (fits : slice part -> Prop) (post : slice part -> db -> Prop) (halt : slice part -> outcome -> Prop).
Definition one_fine (b : db) s id : Prop := exists p, one b id true = Ok p /\ path (mid lo R H b0) b (rp_acts p) (rp_db p) /\
  calls b0 (rp_db p) /\
  (rp_end p = Done /\ frame b (rp_db p) (s_min s) /\ incl (places (rp_db p)) (places b) /\ post s (rp_db p) \/
   rp_end p <> Done /\ rp_db p = b /\ halt s (rp_end p)).
Hypothesis one_run : forall b s id, mid lo R H b0 b -> calls b0 b -> kept b0 s b -> fits s -> in_range id (range_of s) -> one_fine b s id.
Hypothesis post_frame : forall s b b' mn, post s b -> frame b b' mn -> s_min s <> mn -> incl (places b') (places b) -> post s b'.

Lemma mid_map b : mid lo R H b0 b -> exists R' H', dinv lo R' b H'.
Proof. intros (H' & D & _). eauto. Qed.

Lemma loop_run mx : forall fuel b mn, mid lo R H b0 b -> calls b0 b ->
  (lo <= mn <= lo + 2^31)%N -> existsb (straddles mn) (slices b) = false ->
  length (filter (inside mn mx) (slices b)) < fuel ->
  (forall s, In s (filter (inside mn mx) (slices b)) -> kept b0 s b /\ fits s) ->
  exists p l1 l2, order_loop fuel one b mn mx = Ok p /\ path (mid lo R H b0) b (rp_acts p) (rp_db p) /\ calls b0 (rp_db p) /\
    filter (inside mn mx) (slices b) = l1 ++ l2 /\
    (forall s, In s l1 -> post s (rp_db p)) /\
    (forall s, kept b0 s b -> ~ In s l1 -> kept b0 s (rp_db p)) /\
    (forall s, s_min s < mn -> post s b -> post s (rp_db p))%N /\
    (l2 = [] /\ rp_end p = Done \/ exists s l3, l2 = s :: l3 /\ rp_end p <> Done /\ halt s (rp_end p)).
Proof.
  induction fuel as [|fuel IH]; intros b mn M C Hmn Hst Hlen Hall; [lia|].
  destruct (mid_map b M) as (R1 & H1 & D1). pose proof (mi_map _ _ (dinv_map _ _ _ _ D1)) as G. cbn [order_loop].
  destruct (foreach_spec part_new lo (en_map (db_en b)) mn mx G Hmn) as [(X & _)|(_ & ->)]; [unfold slices in Hst; congruence|].
  cbn [bind]. fold (slices b). destruct (filter (inside mn mx) (slices b)) as [|s l] eqn:EF.
  - exists (mk_report [] b Done), [], []. split; auto. cbn [rp_acts rp_db rp_end]. split; [constructor; auto|]. split; auto. split; auto.
    split; [intros s []|]. split; auto.
  - assert (Hin : In s (slices b)). { apply (filter_In (inside mn mx)). rewrite EF. left; auto. }
    assert (Hi : inside mn mx s = true). { apply (filter_In (inside mn mx) s (slices b)). rewrite EF. left; auto. }
    destruct (Hall s) as [Ks Fs]; [left; auto|].
    destruct (slice_le _ _ _ _ _ D1 Hin) as [Sle Sn].
    destruct (one_run b s (s_min s) M C Ks Fs) as (p & E & PA & CA & Q); [split; cbn [range_of fst snd]; lia|]. rewrite E. cbn [bind].
    destruct Q as [(Q1 & Q2 & QI & Q3)|(Q1 & Q2 & Q3)].
    + rewrite Q1. set (b1 := rp_db p) in *. pose proof (path_end _ _ _ _ PA) as M1.
      destruct (mid_map b1 M1) as (R2 & H2 & D2). pose proof (mi_map _ _ (dinv_map _ _ _ _ D2)) as G2.
      destruct (proj1 (layout_slices _) (gm_layout _ _ G)) as [SS SF].
      destruct (proj1 (layout_slices _) (gm_layout _ _ G2)) as [SS2 SF2].
      destruct (inside_next (slices b) mn mx s l SS SF EF) as [N1 N2].
      assert (Hsame : forall t, s_min t <> s_min s -> (In t (slices b1) <-> In t (slices b))) by apply Q2.
      assert (Hmax : forall t, In t (slices b1) -> s_min t = s_min s -> s_max t = s_max s).
      { intros t Ht Em. assert (X : In (range_of t) (places b)) by (apply QI; unfold places, ranges; apply in_map; auto).
        unfold places, ranges in X. apply in_map_iff in X as (u & Eu & Hu). injection Eu as E1 E2.
        assert (u = s) by (apply (min_unique lo (en_map (db_en b))); auto; congruence). subst u. auto. }
      assert (EF1 : filter (inside (s_max s + 1) mx) (slices b1) = l).
      { rewrite <- N1. apply sorted_same; try apply sorted_filter; try apply Forall_filter; auto.
        intros t. rewrite !filter_In. split; intros [A B]; split; auto; apply Hsame; auto; unfold inside in B;
          apply andb_true_iff in B as [B _]; apply N.leb_le in B; lia. }
      assert (ES1 : existsb (straddles (s_max s + 1)) (slices b1) = false).
      { apply not_true_is_false. intros X. apply existsb_exists in X as (t & Ht & X).
        destruct (N.eq_dec (s_min t) (s_min s)) as [Em|Em].
        - apply Hmax in Ht; auto. unfold straddles in X. apply andb_true_iff in X as [_ X]. apply N.leb_le in X. lia.
        - apply Hsame in Ht; auto. assert (Y : existsb (straddles (s_max s + 1)) (slices b) = true) by (apply existsb_exists; eauto). congruence. }
      assert (Hmn' : (mn <= s_min s)%N). { unfold inside in Hi. apply andb_true_iff in Hi as [Hi _]. apply N.leb_le in Hi. auto. }
      assert (Hl : forall t, In t l -> s_min t <> s_min s).
      { intros t Ht. rewrite <- N1 in Ht. apply filter_In in Ht as [_ Ht]. unfold inside in Ht.
        apply andb_true_iff in Ht as [Ht _]. apply N.leb_le in Ht. lia. }
      destruct (IH b1 (s_max s + 1)%N M1 CA) as (q & l1 & l2 & EQ & PQ & CQ & SQ & DQ & KQ & OQ & TQ).
      * apply (next_window lo (en_map (db_en b)) mn mx s l G EF).
      * exact ES1.
      * rewrite EF1. cbn [length] in Hlen. lia.
      * intros t Ht. rewrite EF1 in Ht. destruct (Hall t) as [K1 K2]; [right; auto|]. split; auto.
        eapply kept_frame; eauto.
      * rewrite EQ. cbn [bind]. eexists _, (s :: l1), l2. split; [reflexivity|]. cbn [rp_acts rp_db rp_end].
        split; [eapply path_app; eauto|]. split; auto. split; [cbn [app]; f_equal; rewrite <- EF1; auto|].
        split.
        { intros t [<-|Ht]; auto. apply OQ; auto. lia. }
        split.
        { intros t Kt Hn. apply KQ; [|intros X; apply Hn; right; auto]. eapply kept_frame; eauto. intros Em. apply Hn. left.
          apply (min_unique lo (en_map (db_en b))); auto. apply Kt. }
        split; auto. intros t Ht Pt. apply OQ; [lia|]. eapply post_frame; eauto. lia.
    + exists p, [], (s :: l). split; [destruct (rp_end p); congruence|]. split; auto. split; auto. split; auto.
      split; [intros t []|]. rewrite Q2. split; auto. split; auto. right. exists s, l. auto.
Qed.

Lemma range_run b mn mx : b = b0 -> dinv lo R b H -> window lo mn -> (forall s, In s (visited b mn mx) -> fits s) ->
  exists p l1 l2, order_range one b mn mx = Ok p /\ path (mid lo R H b0) b (rp_acts p) (rp_db p) /\ calls b0 (rp_db p) /\
    visited b mn mx = l1 ++ l2 /\
    (forall s, In s l1 -> post s (rp_db p)) /\
    (forall s, In s (slices b) -> ~ In s l1 -> kept b0 s (rp_db p)) /\
    (l2 = [] /\ rp_end p = Done \/ exists s l3, l2 = s :: l3 /\ rp_end p <> Done /\ halt s (rp_end p)).
Proof.
  intros -> D Hmn Hall. pose proof (mid_start _ _ _ _ D) as M. pose proof (calls_start b0) as C. unfold visited in *. unfold order_range.
  fold (slices b0). assert (Hmn' : (lo <= mn <= lo + 2^31)%N) by (unfold window in Hmn; lia).
  destruct (existsb (straddles mn) (slices b0)) eqn:Es.
  - exists (mk_report [] b0 Done), [], []. split.
    { cbn [order_loop]. destruct (foreach_spec part_new lo (en_map (db_en b0)) mn mx (mi_map _ _ (dinv_map _ _ _ _ D)) Hmn') as [(_ & ->)|(X & _)];
        [reflexivity|unfold slices in Es; congruence]. }
    cbn [rp_acts rp_db rp_end]. split; [constructor; auto|]. split; auto. split; auto. split; [intros s []|]. split; auto.
    intros s Hs _. apply kept_refl; auto.
  - destruct (loop_run mx (S (length (slices b0))) b0 mn M C Hmn' Es) as (p & l1 & l2 & E & PA & CA & SA & DA & KA & _ & TA).
    + enough (length (filter (inside mn mx) (slices b0)) <= length (slices b0)) by lia. apply filter_length_le.
    + intros s Hs. split; [apply kept_refl; apply filter_In in Hs; tauto|]. auto.
    + exists p, l1, l2. split; auto. split; auto. split; auto. split; auto. split; auto. split; auto. intros s Hs Hn. apply KA; auto. apply kept_refl; auto.
Qed.
End LOOP.
