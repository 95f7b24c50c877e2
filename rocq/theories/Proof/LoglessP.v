(* Every step of a history with and without the log keeps the invariant. *)
From Coq Require Import NArith ZArith List Bool Sorted Lia Arith Permutation.
Import ListNotations.
From Verif Require Import Model.Base Model.Event Model.Rbtree Model.Memtable Model.Mapping Model.Merge
  Model.PartIter Model.Scan Model.Writer Model.Codec Model.Engine Spec.Order Spec.Merged Spec.Files Spec.Layout
  Spec.Regions Spec.View Spec.Engine Proof.OrderL Proof.RbtreeL Proof.MemtableL Proof.MemtableL2 Proof.MergeL
  Proof.MappingL Proof.MappingP Proof.MappingX Proof.ScanL Proof.EngineL Proof.EngineW Proof.EngineR Proof.CrashW
  Proof.CrashH Proof.DirL Proof.CrashD Proof.CrashP Proof.DropsL Proof.DropsR Proof.DropsP Proof.LoglessL.
From Verif Require Import Model.Crash Model.Logless Spec.Crash Spec.Drops Spec.Logless.
Local Arguments N.pow : simpl never.
Local Arguments N.add : simpl never.
Local Arguments N.sub : simpl never.
Implicit Types (s t : slice part) (m : mapping part) (H : hist) (d : dir) (r : range) (L : list lrec).

(* the history with marks *)
Definition mhist : Type := list ((N * event) * mark).
Implicit Types HM : mhist.
Definition evs HM : marked := map (fun y => (snd (fst y), snd y)) HM.
Definition mok (b : db) (x : N * event) (k : mark) : Prop :=
  match k with
  | Memory => True
  | Going => exists s j, In s (mapping_list (en_map (db_en b))) /\ in_range (ev_id (snd x)) (range_of s) /\
      job_of (db_jobs b) (s_min s) = Some j /\
      (fst x < (if (jb_stage j <=? 2)%nat then cut (s_data s) else base (s_data s)))%N
  | Safe => stored (db_dir b) x
  end.
Record winv (lo : N) (w : wdb) L HM : Prop := {
  wv_b : binv lo (with_log (w_db w) L) (map fst HM);
  wv_L : w_wal w = true -> L = db_log (w_db w);
  wv_m : forall x k, In (x, k) HM -> mok (w_db w) x k
}.

Definition hshift r (a c : mark) HM : mhist :=
  map (fun y => if (inb r (ev_id (snd (fst y))) && markb (snd y) a)%bool then (fst y, c) else y) HM.
Lemma hshift_fst r a c HM : map fst (hshift r a c HM) = map fst HM.
Proof. unfold hshift. rewrite map_map. apply map_ext. intros [x k]. destruct (_ && _)%bool; auto. Qed.
Lemma hshift_evs r a c HM : evs (hshift r a c HM) = shift r a c (evs HM).
Proof.
  unfold evs, hshift, shift. rewrite !map_map. apply map_ext. intros [x k]. cbn [fst snd].
  destruct (_ && _)%bool; auto.
Qed.
Lemma markb_eq a c : markb a c = true <-> a = c.
Proof. destruct a, c; cbn; split; congruence. Qed.
Lemma hshift_in r a c HM x k : In (x, k) (hshift r a c HM) ->
  (In (x, k) HM /\ ~ (in_range (ev_id (snd x)) r /\ k = a)) \/ (In (x, a) HM /\ in_range (ev_id (snd x)) r /\ k = c).
Proof.
  intros Hin. apply in_map_iff in Hin as ([y q] & E & Hy). cbn [fst snd] in E.
  destruct (inb r (ev_id (snd y)) && markb q a)%bool eqn:Eb.
  - inversion E; subst. apply andb_true_iff in Eb as [E1 E2]. apply markb_eq in E2. subst. right. split; auto. split; auto.
    apply inb_in; auto.
  - inversion E; subst. left. split; auto. intros [X1 X2]. subst. apply inb_in in X1. rewrite X1 in Eb.
    rewrite (proj2 (markb_eq a a) eq_refl) in Eb. discriminate.
Qed.

Lemma log_self b : with_log b (db_log b) = b.
Proof. destruct b; reflexivity. Qed.

(* writes and new partitions *)
Lemma mok_mlike b b' x k : mlike (en_map (db_en b)) (en_map (db_en b')) -> db_jobs b' = db_jobs b -> db_dir b' = db_dir b ->
  mok b x k -> mok b' x k.
Proof.
  intros ML EJ ED. destruct k; cbn [mok]; auto; [|rewrite ED; auto]. intros (s & j & Hs & Hr & Hj & Hx).
  destruct (ml_old _ _ ML s Hs) as (q & Hq & (Q1 & Q2 & Q3)). exists (mk_slice (s_min s) (s_max s) q), j.
  split; auto. split; auto. rewrite EJ. split; auto. cbn [s_data]. unfold cut, base in *. rewrite Q1, Q2, Q3. auto.
Qed.

Lemma more_nil {A B} (f : A -> B) (H X : list A) : map f (H ++ X) = map f H -> X = [].
Proof.
  intros E. apply (f_equal (@length B)) in E. rewrite !map_length, app_length in E. destruct X; auto. simpl in E. lia.
Qed.
Lemma fst_new X : map fst (map (fun x : N * event => (x, Memory)) X) = X.
Proof. rewrite map_map. apply map_id. Qed.
Lemma evs_new X : evs (map (fun x : N * event => (x, Memory)) X) = map (fun e => (e, Memory)) (map snd X).
Proof. unfold evs. rewrite !map_map. auto. Qed.
Lemma evs_app HM HM' : evs (HM ++ HM') = evs HM ++ evs HM'.
Proof. apply map_app. Qed.

(* jobs of other partitions *)
Lemma others_mok b b' ref x s j : 
  (forall t, In t (mapping_list (en_map (db_en b))) -> s_min t <> ref -> In t (mapping_list (en_map (db_en b')))) ->
  (forall mn, mn <> ref -> job_of (db_jobs b') mn = job_of (db_jobs b) mn) ->
  In s (mapping_list (en_map (db_en b))) -> in_range (ev_id (snd x)) (range_of s) -> s_min s <> ref ->
  job_of (db_jobs b) (s_min s) = Some j ->
  (fst x < (if (jb_stage j <=? 2)%nat then cut (s_data s) else base (s_data s)))%N -> mok b' x Going.
Proof. intros HM HJ Hs Hr Hn Hj Hx. exists s, j. rewrite HJ by auto. auto. Qed.

Definition started (o : wop) : bool := match o with WStart _ _ => true | _ => false end.
Definition step_ok (lo : N) (w : wdb) (o : wop) HM : Prop :=
  match wstep w o with
  | Ok w' => exists L' HM', winv lo w' L' HM' /\ wnext w o w' (evs HM) (evs HM')
  | Err => started o = false
  | UB => False
  end.

Lemma write_ok lo w L HM l : winv lo w L HM -> wop_fine lo w (WWrite l) -> step_ok lo w (WWrite l) HM.
Proof.
  intros [B HL MK] Hf. unfold step_ok. cbn [wop_fine as_cop] in Hf. set (b := w_db w) in *.
  pose proof (cstep_app lo (with_log b L) (map fst HM) (CWrite l true) B Hf) as X. cbn [cstep cack_step] in X.
  cbn [with_log db_en db_log] in X. destruct Hf as [BF HLn].
  pose proof (bi_map _ _ _ B) as I. pose proof (bi_iv _ _ _ B) as Hiv. cbn [with_log db_en] in I, Hiv.
  destruct (write_grown lo (db_en b) l true I Hiv BF) as [(m & EW & _ & I' & G)|(m & ssn & EW & I' & G)];
    rewrite EW in X; cbn [bind] in X.
  - destruct X as (H' & B' & E & (Y & EY)). subst H'. rewrite map_app in E. apply app_inv_head in E.
    set (new := assigned (en_serial (db_en b)) (en_ssn (db_en b)) l) in *.
    set (HM' := HM ++ map (fun x => (x, Memory)) Y).
    assert (EM : map fst HM' = map fst HM ++ Y) by (unfold HM'; rewrite map_app, fst_new; auto).
    assert (EV : evs HM' = evs HM ++ map (fun e => (e, Memory)) new) by (unfold HM'; rewrite evs_app, evs_new, E; auto).
    set (en := mk_engine m _ _ _ _ _ _) in *.
    assert (MK' : forall b', db_en b' = en -> db_jobs b' = db_jobs b -> db_dir b' = db_dir b ->
      forall x k, In (x, k) HM' -> mok b' x k).
    { intros b' E1 E2 E3 x k Hx. apply in_app_iff in Hx as [Hx|Hx].
      - apply (mok_mlike b); auto. rewrite E1. eapply grown_mlike; eauto.
      - apply in_map_iff in Hx as (y & Ey & _). inversion Ey; subst. exact Logic.I. }
    unfold wstep. fold b. destruct (w_wal w) eqn:Ew.
    + cbn [as_cop cstep]. rewrite EW. cbn [bind]. exists (db_log b ++ [write_rec b new]), HM'. split.
      * specialize (HL eq_refl). constructor; cbn [w_db w_wal with_log db_log].
        -- rewrite EM. rewrite HL in B'. exact B'.
        -- auto.
        -- apply MK'; auto.
      * cbn [wnext]. fold b. rewrite EW. auto.
    + rewrite EW. cbn [bind fst]. exists (L ++ [write_rec b new]), HM'. split.
      * constructor; cbn [w_db w_wal].
        -- rewrite EM. exact B'.
        -- discriminate.
        -- apply MK'; auto.
      * cbn [wnext]. fold b. rewrite EW. auto.
  - destruct X as (H' & B' & E & (Y & EY)). subst H'. apply more_nil in E. subst Y. rewrite app_nil_r in B'.
    set (en := mk_engine m _ _ _ _ _ _) in *.
    assert (W' : winv lo (mk_wdb (with_en b en) (w_wal w)) L HM).
    { constructor; cbn [w_db w_wal]; auto. intros x k Hx. apply (mok_mlike b); auto. eapply ext_mlike; eauto. }
    unfold wstep. fold b. destruct (w_wal w) eqn:Ew; cbn [as_cop cstep]; rewrite EW; cbn [bind fst];
      exists L, HM; (split; [exact W'|cbn [wnext]; fold b; rewrite EW; auto]).
Qed.

Lemma wstep_same w o : match o with WBegin _ _ | WStep _ | WFail _ | WCreate _ _ | WInterval _ => True | _ => False end ->
  wstep w o = match cstep (w_db w) (as_cop o) with Ok b => Ok (mk_wdb b (w_wal w)) | Err => Err | UB => UB end.
Proof.
  intros Ho. unfold wstep. destruct o; try contradiction; destruct (w_wal w); destruct (cstep _ _); auto.
Qed.

Lemma begin_ok lo w L HM id to : winv lo w L HM -> wop_fine lo w (WBegin id to) -> step_ok lo w (WBegin id to) HM.
Proof.
  intros [B HL MK] Hf. unfold step_ok. rewrite wstep_same by exact Logic.I. cbn [as_cop cstep].
  cbn [wop_fine as_cop] in Hf. set (b := w_db w) in *.
  pose proof (begin_binv lo (with_log b L) (map fst HM) id to B Hf) as X. rewrite begin_log in X.
  destruct (db_begin b id to) as [b'| |] eqn:E; cbn [on_log] in X; auto.
  destruct (begin_keeps b id to b' E) as (E1 & _ & _).
  pose proof E as E0. unfold db_begin in E. destruct (part_slice (en_map (db_en b)) id) as [s|] eqn:Es; [|discriminate].
  destruct (existsb _ _) eqn:Ex; [discriminate|].
  destruct (match to with Some st => (st =? db_home b (s_min s))%N | None => false end).
  - inversion E; subst b'. exists L, HM. split; [constructor; cbn [w_db w_wal]; auto|].
    cbn [wnext w_db]. fold b. rewrite Nat.eqb_refl. auto.
  - pose proof (bi_map _ _ _ B) as I. cbn [with_log db_en] in I.
    destruct Hf as (Hid & Hto & Hfine). cbn [with_log db_en db_jobs] in Hfine.
    pose proof (part_slice_spec lo (en_map (db_en b)) id (mi_map _ _ I)) as PS. rewrite Es in PS. destruct PS as [Hs Hr].
    destruct (begin_spec lo (db_en b) id I Hid) as [(_ & Hn)|(s' & Hs' & Hr' & EB & I' & _)].
    { exfalso. apply Hn. apply covered_slice. eauto. }
    assert (s' = s) by (apply (layout_unique (mapping_list (en_map (db_en b))) s' s id); auto; exact (gm_layout _ _ (mi_map _ _ I))).
    subst s'. rewrite EB in E. cbn [bind] in E. inversion E; subst b'. clear E.
    set (q := part_memtable_rotate (s_data s)) in *.
    assert (NJ : job_of (db_jobs b) (s_min s) = None).
    { apply job_none. intros j Hj Ej. assert (Y : existsb (fun j => (jb_ref j =? s_min s)%N) (db_jobs b) = true).
      { apply existsb_exists. exists j. split; auto. apply N.eqb_eq; auto. } congruence. }
    assert (HP : mt_events (pt_prev (s_data s)) = []).
    { destruct (Hfine s Hs Hr) as [(j & Hj & Ej)|[HP _]]; auto. exfalso.
      pose proof (job_in (db_jobs b) j (proj1 (bi_jobs _ _ _ B)) Hj) as Y. rewrite Ej in Y. congruence. }
    assert (PI : forall t, In t (mapping_list (ref_put (en_map (db_en b)) (s_min s) q)) <->
       t = mk_slice (s_min s) (s_max s) q \/ (In t (mapping_list (en_map (db_en b))) /\ t <> s)).
    { intros t. apply (put_in lo); auto. apply (mi_map _ _ I). }
    pose proof (mi_parts _ _ I) as FP. rewrite Forall_forall in FP.
    exists L, (hshift (range_of s) Memory Going HM). split.
    + constructor; cbn [w_db w_wal].
      * rewrite hshift_fst. exact X.
      * rewrite E1. auto.
      * intros x k Hx. apply hshift_in in Hx as [[Hx Hn]|(Hx & Hr2 & ->)].
        -- specialize (MK x k Hx). destruct k; cbn [mok] in *; auto.
           destruct MK as (t & j & Ht & Hrt & Hj & Hlt). apply (others_mok b _ (s_min s) x t j); auto.
           ++ intros u Hu Hnu. cbn [with_jobs with_en with_map db_en en_map]. apply PI. right. split; auto. congruence.
           ++ intros mn Hmn. cbn [with_jobs db_jobs]. unfold job_of. cbn [find jb_ref]. destruct (N.eqb_spec (s_min s) mn); congruence.
           ++ congruence.
        -- exists (mk_slice (s_min s) (s_max s) q), (mk_job (s_min s) (db_home b (s_min s)) (match to with Some st => st | None => db_home b (s_min s) end) 0).
           cbn [with_jobs with_en with_map db_en en_map db_jobs s_min s_data jb_stage Nat.leb].
           split; [apply PI; auto|]. split; [exact Hr2|]. split.
           ++ unfold job_of. cbn [find jb_ref]. rewrite N.eqb_refl. auto.
           ++ apply (rotate_cut lo (map fst HM) (en_lsn (db_en b)) s); auto.
              ** apply (bi_srel _ _ _ B s Hs).
              ** apply in_map_iff. exists (x, Memory). auto.
    + cbn [wnext w_db]. fold b. cbn [with_jobs db_jobs length]. rewrite (proj2 (Nat.eqb_neq _ _)) by lia.
      rewrite Es. cbn [shift_at]. apply hshift_evs.
Qed.

Lemma of_min_spec lo b s : good_map lo (en_map (db_en b)) -> In s (mapping_list (en_map (db_en b))) -> of_min b (s_min s) = Some s.
Proof.
  intros G Hs. unfold of_min. destruct (find _ _) as [u|] eqn:Ef.
  - apply find_some in Ef as [E1 E2]. apply N.eqb_eq in E2. f_equal. apply (min_unique lo (en_map (db_en b))); auto.
  - eapply find_none in Ef; eauto. rewrite N.eqb_refl in Ef. discriminate.
Qed.

Lemma step_step lo w L HM ref : winv lo w L HM -> wop_fine lo w (WStep ref) -> step_ok lo w (WStep ref) HM.
Proof.
  intros [B HL MK] Hf. unfold step_ok. rewrite wstep_same by exact Logic.I. cbn [as_cop cstep].
  cbn [wop_fine as_cop] in Hf. set (b := w_db w) in *.
  pose proof (step_binv lo (with_log b L) (map fst HM) ref B Hf) as X. 
  pose proof (step_log b L ref) as ESL. rewrite ESL in X.
  destruct (db_step b ref) as [b'| |] eqn:E; cbn [on_log] in X, ESL; auto.
  destruct (step_keeps b ref b' E) as (E1 & _ & _).
  destruct (step_shape lo _ _ ref _ B Hf ESL) as (s & j & p & Hs & Em & Ej & L5 & EJ & EM & P2 & Pn & DO & _).
  cbn [with_log db_en db_jobs db_dir] in *.
  assert (ST : forall x, stored (db_dir b) x -> stored (db_dir b') x).
  { intros x Hx. exact (step_stored lo _ _ ref _ x B Hf ESL Hx). }
  pose proof (bi_map _ _ _ B) as I. cbn [with_log db_en] in I. pose proof (mi_map _ _ I) as G.
  assert (PI : forall t, In t (mapping_list (en_map (db_en b'))) <->
     t = mk_slice (s_min s) (s_max s) p \/ (In t (mapping_list (en_map (db_en b))) /\ t <> s)).
  { intros t. rewrite EM, <- Em. apply (put_in lo); auto. }
  assert (JO : forall mn, mn <> ref -> job_of (db_jobs b') mn = job_of (db_jobs b) mn).
  { intros mn Hn. assert (Y : job_of (others (db_jobs b) ref) mn = job_of (db_jobs b) mn).
    { rewrite job_others. destruct (N.eqb_spec mn ref); congruence. }
    rewrite EJ. destruct (jb_stage j <=? 4)%nat; auto. unfold job_of at 1. cbn [find job_next jb_ref].
    rewrite (proj2 (job_some _ _ _ Ej)). destruct (N.eqb_spec ref mn); [congruence|]. exact Y. }
  assert (BU : busy b' ref = (jb_stage j <=? 4)%nat).
  { assert (Y : existsb (fun j => (jb_ref j =? ref)%N) (others (db_jobs b) ref) = false).
    { destruct (existsb _ _) eqn:Ex; auto. apply existsb_exists in Ex as (j' & Hj' & Ej'). apply filter_In in Hj' as [_ Hj'].
      rewrite Ej' in Hj'. discriminate. }
    unfold busy. rewrite EJ. destruct (jb_stage j <=? 4)%nat; auto. cbn [existsb job_next jb_ref].
    rewrite (proj2 (job_some _ _ _ Ej)), N.eqb_refl. auto. }
  assert (OT : forall x, mok b x Going -> ~ in_range (ev_id (snd x)) (range_of s) -> mok b' x Going).
  { intros x (t & jt & Ht & Hrt & Hj & Hlt) Hn. apply (others_mok b b' ref x t jt); auto.
    - intros u Hu Hnu. apply PI. right. split; auto. congruence.
    - intros Et. apply Hn. rewrite <- (min_unique lo (en_map (db_en b)) t s); auto. congruence. }
  assert (SM : forall x, mok b x Going -> in_range (ev_id (snd x)) (range_of s) ->
     (fst x < (if (jb_stage j <=? 2)%nat then cut (s_data s) else base (s_data s)))%N).
  { intros x (t & jt & Ht & Hrt & Hj & Hlt) Hr.
    assert (t = s) by (apply (layout_unique (mapping_list (en_map (db_en b))) t s (ev_id (snd x))); auto; exact (gm_layout _ _ G)).
    subst t. rewrite Em, Ej in Hj. inversion Hj; subst jt. auto. }
  destruct (jb_stage j <=? 4)%nat eqn:E4.
  - (* it goes on *)
    exists L, HM. split.
    + constructor; cbn [w_db w_wal]; auto; [rewrite E1; auto|].
      intros x k Hx. specialize (MK x k Hx). destruct k; cbn [mok] in MK |- *; auto.
      destruct (inb (range_of s) (ev_id (snd x))) eqn:Ei.
      * apply inb_in in Ei. pose proof (SM x MK Ei) as Hlt.
        exists (mk_slice (s_min s) (s_max s) p), (job_next j). split; [apply PI; auto|]. split; [exact Ei|]. split.
        -- cbn [s_min]. rewrite Em, EJ. apply (job_list (db_jobs b) j true). apply (job_some _ _ _ Ej).
        -- cbn [job_next jb_stage s_data]. destruct (Nat.eq_dec (jb_stage j) 2) as [E2|N2].
           ++ rewrite E2 in *. cbn [Nat.leb] in *. rewrite P2 by auto. auto.
           ++ rewrite (Pn N2). destruct (Nat.leb_spec (jb_stage j) 2), (Nat.leb_spec (S (jb_stage j)) 2); auto; lia.
      * apply OT; auto. intros Hr. apply inb_in in Hr. congruence.
    + cbn [wnext w_db]. fold b. rewrite BU. auto.
  - (* it ends *)
    apply Nat.leb_gt in E4. assert (E5 : jb_stage j = 5) by lia.
    exists L, (hshift (range_of s) Going Safe HM). split.
    + constructor; cbn [w_db w_wal]; [rewrite hshift_fst; auto|rewrite E1; auto|].
      intros x k Hx. apply hshift_in in Hx as [[Hx Hn]|(Hx & Hr & ->)].
      * specialize (MK x k Hx). destruct k; cbn [mok] in MK |- *; auto. apply OT; auto.
      * specialize (MK x Going Hx). pose proof (SM x MK Hr) as Hlt. rewrite E5 in Hlt. cbn [Nat.leb] in Hlt.
        cbn [mok]. apply (base_stored lo _ _ (mk_slice (s_min s) (s_max s) p) x X).
        -- cbn [with_log db_en]. apply PI; auto.
        -- exact Hr.
        -- cbn [with_log db_jobs s_min]. rewrite EJ, Em, job_others, N.eqb_refl. auto.
        -- cbn [s_data]. rewrite Pn by lia. auto.
    + cbn [wnext w_db]. fold b. rewrite BU. rewrite <- Em. rewrite (of_min_spec lo) by auto. apply hshift_evs.
Qed.

Lemma fail_ok lo w L HM ref : winv lo w L HM -> wop_fine lo w (WFail ref) -> step_ok lo w (WFail ref) HM.
Proof.
  intros [B HL MK] Hf. unfold step_ok. rewrite wstep_same by exact Logic.I. cbn [as_cop cstep].
  cbn [wop_fine as_cop] in Hf. set (b := w_db w) in *.
  pose proof (fail_binv lo (with_log b L) (map fst HM) ref B Hf) as X.
  pose proof (bi_map _ _ _ B) as I. cbn [with_log db_en] in I. pose proof (mi_map _ _ I) as G.
  fold (others (db_jobs b) ref). set (b' := with_jobs b (others (db_jobs b) ref)).
  assert (OT : forall x, mok b x Going -> (forall s, In s (mapping_list (en_map (db_en b))) -> s_min s = ref ->
     ~ in_range (ev_id (snd x)) (range_of s)) -> mok b' x Going).
  { intros x (t & jt & Ht & Hrt & Hj & Hlt) Hn. apply (others_mok b b' ref x t jt); auto.
    - intros mn Hmn. unfold b'. cbn [with_jobs db_jobs]. rewrite job_others. destruct (N.eqb_spec mn ref); congruence.
    - intros Et. eapply Hn; eauto. }
  cbn [wnext]. fold b. destruct (of_min b ref) as [s|] eqn:Es; cbn [shift_at].
  - exists L, (hshift (range_of s) Going Memory HM). split; [|apply hshift_evs].
    assert (Hs : In s (mapping_list (en_map (db_en b))) /\ s_min s = ref).
    { unfold of_min in Es. apply find_some in Es as [A1 A2]. apply N.eqb_eq in A2. auto. }
    destruct Hs as [Hs Em]. constructor; cbn [w_db w_wal]; auto; [rewrite hshift_fst; exact X|].
    intros x k Hx. apply hshift_in in Hx as [[Hx Hn]|(Hx & Hr & ->)]; [|exact Logic.I].
    specialize (MK x k Hx). destruct k; cbn [mok] in MK |- *; auto. apply OT; auto.
    intros t Ht Et Hr. apply Hn. split; auto. rewrite <- (min_unique lo (en_map (db_en b)) t s); auto. congruence.
  - exists L, HM. split; auto. constructor; cbn [w_db w_wal]; auto.
    intros x k Hx. specialize (MK x k Hx). destruct k; cbn [mok] in MK |- *; auto. apply OT; auto.
    intros t Ht Et. exfalso. unfold of_min in Es. eapply find_none in Es; eauto. cbn beta in Es. apply N.eqb_neq in Es. auto.
Qed.

Lemma create_ok lo w L HM mn mx : winv lo w L HM -> wop_fine lo w (WCreate mn mx) -> step_ok lo w (WCreate mn mx) HM.
Proof.
  intros [B HL MK] Hf. unfold step_ok. rewrite wstep_same by exact Logic.I. cbn [as_cop].
  cbn [wop_fine as_cop] in Hf. set (b := w_db w) in *.
  pose proof (cstep_app lo (with_log b L) (map fst HM) (CCreate mn mx) B Hf) as X. cbn [cstep cack_step] in X |- *.
  cbn [with_log db_en] in X. pose proof (bi_map _ _ _ B) as I. cbn [with_log db_en] in I.
  destruct (engine_fill part_new (en_map (db_en b)) mn mx) as [m| |] eqn:EF; cbn [bind] in *; auto.
  destruct X as (H' & B' & E & (Y & ->)). apply more_nil in E. subst Y. rewrite app_nil_r in B'.
  exists L, HM. split; [|reflexivity]. constructor; cbn [w_db w_wal]; auto.
  intros x k Hx. apply (mok_mlike b); auto. cbn [with_en with_map db_en en_map].
  destruct (N.ltb_spec mx mn) as [Lt|Ge]; [unfold engine_fill in EF; rewrite (proj2 (N.ltb_lt _ _) Lt) in EF; discriminate|].
  destruct (fill_spec part_new lo (en_map (db_en b)) mn mx (mi_map _ _ I) (Hf Ge) Ge) as (m' & new & EF' & G' & HP & _).
  rewrite EF in EF'. inversion EF'; subst m'. apply (ext_mlike lo); auto; [eapply perm_inv; eauto|eapply perm_ext; eauto].
Qed.

Lemma interval_ok lo w L HM n : winv lo w L HM -> wop_fine lo w (WInterval n) -> step_ok lo w (WInterval n) HM.
Proof.
  intros [B HL MK] Hf. unfold step_ok. rewrite wstep_same by exact Logic.I. cbn [as_cop].
  cbn [wop_fine as_cop] in Hf. set (b := w_db w) in *.
  pose proof (cstep_app lo (with_log b L) (map fst HM) (CInterval n) B Hf) as X. cbn [cstep cack_step] in X |- *.
  destruct X as (H' & B' & E & (Y & ->)). apply more_nil in E. subst Y. rewrite app_nil_r in B'.
  exists L, HM. split; [|reflexivity]. constructor; cbn [w_db w_wal]; auto.
Qed.

Lemma gc_ok lo w L HM k : winv lo w L HM -> wop_fine lo w (WGc k) -> step_ok lo w (WGc k) HM.
Proof.
  intros WI Hf. pose proof WI as [B HL MK]. unfold step_ok, wstep. cbn [wop_fine as_cop] in Hf. destruct (w_wal w) eqn:Ew.
  - specialize (HL eq_refl). subst L. rewrite log_self in B. cbn [as_cop cstep].
    pose proof (gc_binv lo (w_db w) (map fst HM) k B Hf) as X. destruct (db_gc (w_db w) k) as [b'| |] eqn:E; cbn [bind]; auto.
    exists (db_log b'), HM. split; [|reflexivity]. constructor; cbn [w_db w_wal]; auto; [rewrite log_self; auto|].
    unfold db_gc in E. destruct (forallb _ _); [|discriminate]. inversion E; subst b'. exact MK.
  - cbn [bind]. exists L, HM. split; [|reflexivity]. destruct w as [b wal]. cbn [w_db w_wal] in *. subst wal. auto.
Qed.

Lemma hout_fst r HM : map fst (filter (fun y => offr r (ev_id (snd (fst y)))) HM) = hout (offr r) (map fst HM).
Proof.
  unfold hout. induction HM as [|y HM IH]; auto. cbn [map filter]. destruct (offr r (ev_id (snd (fst y)))); cbn [map]; rewrite IH; auto.
Qed.
Lemma hout_evs r HM : evs (filter (fun y => offr r (ev_id (snd (fst y)))) HM) =
  filter (fun x => negb (inb r (ev_id (fst x)))) (evs HM).
Proof.
  unfold evs. induction HM as [|y HM IH]; auto. cbn [map filter]. unfold offr at 1. cbn [fst].
  destruct (negb (inb r (ev_id (snd (fst y))))); cbn [map]; rewrite IH; auto.
Qed.

Lemma drop_ok lo w L HM id : winv lo w L HM -> wop_fine lo w (WDrop id) -> step_ok lo w (WDrop id) HM.
Proof.
  intros WI (Ew & Hid & HLo). pose proof WI as [B HL MK]. unfold step_ok, wstep. rewrite Ew. set (b := w_db w) in *.
  destruct (existsb _ (db_jobs b)) eqn:Ex; [reflexivity|]. unfold drop_nolog. cbn [wnext]. fold b.
  pose proof (bi_map _ _ _ B) as I. cbn [with_log db_en] in I. pose proof (mi_map _ _ I) as G.
  pose proof (part_slice_spec lo (en_map (db_en b)) id G) as PS.
  destruct (part_slice (en_map (db_en b)) id) as [s|] eqn:Es.
  - destruct PS as [Hs Hr].
    destruct (drop_list lo (db_en b) id s I Hid Hs Hr) as (m & -> & I' & HMm). cbn [bind].
    assert (HJ : job_of (db_jobs b) (s_min s) = None).
    { apply job_none. intros j Hj Ej. assert (Y : existsb (fun j => (jb_ref j =? s_min s)%N) (db_jobs b) = true).
      { apply existsb_exists. exists j. split; auto. apply N.eqb_eq; auto. } congruence. }
    exists (live [range_of s] L), (filter (fun y => offr (range_of s) (ev_id (snd (fst y)))) HM). split; [|apply hout_evs].
    assert (LW : writes L) by apply (bi_log _ _ _ B).
    assert (LI : live [] L = L).
    { clear -LW. induction L as [|[n e|n i] L IH]; auto; inversion LW; subst; [|contradiction]. cbn [live]. rewrite IH by auto.
      rewrite filter_all; auto. }
    constructor; cbn [w_db w_wal].
    + rewrite hout_fst.
      apply (drop_binv_at lo (en_lsn (db_en b)) (with_log b L) (map fst HM) m s (live [range_of s] L)); auto.
      * cbn [with_log db_en]. lia.
      * exact (HLo s Hs Hr).
      * eapply live_writes. rewrite LI. auto.
      * rewrite drop_flat, LI. auto.
    + discriminate.
    + intros x k Hx. apply filter_In in Hx as [Hx Ho]. cbn [fst] in Ho. apply offr_in in Ho. specialize (MK x k Hx).
      destruct k; cbn [mok] in MK |- *; auto; cbn [db_en db_jobs db_dir with_map en_map].
      * destruct MK as (t & j & Ht & Hrt & Hj & Hlt). exists t, j. split; auto. apply HMm. split; auto. intros ->. auto.
      * destruct MK as (f & Sf & Hrf & Hle). exists f. split; auto.
        apply (surv_local (db_dir b)); auto. intros st. apply dget_set_other. intros E. inversion E as [[E1 E2]].
        apply Ho. rewrite <- (surv_range lo _ _ f s B Sf Hs (eq_sym E2)). auto.
  - cbn [bind]. exists L, HM. split; auto. destruct w as [b' wal]. cbn [w_db w_wal] in *. subst wal. auto.
Qed.

(* --- starts --- *)
Lemma pick_filter {A} (g : A -> bool) (l : list A) {B} (h : A -> B) : pick (map h l) (map g l) = map h (filter g l).
Proof. induction l as [|x l IH]; auto. cbn [map filter pick]. destruct (g x); cbn [map]; rewrite IH; auto. Qed.
Lemma sorted_nth H : hsorted H -> forall i j x y, i < j -> nth_error H i = Some x -> nth_error H j = Some y -> (fst x <= fst y)%N.
Proof.
  induction 1 as [|a H HS IH HF]; intros i j x y Hij Ei Ej; [destruct i; discriminate|].
  destruct j as [|j]; [lia|]. cbn [nth_error] in Ej. destruct i as [|i]; cbn [nth_error] in Ei.
  - inversion Ei; subst. rewrite Forall_forall in HF. apply HF. eapply nth_error_In; eauto.
  - apply (IH i j x y); auto. lia.
Qed.

Definition keep (sb : N * event -> bool) HM : mhist := map (fun y => (fst y, Safe)) (filter (fun y => sb (fst y)) HM).
Lemma keep_fst sb HM : map fst (keep sb HM) = filter sb (map fst HM).
Proof.
  unfold keep. rewrite map_map. cbn [fst]. induction HM as [|y HM IH]; auto. cbn [map filter fst]. destruct (sb (fst y)); cbn [map]; rewrite IH; auto.
Qed.
Lemma nth_evs HM i e k : nth_error (evs HM) i = Some (e, k) -> exists n, nth_error HM i = Some ((n, e), k).
Proof.
  unfold evs. rewrite nth_error_map. destruct (nth_error HM i) as [[[n e'] k']|]; cbn; [|discriminate].
  intros E; inversion E; subst. eauto.
Qed.

Lemma keep_next lo w L HM sb : winv lo w L HM -> (forall x, sb x = true <-> stored (db_dir (w_db w)) x) ->
  exists k, cut_fine (w_db w) (evs HM) k /\ evs (keep sb HM) = map (fun x => (fst x, Safe)) (pick (evs HM) k).
Proof.
  intros [B HL MK] SB. set (b := w_db w) in *. exists (map (fun y => sb (fst y)) HM). split; [split; [|split]|].
  - unfold evs. rewrite !map_length. auto.
  - intros i e E. apply nth_evs in E as (n & E). rewrite nth_error_map, E. cbn. f_equal. apply SB.
    apply (MK (n, e) Safe). eapply nth_error_In; eauto.
  - intros i j e e' c c' Hij Ei Ej (s & Hs & Hr & Hr') Kj. apply nth_evs in Ei as (n & Ei). apply nth_evs in Ej as (n' & Ej).
    rewrite nth_error_map, Ej in Kj. rewrite nth_error_map, Ei. cbn in *. f_equal. injection Kj as Kj'. apply SB in Kj'.
    destruct Kj' as (f & Sf & Hrf & Hle). cbn [snd fst] in *. apply SB. exists f. cbn [snd fst]. split; auto.
    destruct (bi_surv _ _ _ B _ _ Sf) as (g & Eg & _ & Hg & _). inversion Eg; subst g.
    apply in_map_iff in Hg as (u & Eu & Hu). cbn [with_log db_en] in Hu.
    assert (u = s).
    { apply (layout_unique (mapping_list (en_map (db_en b))) u s (ev_id e')); auto; [|rewrite Eu; auto].
      exact (gm_layout _ _ (mi_map _ _ (bi_map _ _ _ B))). }
    subst u. rewrite <- Eu. split; auto.
    assert (n <= n')%N; [|lia]. 
    apply (sorted_nth (map fst HM) (bi_sort _ _ _ B) i j (n, e) (n', e') Hij); rewrite nth_error_map, ?Ei, ?Ej; auto.
  - unfold evs at 2. rewrite pick_filter. unfold evs, keep. rewrite !map_map. auto.
Qed.

Lemma binv_stored lo b H : binv lo (with_log b []) H -> forall x, In x H -> stored (db_dir b) x.
Proof.
  intros B x Hx. destruct (bi_log _ _ _ B) as (_ & H0 & EH & ST). cbn [with_log db_log flat db_dir] in *.
  rewrite app_nil_r in EH. subst H0. auto.
Qed.

Lemma start_ok lo w L HM cuts wal : winv lo w L HM -> wop_fine lo w (WStart cuts wal) -> step_ok lo w (WStart cuts wal) HM.
Proof.
  intros WI Hf. pose proof WI as [B HL MK]. unfold step_ok. cbn [wstep wnext]. set (b := w_db w) in *.
  pose proof (binv_good _ _ _ B) as GD. cbn [with_log db_storages db_dir] in GD.
  destruct (interrupted_spec (db_storages b) (proj1 (bi_sto _ _ _ B)) cuts (db_dir b) GD) as (d1 & E1 & G1 & S1).
  rewrite E1. cbn [bind].
  pose proof (binv_disk lo _ _ [] B ltac:(constructor) hsorted_nil [] eq_refl ltac:(constructor)) as DK.
  rewrite !app_nil_r in DK. cbn [with_log db_storages db_dir db_log] in DK.
  assert (SS : forall x, stored d1 x <-> stored (db_dir b) x).
  { intros x. split; intros (f & A1 & A2); exists f; (split; [apply S1; auto|auto]). }
  pose proof (disk_surv lo (db_storages b) _ (db_dir b) d1 L DK G1 S1) as DK1.
  pose proof (bi_iv _ _ _ B) as Hiv. cbn [with_log db_en] in Hiv. pose proof (binv_lo _ _ _ B) as Hlo.
  destruct (w_wal w && wal)%bool eqn:Ew.
  - (* with the log *)
    apply andb_true_iff in Ew as [Ew ->]. specialize (HL Ew). subst L. cbn [wop_fine cop_fine] in Hf. fold b in Hf. rewrite E1 in Hf.
    destruct Hf as [_ Hf].
    destruct (start_stored lo (db_en b) (db_storages b) _ d1 (db_log b) DK1 (bi_sto _ _ _ B) Hlo Hiv Hf) as (b' & -> & B' & EL & ST).
    cbn [bind]. exists (db_log b), (map (fun y => (fst y, if markb (snd y) Going then Memory else snd y)) HM).
    split; [|unfold evs; rewrite !map_map; auto].
    constructor; cbn [w_db w_wal].
    + rewrite map_map. cbn [fst]. change (map (fun x => fst x) HM) with (map fst HM). rewrite <- EL, log_self. exact B'.
    + auto.
    + intros x k Hx. apply in_map_iff in Hx as ([y q] & E & Hy). cbn [fst snd] in E. inversion E; subst. specialize (MK x q Hy).
      destruct q; cbn [markb mok] in *; auto. apply ST, SS. auto.
  - destruct (stored_dec (db_storages b) (db_dir b) (proj1 (bi_sto _ _ _ B)) GD) as (sb & SB).
    assert (DK2 : disk lo (db_storages b) (filter sb (map fst HM)) d1 []).
    { apply (kept_disk lo _ _ d1 L); auto. intros x. rewrite SS. apply SB. }
    destruct (keep_next lo w L HM sb WI SB) as (k & CF & EK).
    destruct wal.
    + (* from now on with the log *)
      rewrite andb_true_r in Ew. cbn [wop_fine] in Hf. fold b in Hf. destruct Hf as [[X|X] _]; [congruence|]. rewrite X.
      destruct (start_stored lo (db_en b) (db_storages b) _ d1 [] DK2 (bi_sto _ _ _ B) Hlo Hiv) as (b' & -> & B' & EL & _).
      { destruct (engine_recover _ _ _) as [[en1 d2]| |]; cbn; auto. }
      cbn [bind]. exists [], (keep sb HM). split; [|eauto].
      assert (EL' : with_log b' [] = b') by (rewrite <- EL; apply log_self).
      constructor; cbn [w_db w_wal]; auto.
      * rewrite keep_fst, EL'. auto.
      * intros x q Hx. assert (q = Safe) by (apply in_map_iff in Hx as (y & Ey & _); inversion Ey; auto). subst q.
        cbn [mok]. apply (binv_stored lo b' (filter sb (map fst HM))); [rewrite EL'; auto|]. rewrite <- keep_fst.
        apply in_map_iff. exists (x, Safe). auto.
    + (* without *)
      unfold start_nolog.
      destruct (start_gen lo (db_en b) (db_storages b) _ d1 [] DK2 (bi_sto _ _ _ B) Hlo Hiv)
        as (en1 & d' & m1 & H0 & ER & EH & R1 & _ & _ & _ & _ & _ & _ & _ & _ & _ & K).
      rewrite ER. cbn [bind]. cbn [flat] in EH. rewrite app_nil_r in EH. subst H0.
      set (b' := mk_db _ _ _ _ _ _).
      assert (B' : binv lo (with_log b' []) (filter sb (map fst HM))).
      { unfold b'. cbn [with_log db_en db_storages db_home db_dir db_jobs].
        apply (K en1); auto; try constructor; destruct (en_serial en1); auto; apply (set_serial_fields en1). }
      exists [], (keep sb HM). split; [|eauto].
      constructor; cbn [w_db w_wal]; [rewrite keep_fst; auto|discriminate|].
      intros x q Hx. assert (q = Safe) by (apply in_map_iff in Hx as (y & Ey & _); inversion Ey; auto). subst q.
      cbn [mok]. apply (binv_stored lo b' (filter sb (map fst HM)) B'). rewrite <- keep_fst.
      apply in_map_iff. exists (x, Safe). auto.
Qed.

Lemma wstep_ok lo w L HM o : winv lo w L HM -> wop_fine lo w o -> step_ok lo w o HM.
Proof.
  destruct o; intros WI Hf.
  - eapply write_ok; eauto.
  - eapply begin_ok; eauto.
  - eapply step_step; eauto.
  - eapply fail_ok; eauto.
  - eapply gc_ok; eauto.
  - eapply drop_ok; eauto.
  - eapply create_ok; eauto.
  - eapply interval_ok; eauto.
  - eapply start_ok; eauto.
Qed.

Lemma wrun_ok lo : forall ops w L HM, winv lo w L HM -> whist_fine lo w ops ->
  exists w' L' HM', wrun w ops = Ok w' /\ winv lo w' L' HM' /\ wmoves w (evs HM) ops w' (evs HM').
Proof.
  induction ops as [|o ops IH]; intros w L HM WI Hf; cbn [wrun whist_fine] in *.
  - exists w, L, HM. split; auto. split; auto. constructor.
  - destruct Hf as [Hf Hr]. pose proof (wstep_ok lo w L HM o WI Hf) as X. unfold step_ok in X.
    destruct (wstep w o) as [w1| |] eqn:E; [| |contradiction].
    + destruct X as (L1 & HM1 & W1 & N1). destruct (IH w1 L1 HM1 W1 Hr) as (w' & L' & HM' & A1 & A2 & A3).
      exists w', L', HM'. split; auto. split; auto. econstructor; eauto.
    + destruct (IH w L HM WI Hr) as (w' & L' & HM' & A1 & A2 & A3). exists w', L', HM'. 
      split; [destruct o; auto; discriminate|]. split; auto. eapply wm_refused; eauto.
Qed.

Lemma winv_new lo wal storages iv serial page region : (lo + 2^31 <= u64_max)%N -> (0 < iv <= u64_max)%N ->
  storages_ok storages -> winv lo (wnew wal storages iv serial page region) [] [].
Proof.
  intros L1 L2 SO. constructor; cbn [w_db w_wal wnew].
  - apply (binv_new lo storages iv serial page region); auto.
  - auto.
  - intros x k [].
Qed.
