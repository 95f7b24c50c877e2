(* What a batch or a replayed record does to every partition; as in CrashW.v, with tables of any number of pages. *)
From Coq Require Import NArith ZArith List Bool Sorted Lia Arith Permutation.
Import ListNotations.
From Verif Require Import Model.Base Model.Event Model.Rbtree Model.Memtable Model.Mapping Model.Merge
  Model.PartIter Model.Scan Model.Codec Model.Engine Model.Crash Spec.Order Spec.Merged Spec.Files Spec.Layout
  Spec.View Spec.Engine Spec.Crash Spec.Refill Proof.OrderL Proof.RbtreeL Proof.MemtableL Proof.MemtableL2 Proof.MergeL
  Proof.MappingL Proof.MappingP Proof.ScanL Proof.EngineL Proof.EngineW.
From Verif Require Import Spec.Grow Proof.GrowL Proof.RefillB.
From Verif Require Import Model.Crash Spec.Crash Spec.Refill.
Local Arguments N.pow : simpl never.
Local Arguments N.add : simpl never.
Local Arguments N.sub : simpl never.
Local Arguments engine_lock : simpl never.
Local Arguments memtable_set : simpl never.
Implicit Types (s t : slice part) (m : mapping part).

(* the partition q of range r after these events, from p *)
Record gpart (skip : part -> bool) (r : range) (evs : list event) (p q : part) : Prop := {
  gp_prev : pt_prev q = pt_prev p;
  gp_file : pt_file q = pt_file p;
  gp_lsn : pt_lsn q = pt_lsn p;
  gp_min : mt_lsn_min (pt_mem q) = mt_lsn_min (pt_mem p);
  gp_max : mt_lsn_max (pt_mem q) = mt_lsn_max (pt_mem p);
  gp_look : forall k, in_range (ev_id k) r -> lookup (mt_events (pt_mem q)) k =
    if skip p then lookup (mt_events (pt_mem p)) k else over evs (lookup (mt_events (pt_mem p))) k
}.
Definition skip_ext (skip : part -> bool) : Prop :=
  forall p q, pt_file p = pt_file q -> pt_lsn p = pt_lsn q -> skip p = skip q.

Definition fresh m (r : range) : Prop := forall x, in_range x r -> ~ covered (ranges m) x.
Record grow (skip : part -> bool) (evs : list event) m m' (log : list logop) : Prop := {
  gr_old : forall s, In s (mapping_list m) -> exists q, In (mk_slice (s_min s) (s_max s) q) (mapping_list m') /\
     gpart skip (range_of s) evs (s_data s) q;
  gr_new : forall t, In t (mapping_list m') ->
     (exists p, In (mk_slice (s_min t) (s_max t) p) (mapping_list m) /\ gpart skip (range_of t) evs p (s_data t)) \/
     (fresh m (range_of t) /\ gpart skip (range_of t) evs (part_new 0 0) (s_data t));
  gr_cov : forall e, In e evs -> covered (ranges m') (ev_id e);
  gr_log : forall t, In t (mapping_list m') ->
     (has_ref log t = true <-> skip (s_data t) = false /\ exists e, In e evs /\ in_range (ev_id e) (range_of t))
}.

Lemma over_app a b f k : over (a ++ b) f k = over b (over a f) k.
Proof.
  unfold over, last_write. rewrite rev_app_distr, find_app. destruct (find (same_keyb k) (rev b)); auto.
Qed.
Lemma over_nil f k : over [] f k = f k.
Proof. reflexivity. Qed.
Lemma over_one e f k : over [e] f k = if same_keyb k e then Some e else f k.
Proof. unfold over, last_write. simpl. destruct (same_keyb k e); auto. Qed.
Lemma over_out evs f k : (forall e, In e evs -> same_keyb k e = false) -> over evs f k = f k.
Proof.
  intros H. unfold over, last_write. destruct (find (same_keyb k) (rev evs)) as [e|] eqn:E; auto.
  apply find_some in E as [E1 E2]. rewrite H in E2; [discriminate|]. apply in_rev; auto.
Qed.

Lemma gpart_refl skip r p : gpart skip r [] p p.
Proof. constructor; auto. intros. rewrite over_nil. destruct (skip p); auto. Qed.

Lemma grow_refl skip m : grow skip [] m m [].
Proof.
  constructor.
  - intros s Hs. exists (s_data s). rewrite slice_eta. split; auto. apply gpart_refl.
  - intros t Ht. left. exists (s_data t). rewrite slice_eta. split; auto. apply gpart_refl.
  - intros e [].
  - intros t Ht. simpl. split; [discriminate|]. intros [_ (e & [] & _)].
Qed.

Lemma gpart_like skip r evs p q q' : gpart skip r evs p q -> like q q' -> gpart skip r evs p q'.
Proof.
  intros [G1 G2 G3 G4 G5 G6] (L1 & L2 & L3 & L4 & L5 & L6). constructor; try congruence.
  intros k Hk. rewrite <- L1. auto.
Qed.

(* partitions of an extension: the same one, or a fresh one *)
Lemma ext_new lo m m' t : minv lo m -> minv lo m' -> ext m m' -> In t (mapping_list m') ->
  (exists q, In (mk_slice (s_min t) (s_max t) q) (mapping_list m) /\ like q (s_data t)) \/
  (like (part_new 0 0) (s_data t) /\ fresh m (range_of t)).
Proof.
  intros [G F] [G' F'] [E1 E2] Ht.
  destruct (find (fun u => (s_min u =? s_min t)%N) (mapping_list m)) as [u|] eqn:Ef.
  - apply find_some in Ef as [Hu Eu]. apply N.eqb_eq in Eu. destruct (E1 u Hu) as (q & Hq & L).
    assert (X : mk_slice (s_min u) (s_max u) q = t) by (apply (min_unique lo m'); auto).
    left. exists (s_data u). rewrite <- X. simpl. split; auto. rewrite slice_eta. auto.
  - right. destruct (E2 t Ht) as [(q & Hq & L)|L].
    + eapply find_none in Ef; eauto. simpl in Ef. rewrite N.eqb_refl in Ef. discriminate.
    + split; auto. intros x Hx Hc. apply covered_slice in Hc as (u & Hu & Hr). destruct (E1 u Hu) as (q & Hq & L').
      assert (X : mk_slice (s_min u) (s_max u) q = t).
      { apply (layout_unique (mapping_list m') _ _ x); auto. exact (gm_layout _ _ G'). }
      eapply find_none in Ef; eauto. simpl in Ef. rewrite <- X in Ef. simpl in Ef. rewrite N.eqb_refl in Ef. discriminate.
Qed.

Lemma has_ref_range log s t : s_min s = s_min t -> has_ref log s = has_ref log t.
Proof. intros H. unfold has_ref. rewrite H. auto. Qed.

Lemma fresh_mono m m' r : incl (ranges m) (ranges m') -> fresh m' r -> fresh m r.
Proof. intros Hi Hf x Hx (r' & Hr & Hin). apply (Hf x Hx). exists r'. auto. Qed.

Lemma grow_ranges skip evs m m' log : grow skip evs m m' log -> incl (ranges m) (ranges m').
Proof.
  intros G r Hr. apply in_map_iff in Hr as (s & <- & Hs). destruct (gr_old _ _ _ _ _ G s Hs) as (q & Hq & _).
  apply in_map_iff. eexists; split; [|exact Hq]. auto.
Qed.

Lemma has_ref_in lo m m' skip evs log t : minv lo m' -> grow skip evs m m' log -> has_ref log t = true ->
  (exists s, In s (mapping_list m') /\ s_min s = s_min t) -> exists e s, In e evs /\ In s (mapping_list m') /\ s_min s = s_min t /\ in_range (ev_id e) (range_of s).
Proof.
  intros I G H (s & Hs & E). rewrite (has_ref_range log t s) in H by auto.
  apply (gr_log _ _ _ _ _ G s Hs) in H as (_ & e & He & Hr). eauto 10.
Qed.

(* log entries refer to partitions *)
Definition log_refs m (log : list logop) : Prop :=
  Forall (fun o => match lo_ref o with Some r => exists s, In s (mapping_list m) /\ s_min s = r | None => False end) log.

Lemma grow_ext skip lo evs m m1 m2 log : skip_ext skip -> minv lo m1 -> minv lo m2 ->
  log_refs m1 log ->
  grow skip evs m m1 log -> ext m1 m2 -> grow skip evs m m2 log.
Proof.
  intros SE I1 I2 LR G E. pose proof G as [G1 G2 G3 G4]. pose proof E as [E1 E2]. constructor.
  - intros s Hs. destruct (G1 s Hs) as (q & Hq & P). destruct (E1 _ Hq) as (q' & Hq' & L). simpl in *.
    exists q'. split; auto. eapply gpart_like; eauto.
  - intros t Ht. destruct (ext_new lo m1 m2 t I1 I2 E Ht) as [(q & Hq & L)|[L Fr]].
    + destruct (G2 _ Hq) as [(p & Hp & P)|[Fr P]]; simpl in *.
      * left. exists p. split; auto. eapply gpart_like; eauto.
      * right. split; auto. eapply gpart_like; eauto.
    + right. split; [eapply fresh_mono; [eapply grow_ranges; eauto|auto]|].
      destruct L as (L1 & L2 & L3 & L4 & L5 & L6). constructor; try congruence.
      intros k Hk. rewrite <- L1. change (mt_events (pt_mem (part_new 0 0))) with (@nil event).
      destruct (skip _); auto. rewrite over_out; auto. intros e He. destruct (same_keyb k e) eqn:Ek; auto.
      exfalso. apply same_keyb_true in Ek as [Ek _]. apply (Fr (ev_id k) Hk). rewrite Ek. auto.
  - intros e He. destruct (G3 e He) as (r & Hr & Hx). exists r. split; auto. apply (ext_ranges m1 m2); auto.
  - intros t Ht. destruct (ext_new lo m1 m2 t I1 I2 E Ht) as [(q & Hq & L)|[L Fr]].
    + rewrite (has_ref_range log t (mk_slice (s_min t) (s_max t) q)) by auto.
      rewrite (G4 _ Hq). cbn [s_data]. destruct L as (_ & _ & _ & _ & L5 & L6).
      rewrite (SE q (s_data t)) by auto. tauto.
    + split.
      * intros H. exfalso. unfold has_ref in H. apply existsb_exists in H as (o & Ho & Ht').
        unfold log_refs in LR. rewrite Forall_forall in LR. specialize (LR o Ho).
        destruct (lo_ref o) as [r|]; [|discriminate]. apply N.eqb_eq in Ht'. destruct LR as (u & Hu & Eu).
        destruct I1 as [G1' _]. destruct (proj1 (layout_slices _) (gm_layout _ _ G1')) as [_ B].
        rewrite Forall_forall in B. specialize (B u Hu). simpl in B.
        destruct I2 as [G2' _]. destruct (proj1 (layout_slices _) (gm_layout _ _ G2')) as [_ B2].
        rewrite Forall_forall in B2. specialize (B2 t Ht). simpl in B2.
        apply (Fr (s_min t)); [split; simpl; lia|]. apply covered_slice. exists u. split; auto.
        split; simpl; lia.
      * intros [_ (e & He & Hr)]. exfalso. apply (Fr _ Hr). auto.
Qed.

Lemma put_same lo m s p t : minv lo m -> In s (mapping_list m) -> In t (mapping_list (ref_put m (s_min s) p)) ->
  s_min t = s_min s -> t = mk_slice (s_min s) (s_max s) p.
Proof.
  intros [G _] Hs Ht E. apply (put_in lo) in Ht; auto. destruct Ht as [|[Ht Hn]]; auto.
  exfalso. apply Hn. apply (min_unique lo m); auto.
Qed.

Lemma grow_put skip lo evs m m1 s tb e prev log : skip_ext skip -> minv lo m1 ->
  grow skip evs m m1 log -> In s (mapping_list m1) -> in_range (ev_id e) (range_of s) ->
  skip (s_data s) = false ->
  ascending (mt_events (pt_mem (s_data s))) ->
  mt_events tb = upsert e (mt_events (pt_mem (s_data s))) ->
  mt_lsn_min tb = mt_lsn_min (pt_mem (s_data s)) -> mt_lsn_max tb = mt_lsn_max (pt_mem (s_data s)) ->
  grow skip (evs ++ [e]) m (ref_put m1 (s_min s) (with_mem (s_data s) tb))
    (mk_logop (Some (s_min s)) (Some e) prev :: log).
Proof.
  intros SE I1 G Hs Hr Hsk Ha Hev Hl1 Hl2. pose proof G as [G1 G2 G3 G4]. pose proof I1 as [GM _].
  assert (Step : forall p, gpart skip (range_of s) evs p (s_data s) ->
    gpart skip (range_of s) (evs ++ [e]) p (with_mem (s_data s) tb)).
  { intros p [P1 P2 P3 P4 P5 P6]. constructor; simpl; auto; try congruence.
    assert (Esk : skip p = false) by (rewrite <- Hsk; apply SE; auto). rewrite Esk in *.
    intros k Hk. rewrite Hev, lookup_upsert by auto. rewrite over_app, over_one, P6 by auto.
    auto. }
  assert (Other : forall t p, In t (mapping_list m1) -> t <> s -> gpart skip (range_of t) evs p (s_data t) ->
    gpart skip (range_of t) (evs ++ [e]) p (s_data t)).
  { intros t p Ht Hne [P1 P2 P3 P4 P5 P6]. constructor; auto. intros k Hk. rewrite P6 by auto.
    destruct (skip p); auto. rewrite over_app, over_one. destruct (same_keyb k e) eqn:Ek; auto.
    exfalso. apply Hne. apply same_keyb_true in Ek as [Ek _].
    apply (layout_unique (mapping_list m1) t s (ev_id k)); auto; [exact (gm_layout _ _ GM)|rewrite Ek; auto]. }
  constructor.
  - intros u Hu. destruct (G1 u Hu) as (q & Hq & P).
    destruct (N.eq_dec (s_min u) (s_min s)) as [E|E].
    + assert (X : mk_slice (s_min u) (s_max u) q = s) by (apply (min_unique lo m1); auto).
      exists (with_mem (s_data s) tb). assert (Ru : range_of u = range_of s) by (rewrite <- X; auto).
      split.
      * apply (put_in lo); auto. left. rewrite <- X. auto.
      * assert (Eq : s_data s = q) by (rewrite <- X; auto). rewrite Ru in *. apply Step. rewrite Eq. exact P.
    + exists q. split.
      * apply (put_in lo); auto. right. split; auto. intros X. rewrite <- X in E. simpl in E. congruence.
      * apply (Other (mk_slice (s_min u) (s_max u) q)); auto. intros X. rewrite <- X in E. simpl in E. congruence.
  - intros t Ht. apply (put_in lo) in Ht; auto. destruct Ht as [->|[Ht Hne]].
    + cbn [s_min s_max s_data]. change (range_of (mk_slice (s_min s) (s_max s) (with_mem (s_data s) tb))) with (range_of s).
      destruct (G2 s Hs) as [(p & Hp & P)|[Fr P]]; [left; exists p; split; auto|right; split; auto].
    + destruct (G2 t Ht) as [(p & Hp & P)|[Fr P]]; [left; exists p; split; auto|right; split; auto].
  - intros x Hx. rewrite put_ranges. apply in_app_iff in Hx as [Hx|[<-|[]]]; auto.
    apply covered_slice. eauto.
  - intros t Ht. unfold has_ref. cbn [existsb lo_ref]. fold (has_ref log t). rewrite orb_true_iff, N.eqb_eq.
    assert (Hm : skip (with_mem (s_data s) tb) = false) by (rewrite <- Hsk; apply SE; auto).
    apply (put_in lo) in Ht; auto. destruct Ht as [->|[Ht Hne]].
    + cbn [s_min s_data]. split; [|auto]. intros _. split; auto. exists e. split; auto. apply in_app_iff; simpl; auto.
    + rewrite (G4 t Ht). split.
      * intros [E|[H1 (x & Hx & Hxr)]]; [exfalso; apply Hne; apply (min_unique lo m1); auto|].
        split; auto. exists x. split; auto. apply in_app_iff; auto.
      * intros [H1 (x & Hx & Hxr)]. right. split; auto. apply in_app_iff in Hx as [Hx|[<-|[]]]; eauto.
        exfalso. apply Hne. apply (layout_unique (mapping_list m1) t s (ev_id e)); auto. exact (gm_layout _ _ GM).
Qed.

(* an event that is in the file already *)
Lemma grow_skip skip lo evs m m1 s e log : skip_ext skip -> minv lo m1 ->
  grow skip evs m m1 log -> In s (mapping_list m1) -> in_range (ev_id e) (range_of s) ->
  skip (s_data s) = true -> grow skip (evs ++ [e]) m m1 log.
Proof.
  intros SE I1 G Hs Hr Hsk. pose proof G as [G1 G2 G3 G4]. pose proof I1 as [GM _].
  assert (Any : forall t p, In t (mapping_list m1) -> gpart skip (range_of t) evs p (s_data t) ->
    gpart skip (range_of t) (evs ++ [e]) p (s_data t)).
  { intros t p Ht [P1 P2 P3 P4 P5 P6]. constructor; auto. intros k Hk. rewrite P6 by auto.
    destruct (skip p) eqn:Ep; auto. rewrite over_app, over_one. destruct (same_keyb k e) eqn:Ek; auto.
    exfalso. apply same_keyb_true in Ek as [Ek _].
    assert (t = s).
    { apply (layout_unique (mapping_list m1) t s (ev_id k)); auto; [exact (gm_layout _ _ GM)|rewrite Ek; auto]. }
    subst t. rewrite (SE p (s_data s)) in Ep by auto. congruence. }
  constructor.
  - intros u Hu. destruct (G1 u Hu) as (q & Hq & P). exists q. split; auto.
    apply (Any (mk_slice (s_min u) (s_max u) q)); auto.
  - intros t Ht. destruct (G2 t Ht) as [(p & Hp & P)|[Fr P]]; [left; exists p; split; auto|right; split; auto].
  - intros x Hx. apply in_app_iff in Hx as [Hx|[<-|[]]]; auto. apply covered_slice. eauto.
  - intros t Ht. rewrite (G4 t Ht). split.
    + intros [H1 (x & Hx & Hxr)]. split; auto. exists x. split; auto. apply in_app_iff; auto.
    + intros [H1 (x & Hx & Hxr)]. split; auto. apply in_app_iff in Hx as [Hx|[<-|[]]]; eauto.
      exfalso. assert (t = s).
      { apply (layout_unique (mapping_list m1) t s (ev_id e)); auto. exact (gm_layout _ _ GM). }
      subst t. congruence.
Qed.

Lemma refs_ext m m' log : ext m m' -> log_refs m log -> log_refs m' log.
Proof.
  intros [E _]. unfold log_refs. apply Forall_impl. intros o. destruct (lo_ref o) as [r|]; auto.
  intros (s & Hs & <-). destruct (E s Hs) as (q & Hq & _). eauto.
Qed.
Lemma refs_put lo m s p log : minv lo m -> In s (mapping_list m) -> log_refs m log -> log_refs (ref_put m (s_min s) p) log.
Proof.
  intros [G _] Hs. unfold log_refs. apply Forall_impl. intros o. destruct (lo_ref o) as [r|]; auto.
  intros (u & Hu & <-). destruct (N.eq_dec (s_min u) (s_min s)) as [E|E].
  - exists (mk_slice (s_min s) (s_max s) p). split; [apply (put_in lo); auto|]. simpl. auto.
  - exists u. split; auto. apply (put_in lo); auto. right. split; auto. congruence.
Qed.

Lemma skip_never : skip_ext (fun _ => false).
Proof. intros p q _ _. auto. Qed.

(* the loop of a batch *)
Lemma loop_grow lo en m0 : (0 < en_interval en <= u64_max)%N ->
  forall l w done w', minv lo (ws_map w) -> Forall (fun a => wa_mem a = MemOk) l ->
  Forall (event_fine lo en) (assigned (en_serial en) (ws_ssn w) l) ->
  gfits false (ws_map w) (assigned (en_serial en) (ws_ssn w) l) -> log_refs (ws_map w) (ws_log w) ->
  grow (fun _ => false) done m0 (ws_map w) (ws_log w) ->
  write_loop en w l = Ok (w', true) ->
  minv lo (ws_map w') /\ log_refs (ws_map w') (ws_log w') /\
  grow (fun _ => false) (done ++ assigned (en_serial en) (ws_ssn w) l) m0 (ws_map w') (ws_log w').
Proof.
  intros Hiv. induction l as [|a l IH]; intros w done w' I Hm Hf Hroom LR G HW.
  - cbn [write_loop] in HW. inversion HW; subst. cbn [assigned]. rewrite app_nil_r. auto.
  - inversion Hm; subst. cbn [write_loop length] in *.
    destruct (Nat.ltb_spec 255 (length (ev_key (wa_event a)))) as [Hbig|Hsmall].
    { unfold write_event in HW. destruct (Nat.ltb_spec 255 (length (ev_key (wa_event a)))); [|lia].
      cbn [bind] in HW. inversion HW. }
    rewrite assigned_cons in Hf, Hroom by auto. inversion Hf; subst.
    destruct (g_step false lo en w a _ I Hiv Hsmall H1 H3 Hroom) as [[E _]|Hstep].
    { rewrite E in HW. cbn [bind] in HW. inversion HW. }
    destruct Hstep as (m1 & s & t & HE & _ & I1 & Hs & Hr & Hrm & Ht & Hev & Ho & Hl1 & Hl2 & E).
    rewrite E in HW. cbn [bind] in HW.
    set (e := numbered en (ws_ssn w) (wa_event a)) in *.
    set (ssn := ssn_after en (ws_ssn w) (wa_event a)) in *.
    pose proof I1 as [G1 F1]. rewrite Forall_forall in F1. pose proof (F1 s Hs) as Fs.
    assert (Fs' : sfine lo (mk_slice (s_min s) (s_max s) (with_mem (s_data s) t))).
    { apply sfine_with_mem; auto. rewrite Hev. apply upsert_forall; auto. apply (sfine_mem_ids lo s Fs). }
    rewrite assigned_cons by auto. fold e ssn.
    replace (done ++ e :: assigned (en_serial en) ssn l) with ((done ++ [e]) ++ assigned (en_serial en) ssn l)
      by (rewrite <- app_assoc; auto).
    refine (IH (mk_wstate (ref_put m1 (s_min s) (with_mem (s_data s) t)) ssn _) (done ++ [e]) w' _ H2 H4 _ _ _ HW);
      cbn [ws_map ws_ssn ws_log].
    + apply put_inv; auto.
    + eapply fits_put; eauto. apply (sf_mem _ _ Fs).
    + constructor.
      * cbn [lo_ref]. exists (mk_slice (s_min s) (s_max s) (with_mem (s_data s) t)). split; [apply (put_in lo); auto|auto].
      * apply (refs_put lo); auto. eapply refs_ext; eauto.
    + eapply (grow_put _ lo); eauto using skip_never; [|apply (sf_mem _ _ Fs)].
      apply (grow_ext _ lo) with (m1 := ws_map w); auto using skip_never.
Qed.

(* --- commit --- *)
(* the partition q of range r after a record lsn with these events, from p *)
Record cpart (skip : part -> bool) (lsn : N) (r : range) (evs : list event) (p q : part) : Prop := {
  cp_prev : pt_prev q = pt_prev p;
  cp_file : pt_file q = pt_file p;
  cp_lsn : pt_lsn q = pt_lsn p;
  cp_look : forall k, in_range (ev_id k) r -> lookup (mt_events (pt_mem q)) k =
    if skip p then lookup (mt_events (pt_mem p)) k else over evs (lookup (mt_events (pt_mem p))) k;
  cp_hit : skip p = false -> (exists e, In e evs /\ in_range (ev_id e) r) ->
    mt_lsn_min (pt_mem q) = N.min (mt_lsn_min (pt_mem p)) lsn /\
    mt_lsn_max (pt_mem q) = N.max (mt_lsn_max (pt_mem p)) lsn;
  cp_miss : skip p = true \/ (forall e, In e evs -> ~ in_range (ev_id e) r) ->
    mt_lsn_min (pt_mem q) = mt_lsn_min (pt_mem p) /\ mt_lsn_max (pt_mem q) = mt_lsn_max (pt_mem p)
}.
Record grown (skip : part -> bool) (lsn : N) (evs : list event) m m' : Prop := {
  gw_old : forall s, In s (mapping_list m) -> exists q, In (mk_slice (s_min s) (s_max s) q) (mapping_list m') /\
     cpart skip lsn (range_of s) evs (s_data s) q;
  gw_new : forall t, In t (mapping_list m') ->
     (exists p, In (mk_slice (s_min t) (s_max t) p) (mapping_list m) /\ cpart skip lsn (range_of t) evs p (s_data t)) \/
     (fresh m (range_of t) /\ cpart skip lsn (range_of t) evs (part_new 0 0) (s_data t));
  gw_cov : forall e, In e evs -> covered (ranges m') (ev_id e)
}.

Lemma in_range_dec x r : {in_range x r} + {~ in_range x r}.
Proof.
  unfold in_range. destruct (N.leb_spec0 (fst r) x); destruct (N.leb_spec0 x (snd r)); auto; right; tauto.
Qed.
Lemma hit_dec (evs : list event) r :
  (exists e, In e evs /\ in_range (ev_id e) r) \/ (forall e, In e evs -> ~ in_range (ev_id e) r).
Proof.
  destruct (existsb (fun e => if in_range_dec (ev_id e) r then true else false) evs) eqn:E.
  - left. apply existsb_exists in E as (e & He & X). destruct (in_range_dec (ev_id e) r); [eauto|discriminate].
  - right. intros e He Hr. assert (X : existsb (fun e => if in_range_dec (ev_id e) r then true else false) evs = true).
    { apply existsb_exists. exists e. split; auto. destruct (in_range_dec (ev_id e) r); auto. }
    congruence.
Qed.

Lemma follow_lsn lsn (t : memtable) : mt_lsn_min (memtable_follow t lsn) = N.min (mt_lsn_min t) lsn /\
  mt_lsn_max (memtable_follow t lsn) = N.max (mt_lsn_max t) lsn.
Proof. unfold memtable_follow. cbn [mt_lsn_min mt_lsn_max]. split; lia. Qed.

Lemma commit_part skip lsn evs m m' log p t : skip_ext skip -> grow skip evs m m' log ->
  In t (mapping_list m') -> gpart skip (range_of t) evs p (s_data t) ->
  cpart skip lsn (range_of t) evs p (s_data (followed lsn log t)).
Proof.
  intros SE G Ht [P1 P2 P3 P4 P5 P6]. pose proof (gr_log _ _ _ _ _ G t Ht) as HL.
  assert (Esk : skip (s_data t) = skip p) by (apply SE; auto). rewrite Esk in HL.
  unfold followed. destruct (has_ref log t).
  - cbn [s_data]. destruct (proj1 HL eq_refl) as [A B]. destruct (follow_lsn lsn (pt_mem (s_data t))) as [F1 F2].
    constructor; auto.
    + intros _ _. cbn [with_mem pt_mem]. rewrite F1, F2, P4, P5. auto.
    + intros [X|X]; [congruence|]. destruct B as (e & He & Hr). exfalso. eapply X; eauto.
  - constructor; auto. intros A B. exfalso. assert (false = true) by (apply HL; auto). discriminate.
Qed.

Lemma has_ref_rev log s : has_ref (rev log) s = has_ref log s.
Proof.
  unfold has_ref. induction log as [|o log IH]; auto. cbn [rev existsb]. rewrite existsb_app, IH. simpl.
  rewrite orb_false_r, orb_comm. auto.
Qed.

Lemma commit_grown skip lo lsn evs m m1 log : skip_ext skip -> minv lo m1 ->
  grow skip evs m m1 log -> log_refs m1 log ->
  exists m', engine_commit m1 lsn (rev log) = Ok m' /\ minv lo m' /\ grown skip lsn evs m m'.
Proof.
  intros SE I G LR.
  assert (C : forall l m, minv lo m -> log_refs m l ->
    exists m', engine_commit m lsn l = Ok m' /\ minv lo m' /\ mapping_list m' = map (followed lsn l) (mapping_list m)).
  { clear. induction l as [|o l IH]; intros m I Hr.
    - exists m. split; auto. split; auto. rewrite <- map_id at 1. apply map_ext. intros; reflexivity.
    - inversion Hr; subst. destruct (lo_ref o) as [r|] eqn:E1; [|contradiction]. destruct H1 as (s & Hs & <-).
      cbn [engine_commit]. rewrite E1. pose proof I as [G F]. rewrite Forall_forall in F.
      rewrite (ref_get lo m s G Hs). cbn [bind].
      set (p := with_mem (s_data s) (memtable_follow (pt_mem (s_data s)) lsn)).
      assert (I' : minv lo (ref_put m (s_min s) p)).
      { apply put_inv; auto. apply sfine_with_mem; auto; [apply follow_tab; apply (sf_mem _ _ (F s Hs))|].
        apply (sfine_mem_ids lo s (F s Hs)). }
      destruct (IH _ I') as (m' & J1 & J2 & J3); [apply (refs_put lo); auto|].
      exists m'. split; auto. split; auto. rewrite J3, put_list, map_map.
      apply map_ext_in. intros u Hu. unfold followed, has_ref, putf. cbn [existsb]. rewrite E1.
      destruct (N.eqb_spec (s_min u) (s_min s)) as [E|E].
      + rewrite (min_unique lo m u s) in * by auto. cbn [s_min s_max s_data orb].
        destruct (existsb _ l) eqn:Ex; auto. unfold p. cbn [with_mem pt_mem pt_prev pt_file pt_lsn].
        rewrite follow_twice. auto.
      + cbn [orb]. auto. }
  destruct (C (rev log) m1 I) as (m' & E & I' & EL).
  { unfold log_refs. apply Forall_rev. exact LR. }
  exists m'. split; auto. split; auto.
  assert (EL' : mapping_list m' = map (followed lsn log) (mapping_list m1)).
  { rewrite EL. apply map_ext. intros u. unfold followed. rewrite has_ref_rev. auto. }
  assert (Hr : forall u, range_of (followed lsn log u) = range_of u) by (intros; apply followed_range).
  assert (Hmm : forall u, s_min (followed lsn log u) = s_min u /\ s_max (followed lsn log u) = s_max u).
  { intros u. specialize (Hr u). unfold range_of in Hr. inversion Hr. auto. }
  constructor.
  - intros s Hs. destruct (gr_old _ _ _ _ _ G s Hs) as (q & Hq & P).
    exists (s_data (followed lsn log (mk_slice (s_min s) (s_max s) q))). split.
    + rewrite EL'. apply in_map_iff. exists (mk_slice (s_min s) (s_max s) q). split; auto.
      destruct (Hmm (mk_slice (s_min s) (s_max s) q)) as [A B]. cbn [s_min s_max] in A, B.
      rewrite <- (slice_eta (followed lsn log (mk_slice (s_min s) (s_max s) q))) at 1. rewrite A, B. auto.
    + exact (commit_part skip lsn evs m m1 log (s_data s) _ SE G Hq P).
  - intros t Ht. rewrite EL' in Ht. apply in_map_iff in Ht as (u & <- & Hu).
    destruct (Hmm u) as [-> ->]. rewrite Hr.
    destruct (gr_new _ _ _ _ _ G u Hu) as [(p & Hp & P)|[Fr P]].
    + left. exists p. split; auto. apply (commit_part skip lsn evs m m1 log); auto.
    + right. split; auto. apply (commit_part skip lsn evs m m1 log); auto.
  - intros e He. apply (gr_cov _ _ _ _ _ G) in He. unfold ranges in *. rewrite EL', map_map.
    rewrite (map_ext _ range_of); auto.
Qed.

(* a batch *)
Lemma write_grown lo en l logged : minv lo (en_map en) -> (0 < en_interval en <= u64_max)%N ->
  try_fine lo en l ->
  (exists m, engine_write en l logged =
     Ok (mk_engine m (en_interval en) (en_serial en) (next_ssn (en_serial en) (en_ssn en) l)
           (w64 (en_lsn en + 1)) (en_page en) (en_region en),
         Some (assigned (en_serial en) (en_ssn en) l)) /\
     logged = true /\ minv lo m /\ 
     grown (fun _ => false) (w64 (en_lsn en + 1)) (assigned (en_serial en) (en_ssn en) l) (en_map en) m) \/
  (exists m ssn, engine_write en l logged =
     Ok (mk_engine m (en_interval en) (en_serial en) ssn (en_lsn en) (en_page en) (en_region en), None) /\
     minv lo m /\ ext (en_map en) m).
Proof.
  intros I Hiv (Hm & Hb & Hf & Hroom). pose proof (gfits_of false _ _ Hroom) as Hg.
  destruct (g_write_spec false lo en l logged I Hiv Hm Hf Hg) as [(m & E & I' & _)|[_ X]]; [auto|discriminate|left|right; auto].
  exists m. split; auto. unfold engine_write in E.
  destruct (write_loop en _ l) as [[w ok]| |] eqn:EW; cbn [bind] in E; try discriminate.
  destruct ok; cbn [andb] in E.
  - destruct logged; [|destruct (engine_rollback _ _); cbn [bind] in E; discriminate].
    split; [reflexivity|]. split; [exact I'|].
    destruct (loop_grow lo en (en_map en) Hiv l (mk_wstate (en_map en) (en_ssn en) []) [] w I Hm Hf Hg) as (J1 & J2 & J3); auto.
    { constructor. } { apply grow_refl. }
    cbn [ws_ssn app] in J3. cbn [with_ssn en_lsn] in E.
    destruct (commit_grown _ lo (w64 (en_lsn en + 1)) _ _ _ _ skip_never J1 J3 J2) as (m' & C1 & C2 & C3).
    rewrite C1 in E. cbn [bind] in E. injection E as E _ _. 
    unfold with_lsn, with_map in E. cbn in E. congruence.
  - destruct (engine_rollback _ _); cbn [bind] in E; discriminate.
Qed.

(* --- replay --- *)
Definition skipped (lsn : N) (p : part) : bool :=
  match pt_file p with Some _ => (lsn <=? pt_lsn p)%N | None => false end.
Lemma skip_replay lsn : skip_ext (skipped lsn).
Proof. intros p q E1 E2. unfold skipped. rewrite E1, E2. auto. Qed.

Lemma size_bound e : (length (ev_key e) <= 255)%nat ->
  (N.of_nat (14 + length (ev_key e) + length (ev_val e)) <= event_size e)%N.
Proof. intros H. unfold event_size. lia. Qed.

Lemma loadable_near lo en e : loadable lo en e -> event_near lo en e.
Proof.
  intros (H1 & H2 & H3 & H4). split; auto. split; auto. split; auto.
  pose proof (size_bound e ltac:(apply H1)). lia.
Qed.

Lemma fits_less m e l : gfits false m (e :: l) -> gfits false m l.
Proof.
  intros [H1 H2]. assert (A : ascending (e :: l) -> ascending l) by (intros X; inversion X; auto).
  split.
  - destruct H1 as [H1|H1]; [left; cbn [length] in H1; lia|right; auto].
  - intros s Hs. destruct (H2 s Hs) as [[X1 X2]|[X1 X2]]; [left|right]; split; auto.
    + cbn [length] in X2. lia.
    + intros x Hx. apply X2. simpl; auto.
Qed.

Lemma replay_step lo en lsn w e l : minv lo (ws_map w) -> (0 < en_interval en <= u64_max)%N ->
  loadable lo en e -> gfits false (ws_map w) (e :: l) ->
  exists m1 s, ext (ws_map w) m1 /\ minv lo m1 /\ In s (mapping_list m1) /\
    in_range (ev_id e) (range_of s) /\ gfits false m1 (e :: l) /\
    ((skipped lsn (s_data s) = true /\ replay_event en lsn w e = Ok (mk_wstate m1 (ws_ssn w) (ws_log w))) \/
     (skipped lsn (s_data s) = false /\ exists (t : memtable) prev,
        tab lo t /\ mt_events t = upsert e (mt_events (pt_mem (s_data s))) /\
        (one false (pt_mem (s_data s)) -> length (mt_events (pt_mem (s_data s))) < MEMTABLE_PAGE -> one false t) /\
        mt_lsn_min t = mt_lsn_min (pt_mem (s_data s)) /\ mt_lsn_max t = mt_lsn_max (pt_mem (s_data s)) /\
        replay_event en lsn w e =
          Ok (mk_wstate (ref_put m1 (s_min s) (with_mem (s_data s) t)) (ws_ssn w)
            (mk_logop (Some (s_min s)) (Some e) prev :: ws_log w)))).
Proof.
  intros I Hiv HL Hroom. pose proof (loadable_near _ _ _ HL) as Hn.
  destruct (g_lock false lo (ws_map w) en e _ I Hiv (near_fine _ _ _ Hn) Hroom)
    as [[_ X]|(m1 & z & s & EL & Hz & HE & _ & I1 & Hs & Hr & Hroom1)]; [contradiction|].
  destruct HL as (Hok & Hwin & Hsz & Hc).
  exists m1, s. do 5 (split; [assumption|]). unfold replay_event. rewrite EL. cbn [bind]. rewrite Hz.
  fold (skipped lsn (s_data s)). destruct (skipped lsn (s_data s)); [left; auto|right]. split; auto.
  destruct (N.ltb_spec (en_page en) (event_size e)); [lia|].
  pose proof I1 as [G1 F1]. rewrite Forall_forall in F1. pose proof (F1 s Hs) as Fs.
  destruct (set_fits false lo (pt_mem (s_data s)) e (sf_mem _ _ Fs)) as (t & Hset & Ht & Hev & (Z1 & Z2 & Z3 & Z4) & Ho).
  { split; auto. }
  { destruct (proj2 Hroom1 s Hs) as [[O K]|[_ K]]; [left; cbn [length] in K; split; auto; lia|right].
    apply K; simpl; auto. }
  rewrite Hset. cbn [bind fst snd]. exists t. eexists. do 5 (split; [assumption|]). reflexivity.
Qed.

Lemma replay_grow lo en lsn m0 : (0 < en_interval en <= u64_max)%N ->
  forall l w done, minv lo (ws_map w) -> Forall (loadable lo en) l ->
  gfits false (ws_map w) l -> log_refs (ws_map w) (ws_log w) ->
  grow (skipped lsn) done m0 (ws_map w) (ws_log w) ->
  exists w', replay_loop en lsn w l = Ok w' /\
  minv lo (ws_map w') /\ log_refs (ws_map w') (ws_log w') /\
  grow (skipped lsn) (done ++ l) m0 (ws_map w') (ws_log w').
Proof.
  intros Hiv. induction l as [|e l IH]; intros w done I Hf Hroom LR G.
  - exists w. rewrite app_nil_r. auto.
  - inversion Hf; subst. cbn [replay_loop length] in *.
    destruct (replay_step lo en lsn w e l I Hiv H1 Hroom)
      as (m1 & s & HE & I1 & Hs & Hr & Hrm & [[Hsk ->]|[Hsk (t & prev & Ht & Hev & Ho & Hl1 & Hl2 & ->)]]); cbn [bind].
    + destruct (IH (mk_wstate m1 (ws_ssn w) (ws_log w)) (done ++ [e])) as (w' & J); auto; cbn [ws_map ws_log].
      * apply (fits_less _ _ _ Hrm).
      * eapply refs_ext; eauto.
      * eapply (grow_skip _ lo); eauto using skip_replay. apply (grow_ext _ lo) with (m1 := ws_map w); auto using skip_replay.
      * exists w'. rewrite <- app_assoc in J. exact J.
    + pose proof I1 as [G1 F1]. rewrite Forall_forall in F1. pose proof (F1 s Hs) as Fs.
      assert (Fs' : sfine lo (mk_slice (s_min s) (s_max s) (with_mem (s_data s) t))).
      { apply sfine_with_mem; auto. rewrite Hev. apply upsert_forall; auto. apply (sfine_mem_ids lo s Fs). }
      destruct (IH (mk_wstate (ref_put m1 (s_min s) (with_mem (s_data s) t)) (ws_ssn w)
          (mk_logop (Some (s_min s)) (Some e) prev :: ws_log w)) (done ++ [e])) as (w' & J); auto; cbn [ws_map ws_log].
      * apply put_inv; auto.
      * eapply fits_put; eauto. apply (sf_mem _ _ Fs).
      * constructor.
        -- cbn [lo_ref]. exists (mk_slice (s_min s) (s_max s) (with_mem (s_data s) t)). split; [apply (put_in lo); auto|auto].
        -- apply (refs_put lo); auto. eapply refs_ext; eauto.
      * eapply (grow_put _ lo); eauto using skip_replay; [|apply (sf_mem _ _ Fs)].
        apply (grow_ext _ lo) with (m1 := ws_map w); auto using skip_replay.
      * exists w'. rewrite <- app_assoc in J. exact J.
Qed.

Lemma replay_grown lo en lsn l : minv lo (en_map en) -> (0 < en_interval en <= u64_max)%N ->
  Forall (loadable lo en) l -> fits_pages (en_map en) l ->
  exists m, engine_write_replay en lsn l = Ok (with_lsn (with_map en m) (N.max (en_lsn en) lsn)) /\
    minv lo m /\ grown (skipped lsn) lsn l (en_map en) m.
Proof.
  intros I Hiv Hf Hroom. unfold engine_write_replay.
  destruct (replay_grow lo en lsn (en_map en) Hiv l (mk_wstate (en_map en) (en_ssn en) []) [] I Hf (gfits_of false _ _ Hroom)) as (w' & -> & J1 & J2 & J3).
  { constructor. } { apply grow_refl. }
  cbn [bind]. destruct (commit_grown _ lo lsn _ _ _ _ (skip_replay lsn) J1 J3 J2) as (m' & -> & C2 & C3).
  cbn [bind]. exists m'. split; auto. f_equal. f_equal. destruct (N.ltb_spec (en_lsn en) lsn); lia.
Qed.
