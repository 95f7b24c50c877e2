(* Ingestion in order: no condition on the states in between. *)
From Coq Require Import NArith ZArith List Bool Sorted Lia Arith Permutation.
Import ListNotations.
From Verif Require Import Model.Base Model.Event Model.Rbtree Model.Memtable Model.Mapping Model.Merge
  Model.PartIter Model.Scan Model.Writer Model.Codec Model.Engine Spec.Order Spec.Merged Spec.Files
  Spec.Layout Spec.Regions Spec.View Spec.Engine Spec.Grow Proof.OrderL Proof.RbtreeL
  Proof.MemtableL Proof.MemtableL2 Proof.MergeL Proof.PartIterL Proof.MappingL Proof.MappingP
  Proof.MappingX Proof.ScanL Proof.WriterL Proof.EngineL Proof.EngineW Proof.EngineR Proof.EngineP
  Proof.GrowL.
Local Arguments N.pow : simpl never.
Local Arguments N.add : simpl never.
Local Arguments N.sub : simpl never.
Local Arguments engine_lock : simpl never.
Local Arguments memtable_set : simpl never.
Local Arguments engine_write : simpl never.
Local Arguments engine_refresh : simpl never.
Implicit Types (s : slice part) (m : mapping part).

(* a partition of an ingestion of h *)
Definition stream_part (h : list event) (p : part) : Prop :=
  mt_events (pt_prev p) = [] /\
  ascending (file_events p ++ mt_events (pt_mem p)) /\
  incl (file_events p ++ mt_events (pt_mem p)) h.
Definition stream_map (h : list event) (m : mapping part) : Prop :=
  forall s, In s (mapping_list m) -> stream_part h (s_data s).

Lemma stream_like h p q : like p q -> stream_part h p -> stream_part h q.
Proof.
  intros (L1 & _ & _ & L4 & L5 & _). unfold stream_part, file_events. rewrite L1, L4, L5. auto.
Qed.
Lemma stream_new h : stream_part h (part_new 0 0).
Proof. split; [reflexivity|]. split; [constructor|intros x []]. Qed.
Lemma stream_mono h h' p : incl h h' -> stream_part h p -> stream_part h' p.
Proof. intros Hi (H1 & H2 & H3). split; auto. split; auto. eapply incl_tran; eauto. Qed.
Lemma stream_ext h m m' : stream_map h m -> ext m m' -> stream_map h m'.
Proof.
  intros H [_ E] t Ht. destruct (E t Ht) as [(q & Hq & L)|L]; eapply stream_like; eauto using stream_new.
  exact (H _ Hq).
Qed.

Lemma stream_fits h m l : stream_map h m -> ascending (h ++ l) -> fits m l.
Proof.
  intros H Ha. apply ascending_app in Ha as (_ & A & B). split; auto. intros s Hs. right. split; auto.
  intros e He _. apply Forall_forall. intros x Hx. apply B; auto.
  destruct (H s Hs) as (_ & _ & Hi). apply Hi. apply in_app_iff. auto.
Qed.

Lemma stream_loop lo en : (0 < en_interval en <= u64_max)%N ->
  forall l w h, g_minv true lo (ws_map w) -> Forall (fun a => wa_mem a = MemOk) l ->
  Forall (fun a => length (ev_key (wa_event a)) <= 255) l ->
  Forall (event_near lo en) (assigned (en_serial en) (ws_ssn w) l) ->
  stream_map h (ws_map w) -> ascending (h ++ assigned (en_serial en) (ws_ssn w) l) ->
  exists w', write_loop en w l = Ok (w', true) /\
    stream_map (h ++ assigned (en_serial en) (ws_ssn w) l) (ws_map w').
Proof.
  intros Hiv. induction l as [|a l IH]; intros w h I Hm Hk Hf Hst Ha.
  - exists w. split; [reflexivity|]. cbn [assigned]. rewrite app_nil_r. auto.
  - inversion Hm; subst. inversion Hk; subst. cbn [write_loop length] in *.
    rewrite assigned_cons in Hf, Ha |- * by auto. inversion Hf; subst.
    pose proof (stream_fits _ _ _ Hst Ha) as Hroom.
    destruct (g_step true lo en w a _ I Hiv H3 H1 (near_fine _ _ _ H5) (gfits_of true _ _ Hroom))
      as [[_ X]|(m1 & s & t & HE & _ & I1 & Hs & Hr & Hrm & Ht & Hev & _ & _ & _ & ->)]; [contradiction|].
    cbn [bind].
    set (e := numbered en (ws_ssn w) (wa_event a)) in *.
    set (ssn := ssn_after en (ws_ssn w) (wa_event a)) in *.
    pose proof I1 as [G1 F1]. rewrite Forall_forall in F1. pose proof (F1 s Hs) as Fs.
    assert (Fs' : g_sfine true lo (mk_slice (s_min s) (s_max s) (with_mem (s_data s) t))).
    { apply g_sfine_with_mem; auto. rewrite Hev. apply upsert_forall; auto. apply (g_sfine_mem_ids true lo s Fs). }
    set (m2 := ref_put m1 (s_min s) (with_mem (s_data s) t)).
    assert (I2 : g_minv true lo m2) by (apply g_put_inv; auto).
    pose proof (stream_ext _ _ _ Hst HE) as Hst1.
    assert (Hst2 : stream_map (h ++ [e]) m2).
    { intros u Hu. apply (put_in lo) in Hu; auto. destruct Hu as [->|[Hu _]].
      - destruct (Hst1 s Hs) as (S1 & S2 & S3).
        assert (B : forall x, In x (file_events (s_data s) ++ mt_events (pt_mem (s_data s))) -> ev_lt x e).
        { intros x Hx. apply S3 in Hx. apply ascending_app in Ha as (_ & _ & B). apply B; simpl; auto. }
        assert (U : upsert e (mt_events (pt_mem (s_data s))) = mt_events (pt_mem (s_data s)) ++ [e]).
        { apply upsert_behind. apply Forall_forall. intros x Hx. apply B. apply in_app_iff; auto. }
        unfold stream_part, file_events. cbn [s_data with_mem pt_mem pt_prev pt_file].
        fold (file_events (s_data s)). rewrite Hev, U, app_assoc. split; auto. split.
        + apply ascending_app. split; auto. split; [repeat constructor|].
          intros x y Hx [<-|[]]. auto.
        + apply incl_app; [apply incl_appl; auto|apply incl_appr; apply incl_refl].
      - eapply stream_mono; [|apply Hst1; auto]. apply incl_appl, incl_refl. }
    destruct (IH (mk_wstate m2 ssn (mk_logop (Some (s_min s)) (Some e) (lookup (mt_events (pt_mem (s_data s))) e) :: ws_log w)) (h ++ [e]) I2 H2 H4 H6 Hst2)
      as (w' & J1 & J2).
    { cbn [ws_ssn]. rewrite <- app_assoc. exact Ha. }
    exists w'. split; auto. cbn [ws_ssn] in J2. rewrite <- app_assoc in J2. exact J2.
Qed.

Lemma followed_stream h lsn l m m' : mapping_list m' = map (followed lsn l) (mapping_list m) ->
  stream_map h m -> stream_map h m'.
Proof.
  intros E H t Ht. rewrite E in Ht. apply in_map_iff in Ht as (s & <- & Hs). specialize (H s Hs).
  unfold followed. destruct (has_ref l s); auto.
Qed.

Lemma assigned_plain ssn l : Forall (fun e => length (ev_key e) <= 255) l ->
  assigned false ssn (map (fun e => mk_warg e MemOk) l) = l.
Proof.
  induction 1; [reflexivity|]. cbn [map assigned wa_event andb].
  destruct (Nat.ltb_spec 255 (length (ev_key x))); [lia|]. rewrite IHForall. reflexivity.
Qed.

Record sinv (lo : N) (en0 en : engine) (h : list event) : Prop := {
  si_inv : g_einv true lo en h;
  si_map : stream_map h (en_map en);
  si_asc : ascending h;
  si_iv : en_interval en = en_interval en0;
  si_serial : en_serial en = false;
  si_page : en_page en = en_page en0
}.

Lemma stream_write lo en0 en h l : sinv lo en0 en h -> ascending (h ++ l) ->
  Forall (event_near lo en0) l ->
  exists en', estep en (load_op_of (Batch l)) = Ok en' /\ sinv lo en0 en' (h ++ l).
Proof.
  intros [I Hst Hh Hiv Hse Hpg] Ha Hn. cbn [load_op_of estep].
  assert (Hk : Forall (fun e => length (ev_key e) <= 255) l).
  { eapply Forall_impl; [|exact Hn]. intros e (Hok & _). apply Hok. }
  assert (Hk' : Forall (fun a => length (ev_key (wa_event a)) <= 255) (map (fun e => mk_warg e MemOk) l)).
  { apply Forall_map. exact Hk. }
  assert (Hm' : Forall (fun a => wa_mem a = MemOk) (map (fun e => mk_warg e MemOk) l)).
  { apply Forall_map. apply Forall_forall. auto. }
  assert (Hn' : Forall (event_near lo en) (assigned (en_serial en) (en_ssn en) (map (fun e => mk_warg e MemOk) l))).
  { rewrite Hse, assigned_plain by auto. eapply Forall_impl; [|exact Hn]. intros e. unfold event_near.
    rewrite Hiv, Hpg. auto. }
  assert (Ha' : ascending (h ++ assigned (en_serial en) (en_ssn en) (map (fun e => mk_warg e MemOk) l))).
  { rewrite Hse, assigned_plain by auto. exact Ha. }
  pose proof I as [GI GV GL].
  assert (Hf : load_fine lo en (map (fun e => mk_warg e MemOk) l)).
  { split; auto. split; auto. split; auto. eapply stream_fits; eauto. }
  pose proof (g_step_spec true lo en h (EWrite (map (fun e => mk_warg e MemOk) l) true) I (conj eq_refl Hf)) as Hs.
  cbn [estep] in Hs.
  destruct (stream_loop lo en GV _ (mk_wstate (en_map en) (en_ssn en) []) h GI Hm' Hk' Hn' Hst Ha') as (w' & J1 & J2).
  assert (Hn2 : Forall (event_fine lo en) (assigned (en_serial en) (en_ssn en) (map (fun e => mk_warg e MemOk) l))).
  { eapply Forall_impl; [|exact Hn']. intros e. apply near_fine. }
  destruct (g_loop true lo en GV _ (mk_wstate (en_map en) (en_ssn en) []) GI Hm' Hn2
      (gfits_of true _ _ (stream_fits _ _ _ Hst Ha')))
    as (w2 & ok & log' & K1 & K2 & K3 & _ & _ & K8 & _ & _).
  rewrite J1 in K1. inversion K1; subst w2 ok. destruct (K8 eq_refl) as (_ & _ & _ & K9). cbn [ws_log ws_ssn ws_map] in *. rewrite app_nil_r in K3.
  destruct (g_commit_spec true lo (w64 (en_lsn en + 1)) (rev (ws_log w')) (ws_map w') K2) as (m & C1 & C2 & C3).
  { rewrite K3. unfold refs_ok. apply Forall_rev. exact K9. }
  destruct (g_write_spec true lo en _ true GI GV Hm' Hn2 (gfits_of true _ _ (stream_fits _ _ _ Hst Ha')))
    as [(m' & W1 & _ & _)|[X _]]; [discriminate|auto| |discriminate].
  assert (Em : m' = m).
  { unfold engine_write in W1. rewrite J1 in W1. cbn [bind andb with_ssn en_lsn] in W1. rewrite C1 in W1.
    cbn [bind] in W1. inversion W1. reflexivity. }
  subst m'. cbn [ack_step] in Hs. rewrite W1 in Hs |- *. cbn [bind fst] in Hs |- *. eexists. split; [reflexivity|].
  rewrite Hse, assigned_plain in Hs by auto. rewrite Hse, assigned_plain in J2 by auto.
  constructor; auto.
  - rewrite Hse. exact Hs.
  - cbn [en_map]. eapply followed_stream; eauto.
Qed.

Lemma stream_weight h p : stream_part h p -> (region_weight h < 2^32)%N ->
  (region_weight (concat (contents p)) < 2^32)%N.
Proof.
  intros (H1 & H2 & H3) Hw. rewrite weight_wsum in *.
  pose proof (wsum_incl _ h (ascending_nodup _ H2) H3) as X. rewrite wsum_app in X.
  unfold contents. cbn [concat]. rewrite H1. fold (file_events p).
  rewrite !wsum_app. cbn [wsum fold_right app]. unfold wsum in *. cbn [fold_right] in *. lia.
Qed.

Lemma stream_refresh lo en0 en h id : sinv lo en0 en h -> (lo <= id < lo + 2^31)%N -> (region_weight h < 2^32)%N ->
  match estep en (ERefresh id false) with
  | Ok en' => sinv lo en0 en' h
  | Err => True
  | UB => False
  end.
Proof.
  intros [I Hst Hh Hiv Hse Hpg] Hid Hw. pose proof I as [GI GV GL].
  assert (Hf : op_fine lo en (ERefresh id false)).
  { split; auto. intros s Hs Hr. split; [|eapply stream_weight; eauto].
    intros k. right. destruct (Hst s Hs) as (-> & _). reflexivity. }
  pose proof (g_step_spec true lo en h (ERefresh id false) I Hf) as Hs. cbn [ack_step estep] in *.
  unfold engine_refresh in *.
  destruct (g_begin_spec true lo en id GI Hid) as [(E & _)|(s & Hin & Hr & E & I1 & R1 & _)]; rewrite E in *;
    cbn [bind] in *; auto.
  set (m1 := ref_put (en_map en) (s_min s) (part_memtable_rotate (s_data s))) in *.
  pose proof (g_mi_map _ _ _ GI) as G.
  pose proof (Hst s Hin) as (S1 & S2 & S3).
  assert (Hin1 : In (mk_slice (s_min s) (s_max s) (part_memtable_rotate (s_data s))) (mapping_list m1))
    by (apply (put_in lo); auto).
  pose proof I1 as [G1 F1]. rewrite Forall_forall in F1. pose proof (F1 _ Hin1) as Fr.
  assert (Hwr : (region_weight (concat (contents (part_memtable_rotate (s_data s)))) < 2^32)%N).
  { rewrite weight_wsum, wsum_rotate, <- weight_wsum. eapply stream_weight; eauto. }
  destruct (g_refresh_part_spec true lo (en_region en) _ Fr Hwr)
    as (p & l & E2 & Fp & P1 & P2 & P3 & P4 & _ & P5 & _). cbn [s_data s_min s_max] in *.
  unfold refresh_apply in *. pose proof (ref_get lo m1 _ G1 Hin1) as Eg. cbn [s_min s_data] in Eg.
  cbn [en_map with_map en_region] in *. rewrite Eg in *. cbn [bind] in *. rewrite E2 in *. cbn [bind fst] in *.
  constructor; auto. cbn [en_map with_map].
  intros u Hu. pose proof (put_in lo m1 _ p u G1 Hin1) as X. cbn [s_min s_max] in X. apply X in Hu. clear X.
  destruct Hu as [->|[Hu Hne]].
  - cbn [s_data]. unfold stream_part, file_events. rewrite P1, P2, P3, P4.
    cbn [part_memtable_rotate pt_mem]. rewrite S1, app_nil_r. split; [reflexivity|].
    assert (Al : ascending l).
    { pose proof (g_sf_file _ _ _ Fp) as Ff. cbn [s_data] in Ff. rewrite P3 in Ff.
      destruct Ff as ((Ff & _) & _). rewrite P4 in Ff. exact Ff. }
    split; auto. intros x Hx. apply S3.
    assert (X : lookup l x = Some x) by (apply ascending_lookup; auto; apply same_key_refl).
    rewrite P5 in X. cbn [part_memtable_rotate pt_prev pt_file] in X.
    destruct (lookup _ x) as [y|] eqn:Ey; [|discriminate]. cbn [liveo] in X.
    destruct (event_is_delete y); [discriminate|]. inversion X; subst y.
    apply lookup_in in Ey as [Ey _]. apply in_app_iff in Ey. apply in_app_iff. unfold file_events. tauto.
  - pose proof (put_in lo (en_map en) s (part_memtable_rotate (s_data s)) u G Hin) as X. apply X in Hu.
    destruct Hu as [->|[Hu _]]; [congruence|]. apply Hst; auto.
Qed.

Lemma weight_prefix a b : (region_weight (a ++ b) < 2^32)%N -> (region_weight a < 2^32)%N.
Proof. rewrite !weight_wsum, wsum_app. lia. Qed.

Lemma stream_run lo en0 : forall ops en h, sinv lo en0 en h -> ascending (h ++ loaded ops) ->
  Forall (event_near lo en0) (loaded ops) -> (region_weight (h ++ loaded ops) < 2^32)%N ->
  (forall id, In (Fresh id) ops -> (lo <= id < lo + 2^31)%N) ->
  exists en', erun en (map load_op_of ops) = Ok en' /\ sinv lo en0 en' (h ++ loaded ops).
Proof.
  induction ops as [|[l|id] ops IH]; intros en h I Ha Hn Hw Hid; unfold loaded in *; cbn [flat_map map erun] in *.
  - exists en. rewrite app_nil_r. auto.
  - apply Forall_app in Hn as [Hn1 Hn2]. rewrite app_assoc in Ha, Hw |- *.
    destruct (stream_write lo en0 en h l I) as (en' & -> & I'); auto.
    { apply ascending_app in Ha. tauto. }
    destruct (IH en' _ I' Ha Hn2 Hw) as (en2 & E & I2); eauto. intros id Hi. apply Hid. simpl; auto.
  - pose proof (stream_refresh lo en0 en h id I (Hid id (or_introl eq_refl)) (weight_prefix _ _ Hw)) as Hs.
    cbn [load_op_of]. cbn [app] in *. destruct (estep en (ERefresh id false)) as [en'| |]; [| |contradiction].
    + apply IH; auto. intros i Hi. apply Hid. simpl; auto.
    + apply IH; auto. intros i Hi. apply Hid. simpl; auto.
Qed.

Lemma last_write_asc h e : ascending h -> (last_write h e = Some e <-> In e h).
Proof.
  intros Ha. unfold last_write. split.
  - intros H. apply find_some in H as [H _]. apply in_rev; auto.
  - intros H. destruct (find (same_keyb e) (rev h)) as [x|] eqn:E.
    + apply find_some in E as [Hx Hk]. apply in_rev in Hx. apply same_keyb_true in Hk.
      pose proof (ascending_lookup h x e Ha Hx Hk). pose proof (ascending_lookup h e e Ha H (same_key_refl e)). congruence.
    + eapply find_none in E; [|apply in_rev; rewrite rev_involutive; exact H].
      rewrite (proj2 (same_keyb_true e e) (same_key_refl e)) in E. discriminate.
Qed.

Lemma ascending_same l1 l2 : ascending l1 -> ascending l2 -> (forall e, In e l1 <-> In e l2) -> l1 = l2.
Proof.
  intros A1 A2 H. apply ascending_ext; auto. intros k.
  destruct (lookup l1 k) as [e|] eqn:E.
  - apply lookup_in in E as [E Hk]. symmetry. apply ascending_lookup; auto. apply H; auto.
  - symmetry. apply lookup_none. intros e He. apply H in He. revert e He. apply lookup_none. auto.
Qed.

Lemma stream_scan : forall lo iv page region ops, limits lo iv -> (lo + 2^31 < 2^63)%N ->
  ascending (loaded ops) -> Forall (event_near lo (engine_new iv false page region)) (loaded ops) ->
  (region_weight (loaded ops) < 2^32)%N ->
  (forall id, In (Fresh id) ops -> (lo <= id < lo + 2^31)%N) ->
  exists en n, erun (engine_new iv false page region) (map load_op_of ops) = Ok en /\
    forall fuel, n < fuel -> monotone_scan fuel (en_map en) None = Ok (Some (shown (loaded ops))).
Proof.
  intros lo iv page region ops [Hl1 Hl2] H63 Ha Hn Hw Hid.
  destruct (stream_run lo (engine_new iv false page region) ops (engine_new iv false page region) []) as (en & E & I); auto.
  { constructor; auto; [apply g_einv_new; auto|intros s []|constructor]. }
  cbn [app] in I.
  destruct (g_scan_engine true lo (en_map en) None (g_ei_map _ _ _ _ (si_inv _ _ _ _ I)) H63) as (out & n & H1 & H2 & H3).
  exists en, n. split; auto. replace (shown (loaded ops)) with out; auto.
  apply ascending_same; auto; [apply filter_ascending; auto|]. intros e. rewrite H3. fold (parts en).
  rewrite (g_visible_current true lo en _ e (si_inv _ _ _ _ I)). unfold current, shown.
  rewrite last_write_asc, filter_In by auto. simpl. destruct (event_is_delete e); simpl; intuition congruence.
Qed.
