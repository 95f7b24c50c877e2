(* Refresh, DROP, CREATE and whole histories. *)
From Coq Require Import NArith ZArith List Bool Sorted Lia Arith Permutation.
Import ListNotations.
From Verif Require Import Model.Base Model.Event Model.Rbtree Model.Memtable Model.Mapping Model.Merge
  Model.PartIter Model.Scan Model.Writer Model.Engine Spec.Order Spec.Merged Spec.Files Spec.Layout
  Spec.Regions Spec.View
  Spec.Engine Proof.OrderL Proof.RbtreeL Proof.MemtableL Proof.MemtableL2 Proof.MergeL Proof.PartIterL
  Proof.WriterL Proof.MappingL Proof.MappingP Proof.MappingX Proof.ScanL Proof.EngineL Proof.EngineW.
Local Arguments N.pow : simpl never.
Local Arguments N.add : simpl never.
Local Arguments N.sub : simpl never.
Local Arguments engine_lock : simpl never.
Implicit Types (s : slice part) (m : mapping part).

Definition liveo (o : option event) : option event :=
  match o with Some e => if event_is_delete e then None else Some e | None => None end.

(* --- weights --- *)
Definition wsum (l : list event) : N := fold_right (fun e n => event_weight e + 4 + n)%N 0%N l.
Lemma weight_wsum l : region_weight l = (24 + wsum l)%N.
Proof.
  unfold region_weight. rewrite <- N.add_assoc. f_equal. induction l as [|a l IH]; [reflexivity|].
  cbn [length fold_right wsum]. fold (wsum l). rewrite <- IH. lia.
Qed.
Lemma wsum_app a b : wsum (a ++ b) = (wsum a + wsum b)%N.
Proof.
  induction a as [|x a IH]; [reflexivity|]. cbn [app wsum fold_right].
  fold (wsum a) (wsum (a ++ b)). rewrite IH. lia.
Qed.
Lemma wsum_incl l : forall l', NoDup l -> incl l l' -> (wsum l <= wsum l')%N.
Proof.
  induction l as [|a l IH]; intros l' Hn Hi; [simpl; lia|].
  inversion Hn; subst. destruct (in_split a l') as (l1 & l2 & ->); [apply Hi; simpl; auto|].
  specialize (IH (l1 ++ l2) H2). rewrite wsum_app in *. cbn [wsum fold_right] in *.
  fold (wsum l) (wsum l2) in *.
  assert (wsum l <= wsum l1 + wsum l2)%N; [|lia]. apply IH. intros x Hx.
  assert (Hx' : In x (l1 ++ a :: l2)) by (apply Hi; simpl; auto).
  apply in_app_iff in Hx' as [|[->|]]; apply in_app_iff; auto. contradiction.
Qed.
Lemma ascending_nodup l : ascending l -> NoDup l.
Proof.
  induction 1; constructor; auto. intros Hin. rewrite Forall_forall in H0. specialize (H0 _ Hin).
  unfold ev_lt in H0. pose proof (proj2 (ev_cmp_eq a a) (same_key_refl a)). congruence.
Qed.

Lemma tab_reads lo t key : tab lo t -> (match key with Some k => good lo k | None => True end) ->
  table_reads t key.
Proof.
  intros [T1 T2 T3 T4] Hk. split.
  - intros H0. inversion T1 as [|c pg E1 E2 E3 E4 E5]; auto. rewrite H0 in E3.
    destruct (pg_ev pg); [congruence|simpl in E3; lia].
  - intros _. exact (scan_single lo t _ key T1 T2 T3 Hk).
Qed.

Lemma source_spec lo t : tab lo t -> exists srcs, memtable_source t None = Ok srcs /\
  concat srcs = mt_events t /\ Forall ascending srcs.
Proof.
  intros T. destruct (tab_reads lo t None T I) as [R1 R2]. unfold memtable_source.
  destruct (N.eqb_spec (mt_count t) 0).
  - exists []. rewrite R1 by auto. repeat split; constructor.
  - rewrite R2 by auto. cbn [bind]. exists [mt_events t]. simpl. rewrite app_nil_r. repeat split; auto.
    constructor; auto. apply (tb_asc _ _ T).
Qed.

Lemma lookup_live l k : ascending l ->
  lookup (filter (fun e => negb (event_is_delete e)) l) k = liveo (lookup l k).
Proof.
  induction l as [|a l IH]; intros H; auto. apply ascending_cons in H as [HF Hs].
  cbn [filter]. rewrite (lookup_cons a l). destruct (same_keyb k a) eqn:E.
  - cbn [liveo]. destruct (event_is_delete a) eqn:Ed; cbn [negb].
    + rewrite IH by auto. rewrite (proj2 (lookup_none l k)); auto.
      intros y Hy Hk. rewrite Forall_forall in HF. specialize (HF y Hy).
      apply same_keyb_true in E. unfold ev_lt in HF.
      assert (X : same_key a y) by (destruct E, Hk; split; congruence).
      apply ev_cmp_eq in X. congruence.
    + rewrite lookup_cons, E. auto.
  - destruct (negb (event_is_delete a)); [rewrite lookup_cons, E|]; auto.
Qed.

Lemma merger_spec lo p : tab lo (pt_prev p) -> file_fine lo (pt_file p) ->
  exists l, merger_events p = Ok l /\ ascending l /\ Forall (good lo) l /\
    (forall k, lookup l k = liveo (lookup (mt_events (pt_prev p) ++
        match pt_file p with Some f => concat f | None => [] end) k)) /\
    incl l (mt_events (pt_prev p) ++ match pt_file p with Some f => concat f | None => [] end) /\
    Forall (fun e => event_is_delete e = false) l.
Proof.
  intros T Hf. unfold merger_events. destruct (source_spec lo _ T) as (a & -> & Ca & Aa). cbn [bind].
  set (srcs := a ++ match pt_file p with None => [] | Some f => [file_scan f None] end).
  set (fe := match pt_file p with Some f => concat f | None => [] end).
  assert (Hc : concat srcs = mt_events (pt_prev p) ++ fe).
  { unfold srcs, fe. rewrite concat_app, Ca. destruct (pt_file p) as [f|]; auto. simpl.
    destruct Hf as (H1 & _). rewrite file_scan_none, app_nil_r; auto. apply H1. }
  assert (Ha : Forall ascending srcs).
  { unfold srcs. apply Forall_app. split; auto. destruct (pt_file p) as [f|]; auto.
    destruct Hf as (H1 & _). constructor; auto. rewrite file_scan_none; apply H1. }
  assert (Hg : Forall (good lo) (concat srcs)).
  { rewrite Hc. apply Forall_app. split; [apply (tb_good _ _ T)|]. unfold fe.
    destruct (pt_file p) as [f|]; auto. apply Hf. }
  destruct (merge_all_spec srcs Ha (good_cmp_ok lo _ Hg)) as [M1 M2].
  assert (Hi : incl (merge_all srcs) (concat srcs)).
  { intros e He. assert (X : lookup (merge_all srcs) e = Some e).
    { apply ascending_lookup; auto. apply same_key_refl. }
    rewrite M2 in X. apply lookup_in in X. tauto. }
  eexists. split; [reflexivity|]. split; [apply filter_ascending; auto|]. split; [|split; [|split]].
  - rewrite Forall_forall in *. intros x Hx. apply filter_In in Hx as [Hx _]. auto.
  - intros k. rewrite lookup_live by auto. rewrite M2, Hc. auto.
  - intros x Hx. apply filter_In in Hx as [Hx _]. rewrite <- Hc. auto.
  - rewrite Forall_forall. intros x Hx. apply filter_In in Hx as [_ Hx]. destruct (event_is_delete x); auto.
Qed.

Lemma refresh_part_spec lo region s : sfine lo s ->
  (region_weight (concat (contents (s_data s))) < 2^32)%N ->
  exists p l, refresh_part region (s_data s) = Ok p /\
    sfine lo (mk_slice (s_min s) (s_max s) p) /\
    pt_mem p = pt_mem (s_data s) /\ pt_prev p = memtable_new /\
    pt_file p = Some (cut_regions region l) /\ concat (cut_regions region l) = l /\
    pt_lsn p = merger_lsn (s_data s) /\
    (forall k, lookup l k = liveo (lookup (mt_events (pt_prev (s_data s)) ++
        match pt_file (s_data s) with Some f => concat f | None => [] end) k)) /\
    Forall (fun e => event_is_delete e = false) l.
Proof.
  intros [F1 F2 F3 F4] Hw. unfold refresh_part.
  destruct (merger_spec lo (s_data s) F2 F3) as (l & -> & L1 & L2 & L3 & L4 & L5).
  cbn [bind].
  assert (Hw' : (region_weight l < 2^32)%N).
  { rewrite weight_wsum in *. pose proof (wsum_incl l _ (ascending_nodup _ L1) L4) as X.
    unfold contents in Hw. cbn [concat] in Hw. rewrite app_nil_r in Hw. rewrite !wsum_app in *. lia. }
  destruct (write_file_ok region l L1 Hw') as (W1 & W2 & W3).
  eexists _, l. split; [reflexivity|].
  cbn [pt_mem pt_prev pt_file pt_lsn]. split.
  - constructor; cbn [s_data pt_mem pt_prev pt_file]; auto using tab_new.
    + split; auto. split; auto. rewrite (cut_all _ _ _ W1). auto.
    + unfold ids_in, contents in *. cbn [concat pt_mem pt_prev pt_file] in *. rewrite !Forall_app in *.
      unfold range_of in *. cbn [s_min s_max] in *. rewrite (cut_all _ _ _ W1).
      destruct F4 as (A & B & C & _). repeat split; auto; try constructor.
      rewrite Forall_forall in *. intros x Hx. apply L4 in Hx. apply in_app_iff in Hx as [Hx|Hx]; auto.
  - rewrite (cut_all _ _ _ W1). repeat (split; [reflexivity|]). split; auto.
Qed.

Lemma sfine_rotate lo s : sfine lo s ->
  sfine lo (mk_slice (s_min s) (s_max s) (part_memtable_rotate (s_data s))).
Proof.
  intros [F1 F2 F3 F4]. constructor; simpl; auto.
  unfold ids_in, contents, range_of in *. simpl in *. rewrite !Forall_app in *. tauto.
Qed.

Lemma rotate_look s k : tables_apart (s_data s) ->
  part_look (part_memtable_rotate (s_data s)) k = part_look (s_data s) k.
Proof.
  intros H. rewrite !lookup_part. simpl. destruct (H k) as [E|E]; rewrite E.
  - destruct (lookup (mt_events (pt_prev (s_data s))) k); auto.
  - destruct (lookup (mt_events (pt_mem (s_data s))) k); auto.
Qed.

Lemma refresh_look lo region s p k : sfine lo s ->
  (region_weight (concat (contents (s_data s))) < 2^32)%N ->
  refresh_part region (s_data s) = Ok p ->
  liveo (part_look p k) = liveo (part_look (s_data s) k).
Proof.
  intros F Hw Hp. destruct (refresh_part_spec lo region s F Hw)
    as (p' & l & E & _ & P1 & P2 & P3 & P4 & _ & P5 & _).
  rewrite E in Hp. inversion Hp; subst p'. rewrite !lookup_part, P1, P2, P3, P4, P5, lookup_app.
  change (mt_events memtable_new) with (@nil event). change (lookup [] k) with (@None event).
  destruct (lookup (mt_events (pt_mem (s_data s))) k); auto.
  assert (X : forall o, liveo (liveo o) = liveo o).
  { intros [e|]; auto. cbn [liveo]. destruct (event_is_delete e) eqn:Ed; auto. cbn [liveo]. rewrite Ed. auto. }
  destruct (lookup (mt_events (pt_prev (s_data s))) k); rewrite X; auto.
Qed.

(* the steps of a refresh *)
Lemma begin_spec lo en id : minv lo (en_map en) -> (lo <= id < lo + 2^31)%N ->
  (refresh_begin en id = Err /\ ~ covered (ranges (en_map en)) id) \/
  exists s, In s (mapping_list (en_map en)) /\ in_range id (range_of s) /\
    let m := ref_put (en_map en) (s_min s) (part_memtable_rotate (s_data s)) in
    refresh_begin en id = Ok (with_map en m, s_min s) /\ minv lo m /\
    ranges m = ranges (en_map en) /\
    (tables_apart (s_data s) -> forall k, look m k = look (en_map en) k).
Proof.
  intros I Hid. pose proof I as [G F]. rewrite Forall_forall in F. unfold refresh_begin.
  destruct (covered_dec (en_map en) id) as [Hc|Hn].
  - right. apply covered_slice in Hc.
    destruct (lock_found lo (en_map en) (en_interval en) id false G ltac:(lia) Hc) as (z & s & -> & Hz & Hin & Hr).
    cbn [bind snd]. rewrite Hz. pose proof (F s Hin) as Fs.
    exists s. split; auto. split; auto. split; [reflexivity|]. pose proof (sfine_rotate lo s Fs) as Fr.
    split; [apply put_inv; auto|]. split; [apply put_ranges|].
    intros Ht k. rewrite (put_look lo) by auto. destruct (slice_in s (ev_id k)) eqn:E; auto.
    apply in_slice in E. rewrite (look_at lo (en_map en) s k) by auto. rewrite rotate_look; auto.
  - left. rewrite (lock_missing lo) by (auto; lia). auto.
Qed.

Lemma apply_spec lo en s : minv lo (en_map en) -> In s (mapping_list (en_map en)) ->
  (region_weight (concat (contents (s_data s))) < 2^32)%N ->
  exists p, refresh_part (en_region en) (s_data s) = Ok p /\
    let m := ref_put (en_map en) (s_min s) p in
    refresh_apply en (s_min s) = Ok (with_map en m) /\ minv lo m /\
    ranges m = ranges (en_map en) /\ forall k, liveo (look m k) = liveo (look (en_map en) k).
Proof.
  intros I Hin Hw. pose proof I as [G F]. rewrite Forall_forall in F. pose proof (F s Hin) as Fs.
  destruct (refresh_part_spec lo (en_region en) s Fs Hw) as (p & l & E & Fp & _).
  exists p. split; auto. unfold refresh_apply. rewrite (ref_get lo _ s G Hin). cbn [bind].
  rewrite E. cbn [bind]. split; [reflexivity|].
  split; [apply put_inv; auto|]. split; [apply put_ranges|].
  intros k. rewrite (put_look lo) by auto. destruct (slice_in s (ev_id k)) eqn:Es; auto.
  apply in_slice in Es. rewrite (look_at lo (en_map en) s k) by auto.
  eapply refresh_look; eauto.
Qed.

Lemma wsum_rotate p : wsum (concat (contents (part_memtable_rotate p))) = wsum (concat (contents p)).
Proof. unfold contents. cbn [concat part_memtable_rotate pt_mem pt_prev pt_file]. rewrite !wsum_app. lia. Qed.

Lemma refresh_spec lo en id fails : minv lo (en_map en) -> op_fine lo en (ERefresh id fails) ->
  (engine_refresh en id fails = Err /\ ~ covered (ranges (en_map en)) id) \/
  exists m, engine_refresh en id fails = Ok (with_map en m, negb fails) /\ minv lo m /\
    ranges m = ranges (en_map en) /\ forall k, liveo (look m k) = liveo (look (en_map en) k).
Proof.
  intros I (Hid & Hs). unfold engine_refresh.
  destruct (begin_spec lo en id I Hid) as [(-> & Hn)|(s & Hin & Hr & -> & I1 & R1 & L1)]; [left; auto|].
  right. destruct (Hs s Hin Hr) as [Ht Hw]. cbn [bind].
  set (m1 := ref_put (en_map en) (s_min s) (part_memtable_rotate (s_data s))) in *.
  destruct fails.
  - exists m1. split; auto. split; auto. split; auto. intros k. rewrite L1; auto.
  - destruct (apply_spec lo (with_map en m1) (mk_slice (s_min s) (s_max s) (part_memtable_rotate (s_data s))) I1)
      as (p & E & A1 & A2 & A3 & A4).
    { apply (put_in lo); auto. apply (mi_map _ _ I). }
    { cbn [s_data]. rewrite weight_wsum in *. rewrite wsum_rotate. auto. }
    cbn [s_min en_map with_map] in *. rewrite A1. cbn [bind]. eexists. split; [reflexivity|].
    split; auto. split; [congruence|]. intros k. rewrite A4, L1; auto.
Qed.

Lemma drop_look lo en id : minv lo (en_map en) -> (lo <= id < lo + 2^31)%N ->
  exists m, engine_drop en id = Ok (with_map en m) /\ minv lo m /\
    mapping_list m = filter (fun s => negb (slice_in s id)) (mapping_list (en_map en)) /\
    forall k, look m k = if existsb (fun s => slice_in s id && slice_in s (ev_id k))%bool (mapping_list (en_map en))
                         then None else look (en_map en) k.
Proof.
  intros I Hid. pose proof I as [G F]. destruct (drop_spec lo (en_map en) id G ltac:(lia)) as (m & E & G' & Hl).
  unfold engine_drop. rewrite E. cbn [bind]. exists m. split; auto.
  assert (I' : minv lo m).
  { constructor; auto. rewrite Hl. rewrite Forall_forall in *. intros x Hx. apply filter_In in Hx. apply F. tauto. }
  split; auto. split; auto. intros k.
  destruct (existsb _ _) eqn:Ex.
  - apply existsb_exists in Ex as (s & Hs & Es). apply andb_true_iff in Es as [E1 E2].
    apply in_slice in E2. apply (look_out lo); auto. intros Hc. apply covered_slice in Hc as (t & Ht & Hr).
    rewrite Hl in Ht. apply filter_In in Ht as [Ht Hd].
    assert (t = s) by (apply (layout_unique (mapping_list (en_map en)) t s (ev_id k)); auto; exact (gm_layout _ _ G)).
    subst. rewrite E1 in Hd. discriminate.
  - destruct (covered_dec (en_map en) (ev_id k)) as [(s & Hs & Hr)|Hn].
    + rewrite (look_at lo (en_map en) s), (look_at lo m s); auto. rewrite Hl. apply filter_In. split; auto.
      destruct (slice_in s id) eqn:Es; auto. exfalso.
      assert (X : existsb (fun s => slice_in s id && slice_in s (ev_id k))%bool (mapping_list (en_map en)) = true).
      { apply existsb_exists. exists s. split; auto. apply in_slice in Hr. rewrite Es, Hr. auto. }
      congruence.
    + rewrite (look_out lo m), (look_out lo (en_map en)); auto. intros Hc. apply Hn.
      apply covered_slice in Hc as (t & Ht & Hr). rewrite Hl in Ht. apply filter_In in Ht as [Ht _].
      apply covered_slice. eauto.
Qed.

(* --- histories --- *)
Record einv (lo : N) (en : engine) (h : list event) : Prop := {
  ei_map : minv lo (en_map en);
  ei_iv : (0 < en_interval en <= u64_max)%N;
  ei_look : forall k, liveo (look (en_map en) k) = liveo (last_write h k)
}.

Lemma last_write_over h1 h2 k : last_write (h1 ++ h2) k = over h2 (last_write h1) k.
Proof. unfold over, last_write. rewrite rev_app_distr, find_app. destruct (find _ (rev h2)); auto. Qed.

Lemma filter_rev {A} (f : A -> bool) l : filter f (rev l) = rev (filter f l).
Proof.
  induction l as [|a l IH]; auto. cbn [rev filter]. rewrite filter_app, IH. simpl.
  destruct (f a); simpl; auto. rewrite app_nil_r. auto.
Qed.

Lemma find_filter (f : N -> bool) l k : find (same_keyb k) (filter (fun e => f (ev_id e)) l) =
  if f (ev_id k) then find (same_keyb k) l else None.
Proof.
  induction l as [|a l IH]; cbn [filter find]; [destruct (f (ev_id k)); auto|].
  destruct (same_keyb k a) eqn:E.
  - pose proof E as E'. apply same_keyb_true in E' as [E' _]. rewrite <- E'.
    destruct (f (ev_id k)) eqn:Ef; [|rewrite IH; auto]. cbn [find]. rewrite E. auto.
  - destruct (f (ev_id a)); [cbn [find]; rewrite E|]; auto.
Qed.

Lemma step_spec lo en h o : einv lo en h -> op_fine lo en o ->
  match estep en o with
  | Ok en' => einv lo en' (ack_step en o h)
  | Err => einv lo en (ack_step en o h)
  | UB => False
  end.
Proof.
  intros [I Hiv HL] Hf. destruct o as [l logged|id fails|id|ref|id|mn mx|n]; cbn [estep ack_step op_fine] in *.
  - destruct (write_spec lo en l logged I Hiv Hf) as [(m & -> & _ & I' & _ & _ & Hl)|(m & ssn & -> & I' & HE)].
    + cbn [bind fst]. constructor; auto. cbn [en_map]. intros k. rewrite Hl, last_write_over. unfold over.
      destruct (last_write _ k); auto.
    + cbn [bind fst]. constructor; auto. cbn [en_map]. intros k. rewrite (ext_look lo (en_map en) m k); auto.
  - destruct (refresh_spec lo en id fails I Hf) as [(-> & _)|(m & -> & I' & _ & Hl)].
    + cbn [bind]. constructor; auto.
    + cbn [bind fst]. constructor; auto. cbn [with_map en_map]. intros k. rewrite Hl. auto.
  - destruct Hf as [Hid Ht].
    destruct (begin_spec lo en id I Hid) as [(-> & _)|(s & Hin & Hr & -> & I' & _ & Hl)].
    + cbn [bind]. constructor; auto.
    + cbn [bind fst]. constructor; auto. cbn [with_map en_map]. intros k. rewrite Hl; eauto.
  - destruct Hf as (s & Hin & <- & Hw).
    destruct (apply_spec lo en s I Hin Hw) as (p & _ & -> & I' & _ & Hl).
    constructor; auto. cbn [with_map en_map]. intros k. rewrite Hl. auto.
  - destruct (drop_look lo en id I Hf) as (m & -> & I' & _ & Hl). constructor; auto. cbn [with_map en_map].
    intros k. rewrite Hl. unfold last_write. rewrite <- filter_rev.
    rewrite (find_filter (fun i => negb (existsb (fun s => slice_in s id && slice_in s i)%bool (mapping_list (en_map en))))).
    destruct (existsb _ _); simpl; auto. apply HL.
  - destruct (N.leb_spec mn mx).
    + destruct (fill_spec part_new lo (en_map en) mn mx (mi_map _ _ I) (Hf H) H) as (m & new & -> & G' & HP & _).
      cbn [bind]. assert (I' : minv lo m) by (eapply perm_inv; eauto).
      constructor; auto. cbn [with_map en_map]. intros k. rewrite (ext_look lo (en_map en) m k); auto.
      eapply perm_ext; eauto.
    + unfold engine_fill. destruct (N.ltb_spec mx mn); [|lia]. cbn [bind]. constructor; auto.
  - constructor; auto.
Qed.

Lemma run_spec lo : forall l en h, einv lo en h -> hist_fine lo en l ->
  exists en', erun en l = Ok en' /\ einv lo en' (acked en l h).
Proof.
  induction l as [|o l IH]; intros en h I Hf; cbn [erun acked hist_fine] in *; [eauto|].
  destruct Hf as [H1 H2]. pose proof (step_spec lo en h o I H1) as Hs.
  destruct (estep en o) as [en'| |]; try contradiction; eauto.
Qed.

Lemma einv_new lo iv serial page region : (lo + 2^31 <= u64_max)%N -> (0 < iv <= u64_max)%N ->
  einv lo (engine_new iv serial page region) [].
Proof.
  intros H1 H2. constructor; auto. constructor; [apply good_init; auto|constructor].
Qed.

(* --- reading --- *)
Lemma sfine_content lo s : sfine lo s -> content_ok lo (s_data s).
Proof.
  intros [[T1 T2 T3 _] [P1 P2 P3 _] F3 _]. split.
  - unfold contents. repeat constructor; auto. destruct (pt_file (s_data s)); [apply F3|constructor].
  - unfold contents. cbn [concat]. rewrite !Forall_app. repeat split; auto.
    destruct (pt_file (s_data s)); [apply F3|constructor].
Qed.

(* a cursor start: none, or an id of the window without a key part *)
Lemma keyed_reads lo s k : sfine lo s -> good lo k ->
  ~ past_keys (match pt_file (s_data s) with Some f => concat f | None => [] end) k ->
  table_reads (pt_mem (s_data s)) (Some k) /\ table_reads (pt_prev (s_data s)) (Some k) /\
  file_reads (pt_file (s_data s)) (Some k).
Proof.
  intros [F1 F2 F3 F4] Hk Hp. split; [eapply tab_reads; eauto|]. split; [eapply tab_reads; eauto|].
  destruct (pt_file (s_data s)) as [f|]; simpl; auto. destruct F3 as (A & B & C).
  exact (file_scan_statement lo f k A B C Hk Hp).
Qed.

Lemma scan_engine lo m key : minv lo m ->
  match key with
  | None => (lo + 2^31 < 2^63)%N
  | Some k => good lo k /\ forall s, In s (mapping_list m) ->
       ~ past_keys (match pt_file (s_data s) with Some f => concat f | None => [] end) k
  end ->
  exists out n, (forall fuel, n < fuel -> monotone_scan fuel m key = Ok (Some out)) /\
    ascending out /\ forall e, In e out <-> visible (map s_data (mapping_list m)) e /\ from key e.
Proof.
  intros I Hk. pose proof I as [G F]. rewrite Forall_forall in F.
  destruct (scan_statement lo m G) with (key := key) as (out & H1 & H2 & H3).
  - intros s Hs. pose proof (F s Hs) as Fs. split; [apply sfine_content; auto|].
    split; [apply (tab_reads lo); auto; apply (sf_mem _ _ Fs)|].
    split; [apply (tab_reads lo); auto; apply (sf_prev _ _ Fs)|]. split.
    + pose proof (sf_file _ _ Fs) as Ff. destruct (pt_file (s_data s)) as [f|]; simpl; auto.
      apply file_scan_none. apply Ff.
    + exact (sf_ids _ _ Fs).
  - destruct key as [k|]; auto. destruct Hk as [Hk Hp]. split; auto. intros s Hs.
    apply (keyed_reads lo); auto.
  - eauto.
Qed.

Lemma visible_look lo m e : minv lo m ->
  (visible (map s_data (mapping_list m)) e <-> event_is_delete e = false /\ look m e = Some e).
Proof.
  intros I. pose proof I as [G F]. rewrite Forall_forall in F. unfold visible. split.
  - intros [Hd (p & Hp & Hn)]. split; auto. apply in_map_iff in Hp as (s & <- & Hs).
    destruct (sfine_content lo s (F s Hs)) as [C1 _].
    apply lookup_concat_newest in Hn; auto. rewrite (look_at lo m s); auto.
    apply lookup_in in Hn as [Hin _]. pose proof (sf_ids _ _ (F s Hs)) as Hi. unfold ids_in in Hi.
    rewrite Forall_forall in Hi. auto.
  - intros [Hd Hl]. split; auto. destruct (covered_dec m (ev_id e)) as [(s & Hs & Hr)|Hn].
    + exists (s_data s). split; [apply in_map; auto|].
      destruct (sfine_content lo s (F s Hs)) as [C1 _]. apply lookup_concat_newest; auto.
      rewrite (look_at lo m s) in Hl; auto.
    + rewrite (look_out lo m) in Hl; auto. discriminate.
Qed.

Lemma liveo_some o e : event_is_delete e = false -> (o = Some e <-> liveo o = Some e).
Proof.
  intros Hd. destruct o as [x|]; cbn [liveo]; [|tauto]. destruct (event_is_delete x) eqn:Ex; [|tauto].
  split; intros H; inversion H; congruence.
Qed.

Lemma visible_current lo en h e : einv lo en h -> (visible (parts en) e <-> current h e).
Proof.
  intros [I _ HL]. unfold parts, current. rewrite (visible_look lo) by auto. split.
  - intros [Hd Hl]. split; auto. apply (proj2 (liveo_some _ e Hd)). rewrite <- HL. apply (proj1 (liveo_some _ e Hd)). auto.
  - intros [Hl Hd]. split; auto. apply (proj2 (liveo_some _ e Hd)). rewrite HL. apply (proj1 (liveo_some _ e Hd)). auto.
Qed.
