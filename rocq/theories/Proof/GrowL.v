(* The engine with memory tables of any number of pages. *)
From Coq Require Import NArith ZArith List Bool Sorted Lia Arith Permutation.
Import ListNotations.
From Verif Require Import Model.Base Model.Event Model.Rbtree Model.Memtable Model.Mapping Model.Merge
  Model.PartIter Model.Scan Model.Writer Model.Codec Model.Engine Spec.Order Spec.Merged Spec.Files
  Spec.Layout Spec.Regions Spec.View Spec.Engine Spec.Grow Proof.OrderL Proof.RbtreeL
  Proof.MemtableL Proof.MemtableL2 Proof.GrowM Proof.MergeL Proof.PartIterL Proof.MappingL Proof.MappingP
  Proof.MappingX Proof.ScanL Proof.WriterL Proof.EngineL Proof.EngineW Proof.EngineR Proof.EngineP.
Local Arguments N.pow : simpl never.
Local Arguments N.add : simpl never.
Local Arguments N.sub : simpl never.
Local Arguments engine_lock : simpl never.
Local Arguments memtable_set : simpl never.
Implicit Types (s : slice part) (m : mapping part).

(* b: no batch is refused, so that a table of at most a page of events has one page *)
Section Pages.
Variable b : bool.

Record g_tab (lo : N) (t : memtable) : Prop := {
  g_tb_pages : appended t (mt_events t);
  g_tb_single : b = true -> length (mt_events t) <= MEMTABLE_PAGE -> single t (mt_events t);
  g_tb_asc : ascending (mt_events t);
  g_tb_good : Forall (good lo) (mt_events t);
  g_tb_page : mt_size_page t = MEMTABLE_PAGE;
  g_tb_split : mt_size_split t = MEMTABLE_SPLIT
}.
Record g_sfine (lo : N) (s : slice part) : Prop := {
  g_sf_mem : g_tab lo (pt_mem (s_data s));
  g_sf_prev : g_tab lo (pt_prev (s_data s));
  g_sf_file : file_fine lo (pt_file (s_data s));
  g_sf_ids : ids_in (range_of s) (concat (contents (s_data s)))
}.
Record g_minv (lo : N) (m : mapping part) : Prop := {
  g_mi_map : good_map lo m;
  g_mi_parts : Forall (g_sfine lo) (mapping_list m)
}.

Lemma g_tab_new lo : g_tab lo memtable_new.
Proof.
  constructor; try reflexivity; try constructor; try (constructor; fail); try reflexivity.
  exists 0. constructor.
Qed.

(* a table that is certainly of one page *)
Definition one (t : memtable) : Prop := b = false -> (mt_count_pages t <= 1)%N.
Definition gfits (m : mapping part) (l : list event) : Prop :=
  (length l <= MEMTABLE_PAGE \/ ascending l) /\
  forall s, In s (mapping_list m) ->
    (one (pt_mem (s_data s)) /\ length (mt_events (pt_mem (s_data s))) + length l <= MEMTABLE_PAGE) \/
    (ascending l /\ forall e, In e l -> in_range (ev_id e) (range_of s) ->
       Forall (fun x => ev_lt x e) (mt_events (pt_mem (s_data s)))).

Lemma one_dec t : one t \/ (b = false /\ ~ one t).
Proof.
  unfold one. destruct b; [left; discriminate|].
  destruct (N.le_gt_cases (mt_count_pages t) 1); [left; auto|right]. split; auto.
  intros X. specialize (X eq_refl). lia.
Qed.
Lemma single_one t l : single t l -> one t.
Proof. intros H _. destruct H as [T1 T2 T3|c pg T1 T2 T3 T4 T5]; rewrite T2; lia. Qed.
Lemma one_single lo t : g_tab lo t -> one t -> length (mt_events t) <= MEMTABLE_PAGE ->
  single t (mt_events t).
Proof.
  unfold one. intros [T0 T1 T2 T3 T4 T5] Ho Hl. destruct b; [auto|]. specialize (Ho eq_refl).
  pose proof (ap_count_pages _ _ T0) as Hc. pose proof (ap_count _ _ T0) as Hn.
  pose proof (ap_pages _ _ T0) as Hp. unfold pages_ok in Hp. unfold mt_events in *.
  destruct (mt_tree t) as [|c l pg r] eqn:Et.
  - apply single_empty; auto.
  - cbn [elements] in *. rewrite !app_length in Hc. cbn [length] in Hc.
    assert (El : l = Leaf).
    { destruct l; auto. cbn [elements] in Hc. rewrite !app_length in Hc. cbn [length] in Hc. lia. }
    assert (Er : r = Leaf).
    { destruct r; auto. cbn [elements] in Hc. rewrite !app_length in Hc. cbn [length] in Hc. lia. }
    subst l r. cbn [elements app flat_map] in *. rewrite app_nil_r in *.
    inversion Hp as [|? ? [P1 P2] _]; subst. eapply single_page; eauto.
Qed.

Lemma g_part_look_out lo (s : slice part) k : g_sfine lo s -> ~ in_range (ev_id k) (range_of s) ->
  part_look (s_data s) k = None.
Proof.
  intros Hs Hn. apply lookup_nin. eapply Forall_impl; [|exact (g_sf_ids _ _ Hs)].
  intros e He E. apply Hn. rewrite <- E. auto.
Qed.

Lemma g_look_at lo m s k : g_minv lo m -> In s (mapping_list m) -> in_range (ev_id k) (range_of s) ->
  look m k = part_look (s_data s) k.
Proof.
  intros [G F] Hs Hr. unfold look, all_events.
  destruct (proj1 (layout_slices _) (gm_layout _ _ G)) as [S1 _].
  destruct (in_split _ _ Hs) as (l1 & l2 & E). rewrite E in *.
  apply sorted_app in S1 as (_ & Sb & Sc). inversion Sb; subst.
  rewrite Forall_forall in F, H2.
  rewrite flat_map_app, lookup_app. cbn [flat_map]. rewrite lookup_app.
  rewrite (lookup_flat_none l1), (lookup_flat_none l2).
  - fold (part_look (s_data s) k). destruct (part_look (s_data s) k); auto.
  - intros t Ht. apply (g_part_look_out lo); [apply F; apply in_app_iff; simpl; auto|].
    specialize (H2 t Ht). unfold slt, in_range, range_of in *. simpl in *. lia.
  - intros t Ht. apply (g_part_look_out lo); [apply F; apply in_app_iff; simpl; auto|].
    specialize (Sc t s Ht (or_introl eq_refl)). unfold slt, in_range, range_of in *. simpl in *. lia.
Qed.

Lemma g_look_out lo m k : g_minv lo m -> ~ covered (ranges m) (ev_id k) -> look m k = None.
Proof.
  intros [G F] Hn. apply lookup_flat_none. intros t Ht. rewrite Forall_forall in F.
  apply (g_part_look_out lo); auto. intros Hr. apply Hn. exists (range_of t). split; auto.
  apply in_map. auto.
Qed.

Lemma g_put_inv lo m s p : g_minv lo m -> In s (mapping_list m) -> g_sfine lo (mk_slice (s_min s) (s_max s) p) ->
  g_minv lo (ref_put m (s_min s) p).
Proof.
  intros [G F] Hs Hf. constructor; [apply put_good; auto|]. rewrite Forall_forall in *.
  intros t Ht. apply (put_in lo) in Ht; auto. destruct Ht as [->|[Ht _]]; auto.
Qed.

Lemma g_put_look lo m s p k : g_minv lo m -> In s (mapping_list m) -> g_sfine lo (mk_slice (s_min s) (s_max s) p) ->
  look (ref_put m (s_min s) p) k = if slice_in s (ev_id k) then part_look p k else look m k.
Proof.
  intros I Hs Hf. pose proof (g_put_inv lo m s p I Hs Hf) as I'. destruct I as [G F].
  destruct (slice_in s (ev_id k)) eqn:E.
  - apply in_slice in E. rewrite (g_look_at lo _ (mk_slice (s_min s) (s_max s) p)); auto.
    apply (put_in lo); auto.
  - destruct (covered_dec m (ev_id k)) as [(t & Ht & Hr)|Hn].
    + rewrite (g_look_at lo m t); auto; [|constructor; auto]. apply (g_look_at lo); auto.
      apply (put_in lo); auto. right. split; auto. intros ->. apply in_slice in Hr. congruence.
    + rewrite (g_look_out lo m); auto; [|constructor; auto]. apply (g_look_out lo); auto. rewrite put_ranges. auto.
Qed.

Lemma g_ext_look lo m m' k : g_minv lo m -> g_minv lo m' -> ext m m' -> look m' k = look m k.
Proof.
  intros I I' [E1 E2]. destruct (covered_dec m (ev_id k)) as [(s & Hs & Hr)|Hn].
  - destruct (E1 s Hs) as (q & Hq & L). rewrite (g_look_at lo m s), (g_look_at lo m' _ k I' Hq); auto.
    simpl. symmetry. apply like_look; auto.
  - rewrite (g_look_out lo m); auto. destruct (covered_dec m' (ev_id k)) as [(t & Ht & Hr)|Hn'].
    + rewrite (g_look_at lo m' t); auto. destruct (E2 t Ht) as [(q & Hq & L)|L].
      * exfalso. apply Hn. apply covered_slice. eexists; split; [exact Hq|]. exact Hr.
      * rewrite <- (like_look _ _ k L). reflexivity.
    + apply (g_look_out lo); auto.
Qed.

Lemma g_sfine_new lo mn mx x y : g_sfine lo (mk_slice mn mx (part_new x y)).
Proof. constructor; simpl; auto using g_tab_new. unfold ids_in. constructor. Qed.

Lemma g_perm_inv lo m m' new : g_minv lo m -> good_map lo m' ->
  Permutation (mapping_list m') (map (mk_new part_new) new ++ mapping_list m) -> g_minv lo m'.
Proof.
  intros [G F] G' HP. constructor; auto. rewrite Forall_forall in *. intros t Ht.
  eapply Permutation_in in Ht; [|exact HP]. apply in_app_iff in Ht as [Ht|Ht]; auto.
  apply in_map_iff in Ht as (g & <- & _). apply g_sfine_new.
Qed.

Lemma g_sfine_with_mem lo s t : g_sfine lo s -> g_tab lo t -> ids_in (range_of s) (mt_events t) ->
  g_sfine lo (mk_slice (s_min s) (s_max s) (with_mem (s_data s) t)).
Proof.
  intros [H1 H2 H3 H4] Ht Hi. constructor; simpl; auto.
  unfold ids_in in *. unfold contents in *. cbn [concat] in *.
  rewrite !Forall_app in *. simpl. intuition.
Qed.

Lemma g_sfine_mem_ids lo s : g_sfine lo s -> ids_in (range_of s) (mt_events (pt_mem (s_data s))).
Proof.
  intros [_ _ _ H]. unfold ids_in, contents in *. cbn [concat] in H. rewrite Forall_app in H. tauto.
Qed.

Lemma single_appended t l : wf (mt_tree t) -> single t l -> appended t l.
Proof.
  intros Hw H. pose proof (single_events _ _ H) as E. unfold mt_events in E.
  destruct H as [T1 T2 T3|c pg T1 T2 T3 T4 T5].
  - constructor; rewrite ?T1, ?T2, ?T3; try reflexivity; try constructor. exists 0; constructor.
  - constructor; [exact Hw|exact E| | |exact T3]; rewrite ?T1, ?T2; cbn [elements app]; try reflexivity.
    constructor; [auto|constructor].
Qed.

Lemma set_single_wf t e t' prev l l' : single t l -> wf (mt_tree t) -> memtable_set t e = Ok (t', prev) ->
  single t' l' -> wf (mt_tree t').
Proof.
  intros H Hw Hset H'. unfold memtable_set in Hset.
  destruct H as [T1 T2 T3|c pg T1 T2 T3 T4 T5].
  - rewrite T2, T1 in Hset. cbn in Hset. inversion Hset; subst. cbn. exists 1. repeat econstructor.
  - rewrite T2 in Hset. unfold memtable_search_page in Hset. rewrite T2, T1 in Hset. cbn -[memtable_insert] in Hset.
    rewrite T1 in Hw. destruct Hw as [h Hw]. inversion Hw; subst.
    assert (X : forall pg' : page, wf (Node Black Leaf pg' Leaf)).
    { intros pg'. exists 1. repeat econstructor. }
    destruct (memtable_insert t (pg_ev pg) e) as [[evs pos pr|evs [sp|] pos]| |]; cbn -[rbtree_set] in Hset; try discriminate.
    + inversion Hset; subst. cbn. apply X.
    + inversion Hset; subst. inversion H'; cbn in *; lia.
    + inversion Hset; subst. cbn. apply X.
Qed.

Lemma unset_single_wf t e t' l : single t l -> wf (mt_tree t) -> memtable_unset t e = Ok t' -> wf (mt_tree t').
Proof.
  intros H Hw Hset. unfold memtable_unset in Hset.
  destruct H as [T1 T2 T3|c pg T1 T2 T3 T4 T5].
  - rewrite T2 in Hset. discriminate.
  - rewrite T2 in Hset. unfold memtable_search_page in Hset. rewrite T2, T1 in Hset. cbn -[memtable_search] in Hset.
    destruct (memtable_search (pg_ev pg) e) as [[pos [|]]| |]; cbn in Hset; try discriminate.
    + rewrite T1 in Hw. destruct Hw as [h Hw]. inversion Hw; subst.
      destruct (remove_at (Z.to_nat pos) (pg_ev pg)); cbn in Hset; inversion Hset; subst; cbn.
      * exists 0. constructor.
      * exists 1. repeat econstructor.
    + inversion Hset; subst. exact Hw.
Qed.

Lemma g_of_single lo t l : wf (mt_tree t) -> single t l -> ascending l -> Forall (good lo) l ->
  mt_size_page t = MEMTABLE_PAGE -> mt_size_split t = MEMTABLE_SPLIT -> g_tab lo t /\ mt_events t = l.
Proof.
  intros Hw H1 H2 H3 H4 H5. pose proof (single_events _ _ H1) as E. split; auto.
  constructor; rewrite ?E; auto using single_appended.
Qed.

Lemma upsert_behind e l : Forall (fun x => ev_lt x e) l -> upsert e l = l ++ [e].
Proof.
  induction l as [|a l IH]; intros H; auto. inversion H; subst. cbn [upsert app].
  pose proof H2 as L. unfold ev_lt in L. rewrite ev_cmp_antisym, L. cbn [CompOpp]. rewrite IH; auto.
Qed.

Lemma set_fits lo t e : g_tab lo t -> good lo e ->
  ((one t /\ length (mt_events t) < MEMTABLE_PAGE) \/ Forall (fun x => ev_lt x e) (mt_events t)) ->
  exists t', memtable_set t e = Ok (t', lookup (mt_events t) e) /\ g_tab lo t' /\
    mt_events t' = upsert e (mt_events t) /\
    same_sizes t t' /\ (one t -> length (mt_events t) < MEMTABLE_PAGE -> one t').
Proof.
  intros T He Hf. pose proof T as [T0 T1 T2 T3 T4 T5].
  assert (D : (one t /\ length (mt_events t) < MEMTABLE_PAGE) \/
    (~ (one t /\ length (mt_events t) < MEMTABLE_PAGE) /\ Forall (fun x => ev_lt x e) (mt_events t))).
  { destruct Hf as [Hf|Hf]; auto. destruct (Nat.lt_ge_cases (length (mt_events t)) MEMTABLE_PAGE) as [Hl|Hl].
    - destruct (one_dec t) as [|[_ O]]; auto. right. split; auto. tauto.
    - right. split; auto. lia. }
  destruct D as [[Ho Hl]|[Hn Hlt]].
  - pose proof (one_single lo t T Ho ltac:(lia)) as Hsi.
    destruct (set_single lo t _ e Hsi T2 T3 He) as (t' & Hset & Hsg & Hsz).
    { rewrite T4. apply page_pos. } { left. rewrite T4. auto. }
    pose proof Hsz as (Z1 & Z2 & Z3 & Z4).
    destruct (g_of_single lo t' _ (set_single_wf _ _ _ _ _ _ Hsi (ap_wf _ _ T0) Hset Hsg) Hsg) as [Ht Hev]; try congruence.
    { apply upsert_ascending; auto. } { apply upsert_forall; auto. }
    exists t'. split; auto. split; auto. split; auto. split; auto. intros _ _. eapply single_one; eauto.
  - assert (A : ascending (mt_events t ++ [e])).
    { rewrite <- upsert_behind by auto. apply upsert_ascending; auto. }
    assert (G : Forall (good lo) (mt_events t ++ [e])) by (apply Forall_app; auto).
    destruct (append_set lo t _ e T0 A G) as (t' & Hset & Ha & Hsz).
    { rewrite T5. unfold MEMTABLE_SPLIT. lia. } { rewrite T4, T5. unfold MEMTABLE_SPLIT, MEMTABLE_PAGE. lia. }
    pose proof Hsz as (Z1 & Z2 & Z3 & Z4).
    assert (Hev : mt_events t' = mt_events t ++ [e]) by (apply (ap_ev _ _ Ha)).
    exists t'. rewrite upsert_behind, lookup_behind by auto. split; auto. split.
    + constructor; rewrite ?Hev; auto; try congruence.
      rewrite app_length. cbn [length]. intros Eb Hle. exfalso. apply Hn. split; [|lia].
      intros X. congruence.
    + split; auto. split; auto. intros O L. exfalso. apply Hn. auto.
Qed.

(* new partitions are empty, the others are as they were *)
Definition grown m m' : Prop :=
  (forall s, In s (mapping_list m) -> In s (mapping_list m')) /\
  forall s, In s (mapping_list m') -> In s (mapping_list m) \/ s_data s = part_new (s_min s) (s_max s).
Lemma grown_refl m : grown m m.
Proof. split; auto. Qed.
Lemma perm_grown m m' new :
  Permutation (mapping_list m') (map (mk_new part_new) new ++ mapping_list m) -> grown m m'.
Proof.
  intros HP. split.
  - intros s Hs. eapply Permutation_in; [symmetry; exact HP|]. apply in_app_iff; auto.
  - intros t Ht. eapply Permutation_in in Ht; [|exact HP]. apply in_app_iff in Ht as [Ht|Ht]; auto.
    right. apply in_map_iff in Ht as (g & <- & _). reflexivity.
Qed.

Lemma fits_grown m m' l : gfits m l -> grown m m' -> gfits m' l.
Proof.
  intros [H1 H2] [_ E]. split; auto. intros t Ht. destruct (E t Ht) as [Hq|L]; auto.
  rewrite L. change (mt_events (pt_mem (part_new (s_min t) (s_max t)))) with (@nil event).
  destruct H1 as [H1|H1]; [left; split; auto|right]; [intros _; cbn; lia|]. split; auto.
Qed.

Lemma fits_put lo m s t e l : good_map lo m -> In s (mapping_list m) -> gfits m (e :: l) ->
  in_range (ev_id e) (range_of s) -> ascending (mt_events (pt_mem (s_data s))) ->
  mt_events t = upsert e (mt_events (pt_mem (s_data s))) ->
  (one (pt_mem (s_data s)) -> length (mt_events (pt_mem (s_data s))) < MEMTABLE_PAGE -> one t) ->
  gfits (ref_put m (s_min s) (with_mem (s_data s) t)) l.
Proof.
  intros G Hs [H1 H2] Hr Ha Hev Ho.
  assert (Ht : ascending (e :: l) -> ascending l) by (intros A; inversion A; auto).
  split.
  { destruct H1 as [H1|H1]; auto. cbn [length] in H1. left; lia. }
  intros u Hu. apply (put_in lo) in Hu; auto. destruct Hu as [->|[Hu _]].
  - cbn [s_data with_mem pt_mem]. rewrite Hev. destruct (H2 s Hs) as [[O K]|[A K]].
    + cbn [length] in K. left. split; [apply Ho; auto; lia|].
      rewrite upsert_length by auto. destruct (lookup _ _); lia.
    + right. split; auto. pose proof (K e (or_introl eq_refl) Hr) as Ke. rewrite upsert_behind by auto.
      intros x Hx Hxr. apply Forall_app. split; [apply K; simpl; auto|]. constructor; auto.
      apply ascending_cons in A as [A _]. rewrite Forall_forall in A. auto.
  - destruct (H2 u Hu) as [[O K]|[A K]].
    + left. cbn [length] in K. split; auto. lia.
    + right. split; auto. intros x Hx. apply K. simpl; auto.
Qed.

Lemma near_fine lo en e : event_near lo en e -> event_fine lo en e.
Proof. intros (H1 & H2 & H3 & H4). split; auto. Qed.

Lemma g_lock lo m en e l : g_minv lo m -> (0 < en_interval en <= u64_max)%N -> event_fine lo en e ->
  gfits m l ->
  (engine_lock part_new m (en_interval en) (ev_id e) false true = Err /\ ~ event_near lo en e) \/
  exists m1 z s, engine_lock part_new m (en_interval en) (ev_id e) false true = Ok (m1, Some z) /\
    zelem z = Some s /\ ext m m1 /\ grown m m1 /\ g_minv lo m1 /\ In s (mapping_list m1) /\
    in_range (ev_id e) (range_of s) /\ gfits m1 l.
Proof.
  intros I Hiv (Hok & Hwin & Hpg & Hcell) Hroom. pose proof I as [G F].
  destruct (covered_dec m (ev_id e)) as [(s & Hs & Hr)|Hn].
  - right. destruct (lock_found lo m (en_interval en) (ev_id e) true G) as (z & s' & H1 & H2 & H3 & H4).
    { destruct Hwin; lia. } { apply covered_slice; eauto. }
    exists m, z, s'. split; auto. split; auto. split; [apply ext_refl|]. split; [apply grown_refl|]. auto.
  - destruct Hcell as [Hc|Hc].
    + right. destruct (lock_spec part_new lo m (en_interval en) (ev_id e) G ltac:(lia) Hc)
        as (m1 & z & s & new & H1 & H2 & H3 & H4 & H5 & H6 & _).
      exists m1, z, s. split; auto. split; auto.
      assert (He : ext m m1) by (eapply perm_ext; eauto).
      assert (Hg : grown m m1) by (eapply perm_grown; eauto).
      split; auto. split; auto. split; [eapply g_perm_inv; eauto|].
      split; [eapply zelem_in; eauto|]. split; auto. eapply fits_grown; eauto.
    + left. split; [apply (lock_refused lo); auto; destruct Hwin; lia|].
      intros (_ & _ & _ & [X1 X2]). pose proof (gm_lo _ _ G). unfold cell in *. cbn [fst snd] in *. lia.
Qed.

Lemma g_step lo en w a l :
  g_minv lo (ws_map w) -> (0 < en_interval en <= u64_max)%N ->
  length (ev_key (wa_event a)) <= 255 -> wa_mem a = MemOk ->
  event_fine lo en (numbered en (ws_ssn w) (wa_event a)) ->
  gfits (ws_map w) (numbered en (ws_ssn w) (wa_event a) :: l) ->
  let e := numbered en (ws_ssn w) (wa_event a) in
  let ssn := ssn_after en (ws_ssn w) (wa_event a) in
  (write_event en w a = Ok (mk_wstate (ws_map w) ssn (log_add :: ws_log w), false) /\ ~ event_near lo en e) \/
  exists m1 s t, ext (ws_map w) m1 /\ grown (ws_map w) m1 /\ g_minv lo m1 /\ In s (mapping_list m1) /\
    in_range (ev_id e) (range_of s) /\ gfits m1 (e :: l) /\
    g_tab lo t /\ mt_events t = upsert e (mt_events (pt_mem (s_data s))) /\
    (one (pt_mem (s_data s)) -> length (mt_events (pt_mem (s_data s))) < MEMTABLE_PAGE -> one t) /\
    mt_lsn_min t = mt_lsn_min (pt_mem (s_data s)) /\ mt_lsn_max t = mt_lsn_max (pt_mem (s_data s)) /\
    write_event en w a =
      Ok (mk_wstate (ref_put m1 (s_min s) (with_mem (s_data s) t)) ssn
            (mk_logop (Some (s_min s)) (Some e) (lookup (mt_events (pt_mem (s_data s))) e) :: ws_log w), true).
Proof.
  intros I Hiv Hkey Hmem Hfine Hroom e ssn.
  unfold write_event. destruct (Nat.ltb_spec 255 (length (ev_key (wa_event a)))); [lia|].
  rewrite (andb_comm (ev_id (wa_event a) =? u64_max)%N).
  fold (numbered en (ws_ssn w) (wa_event a)). fold (ssn_after en (ws_ssn w) (wa_event a)).
  fold e. fold ssn. fold e in Hroom, Hfine.
  destruct (g_lock lo (ws_map w) en e _ I Hiv Hfine Hroom)
    as [[-> Hn]|(m1 & z & s & -> & Hz & He & Hg & I1 & Hs & Hr & Hroom1)].
  { left. split; auto. }
  right. exists m1, s. rewrite Hz. destruct Hfine as (Hok & Hwin & Hpg & _).
  destruct (N.ltb_spec (en_page en) (N.of_nat (14 + length (ev_key e) + length (ev_val e)))); [lia|].
  rewrite Hmem. pose proof I1 as [G1 F1]. rewrite Forall_forall in F1. pose proof (F1 s Hs) as Fs.
  destruct (set_fits lo (pt_mem (s_data s)) e (g_sf_mem _ _ Fs)) as (t & Hset & Ht & Hev & (Z1 & Z2 & Z3 & Z4) & Ho).
  { split; auto. }
  { destruct (proj2 Hroom1 s Hs) as [[O K]|[_ K]]; [left; cbn [length] in K; split; auto; lia|right].
    apply K; simpl; auto. }
  exists t. rewrite Hset. cbn [bind]. do 9 (split; [assumption|]). split; auto.
Qed.

(* undo of one write, after the later ones have been undone *)
Lemma g_undo_step lo m1 s t e m' n : b = false -> g_minv lo m1 -> g_minv lo m' -> In s (mapping_list m1) ->
  good lo e -> in_range (ev_id e) (range_of s) ->
  mt_events t = upsert e (mt_events (pt_mem (s_data s))) ->
  mt_lsn_min t = mt_lsn_min (pt_mem (s_data s)) -> mt_lsn_max t = mt_lsn_max (pt_mem (s_data s)) ->
  ext (ref_put m1 (s_min s) (with_mem (s_data s) t)) m' ->
  ((one (pt_mem (s_data s)) /\ length (mt_events (pt_mem (s_data s))) + S n <= MEMTABLE_PAGE /\
    forall q, In (mk_slice (s_min s) (s_max s) q) (mapping_list m') -> one (pt_mem q)) \/
   (~ (one (pt_mem (s_data s)) /\ length (mt_events (pt_mem (s_data s))) + S n <= MEMTABLE_PAGE) /\
    Forall (fun x => ev_lt x e) (mt_events (pt_mem (s_data s))))) ->
  exists q t2, In (mk_slice (s_min s) (s_max s) q) (mapping_list m') /\
    undo_op m' (mk_logop (Some (s_min s)) (Some e) (lookup (mt_events (pt_mem (s_data s))) e)) =
      Ok (ref_put m' (s_min s) (with_mem q t2)) /\
    g_minv lo (ref_put m' (s_min s) (with_mem q t2)) /\ ext m1 (ref_put m' (s_min s) (with_mem q t2)) /\
    (one (pt_mem (s_data s)) -> length (mt_events (pt_mem (s_data s))) + S n <= MEMTABLE_PAGE -> one t2).
Proof.
  intros Eb I1 I' Hs He Hr Hev Hl1 Hl2 HE Hmode. pose proof I1 as [G1 F1]. pose proof I' as [G' F'].
  rewrite Forall_forall in F1, F'. pose proof (F1 s Hs) as Fs.
  pose proof (g_sf_mem _ _ Fs) as T. pose proof T as [T0 T1 T2 T3 T4 T5].
  destruct (proj1 HE (mk_slice (s_min s) (s_max s) (with_mem (s_data s) t))) as (q & Hq & L).
  { apply (put_in lo); auto. }
  cbn [s_min s_max s_data] in *.
  exists q. unfold undo_op. cbn [lo_ref lo_prev lo_event].
  pose proof (ref_get lo m' _ G' Hq) as Hg. cbn [s_min s_data] in Hg. rewrite Hg. cbn [bind].
  pose proof (F' _ Hq) as Fq. pose proof (g_sf_mem _ _ Fq) as Q. pose proof Q as [Q0 Q1 Q2 Q3 Q4 Q5]. cbn [s_data] in *.
  destruct L as (L1 & L2 & L3 & L4 & L5 & L6). cbn [with_mem pt_mem pt_prev pt_file pt_lsn] in *.
  assert (Hqe : mt_events (pt_mem q) = upsert e (mt_events (pt_mem (s_data s)))) by congruence.
  assert (Hfin : forall t2, g_tab lo t2 -> mt_events t2 = mt_events (pt_mem (s_data s)) -> same_sizes (pt_mem q) t2 ->
     g_minv lo (ref_put m' (s_min s) (with_mem q t2)) /\ ext m1 (ref_put m' (s_min s) (with_mem q t2))).
  { intros t2 Ht2 He2 (Z1 & Z2 & Z3 & Z4). split.
    - apply (g_put_inv lo m' (mk_slice (s_min s) (s_max s) q)); auto.
      apply (g_sfine_with_mem lo (mk_slice (s_min s) (s_max s) q)); auto.
      rewrite He2. apply (g_sfine_mem_ids lo s Fs).
    - eapply (ext_put lo); eauto. unfold like. cbn [with_mem pt_mem pt_prev pt_file pt_lsn].
      rewrite He2. repeat split; congruence. }
  destruct Hmode as [(O & K & Hm)|[Hnot Hlt]].
  - assert (Hlen : length (mt_events (pt_mem q)) <= MEMTABLE_PAGE).
    { rewrite Hqe, upsert_length by auto. destruct (lookup _ _); lia. }
    pose proof (one_single lo _ Q (Hm q Hq) Hlen) as Hsi.
    destruct (lookup (mt_events (pt_mem (s_data s))) e) as [pv|] eqn:El.
    + destruct (set_single lo (pt_mem q) _ pv Hsi Q2 Q3) as (t2 & Hset & Hsg & Hsz).
      { exact (lookup_good lo _ e pv T3 El). } { rewrite Q4. apply page_pos. }
      { right. rewrite Hqe, lookup_upsert by auto. destruct (lookup_in _ _ _ El) as [_ Hk].
        apply same_keyb_true in Hk. rewrite same_keyb_sym in Hk. rewrite Hk. discriminate. }
      rewrite Hset. cbn [bind fst]. exists t2. split; auto. split; [reflexivity|].
      pose proof (set_single_wf _ _ _ _ _ _ Hsi (ap_wf _ _ Q0) Hset Hsg) as Hw.
      rewrite Hqe in Hsg. rewrite (upsert_restore e pv) in Hsg; auto.
      pose proof Hsz as (Z1 & Z2 & Z3 & Z4).
      destruct (g_of_single lo t2 _ Hw Hsg T2 T3) as [Ht2 He2]; try congruence.
      destruct (Hfin t2 Ht2 He2 Hsz) as [X1 X2]. split; auto. split; auto.
      intros _ _. eapply single_one; eauto.
    + assert (Hne : mt_events (pt_mem q) <> []).
      { rewrite Hqe. intros X. pose proof (upsert_length e (mt_events (pt_mem (s_data s))) T2) as Y.
        rewrite El, X in Y. discriminate. }
      destruct (unset_single lo (pt_mem q) _ e Hsi Q2 Q3 He Hne) as (t2 & Hset & Hsg & Hsz).
      rewrite Hset. cbn [bind]. exists t2. split; auto. split; [reflexivity|].
      pose proof (unset_single_wf _ _ _ _ Hsi (ap_wf _ _ Q0) Hset) as Hw.
      rewrite Hqe in Hsg. rewrite (delete_restore e) in Hsg; auto.
      pose proof Hsz as (Z1 & Z2 & Z3 & Z4).
      destruct (g_of_single lo t2 _ Hw Hsg T2 T3) as [Ht2 He2]; try congruence.
      destruct (Hfin t2 Ht2 He2 Hsz) as [X1 X2]. split; auto. split; auto.
      intros _ _. eapply single_one; eauto.
  - rewrite (lookup_behind e) by auto. rewrite upsert_behind in Hqe by auto.
    rewrite Hqe in Q0, Q2, Q3.
    destruct (unset_last lo (pt_mem q) _ e Q0 Q2 Q3) as (t2 & Hset & Ha2 & Hsz).
    rewrite Hset. cbn [bind]. exists t2. split; auto. split; [reflexivity|].
    pose proof Hsz as (Z1 & Z2 & Z3 & Z4).
    assert (He2 : mt_events t2 = mt_events (pt_mem (s_data s))) by (apply (ap_ev _ _ Ha2)).
    destruct (Hfin t2) as [X1 X2]; auto.
    { constructor; rewrite ?He2; auto; try congruence. }
    split; auto. split; auto. intros O K. exfalso. apply Hnot. auto.
Qed.

(* tables with room for n events stay of one page *)
Definition keep (n : nat) m m' : Prop :=
  forall s, In s (mapping_list m) -> one (pt_mem (s_data s)) ->
    length (mt_events (pt_mem (s_data s))) + n <= MEMTABLE_PAGE ->
    forall q, In (mk_slice (s_min s) (s_max s) q) (mapping_list m') -> one (pt_mem q).

Lemma keep_refl lo n m : good_map lo m -> keep n m m.
Proof.
  intros G s Hs O _ q Hq. assert (E : mk_slice (s_min s) (s_max s) q = s) by (apply (min_unique lo m); auto).
  rewrite <- E in O. exact O.
Qed.

Lemma g_loop lo en : (0 < en_interval en <= u64_max)%N ->
  forall l w, g_minv lo (ws_map w) -> Forall (fun a => wa_mem a = MemOk) l ->
  Forall (event_fine lo en) (assigned (en_serial en) (ws_ssn w) l) ->
  gfits (ws_map w) (assigned (en_serial en) (ws_ssn w) l) ->
  exists w' ok log', write_loop en w l = Ok (w', ok) /\ g_minv lo (ws_map w') /\
    ws_log w' = log' ++ ws_log w /\
    (b = false -> exists m'', undo_ops (ws_map w') log' = Ok m'' /\ g_minv lo m'' /\ ext (ws_map w) m'' /\
       keep (length (assigned (en_serial en) (ws_ssn w) l)) (ws_map w) m'') /\
    incl (ranges (ws_map w)) (ranges (ws_map w')) /\
    (ok = true -> log_written log' = assigned (en_serial en) (ws_ssn w) l /\
      ws_ssn w' = next_ssn (en_serial en) (ws_ssn w) l /\
      (forall k, look (ws_map w') k = over (assigned (en_serial en) (ws_ssn w) l) (look (ws_map w)) k) /\
      refs_ok (ws_map w') log') /\
    (log' = [] -> match l with [] => True | a :: _ => 255 < length (ev_key (wa_event a)) end) /\
    (Forall (event_near lo en) (assigned (en_serial en) (ws_ssn w) l) ->
     Forall (fun a => length (ev_key (wa_event a)) <= 255) l -> ok = true).
Proof.
  intros Hiv. induction l as [|a l IH]; intros w I Hm Hf Hroom.
  - exists w, true, []. split; [reflexivity|]. split; auto. split; auto.
    split; [intros _; exists (ws_map w); split; [reflexivity|]; split; auto;
            split; [apply ext_refl|apply (keep_refl lo), I]|].
    split; [apply incl_refl|]. split; [|auto]. intros _.
    split; [reflexivity|]. split; [reflexivity|]. split; [reflexivity|]. constructor.
  - inversion Hm; subst. cbn [write_loop length] in *.
    destruct (Nat.ltb_spec 255 (length (ev_key (wa_event a)))) as [Hbig|Hsmall].
    { exists w, false, []. unfold write_event.
      destruct (Nat.ltb_spec 255 (length (ev_key (wa_event a)))); [|lia]. cbn [bind].
      split; [reflexivity|]. split; auto. split; auto.
      split; [intros _; exists (ws_map w); split; [reflexivity|]; split; auto;
              split; [apply ext_refl|apply (keep_refl lo), I]|].
      split; [apply incl_refl|]. split; [discriminate|]. split; auto.
      intros _ X. inversion X; subst. lia. }
    rewrite assigned_cons in Hf, Hroom by auto. inversion Hf; subst.
    destruct (g_step lo en w a _ I Hiv Hsmall H1 H3 Hroom) as [[-> Hn]|Hstep].
    { cbn [bind]. eexists _, false, [log_add]. split; [reflexivity|]. cbn [ws_map ws_log].
      split; auto. split; auto.
      split; [intros _; exists (ws_map w); split; [reflexivity|]; split; auto;
              split; [apply ext_refl|apply (keep_refl lo), I]|].
      split; [apply incl_refl|]. split; [discriminate|]. split; [discriminate|].
      rewrite assigned_cons by auto. intros X. inversion X; subst. contradiction. }
    destruct Hstep as (m1 & s & t & HE & HG & I1 & Hs & Hr & Hrm & Ht & Hev & Ho & Hl1 & Hl2 & ->). cbn [bind].
    set (e := numbered en (ws_ssn w) (wa_event a)) in *.
    set (ssn := ssn_after en (ws_ssn w) (wa_event a)) in *.
    pose proof I1 as [G1 F1]. rewrite Forall_forall in F1. pose proof (F1 s Hs) as Fs.
    assert (Hge : good lo e) by (destruct H3 as (Ha & Hb & _); split; auto).
    assert (Fs' : g_sfine lo (mk_slice (s_min s) (s_max s) (with_mem (s_data s) t))).
    { apply g_sfine_with_mem; auto. rewrite Hev. apply upsert_forall; auto. apply (g_sfine_mem_ids lo s Fs). }
    set (m2 := ref_put m1 (s_min s) (with_mem (s_data s) t)).
    assert (I2 : g_minv lo m2) by (apply g_put_inv; auto).
    assert (Hroom2 : gfits m2 (assigned (en_serial en) ssn l)).
    { eapply fits_put; eauto. apply (g_sf_mem _ _ Fs). }
    destruct (IH (mk_wstate m2 ssn (mk_logop (Some (s_min s)) (Some e)
        (lookup (mt_events (pt_mem (s_data s))) e) :: ws_log w)) I2 H2 H4 Hroom2)
      as (w' & ok & log' & J1 & J2 & J3 & J4 & J7 & J8 & J9 & J10). cbn [ws_map ws_ssn ws_log] in *.
    set (o := mk_logop (Some (s_min s)) (Some e) (lookup (mt_events (pt_mem (s_data s))) e)) in *.
    exists w', ok, (log' ++ [o]). split; [exact J1|]. split; auto.
    split; [rewrite J3, <- app_assoc; auto|].
    rewrite assigned_cons by auto. fold e ssn.
    set (n := length (assigned (en_serial en) ssn l)) in *.
    split; [|split; [|split; [|split]]].
    + intros Eb. destruct (J4 Eb) as (m'' & U1 & U2 & U3 & U4).
      assert (Hup : length (mt_events (pt_mem (s_data s))) + S n <= MEMTABLE_PAGE -> length (mt_events t) + n <= MEMTABLE_PAGE).
      { intros X. rewrite Hev, upsert_length by (apply (g_sf_mem _ _ Fs)). destruct (lookup _ _); lia. }
      assert (Hs2 : In (mk_slice (s_min s) (s_max s) (with_mem (s_data s) t)) (mapping_list m2))
        by (apply (put_in lo); auto).
      destruct (g_undo_step lo m1 s t e m'' n Eb I1 U2 Hs Hge Hr Hev Hl1 Hl2 U3) as (q & t2 & V1 & V2 & V3 & V4 & V5).
      { destruct (Nat.le_gt_cases (length (mt_events (pt_mem (s_data s))) + S n) MEMTABLE_PAGE) as [K|K].
        - destruct (one_dec (pt_mem (s_data s))) as [O|[_ O]].
          + left. split; auto. split; auto. intros q Hq. apply (U4 _ Hs2); auto. cbn [s_data with_mem pt_mem].
            apply Ho; auto. lia.
          + right. split; [tauto|]. destruct (proj2 Hrm s Hs) as [[X _]|[_ X]]; [contradiction|]. apply X; simpl; auto.
        - right. split; [lia|]. destruct (proj2 Hrm s Hs) as [[_ X]|[_ X]]; [cbn [length] in X; fold n in X; lia|].
          apply X; simpl; auto. }
      exists (ref_put m'' (s_min s) (with_mem q t2)). rewrite undo_app, U1. cbn [bind].
      split; auto. split; auto. split; [eapply ext_trans; eauto|].
      intros u Hu Ou Ku qu Hqu. cbn [length] in Ku. fold n in Ku.
      pose proof (proj1 HG u Hu) as Hu1.
      apply (put_in lo m'' (mk_slice (s_min s) (s_max s) q)) in Hqu; [|apply U2|exact V1].
      destruct Hqu as [E|[Hqu Hne]].
      * cbn [s_min s_max] in E. inversion E; subst qu. assert (u = s) by (apply (min_unique lo m1); auto). subst u.
        cbn [with_mem pt_mem]. apply V5; auto.
      * assert (Hu2 : In u (mapping_list m2)).
        { apply (put_in lo); auto. right. split; auto. intros ->. apply Hne.
          apply (min_unique lo m''); auto; apply U2. }
        apply (U4 u Hu2 Ou); auto. lia.
    + eapply incl_tran; [apply ext_ranges; exact HE|]. unfold m2 in J7. rewrite put_ranges in J7. auto.
    + intros Hok. destruct (J8 Hok) as (K1 & K2 & K4 & K5).
      split; [rewrite log_written_app, K1; reflexivity|].
      split; [rewrite K2; reflexivity|]. split.
      * intros k. rewrite K4, over_cons. unfold over. destruct (last_write _ k); auto.
        unfold m2. rewrite (g_put_look lo) by auto.
        rewrite (upsert_part_look _ t e) by (auto; apply (g_sf_mem _ _ Fs)).
        rewrite <- (g_ext_look lo (ws_map w) m1 k I I1 HE).
        destruct (slice_in s (ev_id k)) eqn:Es.
        -- apply in_slice in Es. rewrite (g_look_at lo m1 s k I1 Hs Es). auto.
        -- destruct (same_keyb k e) eqn:Ek; auto. apply same_keyb_true in Ek as [Ek _].
           rewrite Ek in Es. apply in_slice in Hr. congruence.
      * apply Forall_app. split; auto. constructor; [|constructor].
        exists (s_min s), e. split; [reflexivity|]. split; [reflexivity|].
        assert (Hin : In (range_of s) (ranges (ws_map w'))).
        { apply J7. unfold m2. rewrite put_ranges. apply in_map; auto. }
        apply in_map_iff in Hin as (s' & E & Hs'). exists s'. split; auto.
        unfold range_of in E. inversion E. split; auto.
        unfold in_range, range_of in *. simpl in *. lia.
    + intros X. destruct log'; discriminate.
    + intros X Y. inversion X; subst. inversion Y; subst. auto.
Qed.

Lemma g_follow_tab lo t lsn : g_tab lo t -> g_tab lo (memtable_follow t lsn).
Proof.
  intros [T0 T1 T2 T3 T4 T5].
  assert (E : mt_events (memtable_follow t lsn) = mt_events t) by reflexivity.
  constructor; try rewrite E; auto.
  - destruct T0. constructor; auto.
  - intros Eb H. specialize (T1 Eb H). inversion T1; [apply single_empty; auto|eapply single_page; eauto].
Qed.

Lemma g_commit_spec lo lsn : forall l m, g_minv lo m -> refs_ok m l ->
  exists m', engine_commit m lsn l = Ok m' /\ g_minv lo m' /\
    mapping_list m' = map (followed lsn l) (mapping_list m).
Proof.
  induction l as [|o l IH]; intros m I Hr.
  - exists m. split; auto. split; auto. rewrite <- map_id at 1. apply map_ext. intros; reflexivity.
  - inversion Hr; subst. destruct H1 as (r & e & E1 & E2 & s & Hs & E3 & E4). subst r.
    cbn [engine_commit]. rewrite E1. pose proof I as [G F]. rewrite Forall_forall in F.
    rewrite (ref_get lo m s G Hs). cbn [bind].
    set (p := with_mem (s_data s) (memtable_follow (pt_mem (s_data s)) lsn)).
    assert (I' : g_minv lo (ref_put m (s_min s) p)).
    { apply g_put_inv; auto. apply g_sfine_with_mem; auto; [apply g_follow_tab; apply (g_sf_mem _ _ (F s Hs))|].
      apply (g_sfine_mem_ids lo s (F s Hs)). }
    destruct (IH _ I') as (m' & J1 & J2 & J3).
    { eapply refs_mono; [|exact H2]. rewrite put_ranges. apply incl_refl. }
    exists m'. split; auto. split; auto. rewrite J3, put_list, map_map.
    apply map_ext_in. intros u Hu. unfold followed, has_ref, putf. cbn [existsb]. rewrite E1.
    destruct (N.eqb_spec (s_min u) (s_min s)) as [E|E].
    + rewrite (min_unique lo m u s) in * by auto. cbn [s_min s_max s_data orb].
      destruct (existsb _ l) eqn:Ex; auto. unfold p. cbn [with_mem pt_mem pt_prev pt_file pt_lsn].
      rewrite follow_twice. auto.
    + cbn [orb]. auto.
Qed.

Lemma g_write_spec lo en l logged : g_minv lo (en_map en) -> (0 < en_interval en <= u64_max)%N ->
  Forall (fun a => wa_mem a = MemOk) l ->
  Forall (event_fine lo en) (assigned (en_serial en) (en_ssn en) l) ->
  gfits (en_map en) (assigned (en_serial en) (en_ssn en) l) ->
  (b = false -> exists a t, l = a :: t /\ length (ev_key (wa_event a)) <= 255) ->
  (b = true -> logged = true /\ Forall (fun a => length (ev_key (wa_event a)) <= 255) l /\
     Forall (event_near lo en) (assigned (en_serial en) (en_ssn en) l)) ->
  (exists m, engine_write en l logged =
     Ok (mk_engine m (en_interval en) (en_serial en) (next_ssn (en_serial en) (en_ssn en) l)
           (w64 (en_lsn en + 1)) (en_page en) (en_region en),
         Some (assigned (en_serial en) (en_ssn en) l)) /\
     g_minv lo m /\
     forall k, look m k = over (assigned (en_serial en) (en_ssn en) l) (look (en_map en)) k) \/
  (b = false /\ exists m ssn, engine_write en l logged =
     Ok (mk_engine m (en_interval en) (en_serial en) ssn (en_lsn en) (en_page en) (en_region en), None) /\
     g_minv lo m /\ ext (en_map en) m).
Proof.
  intros I Hiv Hm Hf Hroom Hb0 Hb1.
  destruct (g_loop lo en Hiv l (mk_wstate (en_map en) (en_ssn en) []) I Hm Hf Hroom)
    as (w' & ok & log' & J1 & J2 & J3 & J4 & J7 & J8 & J9 & J10).
  cbn [ws_map ws_ssn ws_log] in *. rewrite app_nil_r in J3.
  unfold engine_write. rewrite J1. cbn [bind].
  destruct (ok && logged)%bool eqn:Eo.
  - left. apply andb_true_iff in Eo as [-> ->]. destruct (J8 eq_refl) as (K1 & K2 & K4 & K5).
    destruct (g_commit_spec lo (w64 (en_lsn en + 1)) (rev (ws_log w')) (ws_map w') J2) as (m & C1 & C2 & C3).
    { rewrite J3. unfold refs_ok. apply Forall_rev. exact K5. }
    exists m. cbn [with_ssn en_lsn]. rewrite C1. cbn [bind]. rewrite J3, K1, <- K2.
    split; [reflexivity|]. split; auto. intros k. rewrite (followed_look _ _ _ _ k C3). apply K4.
  - assert (Eb : b = false).
    { destruct b eqn:Eb; auto. destruct (Hb1 eq_refl) as (-> & X1 & X2). rewrite (J10 X2 X1) in Eo. discriminate. }
    right. split; auto. destruct (J4 Eb) as (m'' & U1 & U2 & U3 & _). destruct (Hb0 Eb) as (a & t & El & Hk).
    unfold engine_rollback. destruct (ws_log w') as [|o lg] eqn:Elog.
    + rewrite <- J3 in J9. specialize (J9 eq_refl). rewrite El in J9. lia.
    + rewrite J3, U1. cbn [bind]. exists m'', (ws_ssn w'). auto.
Qed.

Lemma g_tab_reads lo t key : g_tab lo t ->
  (match key with Some k => good lo k /\ one t /\ length (mt_events t) <= MEMTABLE_PAGE | None => True end) ->
  table_reads t key.
Proof.
  intros T Hk. pose proof T as [T0 T1 T2 T3 T4 T5]. split.
  - intros H0. rewrite (ap_count _ _ T0) in H0. destruct (mt_events t); [auto|cbn [length] in H0; lia].
  - intros _. destruct key as [k|].
    + destruct Hk as (Hk & Ho & Hl). exact (scan_single lo t _ (Some k) (one_single lo t T Ho Hl) T2 T3 Hk).
    + apply scan_all; try apply T0. eapply Forall_impl; [|exact (ap_pages _ _ T0)]. simpl. tauto.
Qed.

Lemma g_source_spec lo t : g_tab lo t -> exists srcs, memtable_source t None = Ok srcs /\
  concat srcs = mt_events t /\ Forall ascending srcs.
Proof.
  intros T. destruct (g_tab_reads lo t None T I) as [R1 R2]. unfold memtable_source.
  destruct (N.eqb_spec (mt_count t) 0).
  - exists []. rewrite R1 by auto. repeat split; constructor.
  - rewrite R2 by auto. cbn [bind]. exists [mt_events t]. simpl. rewrite app_nil_r. repeat split; auto.
    constructor; auto. apply (g_tb_asc _ _ T).
Qed.

Lemma g_merger_spec lo p : g_tab lo (pt_prev p) -> file_fine lo (pt_file p) ->
  exists l, merger_events p = Ok l /\ ascending l /\ Forall (good lo) l /\
    (forall k, lookup l k = liveo (lookup (mt_events (pt_prev p) ++
        match pt_file p with Some f => concat f | None => [] end) k)) /\
    incl l (mt_events (pt_prev p) ++ match pt_file p with Some f => concat f | None => [] end) /\
    Forall (fun e => event_is_delete e = false) l.
Proof.
  intros T Hf. unfold merger_events. destruct (g_source_spec lo _ T) as (a & -> & Ca & Aa). cbn [bind].
  set (srcs := a ++ match pt_file p with None => [] | Some f => [file_scan f None] end).
  set (fe := match pt_file p with Some f => concat f | None => [] end).
  assert (Hc : concat srcs = mt_events (pt_prev p) ++ fe).
  { unfold srcs, fe. rewrite concat_app, Ca. destruct (pt_file p) as [f|]; auto. simpl.
    destruct Hf as (H1 & _). rewrite file_scan_none, app_nil_r; auto. apply H1. }
  assert (Ha : Forall ascending srcs).
  { unfold srcs. apply Forall_app. split; auto. destruct (pt_file p) as [f|]; auto.
    destruct Hf as (H1 & _). constructor; auto. rewrite file_scan_none; apply H1. }
  assert (Hg : Forall (good lo) (concat srcs)).
  { rewrite Hc. apply Forall_app. split; [apply (g_tb_good _ _ T)|]. unfold fe.
    destruct (pt_file p) as [f|]; auto. apply Hf. }
  destruct (merge_all_spec srcs Ha (good_cmp_ok lo _ Hg)) as [M1 M2].
  assert (Hi : incl (merge_all srcs) (concat srcs)).
  { intros e He. assert (X : lookup (merge_all srcs) e = Some e).
    { apply ascending_lookup; auto. apply same_key_refl. }
    rewrite M2 in X. apply lookup_in in X. tauto. }
  eexists. split; [reflexivity|]. split; [apply filter_ascending; auto|]. split; [|split; [|split]].
  - rewrite Forall_forall in *. intros x Hx. apply filter_In in Hx as [Hx _]. auto.
  - intros k. rewrite lookup_live by auto. rewrite M2, Hc. auto.
  - intros x Hx. apply filter_In in Hx as [Hx _]. rewrite <- Hc. auto.
  - rewrite Forall_forall. intros x Hx. apply filter_In in Hx as [_ Hx]. destruct (event_is_delete x); auto.
Qed.

Lemma g_refresh_part_spec lo region s : g_sfine lo s ->
  (region_weight (concat (contents (s_data s))) < 2^32)%N ->
  exists p l, refresh_part region (s_data s) = Ok p /\
    g_sfine lo (mk_slice (s_min s) (s_max s) p) /\
    pt_mem p = pt_mem (s_data s) /\ pt_prev p = memtable_new /\
    pt_file p = Some (cut_regions region l) /\ concat (cut_regions region l) = l /\
    pt_lsn p = merger_lsn (s_data s) /\
    (forall k, lookup l k = liveo (lookup (mt_events (pt_prev (s_data s)) ++
        match pt_file (s_data s) with Some f => concat f | None => [] end) k)) /\
    Forall (fun e => event_is_delete e = false) l.
Proof.
  intros [F1 F2 F3 F4] Hw. unfold refresh_part.
  destruct (g_merger_spec lo (s_data s) F2 F3) as (l & -> & L1 & L2 & L3 & L4 & L5).
  cbn [bind].
  assert (Hw' : (region_weight l < 2^32)%N).
  { rewrite weight_wsum in *. pose proof (wsum_incl l _ (ascending_nodup _ L1) L4) as X.
    unfold contents in Hw. cbn [concat] in Hw. rewrite app_nil_r in Hw. rewrite !wsum_app in *. lia. }
  destruct (write_file_ok region l L1 Hw') as (W1 & W2 & W3).
  eexists _, l. split; [reflexivity|].
  cbn [pt_mem pt_prev pt_file pt_lsn]. split.
  - constructor; cbn [s_data pt_mem pt_prev pt_file]; auto using g_tab_new.
    + split; auto. split; auto. rewrite (cut_all _ _ _ W1). auto.
    + unfold ids_in, contents in *. cbn [concat pt_mem pt_prev pt_file] in *. rewrite !Forall_app in *.
      unfold range_of in *. cbn [s_min s_max] in *. rewrite (cut_all _ _ _ W1).
      destruct F4 as (A & B & C & _). repeat split; auto; try constructor.
      rewrite Forall_forall in *. intros x Hx. apply L4 in Hx. apply in_app_iff in Hx as [Hx|Hx]; auto.
  - rewrite (cut_all _ _ _ W1). repeat (split; [reflexivity|]). split; auto.
Qed.

Lemma g_sfine_rotate lo s : g_sfine lo s ->
  g_sfine lo (mk_slice (s_min s) (s_max s) (part_memtable_rotate (s_data s))).
Proof.
  intros [F1 F2 F3 F4]. constructor; simpl; auto.
  unfold ids_in, contents, range_of in *. simpl in *. rewrite !Forall_app in *. tauto.
Qed.

Lemma g_refresh_look lo region s p k : g_sfine lo s ->
  (region_weight (concat (contents (s_data s))) < 2^32)%N ->
  refresh_part region (s_data s) = Ok p ->
  liveo (part_look p k) = liveo (part_look (s_data s) k).
Proof.
  intros F Hw Hp. destruct (g_refresh_part_spec lo region s F Hw)
    as (p' & l & E & _ & P1 & P2 & P3 & P4 & _ & P5 & _).
  rewrite E in Hp. inversion Hp; subst p'. rewrite !lookup_part, P1, P2, P3, P4, P5, lookup_app.
  change (mt_events memtable_new) with (@nil event). change (lookup [] k) with (@None event).
  destruct (lookup (mt_events (pt_mem (s_data s))) k); auto.
  assert (X : forall o, liveo (liveo o) = liveo o).
  { intros [e|]; auto. cbn [liveo]. destruct (event_is_delete e) eqn:Ed; auto. cbn [liveo]. rewrite Ed. auto. }
  destruct (lookup (mt_events (pt_prev (s_data s))) k); rewrite X; auto.
Qed.

Lemma g_begin_spec lo en id : g_minv lo (en_map en) -> (lo <= id < lo + 2^31)%N ->
  (refresh_begin en id = Err /\ ~ covered (ranges (en_map en)) id) \/
  exists s, In s (mapping_list (en_map en)) /\ in_range id (range_of s) /\
    let m := ref_put (en_map en) (s_min s) (part_memtable_rotate (s_data s)) in
    refresh_begin en id = Ok (with_map en m, s_min s) /\ g_minv lo m /\
    ranges m = ranges (en_map en) /\
    (tables_apart (s_data s) -> forall k, look m k = look (en_map en) k).
Proof.
  intros I Hid. pose proof I as [G F]. rewrite Forall_forall in F. unfold refresh_begin.
  destruct (covered_dec (en_map en) id) as [Hc|Hn].
  - right. apply covered_slice in Hc.
    destruct (lock_found lo (en_map en) (en_interval en) id false G ltac:(lia) Hc) as (z & s & -> & Hz & Hin & Hr).
    cbn [bind snd]. rewrite Hz. pose proof (F s Hin) as Fs.
    exists s. split; auto. split; auto. split; [reflexivity|]. pose proof (g_sfine_rotate lo s Fs) as Fr.
    split; [apply g_put_inv; auto|]. split; [apply put_ranges|].
    intros Ht k. rewrite (g_put_look lo) by auto. destruct (slice_in s (ev_id k)) eqn:E; auto.
    apply in_slice in E. rewrite (g_look_at lo (en_map en) s k) by auto. rewrite rotate_look; auto.
  - left. rewrite (lock_missing lo) by (auto; lia). auto.
Qed.

Lemma g_apply_spec lo en s : g_minv lo (en_map en) -> In s (mapping_list (en_map en)) ->
  (region_weight (concat (contents (s_data s))) < 2^32)%N ->
  exists p, refresh_part (en_region en) (s_data s) = Ok p /\
    let m := ref_put (en_map en) (s_min s) p in
    refresh_apply en (s_min s) = Ok (with_map en m) /\ g_minv lo m /\
    ranges m = ranges (en_map en) /\ forall k, liveo (look m k) = liveo (look (en_map en) k).
Proof.
  intros I Hin Hw. pose proof I as [G F]. rewrite Forall_forall in F. pose proof (F s Hin) as Fs.
  destruct (g_refresh_part_spec lo (en_region en) s Fs Hw) as (p & l & E & Fp & _).
  exists p. split; auto. unfold refresh_apply. rewrite (ref_get lo _ s G Hin). cbn [bind].
  rewrite E. cbn [bind]. split; [reflexivity|].
  split; [apply g_put_inv; auto|]. split; [apply put_ranges|].
  intros k. rewrite (g_put_look lo) by auto. destruct (slice_in s (ev_id k)) eqn:Es; auto.
  apply in_slice in Es. rewrite (g_look_at lo (en_map en) s k) by auto.
  eapply g_refresh_look; eauto.
Qed.

Lemma g_refresh_spec lo en id fails : g_minv lo (en_map en) -> op_fine lo en (ERefresh id fails) ->
  (engine_refresh en id fails = Err /\ ~ covered (ranges (en_map en)) id) \/
  exists m, engine_refresh en id fails = Ok (with_map en m, negb fails) /\ g_minv lo m /\
    ranges m = ranges (en_map en) /\ forall k, liveo (look m k) = liveo (look (en_map en) k).
Proof.
  intros I (Hid & Hs). unfold engine_refresh.
  destruct (g_begin_spec lo en id I Hid) as [(-> & Hn)|(s & Hin & Hr & -> & I1 & R1 & L1)]; [left; auto|].
  right. destruct (Hs s Hin Hr) as [Ht Hw]. cbn [bind].
  set (m1 := ref_put (en_map en) (s_min s) (part_memtable_rotate (s_data s))) in *.
  destruct fails.
  - exists m1. split; auto. split; auto. split; auto. intros k. rewrite L1; auto.
  - destruct (g_apply_spec lo (with_map en m1) (mk_slice (s_min s) (s_max s) (part_memtable_rotate (s_data s))) I1)
      as (p & E & A1 & A2 & A3 & A4).
    { apply (put_in lo); auto. apply (g_mi_map _ _ I). }
    { cbn [s_data]. rewrite weight_wsum in *. rewrite wsum_rotate. auto. }
    cbn [s_min en_map with_map] in *. rewrite A1. cbn [bind]. eexists. split; [reflexivity|].
    split; auto. split; [congruence|]. intros k. rewrite A4, L1; auto.
Qed.

Lemma g_drop_look lo en id : g_minv lo (en_map en) -> (lo <= id < lo + 2^31)%N ->
  exists m, engine_drop en id = Ok (with_map en m) /\ g_minv lo m /\
    mapping_list m = filter (fun s => negb (slice_in s id)) (mapping_list (en_map en)) /\
    forall k, look m k = if existsb (fun s => slice_in s id && slice_in s (ev_id k))%bool (mapping_list (en_map en))
                         then None else look (en_map en) k.
Proof.
  intros I Hid. pose proof I as [G F]. destruct (drop_spec lo (en_map en) id G ltac:(lia)) as (m & E & G' & Hl).
  unfold engine_drop. rewrite E. cbn [bind]. exists m. split; auto.
  assert (I' : g_minv lo m).
  { constructor; auto. rewrite Hl. rewrite Forall_forall in *. intros x Hx. apply filter_In in Hx. apply F. tauto. }
  split; auto. split; auto. intros k.
  destruct (existsb _ _) eqn:Ex.
  - apply existsb_exists in Ex as (s & Hs & Es). apply andb_true_iff in Es as [E1 E2].
    apply in_slice in E2. apply (g_look_out lo); auto. intros Hc. apply covered_slice in Hc as (t & Ht & Hr).
    rewrite Hl in Ht. apply filter_In in Ht as [Ht Hd].
    assert (t = s) by (apply (layout_unique (mapping_list (en_map en)) t s (ev_id k)); auto; exact (gm_layout _ _ G)).
    subst. rewrite E1 in Hd. discriminate.
  - destruct (covered_dec (en_map en) (ev_id k)) as [(s & Hs & Hr)|Hn].
    + rewrite (g_look_at lo (en_map en) s), (g_look_at lo m s); auto. rewrite Hl. apply filter_In. split; auto.
      destruct (slice_in s id) eqn:Es; auto. exfalso.
      assert (X : existsb (fun s => slice_in s id && slice_in s (ev_id k))%bool (mapping_list (en_map en)) = true).
      { apply existsb_exists. exists s. split; auto. apply in_slice in Hr. rewrite Es, Hr. auto. }
      congruence.
    + rewrite (g_look_out lo m), (g_look_out lo (en_map en)); auto. intros Hc. apply Hn.
      apply covered_slice in Hc as (t & Ht & Hr). rewrite Hl in Ht. apply filter_In in Ht as [Ht _].
      apply covered_slice. eauto.
Qed.

Record g_einv (lo : N) (en : engine) (h : list event) : Prop := {
  g_ei_map : g_minv lo (en_map en);
  g_ei_iv : (0 < en_interval en <= u64_max)%N;
  g_ei_look : forall k, liveo (look (en_map en) k) = liveo (last_write h k)
}.

Definition g_op (lo : N) (en : engine) (o : eop) : Prop :=
  match o with
  | EWrite l logged => if b then logged = true /\ load_fine lo en l else try_fine lo en l
  | _ => op_fine lo en o
  end.
Lemma gfits_of m l : (if b then fits m l else fits_pages m l) -> gfits m l.
Proof.
  unfold gfits, fits, fits_pages, one. destruct b; intros [H1 H2]; split; auto; intros s Hs;
    (destruct (H2 s Hs) as [H|H]; [left|right; auto]).
  - split; auto. discriminate.
  - destruct H. split; auto.
Qed.

Lemma g_step_spec lo en h o : g_einv lo en h -> g_op lo en o ->
  match estep en o with
  | Ok en' => g_einv lo en' (ack_step en o h)
  | Err => g_einv lo en (ack_step en o h)
  | UB => False
  end.
Proof.
  intros [I Hiv HL] Hf. destruct o as [l logged|id fails|id|ref|id|mn mx|n]; cbn [estep ack_step g_op op_fine] in *.
  - destruct (g_write_spec lo en l logged I Hiv) as [(m & -> & I' & Hl)|(_ & m & ssn & -> & I' & HE)].
    { destruct b; [destruct Hf as [_ Hf]|]; apply Hf. }
    { destruct b; [destruct Hf as [_ (_ & _ & Hf & _)]|apply Hf].
      eapply Forall_impl; [|exact Hf]. intros; apply near_fine; auto. }
    { apply gfits_of. destruct b; [destruct Hf as [_ Hf]|]; apply Hf. }
    { intros Eb. rewrite Eb in Hf. apply Hf. }
    { intros Eb. rewrite Eb in Hf. destruct Hf as [-> Hf]. split; auto. split; apply Hf. }
    + cbn [bind fst]. constructor; auto. cbn [en_map]. intros k. rewrite Hl, last_write_over. unfold over.
      destruct (last_write _ k); auto.
    + cbn [bind fst]. constructor; auto. cbn [en_map]. intros k. rewrite (g_ext_look lo (en_map en) m k); auto.
  - destruct (g_refresh_spec lo en id fails I Hf) as [(-> & _)|(m & -> & I' & _ & Hl)].
    + cbn [bind]. constructor; auto.
    + cbn [bind fst]. constructor; auto. cbn [with_map en_map]. intros k. rewrite Hl. auto.
  - destruct Hf as [Hid Ht].
    destruct (g_begin_spec lo en id I Hid) as [(-> & _)|(s & Hin & Hr & -> & I' & _ & Hl)].
    + cbn [bind]. constructor; auto.
    + cbn [bind fst]. constructor; auto. cbn [with_map en_map]. intros k. rewrite Hl; eauto.
  - destruct Hf as (s & Hin & <- & Hw).
    destruct (g_apply_spec lo en s I Hin Hw) as (p & _ & -> & I' & _ & Hl).
    constructor; auto. cbn [with_map en_map]. intros k. rewrite Hl. auto.
  - destruct (g_drop_look lo en id I Hf) as (m & -> & I' & _ & Hl). constructor; auto. cbn [with_map en_map].
    intros k. rewrite Hl. unfold last_write. rewrite <- filter_rev.
    rewrite (find_filter (fun i => negb (existsb (fun s => slice_in s id && slice_in s i)%bool (mapping_list (en_map en))))).
    destruct (existsb _ _); simpl; auto. apply HL.
  - destruct (N.leb_spec mn mx).
    + destruct (fill_spec part_new lo (en_map en) mn mx (g_mi_map _ _ I) (Hf H) H) as (m & new & -> & G' & HP & _).
      cbn [bind]. assert (I' : g_minv lo m) by (eapply g_perm_inv; eauto).
      constructor; auto. cbn [with_map en_map]. intros k. rewrite (g_ext_look lo (en_map en) m k); auto.
      eapply perm_ext; eauto.
    + unfold engine_fill. destruct (N.ltb_spec mx mn); [|lia]. cbn [bind]. constructor; auto.
  - constructor; auto.
Qed.

Fixpoint g_hist (lo : N) (en : engine) (l : list eop) : Prop :=
  match l with
  | [] => True
  | o :: t => g_op lo en o /\ match estep en o with
                             | Ok en' => g_hist lo en' t
                             | _ => g_hist lo en t
                             end
  end.

Lemma g_run_spec lo : forall l en h, g_einv lo en h -> g_hist lo en l ->
  exists en', erun en l = Ok en' /\ g_einv lo en' (acked en l h).
Proof.
  induction l as [|o l IH]; intros en h I Hf; cbn [erun acked g_hist] in *; [eauto|].
  destruct Hf as [H1 H2]. pose proof (g_step_spec lo en h o I H1) as Hs.
  destruct (estep en o) as [en'| |]; try contradiction; eauto.
Qed.

Lemma g_einv_new lo iv serial page region : (lo + 2^31 <= u64_max)%N -> (0 < iv <= u64_max)%N ->
  g_einv lo (engine_new iv serial page region) [].
Proof.
  intros H1 H2. constructor; auto. constructor; [apply good_init; auto|constructor].
Qed.

Lemma g_sfine_content lo s : g_sfine lo s -> content_ok lo (s_data s).
Proof.
  intros [[_ _ T2 T3 _ _] [_ _ P2 P3 _ _] F3 _]. split.
  - unfold contents. repeat constructor; auto. destruct (pt_file (s_data s)); [apply F3|constructor].
  - unfold contents. cbn [concat]. rewrite !Forall_app. repeat split; auto.
    destruct (pt_file (s_data s)); [apply F3|constructor].
Qed.

Lemma g_keyed_reads lo s k : g_sfine lo s -> good lo k ->
  one (pt_mem (s_data s)) /\ length (mt_events (pt_mem (s_data s))) <= MEMTABLE_PAGE ->
  one (pt_prev (s_data s)) /\ length (mt_events (pt_prev (s_data s))) <= MEMTABLE_PAGE ->
  ~ past_keys (match pt_file (s_data s) with Some f => concat f | None => [] end) k ->
  table_reads (pt_mem (s_data s)) (Some k) /\ table_reads (pt_prev (s_data s)) (Some k) /\
  file_reads (pt_file (s_data s)) (Some k).
Proof.
  intros [F1 F2 F3 F4] Hk Hl1 Hl2 Hp. split; [apply (g_tab_reads lo); auto|]. split; [apply (g_tab_reads lo); auto|].
  destruct (pt_file (s_data s)) as [f|]; simpl; auto. destruct F3 as (A & B & C).
  exact (file_scan_statement lo f k A B C Hk Hp).
Qed.

Lemma g_scan_engine lo m key : g_minv lo m ->
  match key with
  | None => (lo + 2^31 < 2^63)%N
  | Some k => good lo k /\ forall s, In s (mapping_list m) ->
       ((one (pt_mem (s_data s)) /\ length (mt_events (pt_mem (s_data s))) <= MEMTABLE_PAGE) /\
        (one (pt_prev (s_data s)) /\ length (mt_events (pt_prev (s_data s))) <= MEMTABLE_PAGE)) /\
       ~ past_keys (match pt_file (s_data s) with Some f => concat f | None => [] end) k
  end ->
  exists out n, (forall fuel, n < fuel -> monotone_scan fuel m key = Ok (Some out)) /\
    ascending out /\ forall e, In e out <-> visible (map s_data (mapping_list m)) e /\ from key e.
Proof.
  intros I Hk. pose proof I as [G F]. rewrite Forall_forall in F.
  destruct (scan_statement lo m G) with (key := key) as (out & H1 & H2 & H3).
  - intros s Hs. pose proof (F s Hs) as Fs. split; [apply g_sfine_content; auto|].
    split; [apply (g_tab_reads lo); auto; apply (g_sf_mem _ _ Fs)|].
    split; [apply (g_tab_reads lo); auto; apply (g_sf_prev _ _ Fs)|]. split.
    + pose proof (g_sf_file _ _ Fs) as Ff. destruct (pt_file (s_data s)) as [f|]; simpl; auto.
      apply file_scan_none. apply Ff.
    + exact (g_sf_ids _ _ Fs).
  - destruct key as [k|]; auto. destruct Hk as [Hk Hp]. split; auto. intros s Hs.
    destruct (Hp s Hs) as [[P1 P2] P3]. apply (g_keyed_reads lo); auto.
  - eauto.
Qed.

Lemma g_visible_look lo m e : g_minv lo m ->
  (visible (map s_data (mapping_list m)) e <-> event_is_delete e = false /\ look m e = Some e).
Proof.
  intros I. pose proof I as [G F]. rewrite Forall_forall in F. unfold visible. split.
  - intros [Hd (p & Hp & Hn)]. split; auto. apply in_map_iff in Hp as (s & <- & Hs).
    destruct (g_sfine_content lo s (F s Hs)) as [C1 _].
    apply lookup_concat_newest in Hn; auto. rewrite (g_look_at lo m s); auto.
    apply lookup_in in Hn as [Hin _]. pose proof (g_sf_ids _ _ (F s Hs)) as Hi. unfold ids_in in Hi.
    rewrite Forall_forall in Hi. auto.
  - intros [Hd Hl]. split; auto. destruct (covered_dec m (ev_id e)) as [(s & Hs & Hr)|Hn].
    + exists (s_data s). split; [apply in_map; auto|].
      destruct (g_sfine_content lo s (F s Hs)) as [C1 _]. apply lookup_concat_newest; auto.
      rewrite (g_look_at lo m s) in Hl; auto.
    + rewrite (g_look_out lo m) in Hl; auto. discriminate.
Qed.

Lemma g_visible_current lo en h e : g_einv lo en h -> (visible (parts en) e <-> current h e).
Proof.
  intros [I _ HL]. unfold parts, current. rewrite (g_visible_look lo) by auto. split.
  - intros [Hd Hl]. split; auto. apply (proj2 (liveo_some _ e Hd)). rewrite <- HL. apply (proj1 (liveo_some _ e Hd)). auto.
  - intros [Hl Hd]. split; auto. apply (proj2 (liveo_some _ e Hd)). rewrite HL. apply (proj1 (liveo_some _ e Hd)). auto.
Qed.


Lemma g_reached lo iv serial page region ops : limits lo iv ->
  g_hist lo (engine_new iv serial page region) ops ->
  exists en, erun (engine_new iv serial page region) ops = Ok en /\
    g_einv lo en (acked (engine_new iv serial page region) ops []).
Proof. intros [H1 H2] Hf. apply (g_run_spec lo); auto. apply g_einv_new; auto. Qed.

Lemma g_scan_all : forall lo iv serial page region ops, limits lo iv -> (lo + 2^31 < 2^63)%N ->
  g_hist lo (engine_new iv serial page region) ops ->
  exists en, erun (engine_new iv serial page region) ops = Ok en /\
    exists out n, (forall fuel, n < fuel -> monotone_scan fuel (en_map en) None = Ok (Some out)) /\
      ascending out /\
      forall e, In e out <-> current (acked (engine_new iv serial page region) ops []) e.
Proof.
  intros lo iv serial page region ops Hl H63 Hf.
  destruct (g_reached lo iv serial page region ops Hl Hf) as (en & E & I). exists en. split; auto.
  destruct (g_scan_engine lo (en_map en) None (g_ei_map _ _ _ I) H63) as (out & n & H1 & H2 & H3).
  exists out, n. split; auto. split; auto. intros e. rewrite H3.
  fold (parts en). rewrite (g_visible_current lo en _ e I). simpl. tauto.
Qed.

Lemma g_scan_keyed : forall lo iv serial page region ops, limits lo iv ->
  g_hist lo (engine_new iv serial page region) ops ->
  exists en, erun (engine_new iv serial page region) ops = Ok en /\
    forall key, start_fine lo key -> small_tables en ->
    (forall p, In p (parts en) -> one (pt_mem p) /\ one (pt_prev p)) ->
    exists out n, (forall fuel, n < fuel -> monotone_scan fuel (en_map en) key = Ok (Some out)) /\
      ascending out /\
      forall e, In e out <-> current (acked (engine_new iv serial page region) ops []) e /\ from key e.
Proof.
  intros lo iv serial page region ops Hl Hf.
  destruct (g_reached lo iv serial page region ops Hl Hf) as (en & E & I). exists en. split; auto.
  intros key Hk Hsm Ho. destruct (g_scan_engine lo (en_map en) key) as (out & n & H1 & H2 & H3).
  - apply I.
  - destruct key as [k|]; auto. destruct Hk as (A & B & C). split; [split; auto|].
    intros s Hs. destruct (Hsm (s_data s)) as [M1 M2]; [apply in_map; auto|].
    destruct (Ho (s_data s)) as [O1 O2]; [apply in_map; auto|]. split; [auto|]. apply past_keys_keyless; auto.
  - exists out, n. split; auto. split; auto. intros e. rewrite H3.
    fold (parts en). rewrite (g_visible_current lo en _ e I). tauto.
Qed.
End Pages.

Lemma load_g lo l en : load_hist lo en l -> g_hist true lo en l.
Proof. intros H. exact H. Qed.
Lemma try_g lo l en : try_hist lo en l -> g_hist false lo en l.
Proof. intros H. exact H. Qed.

Lemma load_scan : forall lo iv serial page region ops, limits lo iv -> (lo + 2^31 < 2^63)%N ->
  load_hist lo (engine_new iv serial page region) ops ->
  exists en, erun (engine_new iv serial page region) ops = Ok en /\
    exists out n, (forall fuel, n < fuel -> monotone_scan fuel (en_map en) None = Ok (Some out)) /\
      ascending out /\
      forall e, In e out <-> current (acked (engine_new iv serial page region) ops []) e.
Proof. intros. apply (g_scan_all true lo); auto using load_g. Qed.

Lemma load_keyed : forall lo iv serial page region ops, limits lo iv ->
  load_hist lo (engine_new iv serial page region) ops ->
  exists en, erun (engine_new iv serial page region) ops = Ok en /\
    forall key, start_fine lo key -> small_tables en ->
    exists out n, (forall fuel, n < fuel -> monotone_scan fuel (en_map en) key = Ok (Some out)) /\
      ascending out /\
      forall e, In e out <-> current (acked (engine_new iv serial page region) ops []) e /\ from key e.
Proof.
  intros lo iv serial page region ops Hl Hf.
  destruct (g_scan_keyed true lo iv serial page region ops Hl (load_g _ _ _ Hf)) as (en & E & K).
  exists en. split; auto. intros key Hk Hs. apply K; auto. intros p _. split; discriminate.
Qed.
