(* Invariants of the engine, what a partition holds, references. *)
From Coq Require Import NArith ZArith List Bool Sorted Lia Arith Permutation.
Import ListNotations.
From Verif Require Import Model.Base Model.Event Model.Rbtree Model.Memtable Model.Mapping Model.Merge
  Model.PartIter Model.Scan Model.Engine Spec.Order Spec.Merged Spec.Files Spec.Layout Spec.View
  Spec.Engine Proof.OrderL Proof.RbtreeL Proof.MemtableL Proof.MemtableL2 Proof.MergeL
  Proof.PartIterL Proof.MappingL Proof.MappingP Proof.MappingX Proof.ScanL.
Local Arguments N.pow : simpl never.
Local Arguments N.add : simpl never.
Local Arguments N.sub : simpl never.

Implicit Types (s : slice part) (m : mapping part).

Record tab (lo : N) (t : memtable) : Prop := {
  tb_single : single t (mt_events t);
  tb_asc : ascending (mt_events t);
  tb_good : Forall (good lo) (mt_events t);
  tb_page : mt_size_page t = MEMTABLE_PAGE
}.
Definition file_fine (lo : N) (f : option pfile) : Prop :=
  match f with
  | None => True
  | Some f => file_ok f /\ ids_apart f /\ Forall (good lo) (concat f)
  end.
Definition ids_in (r : range) (l : list event) : Prop := Forall (fun e => in_range (ev_id e) r) l.
Record sfine (lo : N) (s : slice part) : Prop := {
  sf_mem : tab lo (pt_mem (s_data s));
  sf_prev : tab lo (pt_prev (s_data s));
  sf_file : file_fine lo (pt_file (s_data s));
  sf_ids : ids_in (range_of s) (concat (contents (s_data s)))
}.
Record minv (lo : N) (m : mapping part) : Prop := {
  mi_map : good_map lo m;
  mi_parts : Forall (sfine lo) (mapping_list m)
}.

Definition part_look (p : part) (k : event) : option event := lookup (concat (contents p)) k.
Definition all_events (m : mapping part) : list event :=
  flat_map (fun s => concat (contents (s_data s))) (mapping_list m).
Definition look (m : mapping part) (k : event) : option event := lookup (all_events m) k.

Lemma page_val : MEMTABLE_PAGE = N.to_nat 512.
Proof. reflexivity. Qed.
Lemma page_pos : 0 < MEMTABLE_PAGE.
Proof. rewrite page_val. lia. Qed.

Lemma tab_new lo : tab lo memtable_new.
Proof. constructor; try constructor; reflexivity. Qed.

Lemma tab_of lo t l : single t l -> ascending l -> Forall (good lo) l -> mt_size_page t = MEMTABLE_PAGE ->
  tab lo t /\ mt_events t = l.
Proof. intros H1 H2 H3 H4. pose proof (single_events _ _ H1) as E. split; auto. constructor; rewrite ?E; auto. Qed.

Lemma lookup_nin l k : Forall (fun e => ev_id e <> ev_id k) l -> lookup l k = None.
Proof.
  intros H. destruct (lookup l k) eqn:E; auto. apply lookup_in in E as [Hin [Hid _]].
  rewrite Forall_forall in H. specialize (H _ Hin). congruence.
Qed.

Lemma in_slice (s : slice part) x : slice_in s x = true <-> in_range x (range_of s).
Proof. unfold slice_in, in_range, range_of. simpl. rewrite andb_true_iff, !N.leb_le. tauto. Qed.

Lemma lookup_flat_none (l : list (slice part)) k :
  (forall t, In t l -> part_look (s_data t) k = None) ->
  lookup (flat_map (fun s => concat (contents (s_data s))) l) k = None.
Proof.
  induction l as [|t l IH]; intros H; auto. cbn [flat_map]. rewrite lookup_app.
  pose proof (H t (or_introl eq_refl)) as Ht. unfold part_look in Ht. rewrite Ht. apply IH.
  intros; apply H; simpl; auto.
Qed.

Lemma part_look_out lo (s : slice part) k : sfine lo s -> ~ in_range (ev_id k) (range_of s) ->
  part_look (s_data s) k = None.
Proof.
  intros Hs Hn. apply lookup_nin. eapply Forall_impl; [|exact (sf_ids _ _ Hs)].
  intros e He E. apply Hn. rewrite <- E. auto.
Qed.

Lemma look_at lo m s k : minv lo m -> In s (mapping_list m) -> in_range (ev_id k) (range_of s) ->
  look m k = part_look (s_data s) k.
Proof.
  intros [G F] Hs Hr. unfold look, all_events.
  destruct (proj1 (layout_slices _) (gm_layout _ _ G)) as [S1 _].
  destruct (in_split _ _ Hs) as (l1 & l2 & E). rewrite E in *.
  apply sorted_app in S1 as (_ & Sb & Sc). inversion Sb; subst.
  rewrite Forall_forall in F, H2.
  rewrite flat_map_app, lookup_app. cbn [flat_map]. rewrite lookup_app.
  rewrite (lookup_flat_none l1), (lookup_flat_none l2).
  - fold (part_look (s_data s) k). destruct (part_look (s_data s) k); auto.
  - intros t Ht. apply (part_look_out lo); [apply F; apply in_app_iff; simpl; auto|].
    specialize (H2 t Ht). unfold slt, in_range, range_of in *. simpl in *. lia.
  - intros t Ht. apply (part_look_out lo); [apply F; apply in_app_iff; simpl; auto|].
    specialize (Sc t s Ht (or_introl eq_refl)). unfold slt, in_range, range_of in *. simpl in *. lia.
Qed.

Lemma look_out lo m k : minv lo m -> ~ covered (ranges m) (ev_id k) -> look m k = None.
Proof.
  intros [G F] Hn. apply lookup_flat_none. intros t Ht. rewrite Forall_forall in F.
  apply (part_look_out lo); auto. intros Hr. apply Hn. exists (range_of t). split; auto.
  apply in_map. auto.
Qed.

Lemma covered_slice (m : mapping part) x : covered (ranges m) x <->
  exists s, In s (mapping_list m) /\ in_range x (range_of s).
Proof.
  unfold covered, ranges. split.
  - intros (r & Hr & Hx). apply in_map_iff in Hr as (s & <- & Hs). eauto.
  - intros (s & Hs & Hx). exists (range_of s). split; auto. apply in_map; auto.
Qed.

Lemma covered_dec (m : mapping part) x :
  {exists s, In s (mapping_list m) /\ in_range x (range_of s)} + {~ covered (ranges m) x}.
Proof.
  destruct (find (fun s => slice_in s x) (mapping_list m)) as [s|] eqn:E.
  - left. apply find_some in E as [H1 H2]. exists s. split; auto. apply in_slice; auto.
  - right. rewrite covered_slice. intros (s & Hs & Hx). apply in_slice in Hx.
    eapply find_none in E; eauto. congruence.
Qed.

(* --- references --- *)
Lemma elements_map {A} (f : A -> A) t : elements (tree_map f t) = map f (elements t).
Proof. induction t; simpl; auto. rewrite IHt1, IHt2, map_app. auto. Qed.

Lemma rb_map {A} (f : A -> A) t c h : rb t c h -> rb (tree_map f t) c h.
Proof. induction 1; simpl; econstructor; eauto. Qed.

Definition putf (r : N) (p : part) (s : slice part) : slice part :=
  if (s_min s =? r)%N then mk_slice (s_min s) (s_max s) p else s.

Lemma put_list m r p : mapping_list (ref_put m r p) = map (putf r p) (mapping_list m).
Proof. unfold mapping_list, ref_put. simpl. rewrite elements_map. auto. Qed.

Lemma putf_range r p s : range_of (putf r p s) = range_of s.
Proof. unfold putf. destruct (s_min s =? r)%N; auto. Qed.

Lemma put_ranges m r p : ranges (ref_put m r p) = ranges m.
Proof. unfold ranges. rewrite put_list, map_map. apply map_ext. intros; apply putf_range. Qed.

Lemma put_good lo m r p : good_map lo m -> good_map lo (ref_put m r p).
Proof.
  intros [H1 H2 H3 H4 H5]. constructor; auto.
  - destruct H1 as [h H1]. exists h. unfold ref_put. simpl. apply rb_map; auto.
  - rewrite put_ranges; auto.
  - rewrite put_ranges; auto.
  - rewrite put_list, map_length. auto.
Qed.

Lemma min_unique lo m s t : good_map lo m -> In s (mapping_list m) -> In t (mapping_list m) ->
  s_min s = s_min t -> s = t.
Proof.
  intros G Hs Ht E. destruct (proj1 (layout_slices _) (gm_layout _ _ G)) as [_ H2]. rewrite Forall_forall in H2.
  pose proof (H2 s Hs). pose proof (H2 t Ht). simpl in *.
  apply (layout_unique (mapping_list m) s t (s_min s)); auto; try exact (gm_layout _ _ G).
  - split; simpl; lia.
  - split; simpl; lia.
Qed.

Lemma ref_get lo m s : good_map lo m -> In s (mapping_list m) -> ref_part m (s_min s) = Ok (s_data s).
Proof.
  intros G Hs. unfold ref_part. destruct (find _ (mapping_list m)) as [t|] eqn:E.
  - apply find_some in E as [H1 H2]. apply N.eqb_eq in H2. rewrite (min_unique lo m t s); auto.
  - eapply find_none in E; eauto. rewrite N.eqb_refl in E. discriminate.
Qed.

Lemma put_in lo m s p t : good_map lo m -> In s (mapping_list m) ->
  (In t (mapping_list (ref_put m (s_min s) p)) <->
   t = mk_slice (s_min s) (s_max s) p \/ (In t (mapping_list m) /\ t <> s)).
Proof.
  intros G Hs. rewrite put_list, in_map_iff. unfold putf. split.
  - intros (u & Hu & Hin). destruct (N.eqb_spec (s_min u) (s_min s)) as [E|E].
    + left. rewrite (min_unique lo m u s) in Hu; auto.
    + right. subst. split; auto. congruence.
  - intros [->|[Hin Hne]].
    + exists s. rewrite N.eqb_refl. auto.
    + exists t. destruct (N.eqb_spec (s_min t) (s_min s)) as [E|E]; auto.
      exfalso. apply Hne. apply (min_unique lo m); auto.
Qed.

Lemma put_inv lo m s p : minv lo m -> In s (mapping_list m) -> sfine lo (mk_slice (s_min s) (s_max s) p) ->
  minv lo (ref_put m (s_min s) p).
Proof.
  intros [G F] Hs Hf. constructor; [apply put_good; auto|]. rewrite Forall_forall in *.
  intros t Ht. apply (put_in lo) in Ht; auto. destruct Ht as [->|[Ht _]]; auto.
Qed.

Lemma put_look lo m s p k : minv lo m -> In s (mapping_list m) -> sfine lo (mk_slice (s_min s) (s_max s) p) ->
  look (ref_put m (s_min s) p) k = if slice_in s (ev_id k) then part_look p k else look m k.
Proof.
  intros I Hs Hf. pose proof (put_inv lo m s p I Hs Hf) as I'. destruct I as [G F].
  destruct (slice_in s (ev_id k)) eqn:E.
  - apply in_slice in E. rewrite (look_at lo _ (mk_slice (s_min s) (s_max s) p)); auto.
    apply (put_in lo); auto.
  - destruct (covered_dec m (ev_id k)) as [(t & Ht & Hr)|Hn].
    + rewrite (look_at lo m t); auto; [|constructor; auto]. apply (look_at lo); auto.
      apply (put_in lo); auto. right. split; auto. intros ->. apply in_slice in Hr. congruence.
    + rewrite (look_out lo m); auto; [|constructor; auto]. apply (look_out lo); auto. rewrite put_ranges. auto.
Qed.

(* --- partitions with the same data --- *)
Definition like (p q : part) : Prop :=
  mt_events (pt_mem p) = mt_events (pt_mem q) /\ mt_lsn_min (pt_mem p) = mt_lsn_min (pt_mem q) /\
  mt_lsn_max (pt_mem p) = mt_lsn_max (pt_mem q) /\ pt_prev p = pt_prev q /\
  pt_file p = pt_file q /\ pt_lsn p = pt_lsn q.
Lemma like_refl p : like p p.
Proof. repeat split. Qed.
Lemma like_trans p q r : like p q -> like q r -> like p r.
Proof. unfold like. intuition congruence. Qed.
Lemma like_sym p q : like p q -> like q p.
Proof. unfold like. intuition congruence. Qed.
Lemma like_contents p q : like p q -> contents p = contents q.
Proof. intros (H1 & _ & _ & H4 & H5 & _). unfold contents. rewrite H1, H4, H5. auto. Qed.
Lemma like_look p q k : like p q -> part_look p k = part_look q k.
Proof. intros H. unfold part_look. rewrite (like_contents p q); auto. Qed.

(* the partitions of m are in m' with the same data, the others of m' are empty *)
Definition ext (m m' : mapping part) : Prop :=
  (forall s, In s (mapping_list m) -> exists q, In (mk_slice (s_min s) (s_max s) q) (mapping_list m') /\
     like (s_data s) q) /\
  (forall t, In t (mapping_list m') ->
     (exists q, In (mk_slice (s_min t) (s_max t) q) (mapping_list m) /\ like q (s_data t)) \/
     like (part_new 0 0) (s_data t)).

Lemma slice_eta (s : slice part) : mk_slice (s_min s) (s_max s) (s_data s) = s.
Proof. destruct s; auto. Qed.

Lemma ext_refl m : ext m m.
Proof.
  split; intros s Hs.
  - exists (s_data s). rewrite slice_eta. split; auto. apply like_refl.
  - left. exists (s_data s). rewrite slice_eta. split; auto. apply like_refl.
Qed.

Lemma ext_trans a b c : ext a b -> ext b c -> ext a c.
Proof.
  intros [A1 A2] [B1 B2]. split.
  - intros s Hs. destruct (A1 s Hs) as (q & Hq & L1). destruct (B1 _ Hq) as (r & Hr & L2). simpl in *.
    exists r. split; auto. eapply like_trans; eauto.
  - intros t Ht. destruct (B2 t Ht) as [(q & Hq & L1)|L]; auto.
    destruct (A2 _ Hq) as [(r & Hr & L2)|L]; simpl in *.
    + left. exists r. split; auto. eapply like_trans; eauto.
    + right. eapply like_trans; eauto.
Qed.

Lemma look_new a b k : part_look (part_new a b) k = None.
Proof. reflexivity. Qed.

Lemma ext_look lo m m' k : minv lo m -> minv lo m' -> ext m m' -> look m' k = look m k.
Proof.
  intros I I' [E1 E2]. destruct (covered_dec m (ev_id k)) as [(s & Hs & Hr)|Hn].
  - destruct (E1 s Hs) as (q & Hq & L). rewrite (look_at lo m s), (look_at lo m' _ k I' Hq); auto.
    simpl. symmetry. apply like_look; auto.
  - rewrite (look_out lo m); auto. destruct (covered_dec m' (ev_id k)) as [(t & Ht & Hr)|Hn'].
    + rewrite (look_at lo m' t); auto. destruct (E2 t Ht) as [(q & Hq & L)|L].
      * exfalso. apply Hn. apply covered_slice. eexists; split; [exact Hq|]. exact Hr.
      * rewrite <- (like_look _ _ k L). reflexivity.
    + apply (look_out lo); auto.
Qed.

Lemma sfine_new lo mn mx a b : sfine lo (mk_slice mn mx (part_new a b)).
Proof. constructor; simpl; auto using tab_new. unfold ids_in. constructor. Qed.

Lemma perm_ext m m' new :
  Permutation (mapping_list m') (map (mk_new part_new) new ++ mapping_list m) -> ext m m'.
Proof.
  intros HP. split.
  - intros s Hs. exists (s_data s). split; [|apply like_refl]. rewrite slice_eta.
    eapply Permutation_in; [symmetry; exact HP|]. apply in_app_iff; auto.
  - intros t Ht. eapply Permutation_in in Ht; [|exact HP]. apply in_app_iff in Ht as [Ht|Ht].
    + right. apply in_map_iff in Ht as (g & <- & _). simpl. apply like_refl.
    + left. exists (s_data t). rewrite slice_eta. split; auto. apply like_refl.
Qed.

Lemma perm_inv lo m m' new : minv lo m -> good_map lo m' ->
  Permutation (mapping_list m') (map (mk_new part_new) new ++ mapping_list m) -> minv lo m'.
Proof.
  intros [G F] G' HP. constructor; auto. rewrite Forall_forall in *. intros t Ht.
  eapply Permutation_in in Ht; [|exact HP]. apply in_app_iff in Ht as [Ht|Ht]; auto.
  apply in_map_iff in Ht as (g & <- & _). apply sfine_new.
Qed.

Lemma zelem_in (m : mapping part) z s : zroot z = mp_tree m -> zelem z = Some s -> In s (mapping_list m).
Proof. intros H1 H2. unfold mapping_list. rewrite <- H1, (zelems z s H2). apply in_app_iff; simpl; auto. Qed.

(* locking the partition of an id *)
Lemma lock_found lo m iv id create : good_map lo m -> (lo <= id <= lo + 2^31)%N ->
  covered (ranges m) id ->
  exists z s, engine_lock part_new m iv id false create = Ok (m, Some z) /\ zelem z = Some s /\
    In s (mapping_list m) /\ in_range id (range_of s).
Proof.
  intros G Hid Hc. unfold engine_lock.
  set (hit := match mapping_max m with Some z => match zelem z with Some s => slice_in s id | None => false end | None => false end).
  destruct hit eqn:Eh.
  - unfold hit in Eh. pose proof (max_spec lo m G) as Hm. destruct (mapping_max m) as [z|]; [|discriminate].
    destruct Hm as (s & H1 & H2). rewrite H2 in Eh. exists z, s. split; auto. split; auto.
    split; [eapply zelem_in; eauto|]. apply in_slice; auto.
  - destruct (match_spec lo m id G Hid) as [(z & s & Hz & H1 & H2 & H3)|[Hz Hnc]]; [|contradiction].
    rewrite Hz. cbn [bind]. exists z, s. split; auto. split; auto. split; auto. eapply zelem_in; eauto.
Qed.

Lemma lock_missing lo m iv id : good_map lo m -> (lo <= id <= lo + 2^31)%N ->
  ~ covered (ranges m) id -> engine_lock part_new m iv id false false = Ok (m, None).
Proof.
  intros G Hid Hc. unfold engine_lock.
  pose proof (max_spec lo m G) as Hm. destruct (mapping_max m) as [z|].
  - destruct Hm as (s & H1 & H2). rewrite H2. destruct (slice_in s id) eqn:E.
    + exfalso. apply Hc. apply covered_slice. exists s. split; [eapply zelem_in; eauto|]. apply in_slice; auto.
    + destruct (match_spec lo m id G Hid) as [(z' & s' & Hz & H1' & H2' & H3)|[Hz Hnc]].
      * exfalso. apply Hc. apply covered_slice. exists s'. split; auto. eapply zelem_in; eauto.
      * rewrite Hz. auto.
  - destruct (match_spec lo m id G Hid) as [(z' & s' & Hz & H1' & H2' & H3)|[Hz Hnc]].
    + exfalso. apply Hc. apply covered_slice. exists s'. split; auto. eapply zelem_in; eauto.
    + rewrite Hz. auto.
Qed.

Lemma lock_refused lo m iv id : good_map lo m -> (lo <= id <= lo + 2^31)%N -> (0 < iv <= u64_max)%N ->
  (u64_max + 1 < interval_of iv id + iv)%N ->
  ~ covered (ranges m) id -> engine_lock part_new m iv id false true = Err.
Proof.
  intros G Hid Hiv Ht Hc.
  apply top_write_error; auto.
  - pose proof (gm_lo _ _ G). lia.
  - pose proof (max_spec lo m G) as Hm. destruct (mapping_max m) as [z|]; auto.
    destruct Hm as (s & H1 & H2). rewrite H2. destruct (slice_in s id) eqn:E; auto.
    exfalso. apply Hc. apply covered_slice. exists s. split; [eapply zelem_in; eauto|]. apply in_slice; auto.
  - destruct (match_spec lo m id G Hid) as [(z' & s' & Hz & H1' & H2' & H3)|[Hz Hnc]]; auto.
    exfalso. apply Hc. apply covered_slice. exists s'. split; auto. eapply zelem_in; eauto.
Qed.
