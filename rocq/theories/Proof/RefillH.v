(* Numbered histories and what each part of a partition holds of them; as in CrashH.v, with tables of any number of pages. *)
From Coq Require Import NArith ZArith List Bool Sorted Lia Arith Permutation.
Import ListNotations.
From Verif Require Import Model.Base Model.Event Model.Rbtree Model.Memtable Model.Mapping Model.Merge
  Model.PartIter Model.Scan Model.Writer Model.Codec Model.Engine Model.Crash Spec.Order Spec.Merged Spec.Files Spec.Layout
  Spec.Regions Spec.View Spec.Engine Spec.Crash Spec.Refill Proof.OrderL Proof.RbtreeL Proof.MemtableL Proof.MemtableL2 Proof.MergeL
  Proof.MappingL Proof.MappingP Proof.ScanL Proof.EngineL Proof.EngineW Proof.EngineR Proof.RefillW.
From Verif Require Import Spec.Grow Proof.GrowL Proof.RefillB Proof.RefillW.
From Verif Require Import Model.Crash Spec.Crash Spec.Refill.
Local Arguments N.pow : simpl never.
Local Arguments N.add : simpl never.
Local Arguments N.sub : simpl never.
Implicit Types (s t : slice part) (m : mapping part).

Definition hist : Type := list (N * event).
Implicit Types (H : hist).
Definition sel (P : N -> bool) H : list event := map snd (filter (fun x => P (fst x)) H).
Definition lw (P : N -> bool) H (k : event) : option event := last_write (sel P H) k.

Lemma sel_app P H1 H2 : sel P (H1 ++ H2) = sel P H1 ++ sel P H2.
Proof. unfold sel. rewrite filter_app, map_app. auto. Qed.
Lemma lw_app P H1 H2 k : lw P (H1 ++ H2) k = over (sel P H2) (lw P H1) k.
Proof. unfold lw. rewrite sel_app, last_write_over. auto. Qed.
Lemma sel_ext P Q H : (forall x, In x H -> P (fst x) = Q (fst x)) -> sel P H = sel Q H.
Proof.
  intros E. unfold sel. f_equal. induction H as [|a H IH]; auto. simpl.
  rewrite (E a) by (simpl; auto). rewrite IH by (intros; apply E; simpl; auto). auto.
Qed.
Lemma lw_ext P Q H k : (forall x, In x H -> P (fst x) = Q (fst x)) -> lw P H k = lw Q H k.
Proof. intros E. unfold lw. rewrite (sel_ext P Q); auto. Qed.
Lemma last_write_in h k e : last_write h k = Some e -> In e h /\ same_keyb k e = true.
Proof. unfold last_write. intros E. apply find_some in E as [E1 E2]. split; auto. apply in_rev; auto. Qed.
Lemma in_sel P H e : In e (sel P H) <-> exists l, In (l, e) H /\ P l = true.
Proof.
  unfold sel. rewrite in_map_iff. split.
  - intros ([l x] & <- & Hx). apply filter_In in Hx as [Hx HP]. eauto.
  - intros (l & Hl & HP). exists (l, e). split; auto. apply filter_In. auto.
Qed.
Lemma lw_none P H k : (forall x, In x H -> P (fst x) = true -> ev_id (snd x) <> ev_id k) -> lw P H k = None.
Proof.
  intros E. destruct (lw P H k) as [e|] eqn:El; auto. exfalso. apply last_write_in in El as [Hin Hk].
  apply in_sel in Hin as (l & Hl & HP). apply same_keyb_true in Hk as [Hk _]. apply (E (l, e) Hl HP). auto.
Qed.
Lemma lw_none_inv P H k : lw P H k = None -> forall x, In x H -> P (fst x) = true -> same_keyb k (snd x) = false.
Proof.
  intros E x Hx HP. unfold lw, last_write in E. eapply find_none in E; eauto. apply -> in_rev. 
  apply in_sel. exists (fst x). rewrite <- surjective_pairing. auto.
Qed.
Lemma sel_const n (P : N -> bool) (l : list event) : sel P (map (pair n) l) = if P n then l else [].
Proof.
  unfold sel. induction l as [|e l IH]; cbn [map filter fst]; [destruct (P n); auto|].
  destruct (P n); [cbn [map snd]; rewrite IH; auto|auto].
Qed.
Lemma sel_all H : sel (fun _ => true) H = map snd H.
Proof. unfold sel. f_equal. induction H; simpl; f_equal; auto. Qed.

Definition hsorted H : Prop := StronglySorted (fun x y => (fst x <= fst y)%N) H.
Lemma sel_split a b H : hsorted H -> (a <= b)%N ->
  sel (fun l => l <? b)%N H = sel (fun l => l <? a)%N H ++ sel (fun l => ((a <=? l) && (l <? b))%bool%N) H.
Proof.
  intros HS Hab. unfold sel. rewrite <- map_app. f_equal. induction HS as [|x H HS IH HF]; auto.
  cbn [filter]. destruct (N.ltb_spec (fst x) a) as [L|L].
  - destruct (N.ltb_spec (fst x) b); [|lia]. destruct (N.leb_spec a (fst x)); [lia|]. cbn [andb app]. f_equal. auto.
  - assert (E : filter (fun y => (fst y <? a)%N) H = []).
    { rewrite Forall_forall in HF. clear -HF L. induction H as [|y H IH]; auto. simpl.
      destruct (N.ltb_spec (fst y) a); [specialize (HF y (or_introl eq_refl)); lia|].
      apply IH. intros; apply HF; simpl; auto. }
    rewrite E in *. cbn [app] in *. destruct (N.leb_spec a (fst x)); [|lia]. cbn [andb].
    destruct (N.ltb_spec (fst x) b); [f_equal|]; auto.
Qed.
Lemma lw_split a b H k : hsorted H -> (a <= b)%N ->
  lw (fun l => l <? b)%N H k = over (sel (fun l => ((a <=? l) && (l <? b))%bool%N) H) (lw (fun l => l <? a)%N H) k.
Proof. intros HS Hab. unfold lw. rewrite (sel_split a b) by auto. apply last_write_over. Qed.
Lemma lw_top c H k : hsorted H ->
  lw (fun _ => true) H k = over (sel (fun l => c <=? l)%N H) (lw (fun l => l <? c)%N H) k.
Proof.
  intros HS.
  assert (B : exists b, (c <= b)%N /\ forall x, In x H -> (fst x < b)%N).
  { clear HS. induction H as [|x H (b & B1 & B2)]; [exists c; split; [lia|intros x []]|].
    exists (N.max b (fst x + 1)). split; [lia|]. intros y [<-|Hy]; [lia|]. specialize (B2 y Hy). lia. }
  destruct B as (b & B1 & B2).
  rewrite (lw_ext _ (fun l => l <? b)%N) by (intros x Hx; specialize (B2 x Hx); symmetry; apply N.ltb_lt; auto).
  rewrite (lw_split c b) by auto.
  rewrite (sel_ext (fun l => ((c <=? l) && (l <? b))%bool%N) (fun l => c <=? l)%N); auto.
  intros x Hx. specialize (B2 x Hx). destruct (N.ltb_spec (fst x) b); [|lia]. rewrite andb_true_r. auto.
Qed.

Definition base (p : part) : N := match pt_file p with Some _ => (pt_lsn p + 1)%N | None => 0%N end.
Definition cut (p : part) : N := N.max (base p) (mt_lsn_max (pt_prev p) + 1).
Definition pmem (p : part) (l : N) : bool := (cut p <=? l)%N.
Definition pprev (p : part) (l : N) : bool := ((base p <=? l) && (l <? cut p))%bool%N.
Definition pfile (p : part) (l : N) : bool := (l <? base p)%N.
Definition fevents (p : part) : list event := match pt_file p with Some f => concat f | None => [] end.

Record srel (Hm Hf : hist) (top : N) s : Prop := {
  sr_mem : forall k, in_range (ev_id k) (range_of s) ->
    lookup (mt_events (pt_mem (s_data s))) k = lw (pmem (s_data s)) Hm k;
  sr_prev : forall k, in_range (ev_id k) (range_of s) ->
    lookup (mt_events (pt_prev (s_data s))) k = lw (pprev (s_data s)) Hm k;
  sr_file : forall k, in_range (ev_id k) (range_of s) ->
    lookup (fevents (s_data s)) k = liveo (lw (pfile (s_data s)) Hf k);
  sr_low : forall x, In x Hm -> in_range (ev_id (snd x)) (range_of s) -> (cut (s_data s) <= fst x)%N ->
    (mt_lsn_min (pt_mem (s_data s)) <= fst x <= mt_lsn_max (pt_mem (s_data s)))%N;
  sr_plow : forall x, In x Hm -> in_range (ev_id (snd x)) (range_of s) -> pprev (s_data s) (fst x) = true ->
    (mt_lsn_min (pt_prev (s_data s)) <= fst x)%N;
  sr_top : (mt_lsn_max (pt_mem (s_data s)) <= top)%N /\ (mt_lsn_max (pt_prev (s_data s)) <= top)%N /\
    (base (s_data s) <= top + 1)%N
}.

Lemma like_base p q : like p q -> base q = base p /\ cut q = cut p /\ fevents q = fevents p.
Proof.
  intros (L1 & L2 & L3 & L4 & L5 & L6). unfold cut, base, fevents. rewrite L4, L5, L6. auto.
Qed.
Lemma srel_like Hm Hf top a b p q : like p q -> srel Hm Hf top (mk_slice a b p) -> srel Hm Hf top (mk_slice a b q).
Proof.
  intros L [S1 S2 S3 S4 S5 S6]. destruct (like_base p q L) as (B & C & D).
  destruct L as (L1 & L2 & L3 & L4 & L5 & L6).
  unfold pmem, pprev, pfile in *. cbn [s_data] in *.
  constructor; cbn [s_data]; unfold pmem, pprev, pfile; rewrite ?B, ?C, ?D, <- ?L1, <- ?L2, <- ?L3, <- ?L4; auto.
Qed.

Lemma new_base : base (part_new 0 0) = 0%N /\ cut (part_new 0 0) = 1%N.
Proof. split; reflexivity. Qed.

(* a partition without events in its range *)
Lemma srel_new Hm Hf top a b : (forall x, In x Hm -> ~ in_range (ev_id (snd x)) (a, b)) ->
  srel Hm Hf top (mk_slice a b (part_new 0 0)).
Proof.
  intros HN. constructor; cbn [s_data].
  - intros k Hk. rewrite lw_none; auto. intros x Hx _ E. apply (HN x Hx). rewrite E. auto.
  - intros k Hk. rewrite lw_none; auto. intros x Hx _ E. apply (HN x Hx). rewrite E. auto.
  - intros k Hk. rewrite lw_none; auto. intros x Hx E. unfold pfile in E. destruct new_base as [-> _] in E.
    apply N.ltb_lt in E. lia.
  - intros x Hx Hr. exfalso. eapply HN; eauto.
  - intros x Hx Hr. exfalso. eapply HN; eauto.
  - change (mt_lsn_max (pt_mem (part_new 0 0))) with 0%N. change (mt_lsn_max (pt_prev (part_new 0 0))) with 0%N.
    destruct new_base as [-> _]. lia.
Qed.

Definition hcov m H : Prop := forall x, In x H -> covered (ranges m) (ev_id (snd x)).

Lemma fresh_none m H r : hcov m H -> fresh m r -> forall x, In x H -> ~ in_range (ev_id (snd x)) r.
Proof. intros C F x Hx Hr. apply (F _ Hr). auto. Qed.

(* a record with these events *)
Lemma srel_cpart skip Hm Hf top lsn evs a b p q :
  srel Hm Hf top (mk_slice a b p) -> cpart skip lsn (a, b) evs p q ->
  skip p = skipped lsn p -> (skip p = false -> mt_lsn_max (pt_prev p) < lsn)%N ->
  srel (Hm ++ map (pair lsn) evs) Hf (N.max top lsn) (mk_slice a b q).
Proof.
  intros [S1 S2 S3 S4 S5 S6] [C1 C2 C3 C4 C5 C6] Hsk Hlt. cbn [s_data] in *.
  change (range_of (mk_slice a b p)) with (a, b) in *.
  assert (B : base q = base p) by (unfold base; rewrite C2, C3; auto).
  assert (C : cut q = cut p) by (unfold cut; rewrite B, C1; auto).
  assert (D : fevents q = fevents p) by (unfold fevents; rewrite C2; auto).
  assert (Lo : skip p = true -> (lsn < base p)%N).
  { rewrite Hsk. unfold skipped, base. destruct (pt_file p); [|discriminate]. intros X. apply N.leb_le in X. lia. }
  assert (Hi : skip p = false -> (cut p <= lsn)%N).
  { intros X. specialize (Hlt X). unfold cut. rewrite Hsk in X. unfold skipped, base in *.
    destruct (pt_file p); [apply N.leb_gt in X|]; lia. }
  assert (BC : (base p <= cut p)%N) by (unfold cut; lia).
  constructor; cbn [s_data]; change (range_of (mk_slice a b q)) with (a, b); unfold pmem, pprev, pfile in *;
    rewrite ?B, ?C, ?D, ?C1.
  - intros k Hk. rewrite C4, lw_app by auto. rewrite sel_const. destruct (skip p) eqn:E.
    + specialize (Lo eq_refl). destruct (N.leb_spec (cut p) lsn); [lia|]. rewrite over_nil. auto.
    + specialize (Hi eq_refl). destruct (N.leb_spec (cut p) lsn); [|lia]. unfold over.
      destruct (last_write evs k); auto.
  - intros k Hk. rewrite lw_app, sel_const. destruct (skip p) eqn:E.
    + specialize (Lo eq_refl). destruct (N.leb_spec (base p) lsn); [lia|]. cbn [andb]. rewrite over_nil. auto.
    + specialize (Hi eq_refl). destruct (N.ltb_spec lsn (cut p)); [lia|]. rewrite andb_false_r, over_nil. auto.
  - intros k Hk. auto.
  - intros x Hx Hr Hc. apply in_app_iff in Hx as [Hx|Hx].
    + specialize (S4 x Hx Hr Hc). destruct (hit_dec evs (a, b)) as [Hh|Hh].
      * destruct (skip p) eqn:E; [destruct (C6 (or_introl eq_refl)) as [-> ->]; lia|]. destruct (C5 eq_refl Hh) as [-> ->]. lia.
      * destruct (C6 (or_intror Hh)) as [-> ->]; lia.
    + apply in_map_iff in Hx as (e & <- & He). cbn [fst snd] in *.
      destruct (skip p) eqn:E; [specialize (Lo eq_refl); lia|].
      destruct (C5 eq_refl (ex_intro _ e (conj He Hr))) as [-> ->]. lia.
  - intros x Hx Hr Hc. apply in_app_iff in Hx as [Hx|Hx]; auto. exfalso.
    apply in_map_iff in Hx as (e & <- & He). cbn [fst snd] in *.
    apply andb_true_iff in Hc as [H1 H2]. apply N.leb_le in H1. apply N.ltb_lt in H2.
    destruct (skip p); [specialize (Lo eq_refl)|specialize (Hi eq_refl)]; lia.
  - destruct S6 as (T1 & T2 & T3). split; [|split; lia].
    destruct (hit_dec evs (a, b)) as [Hh|Hh]; [|destruct (C6 (or_intror Hh)) as [_ ->]; lia].
    destruct (skip p) eqn:E; [destruct (C6 (or_introl eq_refl)) as [_ ->]; lia|]. destruct (C5 eq_refl Hh) as [_ ->]. lia.
Qed.

(* later writes do not change what a file holds *)
Lemma srel_file Hm Hf X top s : srel Hm Hf top s ->
  (forall x, In x X -> (base (s_data s) <= fst x)%N) -> srel Hm (Hf ++ X) top s.
Proof.
  intros [S1 S2 S3 S4 S5 S6] HX. constructor; auto. intros k Hk. rewrite S3 by auto. f_equal.
  rewrite lw_app. rewrite over_out; auto. intros e He. exfalso. apply in_sel in He as (l & Hl & HP).
  specialize (HX _ Hl). unfold pfile in HP. apply N.ltb_lt in HP. simpl in HX. lia.
Qed.

Lemma srel_grown skip lo Hm Hf top lsn evs m m' : minv lo m -> hcov m Hm ->
  (forall s, In s (mapping_list m) -> srel Hm Hf top s) -> grown skip lsn evs m m' ->
  (forall s, In s (mapping_list m) -> skip (s_data s) = skipped lsn (s_data s) /\
     (skip (s_data s) = false -> mt_lsn_max (pt_prev (s_data s)) < lsn)%N) ->
  skip (part_new 0 0) = false -> (1 <= lsn)%N ->
  (forall t, In t (mapping_list m') -> srel (Hm ++ map (pair lsn) evs) Hf (N.max top lsn) t) /\
  hcov m' (Hm ++ map (pair lsn) evs).
Proof.
  intros I HC HS G Hsk Hnew H1. split.
  - intros t Ht. rewrite <- (slice_eta t).
    destruct (gw_new _ _ _ _ _ G t Ht) as [(p & Hp & C)|[Fr C]].
    + destruct (Hsk _ Hp) as [A B]. cbn [s_data] in *. eapply srel_cpart; eauto.
    + eapply srel_cpart; [|exact C|exact Hnew|].
      * apply srel_new. intros x Hx. eapply fresh_none; eauto.
      * intros _. change (mt_lsn_max (pt_prev (part_new 0 0))) with 0%N. lia.
  - intros x Hx. apply in_app_iff in Hx as [Hx|Hx].
    + apply HC in Hx. apply covered_slice in Hx as (s & Hs & Hr). destruct (gw_old _ _ _ _ _ G s Hs) as (q & Hq & _).
      apply covered_slice. eexists; split; [exact Hq|]. auto.
    + apply in_map_iff in Hx as (e & <- & He). cbn [snd]. apply (gw_cov _ _ _ _ _ G); auto.
Qed.

Lemma srel_ext lo Hm Hf top m m' : minv lo m -> minv lo m' -> ext m m' -> hcov m Hm ->
  (forall s, In s (mapping_list m) -> srel Hm Hf top s) ->
  (forall t, In t (mapping_list m') -> srel Hm Hf top t) /\ hcov m' Hm.
Proof.
  intros I I' E HC HS. split.
  - intros t Ht. rewrite <- (slice_eta t). destruct (ext_new lo m m' t I I' E Ht) as [(q & Hq & L)|[L Fr]].
    + eapply srel_like; eauto.
    + eapply srel_like; [exact L|]. apply srel_new. intros x Hx. eapply fresh_none; eauto.
  - intros x Hx. destruct (HC x Hx) as (r & Hr & Hin). exists r. split; auto. apply (ext_ranges m m'); auto.
Qed.

(* --- rotation and the new file --- *)
Lemma in_lw_none P H r : (forall k, in_range (ev_id k) r -> lw P H k = None) ->
  forall x, In x H -> in_range (ev_id (snd x)) r -> P (fst x) = false.
Proof.
  intros HN x Hx Hr. destruct (P (fst x)) eqn:E; auto. exfalso.
  pose proof (lw_none_inv P H (snd x) (HN _ Hr) x Hx E) as X. rewrite (proj2 (same_keyb_true _ _) (same_key_refl _)) in X. discriminate.
Qed.

Lemma lw_same P Q H r k : (forall x, In x H -> in_range (ev_id (snd x)) r -> P (fst x) = Q (fst x)) ->
  in_range (ev_id k) r -> lw P H k = lw Q H k.
Proof.
  intros E Hk.
  assert (X : forall P, lw P H k = lw P (filter (fun x => same_keyb k (snd x)) H) k).
  { clear. intros P. unfold lw, last_write.
    unfold sel. induction H as [|a H IH]; auto. cbn [filter].
    assert (S : forall (f : list (N * event)) (x : event), 
       find (same_keyb k) (rev (x :: map snd f)) = match find (same_keyb k) (rev (map snd f)) with
         | Some e => Some e | None => if same_keyb k x then Some x else None end).
    { intros f x. cbn [rev]. rewrite find_app. destruct (find _ (rev (map snd f))); auto. }
    destruct (P (fst a)) eqn:EP, (same_keyb k (snd a)) eqn:Ek; cbn [filter map]; rewrite ?EP; cbn [map]; rewrite ?S, ?IH, ?Ek; auto.
    match goal with |- match ?x with _ => _ end = _ => destruct x; reflexivity end. }
  rewrite X, (X Q). apply lw_ext. intros x Hx. apply filter_In in Hx as [Hx Hs]. apply E; auto.
  apply same_keyb_true in Hs as [Hs _]. rewrite <- Hs. auto.
Qed.

Lemma srel_rotate lo H top s : sfine lo s -> srel H H top s -> mt_events (pt_prev (s_data s)) = [] ->
  srel H H top (mk_slice (s_min s) (s_max s) (part_memtable_rotate (s_data s))).
Proof.
  intros F [S1 S2 S3 S4 S5 S6] HP. rewrite HP in S2.
  set (p := s_data s) in *. set (q := part_memtable_rotate p).
  assert (B : base q = base p) by reflexivity.
  assert (Cq : cut q = N.max (base p) (mt_lsn_max (pt_mem p) + 1)) by reflexivity.
  assert (BC : (base p <= cut p)%N) by (unfold cut; lia).
  assert (N1 : forall x, In x H -> in_range (ev_id (snd x)) (range_of s) -> pprev p (fst x) = false).
  { apply in_lw_none. intros k Hk. rewrite <- S2; auto. }
  assert (N2 : forall x, In x H -> in_range (ev_id (snd x)) (range_of s) -> (base p <= fst x)%N ->
     (cut p <= fst x /\ fst x < cut q /\ mt_lsn_min (pt_mem p) <= fst x)%N).
  { intros x Hx Hr Hb. specialize (N1 x Hx Hr). unfold pprev in N1. apply andb_false_iff in N1 as [X|X].
    - apply N.leb_gt in X. lia.
    - apply N.ltb_ge in X. destruct (S4 x Hx Hr X). rewrite Cq. lia. }
  constructor; cbn [s_data]; change (range_of (mk_slice (s_min s) (s_max s) q)) with (range_of s); fold q.
  - intros k Hk. change (mt_events (pt_mem q)) with (mt_events (pt_prev p)). rewrite HP. symmetry.
    apply lw_none. intros x Hx E Eid. unfold pmem in E. apply N.leb_le in E.
    assert (Hr : in_range (ev_id (snd x)) (range_of s)) by (rewrite Eid; auto).
    destruct (N2 x Hx Hr) as (_ & L & _); [rewrite Cq in E; lia|]. lia.
  - intros k Hk. change (mt_events (pt_prev q)) with (mt_events (pt_mem p)). rewrite S1 by auto.
    apply (lw_same _ _ H (range_of s)); auto. intros x Hx Hr. unfold pmem, pprev. rewrite B.
    destruct (N.leb_spec (base p) (fst x)) as [L|L].
    + destruct (N2 x Hx Hr L) as (A1 & A2 & _). cbn [andb].
      rewrite (proj2 (N.leb_le _ _) A1), (proj2 (N.ltb_lt _ _) A2). auto.
    + cbn [andb]. apply N.leb_gt. lia.
  - intros k Hk. apply S3; auto.
  - intros x Hx Hr Hc. destruct (N2 x Hx Hr) as (_ & L & _); [rewrite Cq in Hc; lia|]. lia.
  - intros x Hx Hr Hc. change (pt_prev q) with (pt_mem p). unfold pprev in Hc. rewrite B in Hc.
    apply andb_true_iff in Hc as [Hc _]. apply N.leb_le in Hc. apply (N2 x Hx Hr Hc).
  - change (pt_mem q) with (pt_prev p). change (pt_prev q) with (pt_mem p). rewrite B. tauto.
Qed.

Lemma liveo_over h f k : liveo (over h (fun k => liveo (f k)) k) = liveo (over h f k).
Proof.
  unfold over. destruct (last_write h k); auto. destruct (f k) as [e|]; auto. cbn [liveo].
  destruct (event_is_delete e) eqn:E; auto. cbn [liveo]. rewrite E. auto.
Qed.

Lemma merger_cut p : (merger_lsn p + 1)%N = cut p.
Proof. unfold merger_lsn, cut, base. destruct (pt_file p); lia. Qed.

Lemma srel_apply lo region H top s p : hsorted H -> sfine lo s -> srel H H top s ->
  (region_weight (concat (contents (s_data s))) < 2^32)%N ->
  refresh_part region (s_data s) = Ok p ->
  srel H H top (mk_slice (s_min s) (s_max s) p).
Proof.
  intros HS F [S1 S2 S3 S4 S5 S6] Hw Hp.
  destruct (refresh_part_spec lo region s F Hw) as (p' & l & E & _ & P1 & P2 & P3 & P4 & P5 & P6 & _).
  rewrite E in Hp. inversion Hp; subst p'.
  assert (B : base p = cut (s_data s)) by (unfold base; rewrite P3, P5; apply merger_cut).
  assert (C : cut p = cut (s_data s)).
  { unfold cut at 1. rewrite B, P2. change (mt_lsn_max memtable_new) with 0%N. unfold cut. lia. }
  assert (BC : (base (s_data s) <= cut (s_data s))%N) by (unfold cut; lia).
  constructor; cbn [s_data]; change (range_of (mk_slice (s_min s) (s_max s) p)) with (range_of s).
  - intros k Hk. rewrite P1, S1 by auto. apply lw_ext. intros x _. unfold pmem. rewrite C. auto.
  - intros k Hk. rewrite P2. symmetry. apply lw_none. intros x _ X. unfold pprev in X. rewrite B, C in X.
    apply andb_true_iff in X as [X1 X2]. apply N.leb_le in X1. apply N.ltb_lt in X2. lia.
  - intros k Hk. unfold fevents. rewrite P3, P4, P6, lookup_app. fold (fevents (s_data s)).
    rewrite S2, S3 by auto. unfold pfile at 2. rewrite B.
    rewrite (lw_split (base (s_data s)) (cut (s_data s))) by auto.
    rewrite <- liveo_over. unfold over, lw, pprev, pfile. destruct (last_write _ k); auto.
  - intros x Hx Hr Hc. rewrite P1. apply S4; auto. rewrite <- C. auto.
  - intros x Hx Hr X. exfalso. unfold pprev in X. rewrite B, C in X.
    apply andb_true_iff in X as [X1 X2]. apply N.leb_le in X1. apply N.ltb_lt in X2. lia.
  - destruct S6 as (T1 & T2 & T3). rewrite P1, P2, B. change (mt_lsn_max memtable_new) with 0%N. unfold cut. lia.
Qed.

(* what is read *)
Lemma srel_read H top s k : hsorted H -> srel H H top s -> in_range (ev_id k) (range_of s) ->
  liveo (part_look (s_data s) k) = liveo (last_write (map snd H) k).
Proof.
  intros HS [S1 S2 S3 _ _ _] Hk. rewrite lookup_part. fold (fevents (s_data s)).
  rewrite S1, S2, S3 by auto. rewrite <- sel_all. fold (lw (fun _ => true) H k).
  assert (BC : (base (s_data s) <= cut (s_data s))%N) by (unfold cut; lia).
  rewrite (lw_top (cut (s_data s))) by auto. unfold over. fold (lw (fun l => cut (s_data s) <=? l)%N H k).
  change (lw (fun l => cut (s_data s) <=? l)%N H k) with (lw (pmem (s_data s)) H k).
  destruct (lw (pmem (s_data s)) H k); auto.
  rewrite (lw_split (base (s_data s)) (cut (s_data s))) by auto. unfold over.
  change (last_write (sel (fun l => ((base (s_data s) <=? l) && (l <? cut (s_data s)))%bool%N) H) k)
    with (lw (pprev (s_data s)) H k).
  destruct (lw (pprev (s_data s)) H k); auto. unfold pfile.
  destruct (lw _ H k) as [e|]; auto. cbn [liveo]. destruct (event_is_delete e) eqn:E; auto. cbn [liveo]. rewrite E. auto.
Qed.
