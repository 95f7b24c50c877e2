From Coq Require Import NArith ZArith List Bool Sorted Lia Arith.
Import ListNotations.
From Verif Require Import Model.Base Model.Event Model.Rbtree Model.Memtable Model.Mapping Model.Merge
  Model.PartIter Model.Scan Spec.Order Spec.Merged Spec.Files Spec.Layout Spec.View
  Proof.OrderL Proof.RbtreeL Proof.MemtableL Proof.MergeL Proof.PartIterL Proof.MappingL.

(* --- merge iterators as lists --- *)
Inductive yields : merge -> list event -> Prop :=
| y_nil mg : merge_at mg = None -> merge_at (merge_next mg) = None -> yields mg []
| y_cons mg e l : merge_at mg = Some e -> yields (merge_next mg) l -> yields mg (e :: l).

Lemma next_none m : cmp_ok (concat (pending m)) -> merge_at (merge_next m) = None ->
  pending (merge_next m) = pending m /\ Forall (fun s => s = []) (pending m).
Proof.
  intros Hc. unfold merge_next. rewrite advance_pending.
  pose proof (scan_spec (pending m) [] false None [] Hc) as H.
  assert (H0 : scanned [] ([], None)) by (unfold scanned; simpl; auto).
  specialize (H H0). simpl in H. unfold scanned in H.
  destruct (merge_scan [] (map (fun s : list event => (s, false)) (pending m)) false None) as [l [[i e]|]] eqn:E.
  - cbn [fst snd] in H. destruct H as (E1 & d1 & t & d2 & Ed & Ei & H1 & H2).
    unfold merge_at. cbn [mg_current mg_list]. rewrite E1, Ed, map_app.
    rewrite nth_error_app2; rewrite map_length; [|lia]. replace (i - length d1) with 0 by lia.
    simpl. discriminate.
  - cbn [fst snd] in H. destruct H as [H1 H2]. intros _. split; auto.
    rewrite H2. unfold pending at 1. cbn [mg_list]. rewrite map_map. simpl. apply map_id.
Qed.

Lemma drain_yields : forall fuel m, cmp_ok (concat (pending m)) ->
  length (concat (pending m)) < fuel ->
  yields (merge_next m) (merge_drain fuel (merge_next m)).
Proof.
  induction fuel; intros m Hc Hf; [lia|]. cbn [merge_drain].
  destruct (next_spec m Hc) as [[Hat Hn]|(e & d1 & t & d2 & Hat & Ep & H1 & H2 & Hp)]; rewrite Hat.
  - constructor; auto. destruct (next_none m Hc Hat) as [Hp _].
    assert (Hc' : cmp_ok (concat (pending (merge_next m)))) by (rewrite Hp; auto).
    destruct (next_spec (merge_next m) Hc') as [[? _]|(e & d1 & t & d2 & _ & Ep & _)]; auto.
    rewrite Hp in Ep. rewrite Ep in Hn. apply Forall_app in Hn as [_ Hn]. inversion Hn; discriminate.
  - econstructor; eauto. apply IHfuel.
    + intros a b Ia Ib. rewrite Hp in Ia, Ib. apply in_drop in Ia, Ib. auto.
    + rewrite Hp, Ep. rewrite Ep in Hf.
      rewrite concat_app, app_length in Hf. cbn [concat] in Hf. rewrite app_length in Hf. simpl in Hf.
      rewrite map_app, concat_app, app_length. cbn [map concat]. rewrite app_length. unfold drop_key at 2.
      assert (X : same_keyb e e = true) by (apply same_keyb_true; apply same_key_refl). rewrite X.
      pose proof (length_drop e d1). pose proof (length_drop e d2). lia.
Qed.

Lemma open_yields srcs : cmp_ok (concat srcs) -> yields (merge_open srcs) (merge_all srcs).
Proof.
  intros Hc. unfold merge_open, merge_all, merge_open.
  apply drain_yields; rewrite pending_init; auto.
Qed.

(* --- filtering a merge --- *)
Lemma filter_ascending f l : ascending l -> ascending (filter f l).
Proof.
  induction l as [|a l IH]; simpl; intros H; auto. apply ascending_cons in H as [H1 H2].
  destruct (f a); auto. apply ascending_cons. split; auto.
  rewrite Forall_forall in *. intros x Hx. apply filter_In in Hx as [Hx _]. auto.
Qed.

Lemma geb_same k a b : same_key a b -> geb k a = geb k b.
Proof. intros H. unfold geb. rewrite (same_key_cmp_l _ _ _ H). auto. Qed.

Lemma lookup_filter k l x : lookup (filter (geb k) l) x = if geb k x then lookup l x else None.
Proof.
  induction l as [|a l IH]; cbn [filter]; [destruct (geb k x); auto|].
  rewrite (lookup_cons a l). destruct (same_keyb x a) eqn:E.
  - apply same_keyb_true in E. rewrite (geb_same k x a E) in *. destruct (geb k a) eqn:G.
    + rewrite lookup_cons. apply same_keyb_true in E. rewrite E. auto.
    + rewrite IH. auto.
  - destruct (geb k a); auto. rewrite lookup_cons, E. auto.
Qed.

Lemma filter_merged k srcs out : merged srcs out ->
  merged (map (filter (geb k)) srcs) (filter (geb k) out).
Proof.
  intros [H1 H2]. split; [apply filter_ascending; auto|].
  intros x. rewrite lookup_filter, H2.
  assert (E : concat (map (filter (geb k)) srcs) = filter (geb k) (concat srcs)).
  { clear. induction srcs; simpl; auto. rewrite filter_app. f_equal; auto. }
  rewrite E, lookup_filter. auto.
Qed.

Lemma merged_skip_nil srcs out :
  merged (filter (fun s => negb (match s with [] => true | _ => false end)) srcs) out ->
  merged srcs out.
Proof.
  intros [H1 H2]. split; auto. intros k. rewrite H2. f_equal.
  clear. induction srcs as [|[|a s] srcs IH]; simpl; auto. f_equal. f_equal. auto.
Qed.

(* --- one partition --- *)
Definition table_reads (m : memtable) (key : option event) : Prop :=
  (mt_count m = 0%N -> mt_events m = []) /\
  (mt_count m <> 0%N -> memtable_scan m key =
     Ok (match key with Some k => filter (geb k) (mt_events m) | None => mt_events m end)).

Definition sel (key : option event) (l : list event) : list event :=
  match key with Some k => filter (geb k) l | None => l end.

Definition file_reads (f : option pfile) (key : option event) : Prop :=
  match f with Some f => file_scan f key = sel key (concat f) | None => True end.

Definition pview (p : part) : list event := merge_all (contents p).

Definition content_ok (lo : N) (p : part) : Prop :=
  Forall ascending (contents p) /\ Forall (good lo) (concat (contents p)).

Lemma good_cmp_ok lo l : Forall (good lo) l -> cmp_ok l.
Proof.
  intros H a b Ha Hb. rewrite Forall_forall in H. destruct (H a Ha), (H b Hb).
  destruct (cmp_win lo a b) as [_ H6]; auto.
Qed.

Lemma pview_merged lo p : content_ok lo p -> merged (contents p) (pview p).
Proof. intros [H1 H2]. apply merge_all_spec; auto. eapply good_cmp_ok; eauto. Qed.

Lemma sources_spec p key : table_reads (pt_mem p) key -> table_reads (pt_prev p) key ->
  file_reads (pt_file p) key ->
  exists srcs, part_sources p key = Ok srcs /\
    concat srcs = concat (map (sel key) (contents p)) /\
    incl srcs (map (sel key) (contents p)).
Proof.
  intros [Ha0 Ha] [Hb0 Hb] Hf. unfold part_sources, memtable_source.
  assert (Ea : exists a, (if (mt_count (pt_mem p) =? 0)%N then Ok [] else
      bind (memtable_scan (pt_mem p) key) (fun l => Ok [l])) = Ok a /\
      concat a = sel key (mt_events (pt_mem p)) /\ incl a [sel key (mt_events (pt_mem p))]).
  { destruct (N.eqb_spec (mt_count (pt_mem p)) 0).
    - rewrite Ha0 by auto. exists []. repeat split; [destruct key; auto|intros x []].
    - rewrite Ha by auto. cbn [bind]. eexists; split; [reflexivity|]. simpl. rewrite app_nil_r.
      split; [destruct key; auto|]. destruct key; apply incl_refl. }
  assert (Eb : exists a, (if (mt_count (pt_prev p) =? 0)%N then Ok [] else
      bind (memtable_scan (pt_prev p) key) (fun l => Ok [l])) = Ok a /\
      concat a = sel key (mt_events (pt_prev p)) /\ incl a [sel key (mt_events (pt_prev p))]).
  { destruct (N.eqb_spec (mt_count (pt_prev p)) 0).
    - rewrite Hb0 by auto. exists []. repeat split; [destruct key; auto|intros x []].
    - rewrite Hb by auto. cbn [bind]. eexists; split; [reflexivity|]. simpl. rewrite app_nil_r.
      split; [destruct key; auto|]. destruct key; apply incl_refl. }
  destruct Ea as (a & -> & Ca & Ia). destruct Eb as (b & -> & Cb & Ib). cbn [bind].
  eexists. split; [reflexivity|]. unfold contents. cbn [map concat]. rewrite !concat_app, Ca, Cb.
  split.
  - f_equal. f_equal. destruct (pt_file p) as [f|]; simpl in *; [rewrite Hf; auto|destruct key; auto].
  - intros x Hx. apply in_app_iff in Hx as [Hx|Hx]; [|apply in_app_iff in Hx as [Hx|Hx]].
    + left. apply Ia in Hx. destruct Hx as [|[]]; auto.
    + right. left. apply Ib in Hx. destruct Hx as [|[]]; auto.
    + right. right. destruct (pt_file p) as [f|]; simpl in *; [|contradiction].
      destruct Hx as [<-|[]]. rewrite Hf. auto.
Qed.

Lemma part_open_spec lo p key : content_ok lo p -> table_reads (pt_mem p) key ->
  table_reads (pt_prev p) key -> file_reads (pt_file p) key ->
  exists mg, part_cursor_open p key = Ok mg /\ yields mg (sel key (pview p)).
Proof.
  intros [C1 C2] Ha Hb Hf. unfold part_cursor_open.
  destruct (sources_spec p key Ha Hb Hf) as (srcs & -> & Hc & Hi). cbn [bind].
  eexists. split; [reflexivity|].
  assert (Has : Forall ascending srcs).
  { rewrite Forall_forall in *. intros x Hx. apply Hi in Hx. apply in_map_iff in Hx as (y & <- & Hy).
    destruct key; simpl; auto. apply filter_ascending; auto. }
  assert (Hg : Forall (good lo) (concat srcs)).
  { rewrite Hc. rewrite Forall_forall in *. intros x Hx. apply C2.
    apply in_concat in Hx as (l & Hl & Hx). apply in_map_iff in Hl as (y & <- & Hy).
    apply in_concat. exists y. split; auto. destruct key; simpl in Hx; auto. apply filter_In in Hx. tauto. }
  replace (sel key (pview p)) with (merge_all srcs); [apply open_yields; eapply good_cmp_ok; eauto|].
  apply (merged_unique (map (sel key) (contents p))).
  - destruct (merge_all_spec srcs Has (good_cmp_ok _ _ Hg)) as [M1 M2]. split; auto.
    intros k. rewrite M2, Hc. auto.
  - pose proof (pview_merged lo p (conj C1 C2)) as M. destruct key as [k|]; simpl sel.
    + apply (filter_merged k) in M. exact M.
    + replace (map (sel None) (contents p)) with (contents p); auto.
Qed.

(* --- the chain of partitions --- *)
Lemma split_first {A} (P : A -> Prop) : forall (a a' b b' : list A) x x',
  a ++ x :: b = a' ++ x' :: b' -> Forall (fun y => ~ P y) a -> Forall (fun y => ~ P y) a' ->
  P x -> P x' -> a = a' /\ x = x' /\ b = b'.
Proof.
  induction a as [|y a IH]; intros a' b b' x x' E Ha Ha' Hx Hx'; destruct a' as [|y' a']; simpl in E;
    inversion E; subst; auto.
  - inversion Ha'; subst. contradiction.
  - inversion Ha; subst. contradiction.
  - inversion Ha; inversion Ha'; subst. destruct (IH a' b b' x x') as (-> & -> & ->); auto.
Qed.

Section Chain.
Variable lo : N.
Variable m : mapping part.
Hypothesis G : good_map lo m.
Hypothesis Hparts : forall s, In s (mapping_list m) ->
  content_ok lo (s_data s) /\ table_reads (pt_mem (s_data s)) None /\
  table_reads (pt_prev (s_data s)) None /\ file_reads (pt_file (s_data s)) None /\
  Forall (fun e => (s_min s <= ev_id e <= s_max s)%N) (concat (contents (s_data s))).

Definition pv (s : slice part) : list event := pview (s_data s).
Definition weight (l : list (slice part)) : nat := list_sum (map (fun s => S (length (pv s))) l).

Definition cur (c : ecursor) (l : list event) (w : nat) : Prop :=
  match c with
  | None => l = [] /\ w = 0
  | Some (s, mg) => exists pre post l1, mapping_list m = pre ++ s :: post /\ yields mg l1 /\
      l = l1 ++ flat_map pv post /\ w = S (length l1) + weight post
  end.

(* gte below everything *)
Lemma gte_low id : (id <= lo)%N -> (lo + 2^31 < id + 2^63)%N ->
  match mapping_list m with
  | [] => mapping_gte m id = Ok None
  | s :: post => exists z, mapping_gte m id = Ok (Some z) /\ zelem z = Some s /\ zbefore z = [] /\
                   zroot z = mp_tree m
  end.
Proof.
  intros Hid Hfar. unfold mapping_gte.
  destruct (mp_count m =? 0)%N eqn:Ec.
  { apply (count_zero lo m G) in Ec. apply list_nil_tree in Ec. rewrite Ec. auto. }
  assert (Hne : mp_tree m <> Leaf) by (intros H; apply (count_zero lo m G) in H; congruence).
  assert (Hc : forall s, In s (mapping_list m) ->
     compare_u64 (s_min s) id = (Z.of_N (s_min s) - Z.of_N id)%Z /\ (lo <= s_min s)%N /\ (s_min s <= s_max s)%N).
  { intros s Hs. pose proof (gm_near _ _ G) as Hn. rewrite Forall_forall in Hn.
    destruct (Hn (range_of s)) as [N1 N2]; [apply in_map; auto|]. unfold range_of in *; simpl in *.
    destruct (proj1 (layout_slices _) (gm_layout _ _ G)) as [_ H2]. rewrite Forall_forall in H2.
    pose proof (H2 s Hs). pose proof (gm_lo _ _ G). rewrite u64_max_eq in *. split; [|split; auto].
    unfold compare_u64. apply i64_sub_exact; lia. }
  unfold mapping_seek, mapping_find, rbtree_get.
  destruct (rb_get (fun s => compare_u64 (s_min s) id) (mp_tree m) [] None 0) as [z rc] eqn:E.
  apply rb_get_root in E.
  2:{ unfold mono. destruct (proj1 (layout_slices _) (gm_layout _ _ G)) as [H1 H2].
      revert H1. fold (mapping_list m). revert Hc. clear -Hid. generalize (mapping_list m).
      induction l as [|a l IH]; intros Hc H1; constructor; inversion H1; subst.
      - apply IH; auto. intros; apply Hc; simpl; auto.
      - rewrite Forall_forall in *. intros t Ht. right. destruct (Hc t) as (-> & ? & ?); [simpl; auto|].
        destruct (Hc a) as (_ & ? & ?); [simpl; auto|]. specialize (H3 t Ht). unfold slt in H3. lia. }
  destruct E as [(H & _)|(zz & -> & Hr & Hland & Hb & Ha)]; [contradiction|].
  destruct zz as [p [|cc lt s rt]]; [contradiction|].
  assert (Hz : zelem (p, Node cc lt s rt) = Some s) by reflexivity.
  remember (p, Node cc lt s rt) as zz.
  assert (Hl : mapping_list m = zbefore zz ++ s :: zafter zz).
  { unfold mapping_list. rewrite <- Hr. apply zelems; auto. }
  assert (Hb0 : zbefore zz = []).
  { destruct (zbefore zz) as [|t bs] eqn:Ezb; auto. inversion Hb; subst.
    destruct (Hc t) as (Hct & ? & ?); [rewrite Hl; left; auto|]. rewrite Hct in H1. lia. }
  assert (Hprev : rbtree_prev zz = None).
  { pose proof (rbtree_prev_spec zz s Hz) as Hp. destruct (rbtree_prev zz) as [z'|]; auto.
    destruct Hp as (_ & y & _ & Hy & _). rewrite Hb0 in Hy. destruct (zbefore z'); discriminate. }
  rewrite Hl, Hb0. cbn [app]. rewrite Hprev.
  exists zz. split; [|auto].
  destruct (Hc s) as (_ & ? & ?); [rewrite Hl; apply in_app_iff; simpl; auto|].
  destruct (0 <? i32_of_z rc)%Z; cbn [bind]; rewrite Hz; (destruct (N.ltb_spec (s_max s) id); [lia|auto]).
Qed.

Lemma weight_app a b : weight (a ++ b) = weight a + weight b.
Proof. unfold weight. rewrite map_app, list_sum_app. auto. Qed.

Lemma open_part_at z s key : zelem z = Some s -> In s (mapping_list m) ->
  table_reads (pt_mem (s_data s)) key -> table_reads (pt_prev (s_data s)) key ->
  file_reads (pt_file (s_data s)) key ->
  forall mn, mapping_gte m mn = Ok (Some z) ->
  exists mg, engine_cursor_open_part m mn key = Ok (Some (s, mg)) /\ yields mg (sel key (pv s)).
Proof.
  intros Hz Hin H1 H2 H3 mn Hg. unfold engine_cursor_open_part, engine_lock. rewrite Hg. cbn [bind snd].
  rewrite Hz. destruct (part_open_spec lo (s_data s) key) as (mg & -> & Hy); auto.
  { apply Hparts; auto. }
  cbn [bind]. eauto.
Qed.

Lemma open_after pre s post : mapping_list m = pre ++ s :: post ->
  exists c, engine_cursor_open_part m (add64 (s_max s) 1) None = Ok c /\
    cur c (flat_map pv post) (weight post).
Proof.
  intros Hl.
  assert (Hin : In s (mapping_list m)) by (rewrite Hl; apply in_app_iff; simpl; auto).
  pose proof (gm_near _ _ G) as Hn. rewrite Forall_forall in Hn.
  destruct (Hn (range_of s)) as [N1 N2]; [apply in_map; auto|]. unfold range_of in *; cbn [fst snd] in N1, N2.
  pose proof (gm_lo _ _ G) as Hlo. rewrite u64_max_eq in Hlo.
  destruct (proj1 (layout_slices _) (gm_layout _ _ G)) as [S1 S2]. rewrite Forall_forall in S2.
  pose proof (S2 s Hin) as Hss.
  assert (Ead : add64 (s_max s) 1 = (s_max s + 1)%N).
  { unfold add64. apply N.mod_small. unfold two64. lia. }
  rewrite Ead.
  pose proof (gte_first lo m (s_max s + 1)%N G ltac:(lia)) as Hg.
  rewrite Hl in S1. apply sorted_app in S1 as (Sa & Sb & Sc). inversion Sb; subst.
  destruct (mapping_gte m (s_max s + 1)) as [[z|]| |] eqn:Eg; try contradiction.
  - destruct Hg as (s' & Hr & Hz & Hm & Hb & Hl').
    destruct post as [|t post].
    { exfalso. rewrite Hl in Hl'.
      assert (In s' (pre ++ [s])) by (rewrite Hl'; apply in_app_iff; simpl; auto).
      apply in_app_iff in H as [H|[<-|[]]]; [|lia].
      specialize (Sc s' s H ltac:(simpl; auto)). unfold slt in Sc. lia. }
    assert (E : pre ++ [s] = zbefore z /\ t = s' /\ post = zafter z).
    { apply (split_first (fun y => (s_max s + 1 <= s_max y)%N)).
      - rewrite <- app_assoc. simpl. congruence.
      - apply Forall_app. split; [|constructor; auto; lia]. rewrite Forall_forall. intros y Hy.
        specialize (Sc y s Hy ltac:(simpl; auto)). unfold slt in Sc. lia.
      - eapply Forall_impl; [|exact Hb]. intros; simpl in *; lia.
      - inversion H2; subst. unfold slt in H3.
        assert (In t (mapping_list m)) by (rewrite Hl; apply in_app_iff; simpl; auto).
        specialize (S2 t H). simpl in S2. lia.
      - auto. }
    destruct E as (E1 & -> & E3).
    assert (Hin' : In s' (mapping_list m)) by (rewrite Hl; apply in_app_iff; simpl; auto).
    destruct (Hparts s' Hin') as (P1 & P2 & P3 & P4 & P5).
    destruct (open_part_at z s' None Hz Hin' P2 P3 P4 _ Eg) as (mg & Ho & Hy).
    exists (Some (s', mg)). split; auto. exists (pre ++ [s]), post, (pv s').
    split; [rewrite <- app_assoc; auto|]. split; auto.
  - exists None. unfold engine_cursor_open_part, engine_lock. rewrite Eg. cbn [bind snd]. split; auto.
    rewrite Hl in Hg. apply Forall_app in Hg as [_ Hg]. inversion Hg; subst.
    destruct post as [|t post]; [split; auto|]. exfalso. inversion H4; inversion H2; subst.
    assert (In t (mapping_list m)) by (rewrite Hl; apply in_app_iff; simpl; auto).
    specialize (S2 t H). unfold slt in *. simpl in *. lia.
Qed.

Lemma next_cur c l w : cur c l w -> c <> None ->
  exists c' l' w', engine_cursor_next m c = Ok c' /\ cur c' l' w' /\ w' < w /\
    l = match engine_cursor_at c with Some e => e :: l' | None => l' end.
Proof.
  destruct c as [[s mg]|]; [|congruence]. intros (pre & post & l1 & Hl & Hy & -> & ->) _.
  unfold engine_cursor_next, engine_cursor_at.
  inversion Hy; subst.
  - rewrite H0, H. destruct (open_after pre s post Hl) as (c & -> & Hc).
    exists c, (flat_map pv post), (weight post). refine (conj eq_refl (conj Hc (conj _ eq_refl))). simpl; lia.
  - rewrite H. inversion H0; subst.
    + rewrite H1. destruct (open_after pre s post Hl) as (c & -> & Hc).
      exists c, (flat_map pv post), (weight post). refine (conj eq_refl (conj Hc (conj _ eq_refl))). simpl; lia.
    + rewrite H1. eexists _, _, _. split; [reflexivity|]. split.
      * exists pre, post, (e0 :: l0). split; auto.
      * split; [cbn [length]; lia|auto].
Qed.

Definition live (e : event) : bool := negb (event_is_delete e).

Lemma skip_cur : forall fuel c l w, cur c l w -> w < fuel ->
  exists c', engine_cursor_skip_deletes fuel m c = Ok (Some c') /\
    ((c' = None /\ filter live l = []) \/
     (exists e l' w', engine_cursor_at c' = Some e /\ live e = true /\ cur c' (e :: l') w' /\ w' <= w /\
        filter live l = e :: filter live l')).
Proof.
  induction fuel; intros c l w Hc Hw; [lia|]. cbn [engine_cursor_skip_deletes].
  destruct c as [sm|]; [|destruct Hc as [-> _]; eauto].
  destruct (next_cur (Some sm) l w Hc) as (c1 & l1 & w1 & Hn & Hc1 & Hw1 & Hl); [congruence|].
  destruct (engine_cursor_at (Some sm)) as [e|] eqn:Ea.
  - destruct (negb (event_is_delete e)) eqn:Ed.
    + exists (Some sm). split; auto. right. exists e, l1, w. subst l. simpl.
      unfold live at 2. rewrite Ed. auto 10.
    + rewrite Hn. cbn [bind]. destruct (IHfuel c1 l1 w1 Hc1) as (c' & H1 & H2); [lia|].
      exists c'. split; auto. subst l. cbn [filter]. assert (Hlv : live e = false) by exact Ed. rewrite Hlv.
      destruct H2 as [H2|(e' & l' & w' & A & B & C & D & E)]; auto.
      right. exists e', l', w'. repeat split; auto. lia.
  - rewrite Hn. cbn [bind]. destruct (IHfuel c1 l1 w1 Hc1) as (c' & H1 & H2); [lia|].
    exists c'. split; auto. subst l.
    destruct H2 as [H2|(e' & l' & w' & A & B & C & D & E)]; auto.
    right. exists e', l', w'. repeat split; auto. lia.
Qed.

Lemma loop_cur fuel : forall n c e l w, cur c (e :: l) w -> engine_cursor_at c = Some e -> live e = true ->
  w <= n -> w < fuel -> scan_loop n fuel m c = Ok (Some (e :: filter live l)).
Proof.
  induction n; intros c e l w Hc Ha Hl Hn Hf.
  { destruct c as [[s mg]|]; [|discriminate Ha]. destruct Hc as (? & ? & ? & _ & _ & _ & ->). lia. }
  cbn [scan_loop]. unfold monotone_read. rewrite Ha. unfold live in Hl.
  destruct (event_is_delete e) eqn:Ed; [discriminate|].
  assert (c <> None) by (intros ->; discriminate).
  destruct (next_cur c _ w Hc H) as (c1 & l1 & w1 & Hn1 & Hc1 & Hw1 & Hl1).
  rewrite Ha in Hl1. inversion Hl1; subst l1.
  unfold monotone_next. rewrite Hn1. cbn [bind].
  destruct (skip_cur fuel c1 l w1 Hc1) as (c2 & -> & H2); [lia|]. cbn [bind].
  destruct H2 as [[-> Hnil]|(e' & l' & w' & A & B & C & D & E)].
  - destruct n; [exfalso|].
    + destruct c as [[s mg]|]; [|congruence]. destruct Hc as (? & ? & ? & _ & Hy & _ & ->).
      inversion Hy; subst; simpl in Ha; [congruence|simpl in *; lia].
    + simpl. rewrite Hnil. auto.
  - rewrite (IHn c2 e' l' w') by (auto; lia). cbn [bind]. rewrite E. auto.
Qed.

Definition key_ok (key : option event) : Prop :=
  match key with
  | None => (lo + 2^31 < 2^63)%N
  | Some k => good lo k /\ forall s, In s (mapping_list m) ->
      table_reads (pt_mem (s_data s)) key /\ table_reads (pt_prev (s_data s)) key /\
      file_reads (pt_file (s_data s)) key
  end.

Lemma pv_in s e : In s (mapping_list m) -> In e (pv s) ->
  (s_min s <= ev_id e <= s_max s)%N /\ newest (contents (s_data s)) e.
Proof.
  intros Hs He. destruct (Hparts s Hs) as (P1 & _ & _ & _ & P5).
  pose proof (pview_merged lo _ P1) as M. destruct P1 as [C1 C2].
  assert (Hn : newest (contents (s_data s)) e) by (apply (merged_newest _ (pview (s_data s))); auto).
  split; auto. rewrite Forall_forall in P5. apply P5.
  destruct Hn as (pre & l & post & E & Hl & _). rewrite E. apply in_concat. exists l. split; auto.
  apply in_app_iff; simpl; auto.
Qed.

Lemma open_cur key : key_ok key ->
  exists c w, engine_cursor_open m key = Ok c /\ cur c (sel key (flat_map pv (mapping_list m))) w /\
    w <= weight (mapping_list m).
Proof.
  intros Hk. unfold engine_cursor_open.
  set (mn := match key with Some k => ev_id k | None => 0%N end).
  assert (Hg : (exists z s, mapping_gte m mn = Ok (Some z) /\ zelem z = Some s /\
                  mapping_list m = zbefore z ++ s :: zafter z /\
                  (mn <= s_max s)%N /\ Forall (fun t => (s_max t < mn)%N) (zbefore z)) \/
               (mapping_gte m mn = Ok None /\ Forall (fun t => (s_max t < mn)%N) (mapping_list m))).
  { destruct key as [k|].
    - destruct Hk as [[Ho [W1 W2]] _]. unfold mn.
      pose proof (gte_first lo m (ev_id k) G ltac:(lia)) as H.
      destruct (mapping_gte m (ev_id k)) as [[z|]| |]; try contradiction; auto.
      destruct H as (s & A & B & C & D & E). left. exists z, s. auto.
    - simpl in Hk. pose proof (gte_low 0 ltac:(lia) ltac:(lia)) as H.
      destruct (mapping_list m) as [|s post] eqn:El.
      + right. split; auto.
      + destruct H as (z & A & B & C & D). left. exists z, s. unfold mn. split; auto. split; auto.
        rewrite C. split; [|split; [lia|constructor]]. simpl. rewrite <- El. unfold mapping_list. rewrite <- D.
        rewrite (zelems z s B), C. auto. }
  destruct Hg as [(z & s & Hg & Hz & Hl & Hm & Hb)|(Hg & Hb)].
  - assert (Hin : In s (mapping_list m)) by (rewrite Hl; apply in_app_iff; simpl; auto).
    destruct (Hparts s Hin) as (P1 & P2 & P3 & P4 & P5).
    assert (HR : table_reads (pt_mem (s_data s)) key /\ table_reads (pt_prev (s_data s)) key /\
      file_reads (pt_file (s_data s)) key) by (destruct key; [apply Hk; auto|auto]).
    destruct HR as (R1 & R2 & R3).
    destruct (open_part_at z s key Hz Hin R1 R2 R3 mn Hg) as (mg & -> & Hy). cbn [bind].
    assert (Hall : sel key (flat_map pv (mapping_list m)) = sel key (pv s) ++ flat_map pv (zafter z)).
    { destruct key as [k|].
      - rewrite Hl at 1. rewrite flat_map_app. cbn [flat_map sel]. rewrite !filter_app.
        rewrite (filter_none _ (flat_map pv (zbefore z))), (filter_all _ (flat_map pv (zafter z))); auto.
        + rewrite Forall_forall. intros e He. apply in_flat_map in He as (t & Ht & He).
          apply geb_true, ev_lt_le, ids_ev_lt.
          assert (Hint : In t (mapping_list m)) by (rewrite Hl; apply in_app_iff; simpl; auto).
          destruct (pv_in t e Hint He) as [[Hr _] _].
          destruct (proj1 (layout_slices _) (gm_layout _ _ G)) as [S1 _].
          rewrite Hl in S1. apply sorted_app in S1 as (_ & S1 & _). inversion S1; subst.
          rewrite Forall_forall in H2. specialize (H2 t Ht). unfold slt in H2. unfold mn in Hm. lia.
        + rewrite Forall_forall. intros e He. apply in_flat_map in He as (t & Ht & He).
          apply geb_false, ids_ev_lt.
          assert (Hint : In t (mapping_list m)) by (rewrite Hl; apply in_app_iff; simpl; auto).
          destruct (pv_in t e Hint He) as [[_ Hr] _].
          rewrite Forall_forall in Hb. specialize (Hb t Ht). unfold mn in Hb. simpl in Hb. lia.
      - simpl sel. unfold mn in Hb.
        assert (Hb0 : zbefore z = []) by (destruct (zbefore z); auto; inversion Hb; lia).
        rewrite Hl at 1. rewrite Hb0. auto. }
    set (w := S (length (sel key (pv s))) + weight (zafter z)).
    assert (Hcur : cur (Some (s, mg)) (sel key (flat_map pv (mapping_list m))) w).
    { exists (zbefore z), (zafter z), (sel key (pv s)). auto. }
    assert (Hw : w <= weight (mapping_list m)).
    { rewrite Hl. rewrite weight_app. unfold w. unfold weight at 3. cbn [map list_sum].
      fold (weight (zafter z)).
      assert (length (sel key (pv s)) <= length (pv s)) by (destruct key; simpl; auto; apply filter_length_le).
      unfold weight. simpl. lia. }
    destruct (merge_at mg) as [e|] eqn:Ea.
    + exists (Some (s, mg)), w. auto.
    + destruct (next_cur (Some (s, mg)) _ w Hcur) as (c' & l' & w' & A & B & C & D); [congruence|].
      simpl engine_cursor_at in D. rewrite Ea in D. rewrite A. exists c', w'. rewrite D. split; auto. split; auto. lia.
  - unfold engine_cursor_open_part, engine_lock. rewrite Hg. cbn [bind snd].
    exists None, 0. split; auto. split; [|lia]. split; auto.
    assert (Hnil : forall k, key = Some k -> filter (geb k) (flat_map pv (mapping_list m)) = []).
    { intros k ->. apply filter_none. rewrite Forall_forall. intros e He. apply in_flat_map in He as (t & Ht & He).
      apply geb_false, ids_ev_lt. destruct (pv_in t e Ht He) as [[_ Hr] _].
      rewrite Forall_forall in Hb. specialize (Hb t Ht). unfold mn in Hb. simpl in Hb. lia. }
    destruct key as [k|]; [apply Hnil; auto|].
    simpl. destruct (mapping_list m) as [|t l]; auto. inversion Hb; subst. unfold mn in *. lia.
Qed.

Lemma scan_list key : key_ok key -> forall fuel, weight (mapping_list m) < fuel ->
  monotone_scan fuel m key = Ok (Some (filter live (sel key (flat_map pv (mapping_list m))))).
Proof.
  intros Hk fuel Hf. unfold monotone_scan.
  destruct (open_cur key Hk) as (c & w & -> & Hc & Hw). cbn [bind].
  destruct (skip_cur fuel c _ w Hc) as (c' & -> & H2); [lia|]. cbn [bind].
  destruct H2 as [[-> Hnil]|(e' & l' & w' & A & B & C & D & E)].
  - rewrite Hnil. destruct fuel; [lia|]. reflexivity.
  - rewrite E. apply (loop_cur fuel fuel c' e' l' w'); auto; lia.
Qed.

Lemma flat_ascending : forall l, StronglySorted slt l -> incl l (mapping_list m) -> ascending (flat_map pv l).
Proof.
  induction l as [|s l IH]; intros Hs Hi; simpl; [constructor|].
  inversion Hs; subst. apply ascending_app.
  assert (Hin : In s (mapping_list m)) by (apply Hi; simpl; auto).
  split; [|split].
  - destruct (Hparts s Hin) as (P1 & _). apply (pview_merged lo _ P1).
  - apply IH; auto. intros x Hx. apply Hi; simpl; auto.
  - intros a b Ha Hb. apply in_flat_map in Hb as (t & Ht & Hb).
    destruct (pv_in s a Hin Ha) as [[_ ?] _].
    destruct (pv_in t b) as [[? _] _]; [apply Hi; simpl; auto|auto|].
    rewrite Forall_forall in H2. specialize (H2 t Ht). unfold slt in H2. apply ids_ev_lt. lia.
Qed.

Lemma scan_statement key : key_ok key -> exists out,
  (forall fuel, weight (mapping_list m) < fuel -> monotone_scan fuel m key = Ok (Some out)) /\
  ascending out /\
  forall e, In e out <-> visible (map s_data (mapping_list m)) e /\ from key e.
Proof.
  intros Hk. eexists. split; [intros fuel Hf; apply scan_list; auto|]. split.
  - apply filter_ascending. destruct (proj1 (layout_slices _) (gm_layout _ _ G)) as [S1 _].
    pose proof (flat_ascending (mapping_list m) S1 (incl_refl _)).
    destruct key; simpl; auto. apply filter_ascending; auto.
  - intros e. rewrite filter_In. unfold visible, from, live.
    assert (Hsel : In e (sel key (flat_map pv (mapping_list m))) <->
        (exists p, In p (map s_data (mapping_list m)) /\ newest (contents p) e) /\
        match key with Some k => ev_le k e | None => True end).
    { assert (Hfm : In e (flat_map pv (mapping_list m)) <->
        exists p, In p (map s_data (mapping_list m)) /\ newest (contents p) e).
      { rewrite in_flat_map. split.
        - intros (s & Hs & He). exists (s_data s). split; [apply in_map; auto|]. apply pv_in; auto.
        - intros (p & Hp & Hn). apply in_map_iff in Hp as (s & <- & Hs). exists s. split; auto.
          destruct (Hparts s Hs) as (P1 & _). pose proof (pview_merged lo _ P1) as M.
          destruct P1 as [C1 _]. apply (merged_newest _ _ e C1 M). auto. }
      rewrite <- Hfm. destruct key as [k|]; simpl; [|tauto].
      rewrite filter_In, geb_true. tauto. }
    rewrite Hsel. destruct (event_is_delete e); simpl; split; try tauto; intros [? ?]; try discriminate;
      try (destruct H; discriminate); tauto.
Qed.
End Chain.
