(* Histories of partition operations, range commands. *)
From Coq Require Import NArith ZArith List Bool Sorted Lia Arith Permutation.
Import ListNotations.
From Verif Require Import Model.Base Model.Event Model.Rbtree Model.Mapping Spec.Order Spec.Layout
  Proof.OrderL Proof.RbtreeL Proof.MappingL.
Local Arguments N.pow : simpl never.
Local Arguments N.add : simpl never.
Local Arguments N.sub : simpl never.

Section P.
Context {P : Type}.
Variable fresh : N -> N -> P.
Implicit Types (s : slice P) (l : list (slice P)) (m : mapping P).

Lemma good_init lo : (lo + 2^31 <= u64_max)%N -> good_map lo (@mapping_init P).
Proof. intros. constructor; auto; try constructor; try constructor. exists 0. constructor. Qed.

Lemma max_spec lo m : good_map lo m ->
  match mapping_max m with
  | Some z => exists s, zroot z = mp_tree m /\ zelem z = Some s
  | None => mapping_list m = []
  end.
Proof.
  intros G. unfold mapping_max. destruct (mp_count m =? 0)%N eqn:Ec.
  - apply (count_zero lo m G) in Ec. apply list_nil_tree; auto.
  - pose proof (rbtree_max_spec (mp_tree m)) as H. destruct (rbtree_max (mp_tree m)).
    + destruct H as (H1 & _ & x & H2). eauto.
    + apply list_nil_tree; auto.
Qed.

Lemma lock_spec lo m iv id : good_map lo m -> (0 < iv)%N ->
  near lo (interval_of iv id, interval_of iv id + iv - 1)%N ->
  exists m' z s new, engine_lock fresh m iv id false true = Ok (m', Some z) /\
    good_map lo m' /\ zroot z = mp_tree m' /\ zelem z = Some s /\ in_range id (range_of s) /\
    Permutation (mapping_list m') (map (mk_new fresh) new ++ mapping_list m) /\
    Forall (fun g => (interval_of iv id <= fst g /\ snd g <= interval_of iv id + iv - 1)%N) new /\
    (covered (ranges m) id -> m' = m /\ new = []).
Proof.
  intros G Hiv Hn. unfold engine_lock.
  assert (Hmod : (id mod iv < iv)%N) by (apply N.mod_lt; lia).
  assert (Hle : (id mod iv <= id)%N) by (apply N.mod_le; lia).
  unfold interval_of in *.
  pose proof (gm_lo _ _ G) as Hlo. rewrite u64_max_eq in Hlo.
  destruct Hn as [Hn1 Hn2]; simpl in Hn1, Hn2.
  remember (id mod iv)%N as q. clear Heqq.
  assert (Hid : (lo <= id <= lo + 2^31)%N) by lia.
  set (hit := match mapping_max m with Some z => match zelem z with Some s => slice_in s id | None => false end | None => false end).
  destruct hit eqn:Eh.
  - unfold hit in Eh. pose proof (max_spec lo m G) as Hm. destruct (mapping_max m) as [z|]; [|discriminate].
    destruct Hm as (s & H1 & H2). rewrite H2 in Eh. unfold slice_in in Eh.
    apply andb_true_iff in Eh as [E1 E2]. apply N.leb_le in E1, E2.
    exists m, z, s, []. split; [reflexivity|]. split; [exact G|]. do 2 (split; [assumption|]).
    split; [split; assumption|]. split; [reflexivity|]. split; [constructor|]. auto.
  - destruct (match_spec lo m id G Hid) as [(z & s & Hz & H1 & H2 & H3)|[Hz Hnc]].
    + rewrite Hz. cbn [bind]. exists m, z, s, []. split; [reflexivity|]. split; [exact G|]. do 3 (split; [assumption|]).
      split; [reflexivity|]. split; [constructor|]. auto.
    + rewrite Hz. cbn [bind]. destruct (N.eqb_spec iv 0); [lia|].
      replace (sub64 (add64 (id - q) iv) 1) with (id - q + iv - 1)%N.
      2:{ unfold add64. change two64 with 18446744073709551616%N.
          rewrite N.mod_small by lia. rewrite sub64_ge; auto; change (2^64)%N with 18446744073709551616%N; lia. }
      destruct (fill_spec fresh lo m (id - q) (id - q + iv - 1) G) as (m' & new & F1 & F2 & F3 & F4 & F5).
      { split; simpl; auto. } { lia. }
      rewrite F1. cbn [bind].
      destruct (match_spec lo m' id F2 Hid) as [(z & s & Hz' & H1 & H2 & H3)|[Hz' Hnc']].
      * rewrite Hz'. cbn [bind]. exists m', z, s, new. split; [reflexivity|]. do 6 (split; [assumption|]). intros; contradiction.
      * exfalso. apply Hnc'. apply F5. lia.
Qed.

Lemma remove_spec lo m z s : good_map lo m -> zroot z = mp_tree m -> zelem z = Some s ->
  exists m', mapping_remove m z = Ok m' /\ good_map lo m' /\
    mapping_list m = zbefore z ++ s :: zafter z /\ mapping_list m' = zbefore z ++ zafter z.
Proof.
  intros G Hr Hz. unfold mapping_remove.
  destruct (rbtree_remove_spec z s) as (t & H1 & H2 & H3); auto.
  { rewrite Hr. apply (gm_wf _ _ G). }
  rewrite H1. cbn [of_opt bind].
  assert (E : mapping_list m = zbefore z ++ s :: zafter z).
  { unfold mapping_list. rewrite <- Hr. apply zelems; auto. }
  pose proof (gm_count _ _ G) as Hc. rewrite E, app_length in Hc. simpl in Hc.
  destruct (N.eqb_spec (mp_count m) 0); [lia|].
  eexists. split; [reflexivity|]. split; [|split; auto].
  constructor; unfold ranges, mapping_list; simpl; auto.
  - rewrite H3. pose proof (gm_layout _ _ G) as HL. unfold ranges in HL. rewrite E in HL.
    apply layout_slices in HL as [A1 A2]. apply layout_slices. split.
    + apply sorted_app in A1 as (B1 & B2 & B3). inversion B2; subst.
      apply sorted_app. repeat split; auto. intros; apply B3; simpl; auto.
    + apply Forall_app in A2 as [B1 B2]. inversion B2; subst. apply Forall_app; auto.
  - rewrite H3. pose proof (gm_near _ _ G) as HL. unfold ranges in HL. rewrite E in HL.
    rewrite map_app in *. simpl in HL. apply Forall_app in HL as [B1 B2]. inversion B2; subst. apply Forall_app; auto.
  - rewrite H3, app_length. lia.
  - apply (gm_lo _ _ G).
Qed.

Lemma filter_all {A} (f : A -> bool) (l : list A) : Forall (fun x => f x = true) l -> filter f l = l.
Proof. induction l; simpl; intros H; inversion H; subst; auto. rewrite H2. f_equal; auto. Qed.
Lemma filter_none {A} (f : A -> bool) (l : list A) : Forall (fun x => f x = false) l -> filter f l = [].
Proof. induction l; simpl; intros H; inversion H; subst; auto. rewrite H2. auto. Qed.

Lemma drop_spec lo m id : good_map lo m -> (lo <= id <= lo + 2^31)%N ->
  exists m', engine_drop_reference m id = Ok m' /\ good_map lo m' /\
    mapping_list m' = filter (fun s => negb (slice_in s id)) (mapping_list m).
Proof.
  intros G Hid. unfold engine_drop_reference.
  destruct (match_spec lo m id G Hid) as [(z & s & -> & H1 & H2 & H3)|[-> Hnc]]; cbn [bind].
  - destruct (remove_spec lo m z s G H1 H2) as (m' & A1 & A2 & A3 & A4).
    exists m'. split; auto. split; auto. rewrite A4, A3, filter_app. simpl.
    destruct (zip_sorted m z s (gm_layout _ _ G) H1 H2) as (_ & _ & B1 & B2 & B3 & B4).
    destruct H3 as [H3 H4]; simpl in H3, H4.
    assert (Es : slice_in s id = true).
    { unfold slice_in. apply andb_true_iff; split; apply N.leb_le; auto. }
    rewrite Es. simpl. rewrite !filter_all; auto.
    + eapply Forall_impl; [|exact B4]. simpl. intros t Ht. unfold slice_in.
      destruct (N.leb_spec (s_min t) id); auto. lia.
    + eapply Forall_impl; [|exact B3]. simpl. intros t Ht. unfold slice_in.
      destruct (N.leb_spec id (s_max t)); [lia|]. rewrite andb_false_r. auto.
  - exists m. split; auto. split; auto. rewrite filter_all; auto.
    apply Forall_forall. intros t Ht. apply negb_true_iff. destruct (slice_in t id) eqn:E; auto.
    exfalso. apply Hnc. exists (range_of t). split; [apply in_map; auto|].
    unfold slice_in in E. apply andb_true_iff in E as [E1 E2]. apply N.leb_le in E1, E2. split; auto.
Qed.

Lemma lrun_good lo : forall ops m iv, good_map lo m -> (0 < iv)%N -> hist_near lo iv ops ->
  exists m' iv', lrun fresh (m, iv) ops = Ok (m', iv') /\ good_map lo m' /\ (0 < iv')%N.
Proof.
  induction ops as [|o ops IH]; intros m iv G Hiv H; cbn [lrun].
  - eauto.
  - destruct o; simpl in H; destruct H as [H1 H2].
    + destruct (lock_spec lo m iv id G Hiv H1) as (m' & z & s & new & A1 & A2 & _).
      cbn [lrun lstep]. rewrite A1. cbn [bind fst]. auto.
    + cbn [lrun lstep]. destruct (N.le_gt_cases mn mx).
      * destruct (fill_spec fresh lo m mn mx G (H1 H) H) as (m' & new & A1 & A2 & _).
        rewrite A1. cbn [bind]. auto.
      * unfold engine_fill. destruct (N.ltb_spec mx mn); [|lia]. cbn [bind]. auto.
    + cbn [lrun lstep]. destruct (drop_spec lo m id G ltac:(lia)) as (m' & A1 & A2 & _).
      rewrite A1. cbn [bind]. auto.
    + cbn [lstep]. auto.
Qed.

(* --- statements --- *)
Lemma layout_history : forall lo iv ops,
  (lo + 2^31 <= u64_max)%N -> (0 < iv)%N -> hist_near lo iv ops ->
  exists m iv', lrun fresh (mapping_init, iv) ops = Ok (m, iv') /\ layout (ranges m) /\
  forall id, near lo (interval_of iv' id, interval_of iv' id + iv' - 1)%N ->
  exists m' z s, engine_lock fresh m iv' id false true = Ok (m', Some z) /\
    layout (ranges m') /\ zelem z = Some s /\ In s (mapping_list m') /\ in_range id (range_of s) /\
    (forall t, In t (mapping_list m) -> In t (mapping_list m')) /\
    (forall t, In t (mapping_list m') -> In t (mapping_list m) \/
       (interval_of iv' id <= s_min t /\ s_max t <= interval_of iv' id + iv' - 1)%N) /\
    (covered (ranges m) id -> m' = m).
Proof.
  intros lo iv ops Hlo Hiv H.
  destruct (lrun_good lo ops mapping_init iv (good_init lo Hlo) Hiv H) as (m & iv' & A1 & A2 & A3).
  exists m, iv'. split; auto. split; [apply (gm_layout _ _ A2)|].
  intros id Hid. destruct (lock_spec lo m iv' id A2 A3 Hid) as (m' & z & s & new & B1 & B2 & B3 & B4 & B5 & B6 & B7 & B8).
  exists m', z, s. split; auto. split; [apply (gm_layout _ _ B2)|]. split; auto. split.
  { unfold mapping_list. rewrite <- B3, (zelems z s B4). apply in_app_iff; simpl; auto. }
  split; auto. split.
  { intros t Ht. eapply Permutation_in; [symmetry; exact B6|]. apply in_app_iff; auto. }
  split.
  { intros t Ht. eapply Permutation_in in Ht; [|exact B6]. apply in_app_iff in Ht as [Ht|Ht]; auto.
    apply in_map_iff in Ht as (g & <- & Hg). rewrite Forall_forall in B7. apply B7 in Hg. right. exact Hg. }
  intros Hc. apply B8; auto.
Qed.

Lemma layout_unique l a b x : layout (map range_of l) -> In a l -> In b l ->
  in_range x (@range_of P a) -> in_range x (@range_of P b) -> a = b.
Proof.
  intros H Ha Hb [A1 A2] [B1 B2]. apply layout_slices in H as [H _]. simpl in *.
  induction H; [contradiction|]. rewrite Forall_forall in H0. unfold slt in H0.
  destruct Ha as [<-|Ha], Hb as [<-|Hb]; auto.
  - apply H0 in Hb. lia.
  - apply H0 in Ha. lia.
Qed.

Lemma fill_statement : forall lo iv ops mn mx,
  (lo + 2^31 <= u64_max)%N -> (0 < iv)%N -> hist_near lo iv ops -> near lo (mn, mx) ->
  exists m iv', lrun fresh (mapping_init, iv) ops = Ok (m, iv') /\
  ((mx < mn)%N -> engine_fill fresh m mn mx = Err) /\
  ((mn <= mx)%N -> exists m', engine_fill fresh m mn mx = Ok m' /\ layout (ranges m') /\
    (forall x, (mn <= x <= mx)%N -> covered (ranges m') x) /\
    (forall t, In t (mapping_list m) -> In t (mapping_list m')) /\
    (forall t, In t (mapping_list m') -> In t (mapping_list m) \/ (mn <= s_min t /\ s_max t <= mx)%N)).
Proof.
  intros lo iv ops mn mx Hlo Hiv H Hn.
  destruct (lrun_good lo ops mapping_init iv (good_init lo Hlo) Hiv H) as (m & iv' & A1 & A2 & A3).
  exists m, iv'. split; auto. split.
  - intros Hlt. unfold engine_fill. destruct (N.ltb_spec mx mn); auto; lia.
  - intros Hle. destruct (fill_spec fresh lo m mn mx A2 Hn Hle) as (m' & new & B1 & B2 & B3 & B4 & B5).
    exists m'. split; auto. split; [apply (gm_layout _ _ B2)|]. split; auto. split.
    + intros t Ht. eapply Permutation_in; [symmetry; exact B3|]. apply in_app_iff; auto.
    + intros t Ht. eapply Permutation_in in Ht; [|exact B3]. apply in_app_iff in Ht as [Ht|Ht]; auto.
      apply in_map_iff in Ht as (g & <- & Hg). rewrite Forall_forall in B4. apply B4 in Hg. right. exact Hg.
Qed.

(* --- range commands --- *)
Lemma foreach_spec lo m mn mx : good_map lo m -> (lo <= mn <= lo + 2^31)%N ->
  (existsb (straddles mn) (mapping_list m) = true /\ engine_foreach fresh m mn mx = Ok None) \/
  (existsb (straddles mn) (mapping_list m) = false /\
   engine_foreach fresh m mn mx =
     Ok (match filter (inside mn mx) (mapping_list m) with
         | [] => None
         | s :: _ => Some (s_min s, s_max s + 1)%N
         end)).
Proof.
  intros G Hid. unfold engine_foreach, engine_lock.
  pose proof (gte_first lo m mn G Hid) as Hg. destruct (mapping_gte m mn) as [[z|]| |]; try contradiction; cbn [bind snd].
  - destruct Hg as (s & H1 & H2 & H3 & H4 & H5). rewrite H2.
    destruct (zip_sorted m z s (gm_layout _ _ G) H1 H2) as (_ & B0 & B1 & B2 & B3 & B4).
    assert (Eb : existsb (straddles mn) (mapping_list m) = straddles mn s).
    { rewrite H5, existsb_app. simpl.
      assert (X1 : existsb (straddles mn) (zbefore z) = false).
      { apply not_true_is_false. intros Hx. apply existsb_exists in Hx as (t & Ht & Hs).
        rewrite Forall_forall in H4. apply H4 in Ht. unfold straddles in Hs.
        apply andb_true_iff in Hs as [_ Hs]. apply N.leb_le in Hs. lia. }
      assert (X2 : existsb (straddles mn) (zafter z) = false).
      { apply not_true_is_false. intros Hx. apply existsb_exists in Hx as (t & Ht & Hs).
        rewrite Forall_forall in B4. apply B4 in Ht. unfold straddles in Hs.
        apply andb_true_iff in Hs as [Hs _]. apply N.ltb_lt in Hs. lia. }
      rewrite X1, X2, orb_false_r. auto. }
    rewrite Eb. unfold straddles.
    assert (Emx : (s_max s < u64_max)%N).
    { pose proof (gm_near _ _ G) as Hn. unfold ranges in Hn. rewrite H5, map_app in Hn.
      apply Forall_app in Hn as [_ Hn]. inversion Hn; subst. unfold near in H6. simpl in H6.
      pose proof (gm_lo _ _ G). lia. }
    destruct (N.ltb_spec (s_min s) mn).
    + left. split; [apply N.leb_le; auto|]. destruct (N.leb_spec mn (s_min s)); [lia|]. auto.
    + right. split; auto. destruct (N.leb_spec mn (s_min s)); [|lia]. simpl.
      rewrite H5, filter_app. rewrite (filter_none _ (zbefore z)).
      2:{ eapply Forall_impl; [|apply (Forall_and H4 B1)]. simpl. intros t [Ht Ht'].
          unfold inside. destruct (N.leb_spec mn (s_min t)); auto. lia. }
      cbn [app filter]. unfold inside at 1. destruct (N.leb_spec mn (s_min s)); [|lia]. cbn [andb].
      destruct (N.leb_spec (s_max s) mx).
      * unfold add64. rewrite N.mod_small; auto. rewrite u64_max_eq in Emx. change two64 with 18446744073709551616%N. lia.
      * rewrite filter_none; auto. apply Forall_forall. intros t Ht.
        rewrite Forall_forall in B2, B4. pose proof (B2 t Ht). pose proof (B4 t Ht).
        unfold inside. destruct (N.leb_spec (s_max t) mx); [lia|]. apply andb_false_r.
  - right.
    assert (X : forall t, In t (mapping_list m) -> straddles mn t = false /\ inside mn mx t = false).
    { intros t Ht. destruct (proj1 (layout_slices _) (gm_layout _ _ G)) as [_ Hle].
      rewrite Forall_forall in Hle, Hg. pose proof (Hle t Ht). pose proof (Hg t Ht). simpl in *.
      unfold straddles, inside. split.
      - destruct (N.leb_spec mn (s_max t)); [lia|]. apply andb_false_r.
      - destruct (N.leb_spec mn (s_min t)); [lia|]. auto. }
    split.
    + apply not_true_is_false. intros Hx. apply existsb_exists in Hx as (t & Ht & Hs).
      apply X in Ht. destruct Ht; congruence.
    + rewrite filter_none; auto. apply Forall_forall. intros t Ht. apply X; auto.
Qed.

Lemma inside_next l mn mx s t : StronglySorted slt l -> Forall (fun s => (s_min s <= s_max s)%N) l ->
  filter (inside mn mx) l = s :: t -> filter (inside (s_max s + 1) mx) l = t /\
  existsb (straddles (s_max s + 1)) l = false.
Proof.
  revert s t. induction l as [|a l IH]; intros s t Hs Hl; simpl; [discriminate|].
  inversion Hs; inversion Hl; subst. unfold slt in H2.
  destruct (inside mn mx a) eqn:Ea.
  - intros E. inversion E; subst a t. unfold inside at 1.
    destruct (N.leb_spec (s_max s + 1) (s_min s)); [lia|]. cbn [andb]. split.
    + unfold inside in Ea. apply andb_true_iff in Ea as [E1 E2]. apply N.leb_le in E1, E2.
      apply filter_ext_in. intros b Hb. rewrite Forall_forall in H2. apply H2 in Hb. unfold inside.
      destruct (N.leb_spec (s_max s + 1) (s_min b)), (N.leb_spec mn (s_min b)); auto; lia.
    + unfold straddles at 1. destruct (N.leb_spec (s_max s + 1) (s_max s)); [lia|]. rewrite andb_false_r. simpl.
      apply not_true_is_false. intros Hx. apply existsb_exists in Hx as (b & Hb & Hx).
      rewrite Forall_forall in H2. apply H2 in Hb. unfold straddles in Hx. apply andb_true_iff in Hx as [Hx _].
      apply N.ltb_lt in Hx. lia.
  - intros E. destruct (IH s t H1 H6 E) as [I1 I2].
    assert (Hin : In s l). { apply (filter_In (inside mn mx)). rewrite E. simpl; auto. }
    rewrite Forall_forall in H2. pose proof (H2 s Hin) as Hs2.
    assert (s_min s <= s_max s)%N. { rewrite Forall_forall in H6. auto. }
    unfold inside at 1. destruct (N.leb_spec (s_max s + 1) (s_min a)); [lia|]. cbn [andb].
    split; auto. unfold straddles at 1. destruct (N.leb_spec (s_max s + 1) (s_max a)); [lia|]. rewrite andb_false_r. auto.
Qed.

Lemma next_window lo m mn mx s t : good_map lo m ->
  filter (inside mn mx) (mapping_list m) = s :: t -> (lo <= s_max s + 1 <= lo + 2^31)%N.
Proof.
  intros G E. assert (Hin : In s (mapping_list m)). { apply (filter_In (inside mn mx)). rewrite E. simpl; auto. }
  pose proof (gm_near _ _ G) as Hn. unfold ranges in Hn. rewrite Forall_map, Forall_forall in Hn.
  apply Hn in Hin as H1. unfold near in H1; simpl in H1.
  destruct (proj1 (layout_slices _) (gm_layout _ _ G)) as [_ Hle]. rewrite Forall_forall in Hle.
  apply Hle in Hin. lia.
Qed.

(* commands that keep the partitions: all partitions inside the range, once each *)
Lemma range_keep_loop lo m mx : good_map lo m -> forall fuel mn,
  (lo <= mn <= lo + 2^31)%N -> existsb (straddles mn) (mapping_list m) = false ->
  length (filter (inside mn mx) (mapping_list m)) < fuel ->
  engine_range fresh fuel act_keep m mn mx =
    Ok (Some (m, map s_min (filter (inside mn mx) (mapping_list m)))).
Proof.
  intros G. induction fuel; intros mn Hid Hs Hf; [lia|].
  cbn [engine_range].
  destruct (foreach_spec lo m mn mx G Hid) as [[A _]|[_ A]]; [congruence|]. rewrite A. cbn [bind].
  destruct (filter (inside mn mx) (mapping_list m)) as [|s t] eqn:E; auto.
  unfold act_keep at 1. cbn [bind].
  destruct (proj1 (layout_slices _) (gm_layout _ _ G)) as [S1 S2].
  destruct (inside_next _ mn mx s t S1 S2 E) as [I1 I2].
  rewrite IHfuel; [|eapply next_window; eauto|exact I2|fold (mapping_list m) in I1; rewrite I1; simpl in Hf; lia].
  fold (mapping_list m) in I1. rewrite I1. reflexivity.
Qed.

Lemma range_keep_statement : forall lo iv ops mn mx,
  (lo + 2^31 <= u64_max)%N -> (0 < iv)%N -> hist_near lo iv ops -> (lo <= mn < lo + 2^31)%N ->
  exists m iv', lrun fresh (mapping_init, iv) ops = Ok (m, iv') /\
  exists fuel, forall f, fuel <= f ->
  engine_range fresh f act_keep m mn mx =
    Ok (Some (m, if existsb (straddles mn) (mapping_list m) then []
                 else map s_min (filter (inside mn mx) (mapping_list m)))).
Proof.
  intros lo iv ops mn mx Hlo Hiv H Hid.
  destruct (lrun_good lo ops mapping_init iv (good_init lo Hlo) Hiv H) as (m & iv' & A1 & A2 & A3).
  exists m, iv'. split; auto.
  exists (S (length (filter (inside mn mx) (mapping_list m)))). intros f Hf.
  destruct (existsb (straddles mn) (mapping_list m)) eqn:E.
  - destruct f; [lia|]. cbn [engine_range].
    destruct (foreach_spec lo m mn mx A2 ltac:(lia)) as [[_ B]|[B _]]; [|congruence]. rewrite B. auto.
  - apply (range_keep_loop lo m mx A2); auto. lia.
Qed.

(* dropping: the partitions inside the range disappear, the others stay *)
Lemma drop_one l mn mx s t : StronglySorted slt l -> Forall (fun s => (s_min s <= s_max s)%N) l ->
  filter (inside mn mx) l = s :: t ->
  let l' := filter (fun x => negb (slice_in x (s_min s))) l in
  filter (inside (s_max s + 1) mx) l' = t /\
  existsb (straddles (s_max s + 1)) l' = false /\
  filter (fun x => negb (inside (s_max s + 1) mx x)) l' = filter (fun x => negb (inside mn mx x)) l.
Proof.
  intros Hs Hl E l'. destruct (inside_next l mn mx s t Hs Hl E) as [I1 I2].
  assert (Hin : In s l /\ inside mn mx s = true). { apply (filter_In (inside mn mx)). rewrite E. simpl; auto. }
  destruct Hin as [Hin Hins].
  assert (Hle : forall x, In x l -> (s_min x <= s_max x)%N) by (rewrite Forall_forall in Hl; auto).
  assert (Hun : forall x, In x l -> slice_in x (s_min s) = true -> x = s).
  { intros x Hx Hx'. apply (layout_unique l x s (s_min s)); auto.
    - apply layout_slices. auto.
    - unfold slice_in in Hx'. apply andb_true_iff in Hx' as [X1 X2]. apply N.leb_le in X1, X2. split; auto.
    - split; simpl; [lia|]. apply Hle; auto. }
  assert (Hss : slice_in s (s_min s) = true).
  { unfold slice_in. rewrite N.leb_refl. apply N.leb_le. apply Hle; auto. }
  assert (Hff : forall (f g : slice P -> bool) k, filter f (filter g k) = filter (fun x => g x && f x) k).
  { clear. intros f g k. induction k; simpl; auto. destruct (g a); simpl; [destruct (f a)|]; rewrite ?IHk; auto. }
  unfold l'. rewrite !Hff. split; [|split].
  - rewrite <- I1 at 1. apply filter_ext_in. intros x Hx.
    destruct (slice_in x (s_min s)) eqn:Ex; auto. apply Hun in Ex; auto. subst x.
    unfold inside. pose proof (Hle s Hin). destruct (N.leb_spec (s_max s + 1) (s_min s)); auto. lia.
  - apply not_true_is_false. intros Hx. apply existsb_exists in Hx as (b & Hb & Hx).
    apply filter_In in Hb as [Hb _].
    assert (existsb (straddles (s_max s + 1)) l = true) by (apply existsb_exists; eauto). congruence.
  - apply filter_ext_in. intros x Hx.
    destruct (slice_in x (s_min s)) eqn:Ex.
    { apply Hun in Ex; auto. subst x. rewrite Hins. auto. }
    cbn [negb andb]. f_equal.
    (* x is not s: inside (s_max s + 1) <-> inside mn *)
    assert (Hd : (s_max x < s_min s \/ s_max s < s_min x)%N).
    { pose proof (Hle x Hx). pose proof (Hle s Hin). clear -Hs Hx Hin Ex H H0.
      induction Hs; [contradiction|]. rewrite Forall_forall in H1. unfold slt in H1.
      destruct Hx as [->|Hx], Hin as [->|Hin]; auto.
      exfalso. unfold slice_in in Ex. rewrite N.leb_refl in Ex. apply N.leb_gt in Ex. lia. }
    pose proof (Hle x Hx) as Hlx.
    unfold inside in *. apply andb_true_iff in Hins as [M1 M2]. apply N.leb_le in M1, M2.
    destruct Hd as [Hd|Hd].
    + destruct (N.leb_spec (s_max s + 1) (s_min x)); [pose proof (Hle s Hin); lia|].
      destruct (N.leb_spec mn (s_min x)) as [Hmn|]; auto. exfalso.
      (* then x would come before s in the filter *)
      assert (Hxt : In x (s :: t)).
      { rewrite <- E. apply filter_In. split; auto. unfold inside. apply andb_true_iff; split; apply N.leb_le; auto.
        pose proof (Hle s Hin). lia. }
      destruct Hxt as [->|Hxt]; [lia|].
      assert (Hso : StronglySorted slt (s :: t)).
      { rewrite <- E. clear -Hs. induction Hs; simpl; [constructor|].
        match goal with |- context[if ?c then _ else _] => destruct c end; auto. constructor; auto. rewrite Forall_forall in *.
        intros y Hy. apply filter_In in Hy as [Hy _]. auto. }
      inversion Hso; subst. rewrite Forall_forall in H3. apply H3 in Hxt. unfold slt in Hxt. pose proof (Hle s Hin). lia.
    + destruct (N.leb_spec (s_max s + 1) (s_min x)); [|lia].
      destruct (N.leb_spec mn (s_min x)); auto. pose proof (Hle s Hin). lia.
Qed.

Lemma range_drop_loop lo mx : forall fuel m mn, good_map lo m ->
  (lo <= mn <= lo + 2^31)%N -> existsb (straddles mn) (mapping_list m) = false ->
  length (filter (inside mn mx) (mapping_list m)) < fuel ->
  exists m', engine_range fresh fuel engine_drop_reference m mn mx =
    Ok (Some (m', map s_min (filter (inside mn mx) (mapping_list m)))) /\ good_map lo m' /\
    mapping_list m' = filter (fun s => negb (inside mn mx s)) (mapping_list m).
Proof.
  induction fuel; intros m mn G Hid Hs Hf; [lia|].
  cbn [engine_range].
  destruct (foreach_spec lo m mn mx G Hid) as [[A _]|[_ A]]; [congruence|]. rewrite A. cbn [bind].
  destruct (filter (inside mn mx) (mapping_list m)) as [|s t] eqn:E.
  - exists m. split; auto. split; auto. symmetry. apply filter_all.
    apply Forall_forall. intros x Hx. apply negb_true_iff. apply not_true_is_false. intros Hi.
    assert (Hin : In x []). { rewrite <- E. apply filter_In; auto. } contradiction.
  - destruct (proj1 (layout_slices _) (gm_layout _ _ G)) as [S1 S2].
    destruct (drop_one (mapping_list m) mn mx s t S1 S2 E) as (I1 & I2 & I3).
    assert (Hin : In s (mapping_list m)). { apply (filter_In (inside mn mx)). rewrite E. simpl; auto. }
    assert (Hsn : (lo <= s_min s <= lo + 2^31)%N).
    { pose proof (next_window lo m mn mx s t G E). pose proof (gm_near _ _ G) as Hn.
      unfold ranges in Hn. rewrite Forall_map, Forall_forall in Hn. apply Hn in Hin as H1.
      unfold near in H1. simpl in H1. rewrite Forall_forall in S2. apply S2 in Hin. lia. }
    destruct (drop_spec lo m (s_min s) G Hsn) as (m1 & B1 & B2 & B3).
    rewrite B1. cbn [bind].
    cbv zeta in I1, I2, I3. rewrite <- B3 in I1, I2, I3.
    destruct (IHfuel m1 (s_max s + 1)%N B2) as (m2 & C1 & C2 & C3); auto.
    { eapply next_window; [exact G|exact E]. } { rewrite I1. simpl in Hf. lia. }
    rewrite C1. cbn [bind]. exists m2. rewrite I1. split; auto. split; auto. rewrite C3. exact I3.
Qed.

Lemma range_drop_statement : forall lo iv ops mn mx,
  (lo + 2^31 <= u64_max)%N -> (0 < iv)%N -> hist_near lo iv ops -> (lo <= mn < lo + 2^31)%N ->
  exists m iv', lrun fresh (mapping_init, iv) ops = Ok (m, iv') /\
  (existsb (straddles mn) (mapping_list m) = false ->
   exists m' fuel, engine_range fresh fuel engine_drop_reference m mn mx =
     Ok (Some (m', map s_min (filter (inside mn mx) (mapping_list m)))) /\
     mapping_list m' = filter (fun s => negb (inside mn mx s)) (mapping_list m)).
Proof.
  intros lo iv ops mn mx Hlo Hiv H Hid.
  destruct (lrun_good lo ops mapping_init iv (good_init lo Hlo) Hiv H) as (m & iv' & A1 & A2 & A3).
  exists m, iv'. split; auto. intros Hs.
  destruct (range_drop_loop lo mx (S (length (filter (inside mn mx) (mapping_list m)))) m mn A2) as (m' & B1 & _ & B3); auto.
  { lia. } eauto.
Qed.

(* --- lookup cost --- *)
Lemma rb_get_path {A} (cmp : A -> Z) : forall t p z0 rc0 z rc,
  rb_get cmp t p z0 rc0 = (Some z, rc) -> z0 = Some z \/ length (fst z) < length p + depth t.
Proof.
  induction t; simpl; intros p z0 rc0 z rc H.
  - inversion H; auto.
  - destruct (cmp x <? 0)%Z; [|destruct (0 <? cmp x)%Z].
    + apply IHt2 in H as [H|H]; right; [inversion H; subst; simpl; lia|simpl in H; lia].
    + apply IHt1 in H as [H|H]; right; [inversion H; subst; simpl; lia|simpl in H; lia].
    + inversion H; subst. right. simpl. lia.
Qed.

Lemma lookup_statement : forall lo iv ops id,
  (lo + 2^31 <= u64_max)%N -> (0 < iv)%N -> hist_near lo iv ops -> (lo <= id < lo + 2^31)%N ->
  exists m iv', lrun fresh (mapping_init, iv) ops = Ok (m, iv') /\
  (exists r, mapping_match m id = Ok r /\
    match r with
    | Some z => exists s, zelem z = Some s /\ In s (mapping_list m) /\ in_range id (range_of s)
    | None => ~ covered (ranges m) id
    end) /\
  (exists r, mapping_gte m id = Ok r /\
    match r with
    | Some z => exists s, zelem z = Some s /\ (id <= s_max s)%N /\
                  mapping_list m = zbefore z ++ s :: zafter z /\
                  Forall (fun t => (s_max t < id)%N) (zbefore z)
    | None => Forall (fun t => (s_max t < id)%N) (mapping_list m)
    end) /\
  (forall z rc, mapping_find m id = (Some z, rc) ->
     length (fst z) < 2 * Nat.log2 (S (length (mapping_list m)))).
Proof.
  intros lo iv ops id Hlo Hiv H Hid.
  destruct (lrun_good lo ops mapping_init iv (good_init lo Hlo) Hiv H) as (m & iv' & A1 & A2 & A3).
  exists m, iv'. split; auto. split; [|split].
  - destruct (match_spec lo m id A2 ltac:(lia)) as [(z & s & -> & H1 & H2 & H3)|[-> Hn]].
    + eexists; split; [reflexivity|]. exists s. split; auto. split; auto.
      unfold mapping_list. rewrite <- H1, (zelems z s H2). apply in_app_iff; simpl; auto.
    + eexists; split; [reflexivity|]. auto.
  - pose proof (gte_first lo m id A2 ltac:(lia)) as Hg.
    destruct (mapping_gte m id) as [[z|]| |]; try contradiction; eexists; (split; [reflexivity|]); auto.
    destruct Hg as (s & H1 & H2 & H3 & H4 & H5). exists s; auto.
  - intros z rc Hf. unfold mapping_find, rbtree_get in Hf.
    destruct (rb_get _ (mp_tree m) [] None 0) as [z' rc'] eqn:E. inversion Hf; subst.
    apply rb_get_path in E as [E|E]; [discriminate|]. simpl in E.
    pose proof (wf_depth (mp_tree m) (gm_wf _ _ A2)). unfold mapping_list. lia.
Qed.
End P.
