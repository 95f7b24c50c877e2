(* Lemmas about the partition mapping. *)
From Coq Require Import NArith ZArith List Bool Sorted Lia Arith Permutation.
Import ListNotations.
From Verif Require Import Model.Base Model.Event Model.Rbtree Model.Mapping Spec.Order Spec.Layout
  Proof.OrderL Proof.RbtreeL.

Section M.
Context {P : Type}.
Implicit Types (s : slice P) (l : list (slice P)) (m : mapping P).
Variable fresh : N -> N -> P.

Definition slt (a b : slice P) : Prop := (s_max a < s_min b)%N.
Record good_map (lo : N) m : Prop := {
  gm_wf : wf (mp_tree m);
  gm_layout : layout (ranges m);
  gm_near : Forall (near lo) (ranges m);
  gm_count : mp_count m = N.of_nat (length (mapping_list m));
  gm_lo : (lo + 2^31 <= u64_max)%N
}.

Lemma layout_slices l : layout (map range_of l) <->
  StronglySorted slt l /\ Forall (fun s => (s_min s <= s_max s)%N) l.
Proof.
  unfold layout. induction l; simpl.
  - split; intros; split; constructor.
  - destruct IHl as [I1 I2]. split; intros [H1 H2]; inversion H1; inversion H2; subst; simpl in *.
    + destruct I1 as [J1 J2]; auto. split; constructor; auto.
      rewrite Forall_map in H4. exact H4.
    + destruct I2 as [J1 J2]; auto. split; constructor; auto.
      rewrite Forall_map. exact H4.
Qed.

Lemma sorted_app {A} (R : A -> A -> Prop) (l1 l2 : list A) :
  StronglySorted R (l1 ++ l2) <->
  StronglySorted R l1 /\ StronglySorted R l2 /\ forall a b, In a l1 -> In b l2 -> R a b.
Proof.
  induction l1; simpl.
  - split; [intros; repeat split; auto; [constructor|intros ? ? []]|intros (_ & ? & _); auto].
  - split.
    + intros H. inversion H; subst. apply IHl1 in H2 as (A1 & A2 & A3).
      apply Forall_app in H3 as [B1 B2]. repeat split; auto.
      * constructor; auto.
      * intros x y [<-|Hx] Hy; auto. rewrite Forall_forall in B2; auto.
    + intros (H1 & H2 & H3). inversion H1; subst. constructor.
      * apply IHl1. repeat split; auto.
      * apply Forall_app. split; auto. apply Forall_forall. intros; apply H3; auto.
Qed.

Lemma u64_max_eq : u64_max = 18446744073709551615%N. Proof. reflexivity. Qed.

Lemma near_cmp lo s id : near lo (range_of s) -> (s_min s <= s_max s)%N -> (lo + 2^31 <= u64_max)%N ->
  (lo <= id <= lo + 2^31)%N ->
  compare_u64 (s_min s) id = (Z.of_N (s_min s) - Z.of_N id)%Z /\
  i32_of_z (compare_u64 (s_min s) id) = (Z.of_N (s_min s) - Z.of_N id)%Z.
Proof.
  unfold near, range_of, compare_u64; simpl. rewrite u64_max_eq. intros [H1 H2] Hs H3 H4.
  rewrite i64_sub_exact by lia. split; auto. apply i32_exact. lia.
Qed.

Lemma find_spec lo m id : good_map lo m -> (lo <= id <= lo + 2^31)%N -> mp_tree m <> Leaf ->
  exists z s, mapping_find m id = (Some z, (Z.of_N (s_min s) - Z.of_N id)%Z) /\
    zroot z = mp_tree m /\ zelem z = Some s /\
    Forall (fun t => (s_min t < id)%N) (zbefore z) /\
    Forall (fun t => (id < s_min t)%N) (zafter z) /\
    landed (fun t => compare_u64 (s_min t) id) z (Z.of_N (s_min s) - Z.of_N id).
Proof.
  intros G Hid Hne. unfold mapping_find, rbtree_get.
  destruct (rb_get (fun s => compare_u64 (s_min s) id) (mp_tree m) [] None 0) as [z rc] eqn:E.
  assert (Hc : forall s, In s (mapping_list m) ->
     compare_u64 (s_min s) id = (Z.of_N (s_min s) - Z.of_N id)%Z /\
     i32_of_z (compare_u64 (s_min s) id) = (Z.of_N (s_min s) - Z.of_N id)%Z).
  { intros s Hs. destruct (proj1 (layout_slices _) (gm_layout _ _ G)) as [_ H2].
    rewrite Forall_forall in H2. apply (near_cmp lo); auto; [|apply (gm_lo _ _ G)].
    pose proof (gm_near _ _ G) as Hn. rewrite Forall_forall in Hn. apply Hn.
    apply in_map. auto. }
  apply rb_get_root in E.
  - destruct E as [(H & _)|(zz & -> & Hr & Hland & Hb & Ha)]; [contradiction|].
    destruct zz as [p [|c lt s rt]]; [contradiction|].
    assert (Hin : forall t, In t (zbefore (p, Node c lt s rt)) \/ t = s \/ In t (zafter (p, Node c lt s rt)) -> In t (mapping_list m)).
    { intros t Ht. unfold mapping_list. rewrite <- Hr, (zelems _ s) by auto.
      apply in_app_iff. simpl. destruct Ht as [|[|]]; auto. }
    destruct Hland as [Hrc Hl].
    exists (p, Node c lt s rt), s.
    destruct (Hc s) as [H1 H2]; [apply Hin; auto|].
    rewrite Hrc, H2. split; auto. split; auto. split; auto. split; [|split].
    + rewrite Forall_forall in *. intros t Ht. pose proof (Hb t Ht). rewrite (proj1 (Hc t ltac:(auto))) in H. lia.
    + rewrite Forall_forall in *. intros t Ht. pose proof (Ha t Ht). rewrite (proj1 (Hc t ltac:(auto))) in H. lia.
    + simpl. rewrite H1 in *. split; auto. rewrite Hrc in Hl. auto.
  - unfold mono. destruct (proj1 (layout_slices _) (gm_layout _ _ G)) as [H1 H2].
    assert (Hall : forall s, In s (mapping_list m) -> In s (mapping_list m)) by auto.
    revert H1 H2. unfold mapping_list in *. revert Hc. clear -Hid.
    induction (elements (mp_tree m)) as [|a l IH]; intros Hc H1 H2; constructor.
    + inversion H1; inversion H2; subst. apply IH; auto. intros; apply Hc; simpl; auto.
    + inversion H1; inversion H2; subst. rewrite Forall_forall in *. intros t Ht.
      rewrite (proj1 (Hc a ltac:(simpl; auto))), (proj1 (Hc t ltac:(simpl; auto))).
      pose proof (H4 t Ht). unfold slt in H. lia.
Qed.

Lemma zip_sorted m z s : layout (ranges m) -> zroot z = mp_tree m -> zelem z = Some s ->
  mapping_list m = zbefore z ++ s :: zafter z /\
  (s_min s <= s_max s)%N /\
  Forall (fun t => (s_min t <= s_max t)%N) (zbefore z) /\
  Forall (fun t => (s_min t <= s_max t)%N) (zafter z) /\
  Forall (fun t => (s_max t < s_min s)%N) (zbefore z) /\
  Forall (fun t => (s_max s < s_min t)%N) (zafter z).
Proof.
  intros HL Hr Hz. assert (E : mapping_list m = zbefore z ++ s :: zafter z).
  { unfold mapping_list. rewrite <- Hr. apply zelems; auto. }
  split; auto. apply layout_slices in HL as [H1 H2]. fold (mapping_list m) in *. rewrite E in *.
  apply Forall_app in H2 as [A1 A2]. inversion A2; subst.
  apply sorted_app in H1 as (B1 & B2 & B3). inversion B2; subst.
  repeat split; auto. apply Forall_forall. intros t Ht. apply B3; simpl; auto.
Qed.

Lemma seek_spec lo m id : good_map lo m -> (lo <= id <= lo + 2^31)%N -> mp_tree m <> Leaf ->
  exists z s, mapping_seek m id = Ok z /\ zroot z = mp_tree m /\ zelem z = Some s /\
    Forall (fun t => (s_max t < id)%N) (zbefore z) /\
    Forall (fun t => (id < s_min t)%N) (zafter z) /\
    ((s_min s <= id)%N \/ zbefore z = []).
Proof.
  intros G Hid Hne.
  destruct (find_spec lo m id G Hid Hne) as (z & s & Hf & Hr & Hz & Hb & Ha & _).
  unfold mapping_seek. rewrite Hf.
  destruct (zip_sorted m z s (gm_layout _ _ G) Hr Hz) as (E & E0 & E1 & E2 & E3 & E4).
  destruct (Z.ltb_spec 0 (Z.of_N (s_min s) - Z.of_N id)).
  - pose proof (rbtree_prev_spec z s Hz) as Hp. destruct (rbtree_prev z) as [z'|].
    + destruct Hp as (Hr' & y & Hy & Hb' & Ha').
      exists z', y. split; auto. split; [congruence|]. split; auto.
      rewrite <- Hb' in *. apply Forall_app in Hb as [Hb Hb2]. inversion Hb2; subst.
      split; [|split].
      * destruct (zip_sorted m z' y (gm_layout _ _ G) ltac:(congruence) Hy) as (_ & _ & _ & _ & F & _).
        eapply Forall_impl; [|exact F]. simpl. intros. lia.
      * rewrite Ha'. constructor; auto. lia.
      * left. lia.
    + exists z, s. rewrite Hp in *. repeat split; auto.
  - exists z, s. split; auto. split; auto. split; auto. split; [|split; auto].
    + eapply Forall_impl; [|exact E3]. simpl. intros. lia.
    + left. lia.
Qed.

Lemma list_nil_tree m : mapping_list m = [] <-> mp_tree m = Leaf.
Proof.
  unfold mapping_list. destruct (mp_tree m); simpl; split; auto; try discriminate.
  intros H. apply app_eq_nil in H as [_ H]. discriminate.
Qed.

Lemma count_zero lo m : good_map lo m -> (mp_count m =? 0)%N = true <-> mp_tree m = Leaf.
Proof.
  intros G. rewrite N.eqb_eq, (gm_count _ _ G), <- list_nil_tree.
  destruct (mapping_list m); simpl; split; auto; try discriminate.
Qed.

Lemma match_spec lo m id : good_map lo m -> (lo <= id <= lo + 2^31)%N ->
  (exists z s, mapping_match m id = Ok (Some z) /\ zroot z = mp_tree m /\ zelem z = Some s /\
     in_range id (range_of s)) \/
  (mapping_match m id = Ok None /\ ~ covered (ranges m) id).
Proof.
  intros G Hid. unfold mapping_match.
  destruct (mp_count m =? 0)%N eqn:Ec.
  - apply (count_zero lo m G) in Ec. right. split; auto. intros (r & Hr & _).
    unfold ranges, mapping_list in Hr. rewrite Ec in Hr. contradiction.
  - assert (Hne : mp_tree m <> Leaf).
    { intros H. apply (count_zero lo m G) in H. congruence. }
    destruct (seek_spec lo m id G Hid Hne) as (z & s & Hs & Hr & Hz & Hb & Ha & Hor).
    rewrite Hs. cbn [bind]. rewrite Hz. unfold slice_in.
    destruct (N.leb_spec (s_min s) id); simpl.
    + destruct (N.leb_spec id (s_max s)).
      * left. exists z, s. repeat split; auto.
      * right. split; auto. intros (r & Hin & H1 & H2).
        unfold ranges in Hin. apply in_map_iff in Hin as (t & <- & Ht). simpl in *.
        destruct (zip_sorted m z s (gm_layout _ _ G) Hr Hz) as (E & _). rewrite E in Ht.
        rewrite Forall_forall in *. apply in_app_iff in Ht as [Ht|[<-|Ht]].
        -- apply Hb in Ht. lia. -- lia. -- apply Ha in Ht. lia.
    + right. split; auto. intros (r & Hin & H1 & H2).
      unfold ranges in Hin. apply in_map_iff in Hin as (t & <- & Ht). simpl in *.
      destruct (zip_sorted m z s (gm_layout _ _ G) Hr Hz) as (E & _). rewrite E in Ht.
      rewrite Forall_forall in *. apply in_app_iff in Ht as [Ht|[<-|Ht]].
      -- apply Hb in Ht. lia. -- lia. -- apply Ha in Ht. lia.
Qed.

Lemma gte_spec lo m id : good_map lo m -> (lo <= id <= lo + 2^31)%N ->
  (exists z s, mapping_gte m id = Ok (Some z) /\ zroot z = mp_tree m /\ zelem z = Some s /\
     (id <= s_max s)%N /\ Forall (fun t => (s_max t < id)%N) (zbefore z)) \/
  (mapping_gte m id = Ok None /\ Forall (fun t => (s_max t < id)%N) (mapping_list m)).
Proof.
  intros G Hid. unfold mapping_gte.
  destruct (mp_count m =? 0)%N eqn:Ec.
  - apply (count_zero lo m G) in Ec. right. split; auto. apply list_nil_tree in Ec. rewrite Ec. constructor.
  - assert (Hne : mp_tree m <> Leaf).
    { intros H. apply (count_zero lo m G) in H. congruence. }
    destruct (seek_spec lo m id G Hid Hne) as (z & s & Hs & Hr & Hz & Hb & Ha & Hor).
    rewrite Hs. cbn [bind]. rewrite Hz.
    destruct (zip_sorted m z s (gm_layout _ _ G) Hr Hz) as (E & E0 & E1 & E2 & E3 & E4).
    destruct (N.ltb_spec (s_max s) id).
    + pose proof (rbtree_next_spec z s Hz) as Hn. destruct (rbtree_next z) as [z'|].
      * destruct Hn as (Hr' & y & Hy & Hb' & Ha').
        left. exists z', y. split; auto. split; [congruence|]. split; auto.
        rewrite <- Ha' in Ha, E2. inversion Ha; inversion E2; subst. split; [lia|].
        rewrite Hb'. apply Forall_app. split; auto.
      * right. split; auto. rewrite E, Hn. apply Forall_app. split; auto.
    + left. exists z, s. repeat split; auto.
Qed.

Lemma gte_first lo m id : good_map lo m -> (lo <= id <= lo + 2^31)%N ->
  match mapping_gte m id with
  | Ok (Some z) => exists s, zroot z = mp_tree m /\ zelem z = Some s /\ (id <= s_max s)%N /\
                     Forall (fun t => (s_max t < id)%N) (zbefore z) /\
                     mapping_list m = zbefore z ++ s :: zafter z
  | Ok None => Forall (fun t => (s_max t < id)%N) (mapping_list m)
  | _ => False
  end.
Proof.
  intros G Hid. destruct (gte_spec lo m id G Hid) as [(z & s & -> & H1 & H2 & H3 & H4)|(-> & H)]; auto.
  exists s. repeat split; auto. unfold mapping_list. rewrite <- H1. apply zelems; auto.
Qed.

(* adding a range that overlaps nothing *)
Lemma add_spec lo m s : good_map lo m -> near lo (range_of s) -> (s_min s <= s_max s)%N ->
  (forall x, in_range x (range_of s) -> ~ covered (ranges m) x) ->
  exists m' l1 l2, mapping_add m s = Ok m' /\ good_map lo m' /\
    mapping_list m = l1 ++ l2 /\ mapping_list m' = l1 ++ s :: l2.
Proof.
  intros G Hn Hs Hd. unfold mapping_add.
  assert (Hid : (lo <= s_min s < lo + 2^31)%N) by (destruct Hn; simpl in *; lia).
  assert (Hsep : forall t, In t (mapping_list m) -> (s_max t < s_min s)%N \/ (s_max s < s_min t)%N).
  { intros t Ht.
    destruct (proj1 (layout_slices _) (gm_layout _ _ G)) as [_ Hle]. rewrite Forall_forall in Hle.
    pose proof (Hle t Ht).
    destruct (N.lt_ge_cases (s_max t) (s_min s)); auto.
    destruct (N.lt_ge_cases (s_max s) (s_min t)); auto. exfalso.
    apply (Hd (N.max (s_min s) (s_min t))); unfold in_range; simpl.
    - lia.
    - exists (range_of t). split; [apply in_map; auto|]. split; simpl; lia. }
  assert (Hmk : forall t' l1 l2, wf t' -> mapping_list m = l1 ++ l2 -> elements t' = l1 ++ s :: l2 ->
     Forall (fun t => (s_min t < s_min s)%N) l1 -> Forall (fun t => (s_min s < s_min t)%N) l2 ->
     good_map lo (mk_mapping t' (mp_count m + 1))).
  { intros t' l1 l2 Hw E1 E2 F1 F2. constructor; auto; unfold ranges, mapping_list; simpl; try rewrite E2.
    - apply layout_slices. destruct (proj1 (layout_slices _) (gm_layout _ _ G)) as [S1 S2].
      rewrite E1 in S1, S2. apply Forall_app in S2 as [S2 S3].
      apply sorted_app in S1 as (T1 & T2 & T3).
      assert (A1 : forall t, In t l1 -> slt t s).
      { intros t Ht. rewrite Forall_forall in F1. pose proof (F1 t Ht). unfold slt.
        destruct (Hsep t) as [|]; auto; [rewrite E1; apply in_app_iff; auto|]. lia. }
      assert (A2 : forall t, In t l2 -> slt s t).
      { intros t Ht. rewrite Forall_forall in F2. pose proof (F2 t Ht). unfold slt.
        rewrite Forall_forall in S3. pose proof (S3 t Ht).
        destruct (Hsep t) as [|]; auto; [rewrite E1; apply in_app_iff; auto|]. lia. }
      split.
      + apply sorted_app. split; auto. split.
        * constructor; auto. apply Forall_forall; auto.
        * intros a b Ha [<-|Hb]; auto.
      + apply Forall_app; split; auto.
    - pose proof (gm_near _ _ G) as Hnr. unfold ranges in Hnr. rewrite E1, map_app in Hnr.
      rewrite map_app. simpl. apply Forall_app in Hnr as []. apply Forall_app; split; auto.
    - rewrite (gm_count _ _ G), E1, !app_length. simpl. lia.
    - apply (gm_lo _ _ G). }
  destruct (mapping_list m) as [|a0 l0] eqn:El.
  - assert (Ht : mp_tree m = Leaf) by (apply list_nil_tree; auto).
    unfold mapping_find. rewrite Ht. simpl.
    exists (mk_mapping (Node Black Leaf s Leaf) (mp_count m + 1)), [], []. split; auto.
    split; [|auto]. eapply (Hmk _ [] []); auto. exists 1. repeat econstructor.
  - assert (Hne : mp_tree m <> Leaf) by (rewrite <- list_nil_tree; congruence).
    rewrite <- El in *. clear El.
    destruct (find_spec lo m (s_min s) G ltac:(lia) Hne) as (z & t & Hf & Hr & Hz & Hb & Ha & Hland).
    rewrite Hf.
    destruct z as [p [|c lt t0 rt]]; [contradiction|]. unfold zelem in Hz; simpl in Hz. inversion Hz; subst t0. clear Hz.
    destruct Hland as [_ Hland].
    assert (El : mapping_list m = zbefore (p, Node c lt t rt) ++ t :: zafter (p, Node c lt t rt)).
    { unfold mapping_list. rewrite <- Hr. apply zelems; auto. }
    assert (Hneq : s_min t <> s_min s).
    { intros E. destruct (Hsep t) as [H|H]; [rewrite El; apply in_app_iff; simpl; auto| |]; [|lia].
      destruct (proj1 (layout_slices _) (gm_layout _ _ G)) as [_ Hle]. rewrite Forall_forall in Hle.
      assert (s_min t <= s_max t)%N by (apply Hle; fold (mapping_list m); rewrite El; apply in_app_iff; simpl; auto). lia. }
    assert (Hwf : wf (plug p (Node c lt t rt))).
    { change (plug p (Node c lt t rt)) with (zroot (p, Node c lt t rt)). rewrite Hr. apply (gm_wf _ _ G). }
    destruct (Z.eqb_spec (Z.of_N (s_min t) - Z.of_N (s_min s)) 0); [lia|].
    destruct Hland as [H|[[H ->]|[H ->]]]; [lia| |].
    + destruct (rbtree_set_right (mp_tree m) p c t lt _ s Hwf H) as (t' & T1 & T2 & T3).
      match goal with |- context[of_opt ?e] => replace e with (Some t') by (symmetry; exact T1) end.
      cbn [of_opt bind].
      exists (mk_mapping t' (mp_count m + 1)), (ctx_l p ++ elements lt ++ [t]), (ctx_r p).
      split; auto.
      assert (Q1 : mapping_list m = (ctx_l p ++ elements lt ++ [t]) ++ ctx_r p).
      { rewrite El. simpl. rewrite <- !app_assoc. simpl. auto. }
      assert (Q2 : elements t' = (ctx_l p ++ elements lt ++ [t]) ++ s :: ctx_r p).
      { rewrite T3, <- !app_assoc. auto. }
      split; [|split; auto]. apply (Hmk t' _ _ T2 Q1 Q2).
      * simpl in Hb. rewrite app_assoc. apply Forall_app; split; auto. constructor; auto. lia.
      * exact Ha.
    + destruct (rbtree_set_left (mp_tree m) p c t rt _ s Hwf H) as (t' & T1 & T2 & T3).
      match goal with |- context[of_opt ?e] => replace e with (Some t') by (symmetry; exact T1) end.
      cbn [of_opt bind].
      exists (mk_mapping t' (mp_count m + 1)), (ctx_l p), (t :: elements rt ++ ctx_r p).
      split; auto.
      assert (Q1 : mapping_list m = ctx_l p ++ t :: elements rt ++ ctx_r p).
      { rewrite El. simpl. rewrite app_nil_r. auto. }
      split; [|split; auto]. apply (Hmk t' _ _ T2 Q1 T3).
      * simpl in Hb. rewrite app_nil_r in Hb. auto.
      * constructor; auto. lia.
Qed.

Lemma ranges_perm m m' l1 l2 s : mapping_list m = l1 ++ l2 -> mapping_list m' = l1 ++ s :: l2 ->
  Permutation (mapping_list m') (s :: mapping_list m).
Proof. intros -> ->. symmetry. apply Permutation_middle. Qed.

(* --- gaps --- *)
Fixpoint gapsl (l : list (slice P)) (mn mx : N) : list (N * N) :=
  if (mn <=? mx)%N then
    match l with
    | [] => [(mn, mx)]
    | s :: t =>
        if (mn <? s_min s)%N then
          (mn, if (mx <? s_min s)%N then mx else (s_min s - 1)%N) :: gapsl t (s_max s + 1) mx
        else if slice_in s mn then gapsl t (s_max s + 1) mx
        else gapsl t mn mx
    end
  else [].

Lemma fill_gaps_list : forall fuel l z mn mx,
  (match z with
   | Some z => exists s, zelem z = Some s /\ l = s :: zafter z
   | None => l = []
   end) ->
  length l < fuel -> Forall (fun s => (s_min s <= s_max s /\ s_max s < u64_max)%N) l ->
  fill_gaps fuel z mn mx = Some (gapsl l mn mx).
Proof.
  induction fuel; intros l z mn mx Hz Hl Hb; [lia|].
  cbn [fill_gaps]. destruct z as [z|].
  - destruct Hz as (s & Hz & ->). rewrite Hz. cbn [gapsl].
    destruct (N.leb_spec mn mx); auto.
    inversion Hb; subst. rewrite u64_max_eq in *.
    assert (Ha : add64 (s_max s) 1 = (s_max s + 1)%N).
    { unfold add64. apply N.mod_small. change two64 with 18446744073709551616%N. lia. }
    rewrite Ha.
    assert (IH : forall mn', fill_gaps fuel (rbtree_next z) mn' mx = Some (gapsl (zafter z) mn' mx)).
    { intros mn'. apply IHfuel; auto; [|simpl in Hl; lia].
      pose proof (rbtree_next_spec z s Hz) as Hn. destruct (rbtree_next z) as [z'|]; auto.
      destruct Hn as (_ & y & Hy & _ & E). exists y. auto. }
    rewrite !IH. cbn [obind].
    destruct (N.ltb_spec mn (s_min s)); auto.
    rewrite sub64_ge; auto. change (2^64)%N with 18446744073709551616%N. lia.
    destruct (slice_in s mn); auto.
  - subst l. cbn [gapsl]. destruct (N.leb_spec mn mx); auto.
Qed.

Lemma gapsl_spec : forall l mn mx,
  StronglySorted slt l -> Forall (fun s => (s_min s <= s_max s)%N) l ->
  layout (gapsl l mn mx) /\
  Forall (fun g => (mn <= fst g /\ snd g <= mx)%N) (gapsl l mn mx) /\
  (forall g s, In g (gapsl l mn mx) -> In s l -> (snd g < s_min s \/ s_max s < fst g)%N) /\
  (forall x, (mn <= x <= mx)%N -> covered (gapsl l mn mx) x \/ covered (map range_of l) x).
Proof.
  induction l as [|s l IH]; intros mn mx Hs Hle.
  - cbn [gapsl]. destruct (N.leb_spec mn mx).
    + split; [split; repeat constructor; simpl; auto|].
      split; [constructor; simpl; auto; lia|]. split; [intros ? ? ? []|].
      intros x Hx. left. exists (mn, mx). split; [simpl; auto|]. split; simpl; lia.
    + split; [split; constructor|]. split; [constructor|]. split; [intros ? ? []|].
      intros x Hx. lia.
  - inversion Hs; inversion Hle; subst.
    assert (Hl : forall t, In t l -> (s_max s < s_min t)%N).
    { rewrite Forall_forall in H2. intros; apply H2; auto. }
    cbn [gapsl].
    destruct (N.leb_spec mn mx).
    2:{ split; [split; constructor|]. split; [constructor|]. split; [intros ? ? []|]. intros; lia. }
    destruct (N.ltb_spec mn (s_min s)) as [Hlt|Hge].
    + destruct (IH (s_max s + 1)%N mx H1 H6) as ((A1 & A1') & A2 & A3 & A4).
      set (g := (mn, if (mx <? s_min s)%N then mx else (s_min s - 1)%N)).
      assert (Hg : (fst g = mn /\ mn <= snd g /\ snd g <= mx /\ snd g < s_min s)%N).
      { unfold g; simpl. destruct (N.ltb_spec mx (s_min s)); lia. }
      rewrite Forall_forall in A2.
      split; [split|split; [|split]].
      * constructor; auto. apply Forall_forall. intros h Hh. apply A2 in Hh. lia.
      * constructor; auto. lia.
      * constructor; [lia|]. apply Forall_forall. intros h Hh. apply A2 in Hh. lia.
      * intros h t [<-|Hh] [<-|Ht]; auto; try lia.
        -- apply Hl in Ht. lia.
        -- apply A2 in Hh. lia.
      * intros x Hx. destruct (N.lt_ge_cases x (s_min s)).
        -- left. exists g. split; [simpl; auto|]. unfold in_range. unfold g; simpl.
           destruct (N.ltb_spec mx (s_min s)); lia.
        -- destruct (N.le_gt_cases x (s_max s)).
           ++ right. exists (range_of s). split; [simpl; auto|]. split; simpl; lia.
           ++ destruct (A4 x ltac:(lia)) as [(r & B1 & B2)|(r & B1 & B2)].
              ** left. exists r. split; simpl; auto.
              ** right. exists r. split; simpl; auto.
    + unfold slice_in. destruct (N.leb_spec (s_min s) mn); [|lia]. simpl.
      destruct (N.leb_spec mn (s_max s)).
      * destruct (IH (s_max s + 1)%N mx H1 H6) as (A1 & A2 & A3 & A4).
        split; auto. split; [|split].
        -- eapply Forall_impl; [|exact A2]. simpl. intros; lia.
        -- intros h t Hh [<-|Ht]; auto. rewrite Forall_forall in A2. apply A2 in Hh. lia.
        -- intros x Hx. destruct (N.le_gt_cases x (s_max s)).
           ++ right. exists (range_of s). split; [simpl; auto|]. split; simpl; lia.
           ++ destruct (A4 x ltac:(lia)) as [(r & B1 & B2)|(r & B1 & B2)];
              [left|right]; exists r; split; simpl; auto.
      * destruct (IH mn mx H1 H6) as (A1 & A2 & A3 & A4).
        split; auto. split; auto. split.
        -- intros h t Hh [<-|Ht]; auto. rewrite Forall_forall in A2. apply A2 in Hh. lia.
        -- intros x Hx. destruct (A4 x Hx) as [(r & B1 & B2)|(r & B1 & B2)];
              [left|right]; exists r; split; simpl; auto.
Qed.

Definition mk_new (g : N * N) : slice P := mk_slice (fst g) (snd g) (fresh (fst g) (snd g)).

Lemma create_all_spec lo : forall gaps m, good_map lo m ->
  layout gaps -> Forall (near lo) gaps ->
  (forall g x, In g gaps -> in_range x g -> ~ covered (ranges m) x) ->
  exists m', create_all fresh m gaps = Ok m' /\ good_map lo m' /\
    Permutation (mapping_list m') (map mk_new gaps ++ mapping_list m).
Proof.
  induction gaps as [|[mn mx] gaps IH]; intros m G HL Hn Hd; simpl.
  - exists m. auto.
  - destruct HL as [HS HB]. inversion HS; inversion HB; inversion Hn; subst.
    unfold engine_create.
    destruct (add_spec lo m (mk_slice mn mx (fresh mn mx)) G) as (m1 & l1 & l2 & A1 & A2 & A3 & A4); auto.
    { intros x Hx. apply (Hd (mn, mx)); simpl; auto. }
    rewrite A1. cbn [bind].
    pose proof (ranges_perm m m1 l1 l2 _ A3 A4) as Hp.
    destruct (IH m1) as (m' & B1 & B2 & B3); auto.
    { split; auto. }
    { intros g x Hg Hx (r & Hr & Hxr). unfold ranges in Hr. apply in_map_iff in Hr as (t & <- & Ht).
      eapply Permutation_in in Ht; [|exact Hp]. destruct Ht as [<-|Ht].
      - rewrite Forall_forall in H2. apply H2 in Hg. destruct Hx, Hxr. simpl in *. lia.
      - apply (Hd g x); simpl; auto. exists (range_of t). split; auto. apply in_map; auto. }
    exists m'. split; auto. split; auto.
    rewrite B3, Hp. unfold mk_new at 2; simpl. symmetry. apply Permutation_middle.
Qed.

Lemma gapsl_after mn mx l : (mx < mn)%N -> gapsl l mn mx = [].
Proof. intros L. destruct l; cbn [gapsl]; destruct (N.leb_spec mn mx); auto; lia. Qed.
(* nothing there: one gap *)
Lemma gapsl_free mn mx : (mn <= mx)%N -> forall l, Forall (fun s => (s_min s <= s_max s)%N) l ->
  (forall s, In s l -> s_max s < mn \/ mx < s_min s)%N -> gapsl l mn mx = [(mn, mx)].
Proof.
  intros L. induction l as [|s l IH]; intros F H; cbn [gapsl]; destruct (N.leb_spec mn mx); try lia; auto.
  inversion F; subst. destruct (H s (or_introl eq_refl)) as [E|E].
  - destruct (N.ltb_spec mn (s_min s)); [lia|]. unfold slice_in. destruct (N.leb_spec mn (s_max s)); [lia|].
    rewrite andb_false_r. apply IH; auto. intros t Ht. apply H. simpl. auto.
  - destruct (N.ltb_spec mn (s_min s)); [|lia]. destruct (N.ltb_spec mx (s_min s)); [|lia].
    rewrite gapsl_after by lia. auto.
Qed.
Lemma fill_spec_more lo m mn mx : good_map lo m -> near lo (mn, mx) -> (mn <= mx)%N ->
  exists m' new, engine_fill fresh m mn mx = Ok m' /\ good_map lo m' /\
    Permutation (mapping_list m') (map mk_new new ++ mapping_list m) /\
    Forall (fun g => (mn <= fst g /\ snd g <= mx)%N) new /\
    (forall x, (mn <= x <= mx)%N -> covered (ranges m') x) /\
    ((forall x, (mn <= x <= mx)%N -> ~ covered (ranges m) x) -> new = [(mn, mx)]).
Proof.
  intros G Hn Hle. unfold engine_fill.
  destruct (N.ltb_spec mx mn); [lia|]. clear H.
  destruct (mp_count m =? 0)%N eqn:Ec.
  - apply (count_zero lo m G) in Ec. apply list_nil_tree in Ec.
    unfold engine_create.
    destruct (add_spec lo m (mk_slice mn mx (fresh mn mx)) G) as (m1 & l1 & l2 & A1 & A2 & A3 & A4); auto.
    { intros x _ (r & Hr & _). unfold ranges in Hr. rewrite Ec in Hr. contradiction. }
    exists m1, [(mn, mx)]. split; auto. split; auto.
    rewrite Ec in A3. symmetry in A3. apply app_eq_nil in A3 as [-> ->]. simpl in A4.
    rewrite Ec, A4. split; auto. split; [constructor; simpl; auto; lia|].
    split; [|auto]. intros x Hx. exists (mn, mx). unfold ranges. rewrite A4. split; [simpl; auto|]. split; simpl; lia.
  - assert (Hne : mp_tree m <> Leaf).
    { intros H. apply (count_zero lo m G) in H. congruence. }
    destruct Hn as [Hn1 Hn2]; simpl in Hn1, Hn2.
    destruct (seek_spec lo m mn G ltac:(lia) Hne) as (z & s & Hs & Hr & Hz & Hb & Ha & Hor).
    rewrite Hs. cbn [bind].
    destruct (zip_sorted m z s (gm_layout _ _ G) Hr Hz) as (E & E0 & E1 & E2 & E3 & E4).
    assert (Hmx : Forall (fun s => (s_min s <= s_max s /\ s_max s < u64_max)%N) (s :: zafter z)).
    { pose proof (gm_near _ _ G) as Hnr. unfold ranges in Hnr. rewrite E, map_app in Hnr.
      apply Forall_app in Hnr as [_ Hnr]. rewrite Forall_map in Hnr.
      assert (F : Forall (fun t => (s_min t <= s_max t)%N) (s :: zafter z)) by (constructor; auto).
      pose proof (gm_lo _ _ G). rewrite Forall_forall in *. intros t Ht.
      pose proof (Hnr t Ht). pose proof (F t Ht). unfold near in H0. simpl in H0. lia. }
    rewrite (fill_gaps_list _ (s :: zafter z)); eauto.
    2:{ rewrite E, app_length. simpl. lia. }
    cbn [of_opt bind].
    assert (Hso : StronglySorted slt (s :: zafter z)).
    { destruct (proj1 (layout_slices _) (gm_layout _ _ G)) as [S1 _]. fold (mapping_list m) in S1.
      rewrite E in S1. apply sorted_app in S1. tauto. }
    destruct (gapsl_spec (s :: zafter z) mn mx Hso) as (A1 & A2 & A3 & A4).
    { eapply Forall_impl; [|exact Hmx]. simpl; tauto. }
    destruct (create_all_spec lo (gapsl (s :: zafter z) mn mx) m G A1) as (m' & B1 & B2 & B3).
    { eapply Forall_impl; [|exact A2]. unfold near. simpl; intros. lia. }
    { intros g x Hg Hx (r & Hrr & Hxr). unfold ranges in Hrr. apply in_map_iff in Hrr as (t & <- & Ht).
      rewrite E in Ht. destruct Hx, Hxr; simpl in *. apply in_app_iff in Ht as [Ht|Ht].
      - rewrite Forall_forall in Hb, A2. apply Hb in Ht. apply A2 in Hg. lia.
      - pose proof (A3 g t Hg Ht). lia. }
    exists m', (gapsl (s :: zafter z) mn mx). split; auto. split; auto. split; auto. split; auto.
    split.
    2:{ intros HN. apply gapsl_free; auto.
        intros t Ht. rewrite Forall_forall in Hmx. destruct (Hmx t Ht) as [Lt _].
        destruct (N.lt_ge_cases (s_max t) mn); auto. destruct (N.lt_ge_cases mx (s_min t)); auto. exfalso.
        apply (HN (N.max mn (s_min t))); [lia|]. exists (range_of t). split.
        - unfold ranges. apply in_map. rewrite E. apply in_app_iff. auto.
        - split; simpl; lia. }
    intros x Hx. destruct (A4 x Hx) as [(r & C1 & C2)|(r & C1 & C2)].
    + exists r. split; auto. unfold ranges. apply in_map_iff. exists (mk_new r).
      split; [destruct r; reflexivity|]. eapply Permutation_in; [symmetry; exact B3|].
      apply in_app_iff. left. apply in_map; auto.
    + apply in_map_iff in C1 as (t & <- & Ht). exists (range_of t). split; auto.
      unfold ranges. apply in_map. eapply Permutation_in; [symmetry; exact B3|].
      apply in_app_iff. right. rewrite E. apply in_app_iff; auto.
Qed.
Lemma fill_spec lo m mn mx : good_map lo m -> near lo (mn, mx) -> (mn <= mx)%N ->
  exists m' new, engine_fill fresh m mn mx = Ok m' /\ good_map lo m' /\
    Permutation (mapping_list m') (map mk_new new ++ mapping_list m) /\
    Forall (fun g => (mn <= fst g /\ snd g <= mx)%N) new /\
    (forall x, (mn <= x <= mx)%N -> covered (ranges m') x).
Proof.
  intros G Hn L. destruct (fill_spec_more lo m mn mx G Hn L) as (m' & new & A & B & C & D & E & _). eauto 8.
Qed.
End M.
