From Coq Require Import NArith ZArith List Bool Sorted Lia Arith.
Import ListNotations.
From Verif Require Import Model.Base Model.Event Model.Rbtree Model.Memtable Model.Mapping Model.Merge
  Model.PartIter Model.Scan Model.Faulty Spec.Order Spec.Merged Spec.Files Spec.Layout Spec.View Spec.Faulty
  Proof.OrderL Proof.RbtreeL Proof.MemtableL Proof.MergeL Proof.PartIterL Proof.MappingL Proof.ScanL
  Proof.FaultyL Proof.FaultyS Proof.FaultyM.
Local Arguments N.pow : simpl never.

Section Chain.
Variable bad : N -> nat -> bool.
Variable lo : N.
Variable m : mapping part.
Hypothesis G : good_map lo m.
Hypothesis Hparts : forall s, In s (mapping_list m) -> slice_ok lo s /\ reads s None.
Variable key : option event.
Hypothesis Hkey : match key with
  | None => (lo + 2^31 < 2^63)%N
  | Some k => good lo k /\ forall s, In s (mapping_list m) -> reads s key
  end.

Notation pvr := (pvr bad key).
Definition wt (l : list (slice part)) : nat :=
  list_sum (map (fun s => S (S (length (pvr s))) + regions_of (s_data s)) l).
Lemma wt_cons s l : wt (s :: l) = S (S (length (pvr s))) + regions_of (s_data s) + wt l.
Proof. reflexivity. Qed.
Lemma wt_app a b : wt (a ++ b) = wt a + wt b.
Proof. unfold wt. rewrite map_app, list_sum_app. auto. Qed.

(* the events that come after the present position *)
Definition follow (c : fcursor) (l : list event) (w : nat) : Prop :=
  match c with
  | None => l = [] /\ w = 0
  | Some (s, fm) => exists pre post l1, mapping_list m = pre ++ s :: post /\ fm_ok fm /\
      Forall (fun t => starts_in key t = false) post /\
      comes (fpending bad (s_min s) fm) l1 /\
      l = l1 ++ flat_map pvr post /\ w = S (length l1) + fahead fm + wt post
  end.

Lemma gte_after pre s post : mapping_list m = pre ++ s :: post ->
  match post with
  | [] => mapping_gte m (add64 (s_max s) 1) = Ok None
  | t :: _ => exists z, mapping_gte m (add64 (s_max s) 1) = Ok (Some z) /\ zelem z = Some t
  end.
Proof.
  intros Hl.
  assert (Hin : In s (mapping_list m)) by (rewrite Hl; apply in_app_iff; simpl; auto).
  pose proof (gm_near _ _ G) as Hn. rewrite Forall_forall in Hn.
  destruct (Hn (range_of s)) as [N1 N2]; [apply in_map; auto|]. unfold range_of in *; cbn [fst snd] in N1, N2.
  pose proof (gm_lo _ _ G) as Hlo. rewrite u64_max_eq in Hlo.
  destruct (proj1 (layout_slices _) (gm_layout _ _ G)) as [S1 S2]. rewrite Forall_forall in S2.
  pose proof (S2 s Hin) as Hss.
  assert (Ead : add64 (s_max s) 1 = (s_max s + 1)%N).
  { unfold add64. apply N.mod_small. unfold two64. lia. }
  rewrite Ead.
  pose proof (gte_first lo m (s_max s + 1)%N G ltac:(lia)) as Hg.
  rewrite Hl in S1. apply sorted_app in S1 as (Sa & Sb & Sc). inversion Sb; subst.
  destruct (mapping_gte m (s_max s + 1)) as [[z|]| |] eqn:Eg; try contradiction.
  - destruct Hg as (s' & Hr & Hz & Hm & Hb & Hl').
    destruct post as [|t post].
    { exfalso. rewrite Hl in Hl'.
      assert (In s' (pre ++ [s])) by (rewrite Hl'; apply in_app_iff; simpl; auto).
      apply in_app_iff in H as [H|[<-|[]]]; [|lia].
      specialize (Sc s' s H ltac:(simpl; auto)). unfold slt in Sc. lia. }
    assert (E : pre ++ [s] = zbefore z /\ t = s' /\ post = zafter z).
    { apply (split_first (fun y => (s_max s + 1 <= s_max y)%N)).
      - rewrite <- app_assoc. simpl. congruence.
      - apply Forall_app. split; [|constructor; auto; lia]. rewrite Forall_forall. intros y Hy.
        specialize (Sc y s Hy ltac:(simpl; auto)). unfold slt in Sc. lia.
      - eapply Forall_impl; [|exact Hb]. intros; simpl in *; lia.
      - inversion H2; subst. unfold slt in H3.
        assert (In t (mapping_list m)) by (rewrite Hl; apply in_app_iff; simpl; auto).
        specialize (S2 t H). simpl in S2. lia.
      - auto. }
    destruct E as (E1 & -> & E3). exists z. auto.
  - rewrite Hl in Hg. apply Forall_app in Hg as [_ Hg]. inversion Hg; subst.
    destruct post as [|t post]; auto. exfalso. inversion H4; inversion H2; subst.
    assert (In t (mapping_list m)) by (rewrite Hl; apply in_app_iff; simpl; auto).
    specialize (S2 t H). unfold slt in *. simpl in *. lia.
Qed.

Definition step_of (l : list event) (c : fcursor) (ok : bool) (l' : list event) : Prop :=
  if ok then l = match fcursor_at c with Some e => e :: l' | None => l' end else l = l'.

Lemma open_after_f pre s post : mapping_list m = pre ++ s :: post ->
  Forall (fun t => starts_in key t = false) post ->
  exists c ok l' w', fcursor_open_part bad m (add64 (s_max s) 1) None = Ok (c, ok) /\
    follow c l' w' /\ w' <= wt post /\ step_of (flat_map pvr post) c ok l'.
Proof.
  intros Hl Hst. pose proof (gte_after pre s post Hl) as Hg.
  unfold fcursor_open_part, engine_lock.
  destruct post as [|t post].
  - rewrite Hg. cbn [bind snd]. exists None, true, [], 0. split; auto. split; [split; auto|]. split; [lia|]. reflexivity.
  - destruct Hg as (z & -> & Hz). cbn [bind snd]. rewrite Hz.
    assert (Hin : In t (mapping_list m)) by (rewrite Hl; apply in_app_iff; simpl; auto).
    apply Forall_cons_iff in Hst as [St Hst].
    destruct (Hparts t Hin) as [P1 P2].
    destruct (slice_open bad lo key None t P1 P2 I (or_intror (conj eq_refl St))) as (fm & ok & E & O & A & H1 & H2).
    rewrite E. cbn [bind]. rewrite wt_cons. cbn [flat_map].
    assert (Hl2 : mapping_list m = (pre ++ [s]) ++ t :: post) by (rewrite <- app_assoc; auto).
    destruct ok.
    + destruct (H1 eq_refl) as (mg & M1 & M2 & M3). cbn [sel] in M3.
      destruct (pvr t) as [|e l] eqn:Ep; destruct M3 as [M3 M4].
      * exists (Some (t, fm)), true, (flat_map pvr post), (1 + fahead fm + wt post). split; auto. split.
        { exists (pre ++ [s]), post, []. rewrite M2. auto 10. }
        split; [cbn [length]; lia|]. cbn [step_of fcursor_at]. rewrite <- M1, M3. auto.
      * exists (Some (t, fm)), true, (l ++ flat_map pvr post), (S (length l) + fahead fm + wt post). split; auto. split.
        { exists (pre ++ [s]), post, l. rewrite M2. auto 10. }
        split; [cbn [length]; lia|]. cbn [step_of fcursor_at]. rewrite <- M1, M3. auto.
    + destruct (H2 eq_refl) as [M1 M2].
      exists (Some (t, fm)), false, (pvr t ++ flat_map pvr post), (S (length (pvr t)) + fahead fm + wt post).
      split; auto. split; [exists (pre ++ [s]), post, (pvr t); auto 10|]. split; [lia|]. reflexivity.
Qed.

Lemma next_f c l w : follow c l w -> c <> None ->
  exists c' ok l' w', fcursor_next bad m c = Ok (c', ok) /\ follow c' l' w' /\ w' < w /\ step_of l c' ok l'.
Proof.
  destruct c as [[s fm]|]; [|congruence]. intros (pre & post & l1 & Hl & O & St & Hc & -> & ->) _.
  cbn [fcursor_next].
  rewrite <- (pending_init (fpending bad (s_min s) fm)) in Hc.
  pose proof (fnext_spec bad (s_min s) fm (merge_init (fpending bad (s_min s) fm)) O (eq_sym (pending_init _))) as H.
  destruct (fmerge_next bad (s_min s) fm) as [fm' ok]. destruct H as (O' & H1 & H2).
  destruct ok; cbn [negb].
  - destruct (H1 eq_refl) as (A1 & A2 & A3). apply comes_step in Hc as [B1 B2].
    rewrite A1. destruct l1 as [|e l1]; rewrite B1.
    + destruct (open_after_f pre s post Hl St) as (c & ok & l' & w' & E & F & W & S).
      exists c, ok, l', w'. split; auto. split; auto. split; [cbn [length]; lia|]. auto.
    + exists (Some (s, fm')), true, (l1 ++ flat_map pvr post), (S (length l1) + fahead fm' + wt post).
      split; auto. split; [exists pre, post, l1; rewrite A2; auto 10|]. split; [cbn [length]; lia|].
      cbn [step_of fcursor_at]. rewrite A1, B1. auto.
  - destruct (H2 eq_refl) as (A1 & A2). rewrite pending_init in A1, Hc.
    exists (Some (s, fm')), false, (l1 ++ flat_map pvr post), (S (length l1) + fahead fm' + wt post).
    split; auto. split; [exists pre, post, l1; rewrite A1; auto 10|]. split; [lia|]. reflexivity.
Qed.

(* skipping: at a live event, at the end, or interrupted; l0 counts the present event *)
Lemma skip_f2 : forall fuel c l w, follow c l w -> w < fuel ->
  exists c' ok l' w', fcursor_skip bad fuel m c = Ok (Some (c', ok)) /\ follow c' l' w' /\ w' <= w /\
    (let l0 := match fcursor_at c with Some e => e :: l | None => l end in
     if ok then match c' with
                | None => filter live l0 = [] /\ l' = []
                | Some _ => exists e, fcursor_at c' = Some e /\ live e = true /\ filter live l0 = e :: filter live l'
                end
     else filter live l0 = filter live l' /\ c' <> None).
Proof.
  induction fuel; intros c l w Hc Hw; [lia|]. cbn [fcursor_skip].
  destruct c as [sm|]; [|destruct Hc as [-> ->]; exists None, true, [], 0; cbn; auto 10].
  assert (Hcase : (exists e, fcursor_at (Some sm) = Some e /\ live e = true) \/
     (match fcursor_at (Some sm) with Some e => negb (event_is_delete e) | None => false end = false /\
      filter live (match fcursor_at (Some sm) with Some e => e :: l | None => l end) = filter live l)).
  { destruct (fcursor_at (Some sm)) as [e|]; auto. destruct (live e) eqn:E; [left; eauto|]. right.
    split; [exact E|]. cbn [filter]. rewrite E. auto. }
  destruct Hcase as [(e & Ee & El)|[E1 E2]].
  - rewrite Ee. assert (X : negb (event_is_delete e) = true) by exact El. rewrite X.
    exists (Some sm), true, l, w. split; auto. split; auto. split; auto. cbv zeta iota.
    exists e. split; auto. split; auto. cbn [filter]. rewrite El. auto.
  - rewrite E1. cbv zeta. rewrite E2.
    destruct (next_f (Some sm) l w Hc) as (c1 & ok & l1 & w1 & Hn & Hc1 & Hw1 & Hs); [congruence|].
    rewrite Hn. cbn [bind]. destruct ok; cbn [step_of] in Hs.
    + destruct (IHfuel c1 l1 w1 Hc1 ltac:(lia)) as (c' & ok & l' & w' & A & B & C & D).
      exists c', ok, l', w'. split; auto. split; auto. split; [lia|]. cbv zeta in D. rewrite <- Hs in D. auto.
    + exists c1, false, l1, w1. split; auto. split; auto. split; [lia|]. subst l1. split; auto.
      intros ->. destruct Hc1 as [-> ->].
      destruct sm as [s fm]. cbn [fcursor_next] in Hn.
      destruct (fmerge_next bad (s_min s) fm) as [fm' [|]]; cbn [negb] in Hn; [|discriminate].
      destruct (fmerge_at fm'); [discriminate|]. unfold fcursor_open_part in Hn.
      destruct (engine_lock part_new m 1 (add64 (s_max s) 1) true false) as [r| |]; try discriminate.
      cbn [bind] in Hn. destruct (snd r) as [z|]; [|discriminate]. destruct (zelem z); [|discriminate].
      destruct (fpart_open bad s0 None) as [[? ?]| |]; discriminate.
Qed.

Lemma open_part_some mn k0 c : fcursor_open_part bad m mn k0 = Ok (c, false) -> c <> None.
Proof.
  intros Hn ->. unfold fcursor_open_part in Hn.
  destruct (engine_lock part_new m 1 mn true false) as [r| |]; try discriminate.
  cbn [bind] in Hn. destruct (snd r) as [z|]; [|discriminate]. destruct (zelem z) as [s|]; [|discriminate].
  destruct (fpart_open bad s k0) as [[? ?]| |]; discriminate.
Qed.
Lemma next_some c c' : fcursor_next bad m c = Ok (c', false) -> c' <> None.
Proof.
  destruct c as [[s fm]|]; cbn [fcursor_next]; [|discriminate].
  destruct (fmerge_next bad (s_min s) fm) as [fm' [|]]; cbn [negb]; [|intros H; injection H as <-; discriminate].
  destruct (fmerge_at fm'); [discriminate|]. apply open_part_some.
Qed.

Lemma monotone_next_f fuel c l w : follow c l w -> w <= fuel -> c <> None ->
  exists c' rc l' w', fmonotone_next bad fuel m c = Ok (Some (c', rc)) /\ follow c' l' w' /\ w' < w /\
    ((rc = 0%Z /\ filter live l = []) \/
     (rc = 1%Z /\ c' <> None /\ exists e, fmonotone_read c' = Some e /\ filter live l = e :: filter live l') \/
     (rc = (-1)%Z /\ c' <> None /\ filter live l = filter live l')).
Proof.
  intros Hc Hw Hn. unfold fmonotone_next.
  destruct (next_f c l w Hc Hn) as (c1 & ok & l1 & w1 & En & Hc1 & Hw1 & Hs). rewrite En. cbn [bind].
  destruct ok; cbn [negb step_of] in *.
  - destruct (skip_f2 fuel c1 l1 w1 Hc1 ltac:(lia)) as (c' & ok & l' & w' & A & B & C & D).
    cbv zeta in D. rewrite <- Hs in D. rewrite A. cbn [bind].
    destruct ok.
    + destruct c' as [sm|].
      * exists (Some sm), 1%Z, l', w'. split; auto. split; auto. split; [lia|]. right. left. split; auto. split; [discriminate|].
        destruct D as (e & D1 & D2 & D3). exists e. split; auto. unfold fmonotone_read. rewrite D1.
        unfold live in D2. destruct (event_is_delete e); auto; discriminate.
      * exists None, 0%Z, l', w'. split; auto. split; auto. split; [lia|]. left. tauto.
    + exists c', (-1)%Z, l', w'. split; auto. split; auto. split; [lia|]. right. right. tauto.
  - exists c1, (-1)%Z, l1, w1. split; auto. split; auto. split; [lia|]. right. right. subst l1. split; auto.
    split; auto. eapply next_some; eauto.
Qed.

Lemma fread_f fuel : forall n c l w, follow c l w -> w <= n -> w <= fuel -> c <> None ->
  exists tr, fread bad n fuel m c = Ok (Some tr) /\ saw tr = filter live l.
Proof.
  induction n; intros c l w Hc Hn Hf Hs.
  { destruct c as [[s fm]|]; [|congruence]. destruct Hc as (? & ? & ? & _ & _ & _ & _ & _ & ->). lia. }
  cbn [fread]. destruct (monotone_next_f fuel c l w Hc Hf Hs) as (c' & rc & l' & w' & E & Hc' & Hw & H).
  rewrite E. cbn [bind]. destruct H as [[-> H]|[(-> & Hs' & e & He & H)|(-> & Hs' & H)]].
  - cbn. exists []. rewrite H. auto.
  - cbn [Z.eqb]. change (1 =? 0)%Z with false. change (1 =? 1)%Z with true. cbv iota zeta.
    destruct (IHn c' l' w' Hc' ltac:(lia) ltac:(lia) Hs') as (tr & -> & T). cbn [bind].
    exists (Saw e :: tr). rewrite He. split; auto. cbn [saw]. rewrite T, H. auto.
  - change (-1 =? 0)%Z with false. change (-1 =? 1)%Z with false. cbv iota zeta.
    destruct (IHn c' l' w' Hc' ltac:(lia) ltac:(lia) Hs') as (tr & -> & T). cbn [bind].
    exists (Failed :: tr). split; auto. cbn [saw]. rewrite T, H. auto.
Qed.

(* --- where a cursor starts --- *)
Definition start_id : N := match key with Some k => ev_id k | None => 0%N end.

Lemma gte_start :
  (exists z s, mapping_gte m start_id = Ok (Some z) /\ zelem z = Some s /\
     mapping_list m = zbefore z ++ s :: zafter z /\
     (start_id <= s_max s)%N /\ Forall (fun t => (s_max t < start_id)%N) (zbefore z)) \/
  (mapping_gte m start_id = Ok None /\ Forall (fun t => (s_max t < start_id)%N) (mapping_list m)).
Proof.
  unfold start_id. destruct key as [k|].
  - destruct Hkey as [[Ho [W1 W2]] _].
    pose proof (gte_first lo m (ev_id k) G ltac:(lia)) as H.
    destruct (mapping_gte m (ev_id k)) as [[z|]| |]; try contradiction; auto.
    destruct H as (s & A & B & C & D & E). left. exists z, s. auto.
  - pose proof (gte_low lo m G 0 ltac:(lia) ltac:(lia)) as H.
    destruct (mapping_list m) as [|s post] eqn:El.
    + right. split; auto.
    + destruct H as (z & A & B & C & D). left. exists z, s. split; auto. split; auto.
      rewrite C. split; [|split; [lia|constructor]]. simpl. rewrite <- El. unfold mapping_list. rewrite <- D.
      rewrite (zelems z s B), C. auto.
Qed.

Lemma pvr_in s e : In s (mapping_list m) -> In e (pvr s) ->
  (s_min s <= ev_id e <= s_max s)%N /\ newest (contents (remains bad key s)) e.
Proof.
  intros Hs He. destruct (Hparts s Hs) as [(P1 & _ & P5) _].
  pose proof (remains_ok bad lo key s P1) as CR.
  pose proof (pview_merged lo _ CR) as M. destruct CR as [C1 C2].
  assert (Hn : newest (contents (remains bad key s)) e) by (apply (merged_newest _ (pview (remains bad key s))); auto).
  split; auto. rewrite Forall_forall in P5. apply P5.
  eapply remains_in. destruct Hn as (pre & l & post & E & Hl & _). rewrite E. apply in_concat. exists l. split; [|exact Hl].
  apply in_app_iff; simpl; auto.
Qed.

Definition total : list event := sel key (flat_map pvr (mapping_list m)).

(* a cursor that was opened is at the first event, or somewhere before it *)
Lemma open_f : exists c ok l w, fcursor_open bad m key = Ok (c, ok) /\
  (ok = true -> follow c l w /\ w <= wt (mapping_list m) /\
     total = match fcursor_at c with Some e => e :: l | None => l end).
Proof.
  unfold fcursor_open. fold start_id. unfold fcursor_open_part, engine_lock.
  destruct gte_start as [(z & s & Hg & Hz & Hl & Hm & Hb)|(Hg & Hb)].
  - rewrite Hg. cbn [bind snd]. rewrite Hz.
    assert (Hin : In s (mapping_list m)) by (rewrite Hl; apply in_app_iff; simpl; auto).
    destruct (Hparts s Hin) as [P1 P2].
    assert (HR : reads s key) by (destruct key; [apply Hkey; auto|auto]).
    assert (HK : match key with Some k => good lo k | None => True end) by (destruct key; [apply Hkey|auto]).
    destruct (slice_open bad lo key key s P1 HR HK (or_introl eq_refl)) as (fm & ok & E & O & A & H1 & _).
    rewrite E. cbn [bind]. destruct ok; cbn [negb].
    2:{ exists (Some (s, fm)), false, [], 0. split; auto. discriminate. }
    assert (St : Forall (fun t => starts_in key t = false) (zafter z)).
    { rewrite Forall_forall. intros t Ht. unfold starts_in, start_id in *. destruct key as [k|]; auto.
      apply N.leb_gt. destruct (proj1 (layout_slices _) (gm_layout _ _ G)) as [S1 _].
      rewrite Hl in S1. apply sorted_app in S1 as (_ & S1 & _). inversion S1; subst.
      rewrite Forall_forall in H3. specialize (H3 t Ht). unfold slt in H3. lia. }
    assert (Hall : total = sel key (pvr s) ++ flat_map pvr (zafter z)).
    { unfold total. destruct key as [k|] eqn:Ekey.
      - rewrite Hl at 1. rewrite flat_map_app. cbn [flat_map sel]. rewrite !filter_app.
        rewrite <- Ekey in *.
        rewrite (filter_none _ (flat_map pvr (zbefore z))), (filter_all _ (flat_map pvr (zafter z))); auto.
        + rewrite Forall_forall. intros e He. apply in_flat_map in He as (t & Ht & He).
          apply geb_true, ev_lt_le, ids_ev_lt.
          assert (Hint : In t (mapping_list m)) by (rewrite Hl; apply in_app_iff; simpl; auto).
          destruct (pvr_in t e Hint He) as [[Hr _] _].
          rewrite Forall_forall in St. specialize (St t Ht). unfold starts_in in St. rewrite Ekey in St.
          apply N.leb_gt in St. lia.
        + rewrite Forall_forall. intros e He. apply in_flat_map in He as (t & Ht & He).
          apply geb_false, ids_ev_lt.
          assert (Hint : In t (mapping_list m)) by (rewrite Hl; apply in_app_iff; simpl; auto).
          destruct (pvr_in t e Hint He) as [[_ Hr] _].
          rewrite Forall_forall in Hb. specialize (Hb t Ht). unfold start_id in Hb. rewrite Ekey in Hb. lia.
      - simpl sel. unfold start_id in Hb. rewrite Ekey in Hb.
        assert (Hb0 : zbefore z = []) by (destruct (zbefore z); auto; inversion Hb; lia).
        rewrite Hl at 1. rewrite Hb0. auto. }
    destruct (H1 eq_refl) as (mg & M1 & M2 & M3). rewrite <- M1.
    assert (Hlen : length (sel key (pvr s)) <= length (pvr s)) by (destruct key; simpl; auto; apply filter_length_le).
    assert (W : wt (mapping_list m) = wt (zbefore z) + (S (S (length (pvr s))) + regions_of (s_data s) + wt (zafter z)))
      by (rewrite Hl at 1; rewrite wt_app, wt_cons; auto).
    rewrite Hall, W.
    destruct (sel key (pvr s)) as [|e l]; destruct M3 as [M3 M4]; rewrite M3; cbn [length] in Hlen.
    + assert (F : follow (Some (s, fm)) (flat_map pvr (zafter z)) (1 + fahead fm + wt (zafter z))).
      { exists (zbefore z), (zafter z), []. rewrite M2. auto 10. }
      destruct (next_f _ _ _ F) as (c' & ok & l' & w' & En & F' & W' & S'); [discriminate|].
      rewrite En. exists c', ok, l', w'. split; auto. intros ->. split; auto. split; [lia|]. exact S'.
    + exists (Some (s, fm)), true, (l ++ flat_map pvr (zafter z)), (S (length l) + fahead fm + wt (zafter z)).
      split; auto. intros _. split; [exists (zbefore z), (zafter z), l; rewrite M2; auto 10|].
      split; [lia|]. cbn [fcursor_at]. rewrite <- M1, M3. auto.
  - rewrite Hg. cbn [bind snd negb]. exists None, true, [], 0. split; auto. intros _. split; [split; auto|].
    split; [lia|]. cbn [fcursor_at]. unfold total.
    assert (Hnil : forall k, key = Some k -> filter (geb k) (flat_map pvr (mapping_list m)) = []).
    { intros k Ek. apply filter_none. rewrite Forall_forall. intros e He. apply in_flat_map in He as (t & Ht & He).
      apply geb_false, ids_ev_lt. destruct (pvr_in t e Ht He) as [[_ Hr] _].
      rewrite Forall_forall in Hb. specialize (Hb t Ht). unfold start_id in Hb. rewrite Ek in Hb. lia. }
    assert (Hsel : forall k0, key = k0 -> sel k0 (flat_map pvr (mapping_list m)) = []).
    { intros [k|] Ek; [apply Hnil; auto|]. cbn [sel]. unfold start_id in Hb. rewrite Ek in Hb.
      destruct (mapping_list m) as [|t l]; auto. inversion Hb; subst. lia. }
    apply Hsel; auto.
Qed.

Lemma fscan_f fuel : wt (mapping_list m) < fuel ->
  fscan bad fuel m key = Ok (Some None) \/
  exists tr, fscan bad fuel m key = Ok (Some (Some tr)) /\ saw tr = filter live total.
Proof.
  intros Hf. unfold fscan, fmonotone_cursor.
  destruct open_f as (c & ok & l & w & -> & H). cbn [bind].
  destruct ok; cbn [negb]; [|cbn [bind]; auto].
  destruct (H eq_refl) as (F & W & T).
  destruct (skip_f2 fuel c l w F ltac:(lia)) as (c' & ok & l' & w' & -> & F' & W' & D). cbn [bind].
  cbv zeta in D. rewrite <- T in D. destruct ok; [|auto].
  right. destruct c' as [sm|].
  - destruct D as (e & D1 & D2 & D3). unfold fmonotone_read. rewrite D1.
    unfold live in D2. destruct (event_is_delete e); [discriminate|].
    destruct (fread_f fuel fuel (Some sm) l' w' F' ltac:(lia) ltac:(lia)) as (tr & -> & Tr); [discriminate|].
    cbn [bind]. exists (Saw e :: tr). split; auto. cbn [saw]. rewrite Tr, D3. auto.
  - cbn. exists []. split; auto. destruct D as [-> _]. auto.
Qed.

Lemma flat_asc : forall l, StronglySorted slt l -> incl l (mapping_list m) -> ascending (flat_map pvr l).
Proof.
  induction l as [|s l IH]; intros Hs Hi; simpl; [constructor|].
  inversion Hs; subst. apply ascending_app.
  assert (Hin : In s (mapping_list m)) by (apply Hi; simpl; auto).
  split; [|split].
  - destruct (Hparts s Hin) as [(P1 & _) _]. apply (pview_merged lo _ (remains_ok bad lo key s P1)).
  - apply IH; auto. intros x Hx. apply Hi; simpl; auto.
  - intros a b Ha Hb. apply in_flat_map in Hb as (t & Ht & Hb).
    destruct (pvr_in s a Hin Ha) as [[_ ?] _].
    destruct (pvr_in t b) as [[? _] _]; [apply Hi; simpl; auto|auto|].
    rewrite Forall_forall in H2. specialize (H2 t Ht). unfold slt in H2. apply ids_ev_lt. lia.
Qed.

Lemma total_ascending : ascending (filter live total).
Proof.
  apply filter_ascending. destruct (proj1 (layout_slices _) (gm_layout _ _ G)) as [S1 _].
  pose proof (flat_asc (mapping_list m) S1 (incl_refl _)). unfold total.
  destruct key; simpl; auto. apply filter_ascending; auto.
Qed.

Lemma total_visible e : In e (filter live total) <->
  visible (map (remains bad key) (mapping_list m)) e /\ from key e.
Proof.
  rewrite filter_In. unfold visible, from, live.
  assert (Hfm : In e (flat_map pvr (mapping_list m)) <->
    exists p, In p (map (remains bad key) (mapping_list m)) /\ newest (contents p) e).
  { rewrite in_flat_map. split.
    - intros (s & Hs & He). exists (remains bad key s). split; [apply in_map; auto|]. apply pvr_in; auto.
    - intros (p & Hp & Hn). apply in_map_iff in Hp as (s & <- & Hs). exists s. split; auto.
      destruct (Hparts s Hs) as [(P1 & _) _]. pose proof (remains_ok bad lo key s P1) as CR.
      pose proof (pview_merged lo _ CR) as M.
      destruct CR as [C1 _]. apply (merged_newest _ _ e C1 M). auto. }
  assert (Hsel : In e total <->
      (exists p, In p (map (remains bad key) (mapping_list m)) /\ newest (contents p) e) /\
      match key with Some k => ev_le k e | None => True end).
  { rewrite <- Hfm. unfold total. destruct key as [k|]; cbn [sel]; [|tauto].
    rewrite filter_In, geb_true. tauto. }
  rewrite Hsel. destruct (event_is_delete e); simpl; split; try tauto; intros [? ?]; try discriminate;
    try (destruct H; discriminate); tauto.
Qed.
End Chain.
