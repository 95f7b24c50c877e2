(* The rebalance: which partition is taken, what a round does, where it ends. *)
From Coq Require Import NArith ZArith Arith List Bool Lia.
Import ListNotations.
From Verif Require Import Model.Base Model.Show Model.Tiering Spec.Tiering Proof.TieringL Proof.TieringO Proof.TieringT.
Local Arguments N.land : simpl never.
Local Arguments N.ldiff : simpl never.
Local Arguments N.lor : simpl never.
Local Arguments N.testbit : simpl never.
Local Arguments Z.pow : simpl never.
Local Arguments Z.modulo : simpl never.
Local Arguments N.leb : simpl never.
Local Arguments N.ltb : simpl never.
Local Arguments N.eqb : simpl never.
Local Arguments Nat.eqb : simpl never.

(* a tier *)
Lemma sum_empty d s : on d s = [] -> count_on d s = 0%Z /\ size_on d s = 0%Z /\ events_on d s = 0%Z.
Proof. unfold count_on, size_on, events_on. intros ->. repeat split. Qed.
Lemma sub64_small now c : (c <= now)%N -> (now < 2 ^ 64)%N -> sub64 now c = (now - c)%N.
Proof.
  intros A B. unfold sub64, two64. replace (now + 2 ^ 64 - c)%N with ((now - c) + 1 * 2 ^ 64)%N by lia. rewrite N.mod_add by (apply N.pow_nonzero; lia). apply N.mod_small. lia.
Qed.
Definition late (now : N) (d : tdb) (t : ttier) : Prop :=
  (0 <= tt_duration t /\ exists p, In p (on d (tt_storage t)) /\ tt_duration t <= Z.of_N now - Z.of_N (tp_created p))%Z.
Lemma tier_next_spec lost d t : wf d -> counted lost d -> In t (d_tiers d) ->
  exists x, In x (d_storages d) /\ ts_id x = tt_storage t /\ storage_at d (tt_storage t) = Some x.
Proof.
  intros (_ & _ & N & _ & E) _ I. rewrite Forall_forall in E. specialize (E t I). apply in_map_iff in E. destruct E as (x & Ex & Ix). exists x. split; [exact Ix|]. split; [exact Ex|]. rewrite <- Ex. apply storage_at_in; assumption.
Qed.
Lemma counters lost now d x : counted lost d -> gains lost -> fits lost now d -> In x (d_storages d) ->
  ts_count x = count_on d (ts_id x) /\ ts_size x = (size_on d (ts_id x) + fst (lost (ts_id x)))%Z /\ ts_events x = (events_on d (ts_id x) + snd (lost (ts_id x)))%Z.
Proof.
  intros C G (F & _) I. destruct (C x I) as (A & B & D). specialize (F (ts_id x)). specialize (G (ts_id x)). pose proof (size_nonneg d (ts_id x)). pose proof (events_nonneg d (ts_id x)).
  split; [exact A|]. rewrite B, D. split; apply i64_small; lia.
Qed.
Lemma late_oldest now d t p : Forall (fun p => tp_created p <= now)%N (d_parts d) -> (now < 2 ^ 64)%N -> oldest (on d (tt_storage t)) p ->
  (tt_duration t <=? Z.of_N (sub64 now (tp_created p)))%Z = true <-> exists p, In p (on d (tt_storage t)) /\ (tt_duration t <= Z.of_N now - Z.of_N (tp_created p))%Z.
Proof.
  intros F B [I O]. rewrite Forall_forall in F. pose proof (F p (proj1 (on_in _ _ _ I))) as L. rewrite (sub64_small _ _ L B), Z.leb_le. split.
  - intro H. exists p. split; [exact I|]. lia.
  - intros (q & Iq & H). specialize (O q Iq). lia.
Qed.
Lemma tier_none lost now d t : wf d -> counted lost d -> gains lost -> fits lost now d -> In t (d_tiers d) ->
  engine_rebalance_tier_next d t now = None -> ~ exceeded now d t.
Proof.
  intros W C G F I. destruct (tier_next_spec lost d t W C I) as (x & Ix & Ex & Sx). destruct (counters lost now d x C G F Ix) as (A & B & D). rewrite Ex in *.
  unfold engine_rebalance_tier_next. rewrite Sx, Ex. change (parts_of d (tt_storage t)) with (on d (tt_storage t)). pose proof (storage_oldest_spec (on d (tt_storage t))) as O.
  specialize (G (tt_storage t)). pose proof (size_nonneg d (tt_storage t)) as N1. pose proof (events_nonneg d (tt_storage t)) as N2. rewrite A, B, D.
  destruct (storage_oldest (on d (tt_storage t))) as [p|].
  - destruct F as (_ & F1 & F2). pose proof (late_oldest now d t p F1 F2 O) as L.
    destruct (Z.leb_spec 0 (tt_partitions t)); destruct (Z.ltb_spec (tt_partitions t) (count_on d (tt_storage t))); cbn [andb]; try discriminate;
    destruct (Z.leb_spec 0 (tt_size t)); destruct (Z.ltb_spec (tt_size t) (size_on d (tt_storage t) + fst (lost (tt_storage t)))); cbn [andb]; try discriminate;
    destruct (Z.leb_spec 0 (tt_events t)); destruct (Z.ltb_spec (tt_events t) (events_on d (tt_storage t) + snd (lost (tt_storage t)))); cbn [andb]; try discriminate;
    (destruct (Z.leb_spec 0 (tt_duration t)); [destruct (tt_duration t <=? Z.of_N (sub64 now (tp_created p)))%Z; try discriminate|]); intros _ X; unfold exceeded in X; cbv zeta in X;
    (destruct X as [X|[X|[X|[X1 X2]]]]; [lia|lia|lia|]); try lia; apply L in X2; discriminate.
  - intros _ X. unfold exceeded in X. cbv zeta in X. destruct (sum_empty d _ O) as (E1 & E2 & E3). rewrite E1, E2, E3, O in X.
    destruct X as [X|[X|[X|(_ & q & [] & _)]]]; lia.
Qed.
Lemma tier_some lost now d t p : wf d -> counted lost d -> gains lost -> fits lost now d -> In t (d_tiers d) -> reliable lost t ->
  engine_rebalance_tier_next d t now = Some p -> exceeded now d t.
Proof.
  intros W C G F I R H. pose proof (tier_next_in d t now p H) as Op. destruct (tier_next_spec lost d t W C I) as (x & Ix & Ex & Sx). destruct (counters lost now d x C G F Ix) as (A & B & D). rewrite Ex in *.
  unfold engine_rebalance_tier_next in H. rewrite Sx, Ex in H. change (parts_of d (tt_storage t)) with (on d (tt_storage t)) in H. pose proof (storage_oldest_spec (on d (tt_storage t))) as O.
  rewrite A, B, D in H. unfold exceeded. cbv zeta. destruct F as (_ & F1 & F2).
  destruct (storage_oldest (on d (tt_storage t))) as [q|]; [|destruct Op as [Op _]; rewrite O in Op; destruct Op]. pose proof (late_oldest now d t q F1 F2 O) as L.
  assert (R' : (fst (lost (tt_storage t)) = 0 /\ snd (lost (tt_storage t)) = 0)%Z \/ (tt_size t < 0 /\ tt_events t < 0)%Z) by (destruct R as [->|R]; [left; split; reflexivity|right; exact R]).
  destruct ((0 <=? tt_partitions t)%Z && (tt_partitions t <? count_on d (tt_storage t))%Z) eqn:E1; [apply andb_true_iff in E1; rewrite Z.leb_le, Z.ltb_lt in E1; left; exact E1|].
  destruct ((0 <=? tt_size t)%Z && (tt_size t <? size_on d (tt_storage t) + fst (lost (tt_storage t)))%Z) eqn:E2; [apply andb_true_iff in E2; rewrite Z.leb_le, Z.ltb_lt in E2; right; left; lia|].
  destruct ((0 <=? tt_events t)%Z && (tt_events t <? events_on d (tt_storage t) + snd (lost (tt_storage t)))%Z) eqn:E3; [apply andb_true_iff in E3; rewrite Z.leb_le, Z.ltb_lt in E3; right; right; left; lia|].
  destruct (Z.leb_spec 0 (tt_duration t)); [|discriminate]. destruct (tt_duration t <=? Z.of_N (sub64 now (tp_created q)))%Z; [|discriminate]. right. right. right. split; [assumption|]. apply L. reflexivity.
Qed.

(* the tiers in order *)
Definition skipped (now : N) (d : tdb) (t : ttier) : Prop := exists q, engine_rebalance_tier_next d t now = Some q /\ tp_refresh q = true.
Lemma next_none d now : forall l s, engine_rebalance_next d l s now = None -> forall t, In t l -> engine_rebalance_tier_next d t now = None \/ skipped now d t.
Proof.
  induction l as [|u r IH]; intros s H t I; [destruct I|]. cbn [engine_rebalance_next] in H. destruct (engine_rebalance_tier_next d u now) as [p|] eqn:E.
  - destruct (tp_refresh p) eqn:R; [|discriminate]. destruct I as [<-|I]; [right; exists p; split; assumption|]. apply (IH _ H t I).
  - destruct I as [<-|I]; [left; exact E|apply (IH _ H t I)].
Qed.
Lemma next_some d now : forall l s d1 min target, engine_rebalance_next d l s now = Some (d1, min, target) ->
  exists before t after p, l = before ++ t :: after /\ engine_rebalance_tier_next d t now = Some p /\ tp_refresh p = false /\ d1 = put_part d (set_refresh p) /\ min = tp_min p /\
    (forall u, In u before -> engine_rebalance_tier_next d u now = None \/ skipped now d u) /\
    match after with
    | n :: _ => target = Some (tt_storage n)
    | [] => ((forall u, In u before -> engine_rebalance_tier_next d u now = None) -> target = s) /\
            (forall u, In u before -> skipped now d u -> exists v, In v (tl l) /\ target = Some (tt_storage v)) /\ (s <> None -> target <> None)
    end.
Proof.
  induction l as [|u r IH]; intros s d1 min target H; [discriminate|]. cbn [engine_rebalance_next] in H. destruct (engine_rebalance_tier_next d u now) as [p|] eqn:E.
  - destruct (tp_refresh p) eqn:R.
    + destruct (IH _ _ _ _ H) as (b & t & a & q & E1 & E2 & E3 & E4 & E5 & E6 & E7). exists (u :: b), t, a, q. split; [rewrite E1; reflexivity|]. split; [exact E2|]. split; [exact E3|]. split; [exact E4|]. split; [exact E5|].
      split; [intros w [<-|I]; [right; exists p; split; assumption|apply E6, I]|]. destruct a as [|n a]; [|exact E7]. destruct E7 as (E7 & E8 & E9).
      assert (Nr : exists n r', r = n :: r') by (destruct b; rewrite E1; eexists _, _; reflexivity). destruct Nr as (n & r' & Er).
      assert (T : (exists v, In v r /\ target = Some (tt_storage v))).
      { destruct (existsb (fun w => match engine_rebalance_tier_next d w now with Some _ => true | None => false end) b) eqn:X.
        - apply existsb_exists in X. destruct X as (w & Iw & Xw). destruct (E6 w Iw) as [Z|Z]; [rewrite Z in Xw; discriminate|]. destruct (E8 w Iw Z) as (v & Iv & Ev). exists v. split; [|exact Ev]. rewrite Er in *. right. exact Iv.
        - exists n. split; [rewrite Er; left; reflexivity|]. rewrite (E7). { rewrite Er. reflexivity. } intros w Iw. destruct (engine_rebalance_tier_next d w now) eqn:Z; [|reflexivity].
          assert (Y : existsb (fun w => match engine_rebalance_tier_next d w now with Some _ => true | None => false end) b = true) by (apply existsb_exists; exists w; rewrite Z; tauto). congruence. }
      split; [intro Z; specialize (Z u (or_introl eq_refl)); congruence|]. split; [intros w _ _; exact T|]. intros _. destruct T as (v & _ & ->). discriminate.
    + injection H as <- <- <-. exists [], u, r, p. repeat split; try assumption; [intros w []|]. destruct r; [|reflexivity]. split; [reflexivity|]. split; [intros w []|auto].
  - destruct (IH _ _ _ _ H) as (b & t & a & q & E1 & E2 & E3 & E4 & E5 & E6 & E7). exists (u :: b), t, a, q. split; [rewrite E1; reflexivity|]. split; [exact E2|]. split; [exact E3|]. split; [exact E4|]. split; [exact E5|].
    split; [intros w [<-|I]; [left; exact E|apply E6, I]|]. destruct a as [|n a]; [|exact E7]. destruct E7 as (E7 & E8 & E9). split; [intro Z; apply E7; intros w I; apply Z; right; exact I|]. split; [|exact E9].
    intros w [<-|I] X; [destruct X as (z & Z & _); congruence|]. destruct (E8 w I X) as (v & Iv & Ev). exists v. split; [|exact Ev]. cbn [tl]. destruct r; [destruct Iv|right; exact Iv].
Qed.
Lemma skipped_waiting now d t : skipped now d t -> waiting d t.
Proof. intros (q & E & R). exists q. split; [apply (tier_next_in d t now q E)|exact R]. Qed.
Theorem rebalance_quiet lost now d : wf d -> counted lost d -> gains lost -> fits lost now d ->
  engine_rebalance_next d (d_tiers d) None now = None -> forall t, In t (d_tiers d) -> exceeded now d t -> waiting d t.
Proof.
  intros W C G F H t I X. destruct (next_none d now _ _ H t I) as [E|E]; [exfalso; apply (tier_none lost now d t W C G F I E X)|apply (skipped_waiting now), E].
Qed.
Theorem rebalance_step_taken lost now d d1 min target : wf d -> counted lost d -> gains lost -> fits lost now d -> (forall t, In t (d_tiers d) -> reliable lost t) ->
  engine_rebalance_next d (d_tiers d) None now = Some (d1, min, target) ->
  exists before t after p, d_tiers d = before ++ t :: after /\ exceeded now d t /\ oldest (on d (tt_storage t)) p /\ tp_refresh p = false /\ min = tp_min p /\
    d1 = put_part d (set_refresh p) /\ (forall u, In u before -> exceeded now d u -> waiting d u) /\
    match after with
    | n :: _ => target = Some (tt_storage n)
    | [] => ((forall u, In u before -> ~ exceeded now d u) -> target = None) /\
            (forall u, In u before -> exceeded now d u -> exists v, In v (tl (d_tiers d)) /\ target = Some (tt_storage v))
    end.
Proof.
  intros W C G F R H. destruct (next_some d now _ _ _ _ _ H) as (b & t & a & p & E1 & E2 & E3 & E4 & E5 & E6 & E7). exists b, t, a, p. split; [exact E1|].
  assert (It : In t (d_tiers d)) by (rewrite E1; apply in_elt). assert (Ib : forall u, In u b -> In u (d_tiers d)) by (intros u Iu; rewrite E1; apply in_or_app; left; exact Iu).
  split; [apply (tier_some lost now d t p); auto|]. split; [apply (tier_next_in d t now p E2)|]. split; [exact E3|]. split; [exact E5|]. split; [exact E4|].
  assert (S : forall u, In u b -> exceeded now d u -> skipped now d u).
  { intros u Iu X. destruct (E6 u Iu) as [Z|Z]; [exfalso; apply (tier_none lost now d u W C G F (Ib u Iu) Z X)|exact Z]. }
  split; [intros u Iu X; apply (skipped_waiting now), S; assumption|]. destruct a as [|n a]; [|exact E7]. destruct E7 as (E7 & E8 & _). split.
  - intro Z. apply E7. intros u Iu. destruct (E6 u Iu) as [Y|(q & Y & _)]; [exact Y|]. exfalso. apply (Z u Iu), (tier_some lost now d u q); auto.
  - intros u Iu X. apply (E8 u Iu), S; assumption.
Qed.

(* one partition is moved *)
Definition others (d : tdb) (p : tpart) : list tpart := filter (fun q => negb (tp_min q =? tp_min p)%N) (d_parts d).
Lemma put_others d p p' : tp_min p' = tp_min p -> others (put_part d p') p = others d p.
Proof.
  intro E. unfold others, put_part. cbn [d_parts]. rewrite E. induction (d_parts d) as [|q l IH]; [reflexivity|]. cbn [map filter]. destruct (N.eqb_spec (tp_min q) (tp_min p)) as [H|H]; cbn [negb].
  - rewrite E, N.eqb_refl. cbn [negb]. exact IH.
  - destruct (N.eqb_spec (tp_min q) (tp_min p)); [congruence|]. cbn [negb]. f_equal. exact IH.
Qed.
Lemma put_last d p q q' : d_parts d = others d p ++ [q] -> tp_min q = tp_min p -> tp_min q' = tp_min p -> d_parts (put_part d q') = others d p ++ [q'] /\ others (put_part d q') p = others d p.
Proof.
  intros E A B. split; [|apply put_others, B]. cbn [put_part d_parts]. rewrite E at 1. rewrite map_app. cbn [map]. rewrite A, B, N.eqb_refl. f_equal.
  rewrite <- map_id. apply map_ext_in. intros x I. apply filter_In in I. destruct I as [_ I]. apply negb_true_iff in I. rewrite I. reflexivity.
Qed.
Lemma others_others d d' p : d_parts d' = others d p ++ [p] -> others d' p = others d p.
Proof.
  intro E. unfold others at 1. rewrite E, filter_app. cbn [filter]. rewrite N.eqb_refl. cbn [negb]. rewrite app_nil_r. unfold others. induction (d_parts d) as [|x l IH]; [reflexivity|]. cbn [filter]. destruct (negb (tp_min x =? tp_min p)%N) eqn:X; [|exact IH]. cbn [filter]. rewrite X. f_equal. exact IH.
Qed.
Lemma others_min d p q : tp_min q = tp_min p -> others d q = others d p.
Proof. intro E. unfold others. rewrite E. reflexivity. Qed.
Lemma last_at d p q : wf d -> d_parts d = others d p ++ [q] -> part_at d (tp_min q) = Some q /\ part_ok d q.
Proof.
  intros W E. assert (I : In q (d_parts d)) by (rewrite E; apply in_elt). split; [apply part_at_min; assumption|]. destruct W as (F & _). rewrite Forall_forall in F. apply F, I.
Qed.
Lemma moved_at lost d p s size events k : wf d -> counted lost d -> In p (d_parts d) -> tp_storage p <> s -> In s (map ts_id (d_storages d)) -> lucky k -> lk_merge k = Some (size, events) ->
  exists d2 o st, engine_refresh d (tp_min p) (Some s) true k = (d2, o) /\ o <> Failed /\ In st [1; 8; 9]%N /\
    d_parts d2 = others d p ++ [mk_tpart (tp_min p) (tp_max p) (tp_created p) st false size events s].
Proof.
  intros W C I NE Hs (L1 & L2 & L3 & L4 & _ & L6) LM. pose proof (part_at_min d p W I) as A. destruct (ok_at d _ p W A) as [_ K].
  (* on disk *)
  assert (S1 : exists p1 o1, engine_download d (tp_min p) true true k = (put_part d p1, o1) /\ o1 <> Failed /\ same_place p p1 /\ tp_created p1 = tp_created p /\ part_ok d p1).
  { pose proof (put_self d p W I) as PS. unfold engine_download. rewrite A, L1. destruct (has_cloud d p); cbn [negb]; [|exists p, No; rewrite PS; repeat split; try discriminate; apply K].
    destruct (tp_has p ID) eqn:H1; cbn [orb]; [exists p, No; rewrite PS; repeat split; try discriminate; apply K|].
    destruct (tp_has p ID_CLOUD) eqn:H2; cbn [negb]; [|exists p, No; rewrite PS; repeat split; try discriminate; apply K].
    exists (set_state p (N.lor (tp_state p) ID)), Yes. split; [reflexivity|]. split; [discriminate|]. split; [apply set_same|]. split; [reflexivity|]. apply (lor_ok d p ID K (or_introl eq_refl)), (has_filed p _ H2). }
  destruct S1 as (p1 & o1 & E1 & N1 & P1 & T1 & K1). pose proof (part_at_put d _ p p1 W A P1 K1) as A1. assert (W1 : wf (put_part d p1)) by (apply (put_wf d p p1); assumption).
  (* not on the cloud *)
  destruct (drop_file_at (put_part d p1) (tp_min p) true ID_CLOUD k p1 W1 A1) as (p2 & o2 & E2 & D2 & Y2 & _). specialize (Y2 L3 L4). subst o2.
  assert (P2 : same_place p p2) by (destruct (dr_place _ _ _ _ D2) as (X1 & X2 & X3); destruct P1 as (Y1 & Y2 & Y3); repeat split; congruence).
  assert (T2 : tp_created p2 = tp_created p) by (rewrite (dr_created _ _ _ _ D2); exact T1).
  assert (K2 : part_ok d p2) by (apply (place_ok d p1 p2 K1); apply D2). assert (C2 : tp_has p2 ID_CLOUD = false).
  { unfold tp_has. rewrite (dr_yes _ _ _ _ D2 eq_refl). destruct (state_cases d p1 K1) as [S|[S|[S|S]]]; rewrite S; reflexivity. }
  rewrite put_put in E2 by (destruct P1, P2; congruence). assert (E2' : engine_drop (put_part d p1) (tp_min p) true ID_CLOUD k = (put_part d p2, Yes)) by exact E2.
  pose proof (part_at_put d _ p p2 W A P2 K2) as A2. assert (W2 : wf (put_part d p2)) by (apply (put_wf d p p2); assumption).
  (* the new file *)
  assert (I2 : In p2 (d_parts (put_part d p2))) by (apply (part_at_in _ _ _ A2)).
  pose proof (replaced (put_part d p2) p2 s size events W2 I2 Hs) as RP. cbv zeta in RP. set (d3 := put_part (storage_add (storage_remove (put_part d p2) p2) _) _) in RP. destruct RP as (W3 & F3 & _ & E3). fold (others (put_part d p2) p2) in E3.
  assert (M2 : tp_min p2 = tp_min p) by apply P2. rewrite (others_min _ p p2 M2), (put_others d p p2 M2) in E3.
  assert (R3 : refresh_run (put_part d p2) (tp_min p) (Some s) true k = (d3, Yes)).
  { unfold refresh_run. rewrite A2, C2, LM, L6. destruct (storage_at (put_part d p2) s) as [y|] eqn:Sy.
    - destruct P2 as (_ & _ & ->). destruct (Nat.eqb_spec s (tp_storage p)); [congruence|]. reflexivity.
    - exfalso. apply in_map_iff in Hs. destruct Hs as (y & <- & Iy). destruct W as (_ & _ & N & _). pose proof (storage_at_in d y N Iy) as Z. unfold storage_at in Z, Sy. cbn [put_part d_storages] in Sy. congruence. }
  clearbody d3. assert (E3' : d_parts d3 = others d p ++ [mk_tpart (tp_min p) (tp_max p) (tp_created p) 1 false size events s]).
  { rewrite E3. unfold renewed. destruct P2 as (-> & -> & _). rewrite T2. reflexivity. }
  clear E3. set (n1 := mk_tpart (tp_min p) (tp_max p) (tp_created p) 1 false size events s) in *.
  set (nn := fun st => mk_tpart (tp_min p) (tp_max p) (tp_created p) st false size events s).
  assert (O3 : others d3 n1 = others d n1) by (apply (others_others d d3 n1); exact E3').
  assert (E3'' : d_parts d3 = others d3 n1 ++ [n1]) by (rewrite O3; exact E3').
  destruct (last_at d3 n1 n1 W3 E3'') as [A3 K3]. cbn [tp_min n1] in A3.
  (* to the cloud of the storage *)
  assert (S4 : exists d4 o4 st, engine_upload d3 (tp_min p) true true k = (d4, o4) /\ o4 <> Failed /\ In st [1; 9]%N /\ d_parts d4 = others d p ++ [nn st] /\ wf d4).
  { unfold engine_upload. rewrite A3, L2. destruct (has_cloud d3 n1) eqn:HC; cbn [negb]; [|exists d3, No, 1%N; split; [reflexivity|]; split; [discriminate|]; split; [left; reflexivity|]; split; [exact E3'|exact W3]].
    change (tp_has n1 ID_CLOUD) with false. change (tp_has n1 ID) with true. cbn [negb].
    exists (put_part d3 (set_state n1 9)), Yes, 9%N. split; [reflexivity|]. split; [discriminate|]. split; [right; left; reflexivity|]. split.
    - destruct (put_last d3 n1 n1 (nn 9%N) E3'' eq_refl eq_refl) as [X _]. rewrite O3 in X. exact X.
    - apply (put_wf d3 n1); [exact W3|rewrite E3''; apply in_elt|apply set_same|]. apply (lor_ok d3 n1 ID_CLOUD K3); [right; split; [reflexivity|apply cloud_exists, HC]|reflexivity]. }
  destruct S4 as (d4 & o4 & st & E4 & N4 & I4 & Q4 & W4). pose proof (others_others d d4 (nn st) Q4) as O4. change (others d (nn st)) with (others d p) in O4.
  assert (Q4' : d_parts d4 = others d4 (nn st) ++ [nn st]) by (rewrite O4; exact Q4). destruct (last_at d4 _ _ W4 Q4') as [A4 K4]. change (tp_min (nn st)) with (tp_min p) in A4.
  assert (S5 : exists d5 o5 st', engine_drop_file d4 (tp_min p) true true ID k = (d5, o5) /\ o5 <> Failed /\ In st' [1; 8; 9]%N /\ d_parts d5 = others d p ++ [nn st']).
  { unfold engine_drop_file. rewrite A4, L3, L4. set (allowed := match storage_at d4 (tp_storage (nn st)) with Some x => ts_drop_local x | None => false end). change (0 <? N.land ID ID_CLOUD)%N with false. change (0 <? N.land ID ID)%N with true. cbn [andb negb]. rewrite andb_false_r.
    destruct I4 as [<-|[<-|[]]].
    - change (tp_has (nn 1%N) ID_CLOUD) with false. rewrite orb_true_r. exists d4, No, 1%N. split; [reflexivity|]. split; [discriminate|]. split; [cbn; tauto|exact Q4].
    - change (tp_has (nn 9%N) ID_CLOUD) with true. destruct allowed; cbn [orb negb]; [|exists d4, No, 9%N; split; [reflexivity|]; split; [discriminate|]; split; [cbn; tauto|exact Q4]].
      change (tp_has (nn 9%N) ID) with true. change (tp_state (set_state (nn 9%N) (N.ldiff (tp_state (nn 9%N)) ID)) =? 0)%N with false. cbv iota.
      exists (put_part (put_part d4 (nn 9%N)) (nn 8%N)), Yes, 8%N. split; [reflexivity|]. split; [discriminate|]. split; [cbn; tauto|]. rewrite put_put by reflexivity.
      destruct (put_last d4 (nn 9%N) (nn 9%N) (nn 8%N) Q4' eq_refl eq_refl) as [X _]. rewrite O4 in X. exact X. }
  destruct S5 as (d5 & o5 & st' & E5 & N5 & I5 & Q5). exists d5, o5, st'. split; [|split; [exact N5|split; [exact I5|exact Q5]]].
  unfold engine_refresh. rewrite E1. destruct o1; [| |congruence]; cbn [andthen]; rewrite E2'; cbn [andthen]; rewrite R3; cbn [andthen]; rewrite E4; (destruct o4; [| |congruence]); cbn [andthen]; exact E5.
Qed.
(* one partition is dropped *)
Lemma dropped_at d p k : wf d -> In p (d_parts d) -> lucky k ->
  exists d2, engine_drop d (tp_min p) true (ID + ID_CLOUD) k = (d2, Yes) /\ d_parts d2 = others d p /\
    (forall s, option_map (fun x => (ts_size x, ts_events x)) (storage_at d2 s) = option_map (fun x => (ts_size x, ts_events x)) (storage_at d s)).
Proof.
  intros W I (_ & _ & L3 & L4 & _). destruct (drop_all_at d (tp_min p) true k p W (part_at_min d p W I)) as (p' & D & K & [[_ H]|[H S]]); [destruct (H L3 L4)|]. exists (storage_remove (put_part d p') p'). split; [exact H|].
  assert (M : tp_min p' = tp_min p) by apply (dr_place _ _ _ _ D). split.
  - unfold storage_remove. cbn [on_storage d_parts]. change (others (put_part d p') p' = others d p). rewrite (others_min _ p p' M). apply put_others, M.
  - intro s. unfold storage_at, storage_remove, on_storage. cbn [d_storages put_part]. clear - S. induction (d_storages d) as [|x l IH]; [reflexivity|]. cbn [map find].
    destruct (ts_id x =? tp_storage p') eqn:E.
    + assert (Z : storage_remove_metrics p' (count_by (-1) x) = count_by (-1) x) by (unfold storage_remove_metrics; rewrite S; reflexivity). rewrite Z. cbn [count_by ts_id]. destruct (ts_id x =? s); [reflexivity|exact IH].
    + destruct (ts_id x =? s); [reflexivity|exact IH].
Qed.

(* the rounds end: a partition only goes forward *)
Fixpoint left (l : list ttier) (s : nat) : nat :=
  match l with [] => 0 | t :: r => if tt_storage t =? s then S (length r) else left r s end.
Definition measure (d : tdb) : Z := sum (fun p => Z.of_nat (left (d_tiers d) (tp_storage p))) (d_parts d).
Lemma left_at : forall b t a, NoDup (map tt_storage (b ++ t :: a)) -> left (b ++ t :: a) (tt_storage t) = S (length a).
Proof.
  induction b as [|u b IH]; intros t a N; cbn [app left].
  - rewrite Nat.eqb_refl. reflexivity.
  - cbn [app map] in N. inversion N as [|x y N1 N2]; subst. destruct (Nat.eqb_spec (tt_storage u) (tt_storage t)) as [E|E]; [|apply IH, N2]. exfalso. apply N1. rewrite E, map_app. cbn [map]. apply in_elt.
Qed.
Lemma left_bound l s : left l s <= length l.
Proof. induction l as [|t r IH]; cbn [left length]; [lia|]. destruct (tt_storage t =? s); lia. Qed.
Lemma measure_bound d : (measure d <= Z.of_nat (length (d_tiers d)) * Z.of_nat (length (d_parts d)))%Z.
Proof.
  unfold measure. induction (d_parts d) as [|p l IH]; [cbn; lia|]. cbn [sum fold_right length]. fold (sum (fun p => Z.of_nat (left (d_tiers d) (tp_storage p))) l). pose proof (left_bound (d_tiers d) (tp_storage p)). lia.
Qed.
Lemma set_refresh_in d p : wf d -> In p (d_parts d) -> wf (put_part d (set_refresh p)) /\ In (set_refresh p) (d_parts (put_part d (set_refresh p))).
Proof.
  intros W I. split.
  - apply (put_wf d p); [exact W|exact I|repeat split|]. destruct W as (F & _). rewrite Forall_forall in F. exact (F p I).
  - cbn [put_part d_parts]. apply in_map_iff. exists p. cbn [set_refresh tp_min]. rewrite N.eqb_refl. tauto.
Qed.
Lemma nodup_tail {A} : forall (a b : list A), NoDup (a ++ b) -> NoDup b.
Proof. induction a as [|x a IH]; intros b N; [exact N|]. inversion N. apply IH. assumption. Qed.
(* one round when nothing fails and no work is waiting *)
Lemma round lost now k d d1 min target : wf d -> counted lost d -> idle d -> NoDup (map tt_storage (d_tiers d)) -> lucky k ->
  engine_rebalance_next d (d_tiers d) None now = Some (d1, min, target) ->
  exists d2 o p, (match target with None => engine_drop d1 min true (ID + ID_CLOUD) k | Some s => engine_refresh d1 min (Some s) true k end) = (d2, o) /\ o <> Failed /\
    In p (d_parts d) /\ min = tp_min p /\ wf d2 /\ (exists lost', grows lost lost' /\ counted lost' d2) /\ framed d d2 /\ idle d2 /\
    (measure d2 = measure d - 1)%Z /\
    (target = None -> d_parts d2 = others d p /\ (forall s, option_map (fun x => (ts_size x, ts_events x)) (storage_at d2 s) = option_map (fun x => (ts_size x, ts_events x)) (storage_at d s))) /\
    (forall s, target = Some s -> exists st size events, lk_merge k = Some (size, events) /\ In st [1; 8; 9]%N /\
       d_parts d2 = others d p ++ [mk_tpart (tp_min p) (tp_max p) (tp_created p) st false size events s]).
Proof.
  intros W C Idl ND L H. destruct (next_some d now _ _ _ _ _ H) as (b & t & a & p & E1 & E2 & E3 & -> & -> & E6 & E7).
  destruct (tier_next_in d t now p E2) as [Ip _]. destruct (on_in _ _ _ Ip) as [I Sp].
  destruct (mark_step lost d p W C I) as (W1 & F1 & (l1 & G1 & C1) & _). destruct (set_refresh_in d p W I) as [_ I1]. set (d1' := put_part d (set_refresh p)) in *.
  assert (O1 : others d1' (set_refresh p) = others d p) by (rewrite (others_min _ p (set_refresh p) eq_refl); apply put_others; reflexivity).
  assert (S1 : forall s, storage_at d1' s = storage_at d s) by reflexivity.
  assert (Io : Forall (fun q => tp_refresh q = false) (others d p)).
  { apply Forall_forall. intros q Iq. apply filter_In in Iq. unfold idle in Idl. rewrite Forall_forall in Idl. apply Idl, Iq. }
  assert (Nb : forall u, In u b -> engine_rebalance_tier_next d u now = None).
  { intros u Iu. destruct (E6 u Iu) as [Z|(q & Z & R)]; [exact Z|]. exfalso. destruct (tier_next_in d u now q Z) as [Iq _]. apply on_in in Iq. unfold idle in Idl. rewrite Forall_forall in Idl. rewrite (Idl q (proj1 Iq)) in R. discriminate. }
  assert (Lp : left (d_tiers d) (tp_storage p) = S (length a)) by (rewrite Sp, E1; apply left_at; rewrite <- E1; exact ND).
  assert (Ms : sum (fun p => Z.of_nat (left (d_tiers d) (tp_storage p))) (others d p) = (measure d - Z.of_nat (S (length a)))%Z).
  { unfold others, measure. rewrite (sum_remove (fun p => Z.of_nat (left (d_tiers d) (tp_storage p)))); [rewrite Lp; reflexivity|apply wf_mins, W|exact I]. }
  destruct a as [|n a].
  - destruct E7 as (E7 & _). rewrite (E7 Nb) in *. destruct (dropped_at d1' (set_refresh p) k W1 I1 L) as (d2 & D1 & D2 & D3). rewrite O1 in D2. change (tp_min (set_refresh p)) with (tp_min p) in D1.
    exists d2, Yes, p. split; [exact D1|]. split; [discriminate|]. split; [exact I|]. split; [reflexivity|].
    pose proof (drop_step l1 d1' (tp_min p) true (ID + ID_CLOUD) k W1 C1) as R. rewrite D1 in R. cbn [fst] in R. destruct R as (W2 & F2 & (l2 & G2 & C2) & _).
    assert (Fr : framed d d2) by exact (framed_trans d d1' d2 F1 F2). split; [exact W2|]. split; [exists l2; split; [exact (grows_trans _ _ _ G1 G2)|exact C2]|]. split; [exact Fr|].
    split; [unfold idle; rewrite D2; exact Io|]. split; [unfold measure at 1; rewrite D2; destruct Fr as [_ ->]; rewrite Ms; cbn [length]; lia|].
    split; [intros _; split; [exact D2|intro s; rewrite D3, S1; reflexivity]|discriminate].
  - subst target. set (s := tt_storage n) in *.
    assert (NE : tp_storage p <> s).
    { rewrite Sp. intro X. rewrite E1, map_app in ND. apply nodup_tail in ND. cbn [map] in ND. inversion ND as [|x y N1 _]; subst. apply N1. left. symmetry. exact X. }
    assert (Hs : In s (map ts_id (d_storages d1'))).
    { destruct W as (_ & _ & _ & _ & E). rewrite Forall_forall in E. apply E. rewrite E1. apply in_or_app. right. right. left. reflexivity. }
    pose proof L as (_ & _ & _ & _ & LM & _). destruct (lk_merge k) as [[size events]|] eqn:M; [|congruence].
    destruct (moved_at l1 d1' (set_refresh p) s size events k W1 C1 I1 NE Hs L M) as (d2 & o & st & D1 & D2 & D3 & D4). rewrite O1 in D4. cbn [set_refresh tp_min tp_max tp_created] in D1, D4.
    exists d2, o, p. split; [exact D1|]. split; [exact D2|]. split; [exact I|]. split; [reflexivity|].
    pose proof (move_step l1 d1' (tp_min p) (Some s) true k W1 C1) as R. rewrite D1 in R. cbn [fst] in R. destruct R as (W2 & F2 & (l2 & G2 & C2) & _).
    assert (Fr : framed d d2) by exact (framed_trans d d1' d2 F1 F2). split; [exact W2|]. split; [exists l2; split; [exact (grows_trans _ _ _ G1 G2)|exact C2]|]. split; [exact Fr|].
    split; [unfold idle; rewrite D4; apply Forall_app; split; [exact Io|repeat constructor]|]. split.
    { unfold measure at 1. rewrite D4, sum_app. destruct Fr as [_ ->]. rewrite Ms. cbn [sum fold_right tp_storage].
      assert (Ln : left (d_tiers d) s = S (length a)).
      { rewrite E1. replace (b ++ t :: n :: a) with ((b ++ [t]) ++ n :: a) by (rewrite <- app_assoc; reflexivity). apply left_at. rewrite <- app_assoc. cbn [app]. rewrite <- E1. exact ND. }
      rewrite Ln. cbn [length]. lia. }
    split; [discriminate|]. intros s' X. injection X as <-. exists st, size, events. split; [reflexivity|]. split; [exact D3|exact D4].
Qed.
Lemma measure_nonneg d : (0 <= measure d)%Z.
Proof. apply sum_nonneg. intro p. lia. Qed.
Lemma ends : forall fuel ws lost d, wf d -> counted lost d -> gains lost -> idle d -> NoDup (map tt_storage (d_tiers d)) -> (forall n, lucky (snd (ws n))) -> (measure d < Z.of_nat fuel)%Z ->
  exists d' l, engine_rebalance fuel ws d = (d', l, Finished) /\ wf d' /\ idle d' /\ d_tiers d' = d_tiers d /\ (Z.of_nat (length l) <= measure d)%Z /\
    engine_rebalance_next d' (d_tiers d') None (fst (ws (length l))) = None /\ exists lost', gains lost' /\ counted lost' d'.
Proof.
  induction fuel as [|f IH]; intros ws lost d W C G Idl ND L M; [pose proof (measure_nonneg d); lia|]. cbn [engine_rebalance].
  destruct (engine_rebalance_next d (d_tiers d) None (fst (ws 0))) as [[[d1 min] target]|] eqn:E.
  - destruct (round lost (fst (ws 0)) (snd (ws 0)) d d1 min target W C Idl ND (L 0) E) as (d2 & o & p & R1 & R2 & _ & _ & W2 & (l2 & G2 & C2) & F2 & Idl2 & M2 & _).
    rewrite R1. assert (T2 : d_tiers d2 = d_tiers d) by apply F2.
    destruct (IH (fun n => ws (S n)) l2 d2) as (d' & l & Q1 & Q2 & Q3 & Q4 & Q5 & Q6 & Q7); try assumption; [intro i; specialize (G2 i); specialize (G i); lia|rewrite T2; exact ND|intro n; apply L|lia|].
    exists d', ((min, target) :: l). split; [rewrite Q1; destruct o; [reflexivity|reflexivity|congruence]|]. split; [exact Q2|]. split; [exact Q3|]. split; [congruence|]. split; [cbn [length]; lia|]. split; [exact Q6|exact Q7].
  - exists d, []. split; [reflexivity|]. split; [exact W|]. split; [exact Idl|]. split; [reflexivity|]. split; [cbn [length]; pose proof (measure_nonneg d); lia|]. split; [exact E|]. exists lost. split; assumption.
Qed.
Theorem rebalance_ends fuel ws lost d : wf d -> counted lost d -> gains lost -> idle d -> NoDup (map tt_storage (d_tiers d)) -> (forall n, lucky (snd (ws n))) ->
  length (d_tiers d) * length (d_parts d) < fuel ->
  exists d' l lost', engine_rebalance fuel ws d = (d', l, Finished) /\ length l <= length (d_tiers d) * length (d_parts d) /\ d_tiers d' = d_tiers d /\
    gains lost' /\ counted lost' d' /\
    (fits lost' (fst (ws (length l))) d' -> forall t, In t (d_tiers d) -> ~ exceeded (fst (ws (length l))) d' t).
Proof.
  intros W C G Idl ND L B. pose proof (measure_bound d) as MB. destruct (ends fuel ws lost d W C G Idl ND L ltac:(lia)) as (d' & l & Q1 & Q2 & Q3 & Q4 & Q5 & Q6 & lost' & G' & C').
  exists d', l, lost'. split; [exact Q1|]. split; [lia|]. split; [exact Q4|]. split; [exact G'|]. split; [exact C'|]. intros F t I X. rewrite <- Q4 in I.
  destruct (rebalance_quiet lost' _ d' Q2 C' G' F Q6 t I X) as (p & [Ip _] & R). apply on_in in Ip. unfold idle in Q3. rewrite Forall_forall in Q3. rewrite (Q3 p (proj1 Ip)) in R. discriminate.
Qed.
