(* One tier: a limit on the number of partitions, a limit on the size. *)
From Coq Require Import NArith ZArith Arith List Bool Lia.
Import ListNotations.
From Verif Require Import Model.Base Model.Show Model.Tiering Spec.Tiering Proof.TieringL Proof.TieringO Proof.TieringT Proof.TieringB.
Local Arguments N.land : simpl never.
Local Arguments N.ldiff : simpl never.
Local Arguments N.lor : simpl never.
Local Arguments N.testbit : simpl never.
Local Arguments Z.pow : simpl never.
Local Arguments Z.modulo : simpl never.
Local Arguments N.leb : simpl never.
Local Arguments N.ltb : simpl never.
Local Arguments N.eqb : simpl never.
Local Arguments Nat.eqb : simpl never.

Lemma single_next d t now : idle d -> engine_rebalance_next d [t] None now =
  match engine_rebalance_tier_next d t now with Some p => Some (put_part d (set_refresh p), tp_min p, None) | None => None end.
Proof.
  intro I. cbn [engine_rebalance_next]. destruct (engine_rebalance_tier_next d t now) as [p|] eqn:E; [|reflexivity]. destruct (tier_next_in d t now p E) as [Ip _]. apply on_in in Ip.
  unfold idle in I. rewrite Forall_forall in I. rewrite (I p (proj1 Ip)). reflexivity.
Qed.
Lemma single_nodup (d : tdb) t : d_tiers d = [t] -> NoDup (map tt_storage (d_tiers d)).
Proof. intros ->. cbn [map]. repeat constructor. intros []. Qed.
(* a round with one tier *)
Lemma single_round lost now k d t p : wf d -> counted lost d -> idle d -> d_tiers d = [t] -> lucky k -> engine_rebalance_tier_next d t now = Some p ->
  exists d2, engine_drop (put_part d (set_refresh p)) (tp_min p) true (ID + ID_CLOUD) k = (d2, Yes) /\ wf d2 /\ (exists lost', counted lost' d2) /\ d_tiers d2 = [t] /\ idle d2 /\ oldest (on d (tt_storage t)) p /\
    d_parts d2 = others d p /\ (forall s, option_map (fun x => (ts_size x, ts_events x)) (storage_at d2 s) = option_map (fun x => (ts_size x, ts_events x)) (storage_at d s)).
Proof.
  intros W C Idl T L E. pose proof (single_next d t now Idl) as H. rewrite E in H. rewrite <- T in H.
  destruct (round lost now k d _ _ _ W C Idl (single_nodup d t T) L H) as (d2 & o & q & R1 & R2 & R3 & R4 & W2 & (l2 & _ & C2) & F2 & Idl2 & _ & R5 & _).
  destruct (R5 eq_refl) as [P2 S2]. pose proof (tier_next_in d t now p E) as O. destruct O as [Ip Op] eqn:EO. destruct (on_in _ _ _ Ip) as [I _].
  exists d2. assert (o = Yes).
  { destruct (set_refresh_in d p W I) as [W1 I1]. destruct (dropped_at _ _ k W1 I1 L) as (d3 & D1 & _). change (tp_min (set_refresh p)) with (tp_min p) in D1. rewrite D1 in R1. congruence. }
  subst o. split; [exact R1|]. split; [exact W2|]. split; [exists l2; exact C2|]. split; [rewrite <- T; apply F2|]. split; [exact Idl2|]. split; [exact O|]. split; [|exact S2].
  rewrite P2. apply others_min. congruence.
Qed.
Lemma others_in d p q : In q (others d p) <-> In q (d_parts d) /\ tp_min q <> tp_min p.
Proof. unfold others. rewrite filter_In, negb_true_iff, N.eqb_neq. reflexivity. Qed.
Lemma in_on d s q : In q (on d s) <-> In q (d_parts d) /\ tp_storage q = s.
Proof. unfold on. rewrite filter_In, Nat.eqb_eq. reflexivity. Qed.

Theorem drops_oldest t : (0 <= tt_partitions t)%Z -> (tt_size t < 0)%Z -> (tt_events t < 0)%Z -> (tt_duration t < 0)%Z ->
  forall fuel ws lost d, wf d -> counted lost d -> idle d -> d_tiers d = [t] -> (forall n, lucky (snd (ws n))) -> (count_on d (tt_storage t) - tt_partitions t < Z.of_nat fuel)%Z -> 0 < fuel ->
  exists d' l, engine_rebalance fuel ws d = (d', l, Finished) /\
    (forall q, In q (d_parts d') <-> In q (d_parts d) /\ ~ In (tp_min q) (map fst l)) /\
    count_on d' (tt_storage t) = Z.min (count_on d (tt_storage t)) (tt_partitions t) /\
    (forall p, In p (d_parts d) -> In (tp_min p) (map fst l) -> tp_storage p = tt_storage t /\ forall q, In q (on d' (tt_storage t)) -> (tp_created p <= tp_created q)%N).
Proof.
  intros H1 H2 H3 H4. induction fuel as [|f IH]; intros ws lost d W C Idl T L B P; [lia|]. cbn [engine_rebalance]. rewrite T, (single_next d t _ Idl).
  assert (N : engine_rebalance_tier_next d t (fst (ws 0)) = if (tt_partitions t <? count_on d (tt_storage t))%Z then storage_oldest (on d (tt_storage t)) else None).
  { assert (It : In t (d_tiers d)) by (rewrite T; left; reflexivity). destruct (tier_next_spec lost d t W C It) as (x & Ix & Ex & Sx). unfold engine_rebalance_tier_next. rewrite Sx. destruct (C x Ix) as (A & _). rewrite A, Ex.
    destruct (Z.leb_spec 0 (tt_partitions t)); [|lia]. destruct (Z.leb_spec 0 (tt_size t)); [lia|]. destruct (Z.leb_spec 0 (tt_events t)); [lia|]. destruct (Z.leb_spec 0 (tt_duration t)); [lia|]. cbn [andb]. reflexivity. }
  destruct (Z.ltb_spec (tt_partitions t) (count_on d (tt_storage t))) as [Lt|Ge].
  - pose proof (storage_oldest_spec (on d (tt_storage t))) as O. rewrite N. destruct (storage_oldest (on d (tt_storage t))) as [p|]; [|destruct (sum_empty d _ O) as (E & _); lia].
    destruct (single_round lost (fst (ws 0)) (snd (ws 0)) d t p W C Idl T (L 0) N) as (d2 & R1 & W2 & (l2 & C2) & T2 & Idl2 & [Ip Op] & P2 & _). rewrite R1. destruct (on_in _ _ _ Ip) as [I Sp].
    assert (Cn : count_on d2 (tt_storage t) = (count_on d (tt_storage t) - 1)%Z).
    { rewrite !count_sum, P2. unfold others. rewrite (sum_remove (adds_count (tt_storage t)) p); [|apply wf_mins, W|exact I]. unfold adds_count at 2. rewrite Sp, Nat.eqb_refl. reflexivity. }
    destruct f as [|f']; [lia|]. destruct (IH (fun n => ws (S n)) l2 d2) as (d' & l & Q1 & Q2 & Q3 & Q4); try assumption; [intro n; apply L|lia|lia|].
    exists d', ((tp_min p, None) :: l). rewrite Q1. split; [reflexivity|]. split; [|split].
    + intro q. rewrite Q2, P2, others_in. cbn [map fst In]. split; [intros [[A1 A2] A3]; split; [exact A1|]; intros [X|X]; [congruence|apply A3, X]|]. intros [A1 A2]. split; [split; [exact A1|]|]; intro X; apply A2; [left; congruence|right; exact X].
    + rewrite Q3, Cn. lia.
    + assert (Sub : forall q, In q (on d' (tt_storage t)) -> In q (on d (tt_storage t))).
      { intro q. rewrite !in_on, Q2, P2, others_in. tauto. }
      intros q Iq [X|X].
      * cbn [fst] in X. assert (q = p). { pose proof (part_at_min d q W Iq) as A1. pose proof (part_at_min d p W I) as A2. congruence. } subst q. split; [exact Sp|]. intros r Ir. apply Op, Sub, Ir.
      * destruct (N.eq_dec (tp_min q) (tp_min p)) as [E|E].
        -- assert (q = p). { pose proof (part_at_min d q W Iq) as A1. pose proof (part_at_min d p W I) as A2. congruence. } subst q. split; [exact Sp|]. intros r Ir. apply Op, Sub, Ir.
        -- apply Q4; [rewrite P2, others_in; split; assumption|exact X].
  - rewrite N. exists d, []. split; [reflexivity|]. split; [cbn; tauto|]. split; [lia|]. intros p _ [].
Qed.

Theorem drops_all t : (0 <= tt_size t)%Z ->
  forall fuel ws lost d x, wf d -> counted lost d -> idle d -> d_tiers d = [t] -> (forall n, lucky (snd (ws n))) -> storage_at d (tt_storage t) = Some x -> (tt_size t < ts_size x)%Z ->
  length (on d (tt_storage t)) < fuel ->
  exists d' l, engine_rebalance fuel ws d = (d', l, Finished) /\ forall q, In q (d_parts d') <-> In q (d_parts d) /\ tp_storage q <> tt_storage t.
Proof.
  intros H1. induction fuel as [|f IH]; intros ws lost d x W C Idl T L Sx Hx B; [lia|]. cbn [engine_rebalance]. rewrite T, (single_next d t _ Idl).
  assert (N : engine_rebalance_tier_next d t (fst (ws 0)) = storage_oldest (on d (tt_storage t))).
  { unfold engine_rebalance_tier_next. rewrite Sx. apply storage_at_some in Sx. destruct Sx as [_ ->]. destruct (Z.leb_spec 0 (tt_size t)); [|lia]. destruct (Z.ltb_spec (tt_size t) (ts_size x)); [|lia]. cbn [andb].
    destruct ((0 <=? tt_partitions t)%Z && (tt_partitions t <? ts_count x)%Z); reflexivity. }
  pose proof (storage_oldest_spec (on d (tt_storage t))) as O. rewrite N. destruct (storage_oldest (on d (tt_storage t))) as [p|].
  - destruct (single_round lost (fst (ws 0)) (snd (ws 0)) d t p W C Idl T (L 0) N) as (d2 & R1 & W2 & (l2 & C2) & T2 & Idl2 & [Ip Op] & P2 & S2). rewrite R1. destruct (on_in _ _ _ Ip) as [I Sp].
    specialize (S2 (tt_storage t)). rewrite Sx in S2. cbn [option_map] in S2. destruct (storage_at d2 (tt_storage t)) as [y|] eqn:Sy; [|discriminate]. cbn [option_map] in S2.
    assert (Ln : S (length (on d2 (tt_storage t))) <= length (on d (tt_storage t))).
    { assert (Cn : count_on d2 (tt_storage t) = (count_on d (tt_storage t) - 1)%Z).
      { rewrite !count_sum, P2. unfold others. rewrite (sum_remove (adds_count (tt_storage t)) p); [|apply wf_mins, W|exact I]. unfold adds_count at 2. rewrite Sp, Nat.eqb_refl. reflexivity. }
      unfold count_on in Cn. lia. }
    destruct (IH (fun n => ws (S n)) l2 d2 y) as (d' & l & Q1 & Q2); try assumption; [intro n; apply L|congruence|lia|].
    exists d', ((tp_min p, None) :: l). rewrite Q1. split; [reflexivity|]. intro q. rewrite Q2, P2, others_in. split; [tauto|]. intros [A1 A2]. split; [split; [exact A1|]|exact A2]. intro X.
    assert (q = p). { pose proof (part_at_min d q W A1) as B1. pose proof (part_at_min d p W I) as B2. congruence. } subst q. contradiction.
  - exists d, []. split; [reflexivity|]. intro q. split; [|tauto]. intro Iq. split; [exact Iq|]. intro X. assert (Z : In q (on d (tt_storage t))) by (apply in_on; split; assumption). rewrite O in Z. destruct Z.
Qed.

(* a drop of the last file: the counters of the storage stay *)
Theorem drop_leaves lost d p k : wf d -> counted lost d -> In p (d_parts d) -> lucky k ->
  exists d2, engine_drop d (tp_min p) true (ID + ID_CLOUD) k = (d2, Yes) /\ (forall q, In q (d_parts d2) <-> In q (d_parts d) /\ tp_min q <> tp_min p) /\
    (forall s, option_map (fun x => (ts_size x, ts_events x)) (storage_at d2 s) = option_map (fun x => (ts_size x, ts_events x)) (storage_at d s)) /\
    (size_on d2 (tp_storage p) = size_on d (tp_storage p) - (if filed p then Z.of_N (tp_size p) else 0))%Z.
Proof.
  intros W C I L. destruct (dropped_at d p k W I L) as (d2 & D1 & D2 & D3). exists d2. split; [exact D1|]. split; [intro q; rewrite D2; apply others_in|]. split; [exact D3|].
  rewrite !size_sum, D2. unfold others. rewrite (sum_remove (adds_size (tp_storage p)) p); [|apply wf_mins, W|exact I]. unfold adds_size at 2. rewrite Nat.eqb_refl. reflexivity.
Qed.
Theorem move_moves lost d p s size events k : wf d -> counted lost d -> In p (d_parts d) -> tp_storage p <> s -> In s (map ts_id (d_storages d)) -> lucky k -> lk_merge k = Some (size, events) ->
  exists d2 o new, engine_refresh d (tp_min p) (Some s) true k = (d2, o) /\ o <> Failed /\
    (tp_min new = tp_min p /\ tp_max new = tp_max p /\ tp_created new = tp_created p /\ filed new = true /\ tp_refresh new = false /\ tp_size new = size /\ tp_events new = events /\ tp_storage new = s) /\
    (forall q, In q (d_parts d2) <-> In q (d_parts d) /\ tp_min q <> tp_min p \/ q = new).
Proof.
  intros W C I NE Hs L M. destruct (moved_at lost d p s size events k W C I NE Hs L M) as (d2 & o & st & D1 & D2 & D3 & D4). eexists d2, o, _. split; [exact D1|]. split; [exact D2|]. split.
  2:{ intro q. rewrite D4, in_app_iff, others_in. cbn [In]. split; [intros [X|[X|[]]]; [left; exact X|right; symmetry; exact X]|intros [X|X]; [left; exact X|right; left; symmetry; exact X]]. }
  repeat split. unfold filed. cbn [tp_state]. cbn [In] in D3. destruct D3 as [<-|[<-|[<-|[]]]]; reflexivity.
Qed.
