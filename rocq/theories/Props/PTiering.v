(* Tiers and counters of storages: C46, C56. *)
From Coq Require Import NArith ZArith Arith List Bool.
Import ListNotations.
From Verif Require Import Model.Base Model.Show Model.Tiering Spec.Tiering.
From Verif Require Import Proof.TieringL Proof.TieringO Proof.TieringT Proof.TieringB Proof.TieringC Proof.TieringX.

(* A round takes the oldest partition of the first tier over a limit whose oldest partition is not
   marked already, and sends it to the next tier. *)
Theorem C46_step : forall lost now d d1 min target,
  wf d -> counted lost d -> gains lost -> fits lost now d -> (forall t, In t (d_tiers d) -> reliable lost t) ->
  engine_rebalance_next d (d_tiers d) None now = Some (d1, min, target) ->
  exists before t after p, d_tiers d = before ++ t :: after /\ exceeded now d t /\ oldest (on d (tt_storage t)) p /\
    tp_refresh p = false /\ min = tp_min p /\ d1 = put_part d (set_refresh p) /\
    (forall u, In u before -> exceeded now d u -> waiting d u) /\
    match after with
    | n :: _ => target = Some (tt_storage n)
    | [] => ((forall u, In u before -> ~ exceeded now d u) -> target = None) /\
            (forall u, In u before -> exceeded now d u -> exists v, In v (tl (d_tiers d)) /\ target = Some (tt_storage v))
    end.
Proof. exact rebalance_step_taken. Qed.
Print Assumptions C46_step.
Example C46_step_example : wf calm /\ exact calm /\ gains (fun _ => (0, 0)%Z) /\ fits (fun _ => (0, 0)%Z) 1000 calm /\
  (forall t, In t (d_tiers calm) -> reliable (fun _ => (0, 0)%Z) t) /\
  option_map (fun r => (snd (fst r), snd r)) (engine_rebalance_next calm (d_tiers calm) None 1000) = Some (0%N, Some 1).
Proof.
  split; [exact calm_wf|]. split; [exact calm_exact|]. split; [intro i; split; discriminate|]. split; [exact calm_fits|]. split; [intros t _; left; reflexivity|vm_compute; reflexivity].
Qed.

(* Nothing is taken only if for every tier over a limit work is already ordered. *)
Theorem C46_quiet : forall lost now d, wf d -> counted lost d -> gains lost -> fits lost now d ->
  engine_rebalance_next d (d_tiers d) None now = None -> forall t, In t (d_tiers d) -> exceeded now d t -> waiting d t.
Proof. exact rebalance_quiet. Qed.
Print Assumptions C46_quiet.

(* A move puts the partition on the other storage, a drop takes it away; others stay as they are. *)
Theorem C46_moved : forall lost d p s size events k,
  wf d -> counted lost d -> In p (d_parts d) -> tp_storage p <> s -> In s (map ts_id (d_storages d)) -> lucky k -> lk_merge k = Some (size, events) ->
  exists d2 o new, engine_refresh d (tp_min p) (Some s) true k = (d2, o) /\ o <> Failed /\
    (tp_min new = tp_min p /\ tp_max new = tp_max p /\ tp_created new = tp_created p /\ filed new = true /\ tp_refresh new = false /\
     tp_size new = size /\ tp_events new = events /\ tp_storage new = s) /\
    (forall q, In q (d_parts d2) <-> In q (d_parts d) /\ tp_min q <> tp_min p \/ q = new).
Proof. exact move_moves. Qed.
Print Assumptions C46_moved.
Example C46_moved_example : In (pt 30 20 8 false 2) (d_parts calm) /\ In 0 (map ts_id (d_storages calm)) /\ lucky fine /\
  snd (engine_refresh calm 30 (Some 0) true fine) = No.
Proof. split; [right; right; right; left; reflexivity|]. split; [left; reflexivity|]. split; [exact fine_lucky|vm_compute; reflexivity]. Qed.

(* The rounds end, and no tier is over a limit then. *)
Theorem C46_ends : forall fuel ws lost d,
  wf d -> counted lost d -> gains lost -> idle d -> NoDup (map tt_storage (d_tiers d)) -> (forall n, lucky (snd (ws n))) ->
  length (d_tiers d) * length (d_parts d) < fuel ->
  exists d' l lost', engine_rebalance fuel ws d = (d', l, Finished) /\ length l <= length (d_tiers d) * length (d_parts d) /\ d_tiers d' = d_tiers d /\
    gains lost' /\ counted lost' d' /\
    (fits lost' (fst (ws (length l))) d' -> forall t, In t (d_tiers d) -> ~ exceeded (fst (ws (length l))) d' t).
Proof. exact rebalance_ends. Qed.
Print Assumptions C46_ends.
Example C46_ends_example : wf calm /\ exact calm /\ idle calm /\ NoDup (map tt_storage (d_tiers calm)) /\
  let '(d, l, e) := engine_rebalance 20 (at_time 1000) calm in
  l = [(0%N, Some 1); (10%N, Some 1); (0%N, Some 2); (30%N, None)] /\ e = Finished /\
  map (fun p => (tp_min p, tp_storage p, tp_state p)) (d_parts d) = [(20%N, 0, 1%N); (10%N, 1, 1%N); (0%N, 2, 8%N)] /\
  map ts_size (d_storages d) = [60; 60; 120]%Z.
Proof. split; [exact calm_wf|]. split; [exact calm_exact|]. split; [exact calm_idle|]. split; [exact calm_tiers|exact calm_run]. Qed.

(* One tier with a limit on the number of partitions: the oldest are dropped, as many as needed. *)
Theorem C46_partitions : forall t, (0 <= tt_partitions t)%Z -> (tt_size t < 0)%Z -> (tt_events t < 0)%Z -> (tt_duration t < 0)%Z ->
  forall fuel ws lost d, wf d -> counted lost d -> idle d -> d_tiers d = [t] -> (forall n, lucky (snd (ws n))) ->
  (count_on d (tt_storage t) - tt_partitions t < Z.of_nat fuel)%Z -> 0 < fuel ->
  exists d' l, engine_rebalance fuel ws d = (d', l, Finished) /\
    (forall q, In q (d_parts d') <-> In q (d_parts d) /\ ~ In (tp_min q) (map fst l)) /\
    count_on d' (tt_storage t) = Z.min (count_on d (tt_storage t)) (tt_partitions t) /\
    (forall p, In p (d_parts d) -> In (tp_min p) (map fst l) ->
       tp_storage p = tt_storage t /\ forall q, In q (on d' (tt_storage t)) -> (tp_created p <= tp_created q)%N).
Proof. exact drops_oldest. Qed.
Print Assumptions C46_partitions.
Example C46_partitions_example :
  let d := mk_tdb (d_storages heavy) [by_count 0 1] (d_parts heavy) in
  let '(d', l, e) := engine_rebalance 9 (at_time 1000) d in
  e = Finished /\ l = [(0%N, None); (10%N, None)] /\ map tp_min (d_parts d') = [20%N].
Proof. vm_compute. repeat split. Qed.

(* One tier over its limit on the size: everything is dropped. *)
Theorem C46_drops_all : forall t, (0 <= tt_size t)%Z ->
  forall fuel ws lost d x, wf d -> counted lost d -> idle d -> d_tiers d = [t] -> (forall n, lucky (snd (ws n))) ->
  storage_at d (tt_storage t) = Some x -> (tt_size t < ts_size x)%Z -> length (on d (tt_storage t)) < fuel ->
  exists d' l, engine_rebalance fuel ws d = (d', l, Finished) /\ forall q, In q (d_parts d') <-> In q (d_parts d) /\ tp_storage q <> tt_storage t.
Proof. exact drops_all. Qed.
Print Assumptions C46_drops_all.
Theorem C46_too_much_refuted : exists d ws t, wf d /\ exact d /\ idle d /\ d_tiers d = [t] /\ (forall n, lucky (snd (ws n))) /\
  (exists d1 l1, engine_rebalance 1 ws d = (d1, l1, Running) /\ length (d_parts d1) = 2 /\ size_on d1 (tt_storage t) = 120%Z /\ tt_size t = 130%Z) /\
  (exists d' l, engine_rebalance 9 ws d = (d', l, Finished) /\ d_parts d' = []).
Proof. exact drops_too_much. Qed.
Print Assumptions C46_too_much_refuted.

(* Work is waiting for the first tier: the rebalance never ends, or keeps what it should drop. *)
Theorem C46_stale_refuted : exists d ws, wf d /\ exact d /\ NoDup (map tt_storage (d_tiers d)) /\ (forall n, lucky (snd (ws n))) /\
  forall fuel, snd (engine_rebalance fuel ws d) = Running.
Proof. exact stale_never_ends. Qed.
Print Assumptions C46_stale_refuted.
Theorem C46_kept_refuted : exists d ws t, wf d /\ exact d /\ NoDup (map tt_storage (d_tiers d)) /\ (forall n, lucky (snd (ws n))) /\ d_tiers d = [by_count 0 0; t] /\
  let '(d', l, e) := engine_rebalance 9 ws d in e = Finished /\ l = [(10%N, Some (tt_storage t))] /\ exceeded 1000 d' t /\ map tp_refresh (on d' (tt_storage t)) = [true].
Proof. exact last_kept. Qed.
Print Assumptions C46_kept_refuted.
(* A pipeline may name a storage twice. *)
Theorem C46_circle_refuted : exists d ws, wf d /\ exact d /\ idle d /\ (forall n, lucky (snd (ws n))) /\ map tt_storage (d_tiers d) = [0; 1; 0] /\
  forall fuel, snd (engine_rebalance fuel ws d) = Running.
Proof. exact circle_never_ends. Qed.
Print Assumptions C46_circle_refuted.
(* The clock is set back. *)
Theorem C46_clock_refuted : exists d ws now t, wf d /\ exact d /\ idle d /\ d_tiers d = [t] /\ (forall n, fst (ws n) = now /\ lucky (snd (ws n))) /\ ~ exceeded now d t /\
  exists d' l, engine_rebalance 9 ws d = (d', l, Finished) /\ d_parts d <> [] /\ d_parts d' = [].
Proof. exact clock_drops. Qed.
Print Assumptions C46_clock_refuted.

(* Without the drop of a last file the counters are the sums; a start makes them so. *)
Theorem C56_kept : forall l d, wf d -> exact d -> all_possible d l -> all_keep d l -> exact (runs d l).
Proof. exact histories_exact. Qed.
Print Assumptions C56_kept.
Example C56_kept_example : wf calm /\ exact calm /\ all_possible calm story /\ all_keep calm story /\
  map ts_size (d_storages (runs calm story)) = [120; 60; 120]%Z.
Proof. split; [exact calm_wf|]. split; [exact calm_exact|]. split; [exact story_possible|]. split; [exact story_keeps|vm_compute; reflexivity]. Qed.
Theorem C56_start : forall d l, wf (mk_tdb (d_storages d) (d_tiers d) l) -> exact (engine_recover d l) /\ d_parts (engine_recover d l) = l.
Proof. exact restart_exact. Qed.
Print Assumptions C56_start.

(* In every history the number of partitions is right and the other counters never fall below the sums. *)
Theorem C56_always : forall l d, wf d -> exact d -> all_possible d l ->
  wf (runs d l) /\ exists lost, gains lost /\ counted lost (runs d l).
Proof. exact histories_counted. Qed.
Print Assumptions C56_always.

(* A dropped partition stays in the counters. *)
Theorem C56_stays : forall lost d p k, wf d -> counted lost d -> In p (d_parts d) -> lucky k ->
  exists d2, engine_drop d (tp_min p) true (ID + ID_CLOUD) k = (d2, Yes) /\ (forall q, In q (d_parts d2) <-> In q (d_parts d) /\ tp_min q <> tp_min p) /\
    (forall s, option_map (fun x => (ts_size x, ts_events x)) (storage_at d2 s) = option_map (fun x => (ts_size x, ts_events x)) (storage_at d s)) /\
    (size_on d2 (tp_storage p) = size_on d (tp_storage p) - (if filed p then Z.of_N (tp_size p) else 0))%Z.
Proof. exact drop_leaves. Qed.
Print Assumptions C56_stays.
Theorem C56_refuted : exists d o, wf d /\ exact d /\ possible d o /\ size_on (run d o) 0 = 0%Z /\
  map ts_size (d_storages (run d o)) = [60%Z] /\ map ts_count (d_storages (run d o)) = [0%Z] /\ ~ exact (run d o).
Proof. exact drop_drifts. Qed.
Print Assumptions C56_refuted.
