(* C79: exceptions and guards. *)
From Coq Require Import Arith List Bool.
Import ListNotations.
From Verif Require Import Model.Except Spec.Except Proof.ExceptT.

(* a call of the API ends, nothing is left on the stacks, and what was seen is what the blocks mean *)
Theorem C79_runs : forall p o t, close (sem p [[]]) = Some (o, [], t) -> o <> Returned ->
  exists m, run p = (Norm, m) /\ m_seen m = t /\ m_last m = None.
Proof. exact runs. Qed.
Print Assumptions C79_runs.
(* every guard is run or taken off, once, the last one first *)
Theorem C79_once : forall p o t, close (sem p [[]]) = Some (o, [], t) -> o <> Returned ->
  exists m, run p = (Norm, m) /\ nested [] (m_seen m).
Proof. exact once. Qed.
Print Assumptions C79_once.
Example C79_example : close (sem write_fails [[]]) =
  Some (Thrown, [], [Did 1; Set_ 1; Did 2; Set_ 2; Off 2; Off 1; Did 4; Did 1; Set_ 1; Did 2; Set_ 2; Set_ 3; Did 3; Ran 3; Ran 2; Ran 1; Did 5]).
Proof. exact write_fails_seen. Qed.

(* a guard that throws while the guards are run is run again, as often as it throws *)
Theorem C79_throwing_guard_refuted : forall f k, exists m, run (Seq (Guard f k) Throw) = (Norm, m) /\ m_seen m = Set_ f :: repeat (Ran f) (S k).
Proof. exact run_again. Qed.
Print Assumptions C79_throwing_guard_refuted.
(* what the programs of the theorems do not do *)
Theorem C79_return_refuted : fst (run (Seq (Call (Try Return Skip Skip)) Throw)) = Bad.
Proof. exact return_out. Qed.
Print Assumptions C79_return_refuted.
Theorem C79_throw_between_refuted : fst (run (Try Skip Throw Skip)) = Bad.
Proof. exact throw_between. Qed.
Print Assumptions C79_throw_between_refuted.
Theorem C79_unguard_refuted : fst (run (Seq (Guard 1 0) (Try Unguard Skip Skip))) = Bad.
Proof. exact unguard_outer. Qed.
Print Assumptions C79_unguard_refuted.
Theorem C79_guard_between_refuted : exists m, run (Call (Try Skip (Guard 1 0) Skip)) = (Bad, m).
Proof. exact guard_between. Qed.
Print Assumptions C79_guard_between_refuted.
