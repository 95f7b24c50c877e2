(* C89: the threads of a handle. *)
From Coq Require Import NArith ZArith List Bool.
Import ListNotations.
From Verif Require Import Model.Base Model.Service Model.Workers Spec.Threads Proof.WorkersL Proof.WorkersT Proof.WorkersX.

(* the workers that the settings ask for, each with its thread *)
Theorem C89_start : forall w k u answers, (k + u < 2 ^ 31)%N -> Forall (eq true) answers ->
  worker_mgr_start w k u (Threads answers) = Ok (opened_with w (asked k u) (length (asked k u)), true).
Proof. exact start_granted. Qed.
Print Assumptions C89_start.
Example C89_start_example : asked 2 1 = [WithoutUpload; WithoutUpload; OnlyUpload] /\ asked 3 0 = [Any; Any; Any].
Proof. exact sample_asked. Qed.
Theorem C89_start_stopped : forall w k u before after, (k + u < 2 ^ 31)%N -> Forall (eq true) before -> (length before < length (asked k u))%nat ->
  worker_mgr_start w k u (Threads (before ++ false :: after)) = Ok (opened_with w (asked k u) (length before), false).
Proof. exact start_refused. Qed.
Print Assumptions C89_start_stopped.

(* programs that keep to the order *)
Theorem C89_safe : forall ls, careful plan0 ls -> exists w, run world0 ls = Ok w.
Proof. exact safe. Qed.
Print Assumptions C89_safe.
Theorem C89_ended : forall ls w, careful plan0 ls -> run world0 ls = Ok w -> wd_handle w = false -> no_thread_left w.
Proof. exact ended. Qed.
Print Assumptions C89_ended.
Theorem C89_returns : forall ls w, careful plan0 ls -> p_freed (known ls) = true -> run world0 ls = Ok w ->
  exists more w', Forall free_step more /\ run w more = Ok w' /\ wd_handle w' = false.
Proof. exact returns. Qed.
Print Assumptions C89_returns.
Example C89_example : careful plan0 sample_run.
Proof. exact sample_careful. Qed.
Example C89_example_freed : exists w, run world0 sample_run = Ok w /\ wd_handle w = false /\ length (wd_threads w) = 3%nat /\ p_freed (known sample_run) = true.
Proof. exact sample_freed. Qed.

(* a thread that could not be made: monotone_free does not come to its end *)
Theorem C89_refused : forall k u before after ls w, (k + u < 2 ^ 31)%N -> Forall (eq true) before -> (length before < length (asked k u))%nat ->
  run world0 (Open k u (Threads (before ++ false :: after)) :: Free :: ls) = Ok w -> wd_handle w = true.
Proof. exact refused_stays. Qed.
Print Assumptions C89_refused.
Example C89_refused_example : (3 + 1 < 2 ^ 31)%N /\ Forall (eq true) [true] /\ (length [true] < length (asked 3 1))%nat /\
  exists w, run world0 [Open 3 1 (Threads ([true] ++ false :: [])); Free; Ends 0; Go] = Ok w.
Proof. exact refused_sample. Qed.
Theorem C89_thread_refuted : run world0 [Open 3 1 (Threads [true; false]); Free; Ends 0; Go; Go] = UB.
Proof. exact no_thread. Qed.
Print Assumptions C89_thread_refuted.
Theorem C89_memory_refuted : run world0 [Open 3 1 NoMemory; Free; Go] = UB.
Proof. exact no_memory. Qed.
Print Assumptions C89_memory_refuted.
Theorem C89_count_refuted : run world0 [Open 3 4294967295 (Threads [])] = UB.
Proof. exact upload_minus_one. Qed.
Print Assumptions C89_count_refuted.
(* a handle that was opened twice is freed below a thread *)
Theorem C89_twice_refuted : exists ls w, run world0 ([Open 1 0 (Threads []); Open 1 0 (Threads []); Free; Ends 1] ++ ls) = Ok w /\
  Forall free_step ls /\ wd_handle w = false /\ step w (Works 0) = UB.
Proof. exact opened_twice. Qed.
Print Assumptions C89_twice_refuted.
(* a cursor that is freed or used after its handle *)
Theorem C89_cursor_refuted : exists ls w, run world0 ([Open 1 0 (Threads []); Cursor true; Free; Ends 0] ++ ls) = Ok w /\
  Forall free_step ls /\ wd_handle w = false /\ step w (FreeCursor 0) = UB /\ step w (Use 0 true) = UB /\ step w Free = UB.
Proof. exact cursor_after. Qed.
Print Assumptions C89_cursor_refuted.
