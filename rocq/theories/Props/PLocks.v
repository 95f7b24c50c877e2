(* C40, C71: the locks of partitions and the control lock. *)
From Coq Require Import NArith ZArith Arith List Bool.
Import ListNotations.
From Verif Require Import Model.Locks Spec.Locks Proof.LocksL Proof.LocksE Proof.LocksT Proof.LocksX.

(* batches whose events are all in different partitions, cursors, refreshes, drops and commands, in
   any number of threads: a lock is held by one thread at a time *)
Theorem C40_exclusive ls s t u l : Forall (Forall apart) ls -> reached (map program ls) s -> holds s t l -> holds s u l -> t = u.
Proof. exact (engine_exclusion ls s t u l). Qed.
Print Assumptions C40_exclusive.
Example C40_exclusive_example : Forall (Forall apart) [[Write [3; 1]; Cursor [1; 1]]; [Refresh 1; Drop 3]; [Command]] /\
  exists s, reached (map program [[Write [3; 1]; Cursor [1; 1]]; [Refresh 1; Drop 3]; [Command]]) s /\ holds s 0 (access 1) /\ holds s 1 (service 1) /\ sleeps s 1 (access 1).
Proof.
  split; [repeat constructor; cbn; intuition discriminate|]. exists (after_moves (map program [[Write [3; 1]; Cursor [1; 1]]; [Refresh 1; Drop 3]; [Command]]) (to [0; 0; 0; 0; 1; 1; 1])).
  split; [apply reached_by; eexists; vm_compute; reflexivity|]. split; [holds_now|]. split; [holds_now|]. eexists _, _. split; [vm_compute; reflexivity|]. split; vm_compute; reflexivity.
Qed.
(* the same for threads which do anything with locks, as long as no lock is taken twice *)
Theorem C40_programs progs s t u l : Forall (unnested []) progs -> reached progs s -> holds s t l -> holds s u l -> t = u.
Proof. exact (exclusion progs s t u l). Qed.
Print Assumptions C40_programs.
Example C40_programs_example : Forall (unnested []) [cursor_on 1 (engine_write [2]); refresh_run 2] /\
  exists s, reached [cursor_on 1 (engine_write [2]); refresh_run 2] s /\ holds s 0 (access 1) /\ holds s 1 (access 2).
Proof.
  split; [repeat constructor; cbn; intuition discriminate|]. exists (after_moves [cursor_on 1 (engine_write [2]); refresh_run 2] (to [0; 0; 1; 1; 1])).
  split; [apply reached_by; eexists; vm_compute; reflexivity|]. split; holds_now.
Qed.
(* a thread sleeps only while somebody has the lock, whatever the programs do *)
Theorem C40_wakeup progs s t l : reached progs s -> sleeps s t l -> lk_owner (s_locks s l) <> None.
Proof. exact (sleeper_has_owner progs s t l). Qed.
Print Assumptions C40_wakeup.
(* a command which takes the control lock exclusively finds no lock of a partition taken by others *)
Theorem C40_command ls s t u l : reached (map program ls) s -> excludes s t -> holds s u l -> t = u.
Proof. exact (command_alone ls s t u l). Qed.
Print Assumptions C40_command.
Theorem C40_control progs s t u : reached progs s -> excludes s t -> shares s u \/ excludes s u -> t = u.
Proof. exact (control_alone progs s t u). Qed.
Print Assumptions C40_control.
Example C40_control_example : exists s, reached (map program [[Write [1]]; [Drop 2]]) s /\ excludes s 1.
Proof.
  exists (after_moves (map program [[Write [1]]; [Drop 2]]) (to [1; 1; 1; 1; 1; 1; 1])). split; [apply reached_by; eexists; vm_compute; reflexivity|]. eexists. split; vm_compute; reflexivity.
Qed.
(* a lock taken n+2 times by its owner is still held after n releases and free after n+1 *)
Theorem C40_nested k t n : lk_owner k = None -> let taken := times (S (S n)) (fun k => fst (lockage_lock k t)) k in
  lk_owner (times n (fun k => fst (lockage_unlock k)) taken) = Some t /\ lk_owner (times (S n) (fun k => fst (lockage_unlock k)) taken) = None.
Proof. exact (nested_early k t n). Qed.
Print Assumptions C40_nested.
(* two events of one batch in the same partition: a writer and a refresh hold its lock together *)
Theorem C40_refuted : exists ls s t u l, reached (map program ls) s /\ holds s t l /\ holds s u l /\ t <> u.
Proof. exists two_and_one. eexists _, 1, 2, (access 1). split; [exact (proj1 early_both)|]. split; [exact (proj1 (proj2 early_both))|]. split; [exact (proj1 (proj2 (proj2 early_both)))|discriminate]. Qed.
Print Assumptions C40_refuted.
(* a write under an open cursor of the same thread gives the cursor's lock away *)
Theorem C40_cursor_refuted : exists s, reached [cursor_on 1 (engine_write [1] ++ engine_write [1]); program [DropFile 1]] s /\ holds s 0 (access 1) /\ holds s 1 (access 1).
Proof. exact (ex_intro _ _ cursor_both). Qed.
Print Assumptions C40_cursor_refuted.

(* batches whose events go through their partitions in increasing order: always somebody gets on, and
   all threads can end *)
Theorem C71_goes_on ls s : Forall (Forall in_order) ls -> reached (map program ls) s -> (finished s \/ exists t, goes_on s t) /\ exists l s', moves s l = Some s' /\ finished s'.
Proof. exact (engine_goes_on ls s). Qed.
Print Assumptions C71_goes_on.
Example C71_goes_on_example : Forall (Forall in_order) [[Write [1; 3]; Cursor [3; 1]]; [Refresh 3; Drop 1]; [Command]].
Proof. repeat constructor. Qed.
(* batches over the same two partitions in opposite order wait for each other for ever *)
Theorem C71_refuted : exists ls s, reached (map program ls) s /\ stuck s.
Proof. exact (ex_intro _ _ (ex_intro _ _ crossed_stuck)). Qed.
Print Assumptions C71_refuted.
(* a thread with an open cursor which gives a command that excludes everybody waits for itself *)
Theorem C71_cursor_refuted p r : exists s, reached [cursor_on p (exclusive ++ r)] s /\ stuck s.
Proof. exact (let '(ex_intro _ s (conj m k)) := cursor_stuck p r in ex_intro _ s (conj (ex_intro _ _ m) k)). Qed.
Print Assumptions C71_cursor_refuted.
