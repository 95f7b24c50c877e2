(* C83: the lists of the runtime; C84: the iterators that an insert tells *)
From Coq Require Import NArith ZArith List Bool.
Import ListNotations.
From Verif Require Import Model.Links Spec.Links Proof.LinksP Proof.LinksX.

Local Open Scope N_scope.

(* any program over any number of lists, whatever is in memory before: the answers are those of lists
   without pointers *)
Theorem C83_lists : forall fuel h os ls rs, act_all [] os = Some (ls, rs) -> (length os <= fuel)%nat -> snd (exec_all fuel h os) = rs.
Proof. exact lists_meant. Qed.
Print Assumptions C83_lists.
Example C83_example : exists ls, act_all [] demo = Some (ls,
  [None_; None_; None_; None_; None_; None_; None_; Addrs [12; 10; 11; 13; 14]; Addrs [14; 13; 11; 10; 12]; Bool true; Bool false; Addrs [11; 13; 14];
   Addrs [12; 10]; None_; None_; None_; Addrs [12; 11; 14]; Addrs [13];
   Addrs [12; 11; 14]; Addrs [11]; Addrs [13; 12]; Addrs [12; 13]; Addr 11; Bool true; Addr 1; Bool true;
   None_; None_; None_; Addrs [20; 21; 22]; Addrs [13; 12; 20; 22]; Addrs [22; 20; 12; 13]; None_; Bool true]).
Proof. exact demo_run. Qed.
(* an element that is unlinked twice with nothing between *)
Theorem C83_twice : forall fuel h os x os' ls r1 r2, act_all [] (os ++ [Unlink x]) = Some (ls, r1) -> (exists ls', act_all ls os' = Some (ls', r2)) ->
  (length os + length os' + 1 <= fuel)%nat ->
  snd (exec_all fuel h (os ++ [Unlink x; Unlink x] ++ os')) = r1 ++ None_ :: r2.
Proof. exact unlinked_twice. Qed.
Print Assumptions C83_twice.
(* with an append between, an element is lost *)
Theorem C83_late_refuted : exists h os, snd (exec_all 9 h os) = [None_; None_; None_; None_; None_; None_; Addrs [10]] /\
  os = [Init 1; Append 1 10; Append 1 11; Unlink 11; Append 1 12; Unlink 11; Walk 1].
Proof. exact (ex_intro _ blank (ex_intro _ late_unlink (conj (proj1 late_lost) eq_refl))). Qed.
Print Assumptions C83_late_refuted.
(* an element that is on the list already: the loop never ends, or an element is lost; the same when it is initialised again *)
Theorem C83_on_refuted : (forall h fuel, nth 3 (snd (exec_all fuel h [Init 1; Append 1 10; Append 1 10; Walk 1])) None_ = Stuck) /\
  (exists h, nth 4 (snd (exec_all 9 h [Init 1; Append 1 10; Append 1 11; Append 1 10; Walk 1])) None_ = Addrs [10]) /\
  (forall h fuel, nth 4 (snd (exec_all fuel h [Init 1; Append 1 10; Append 1 11; Init 10; Walk 1])) None_ = Stuck).
Proof. exact (conj twice_stuck (conj (ex_intro _ blank moved_lost) init_stuck)). Qed.
Print Assumptions C83_on_refuted.

(* any iterators opened and closed over any memtables: an insert tells exactly those that are attached,
   each once, in the order in which they were opened; the assert of close holds *)
Theorem C84_told : forall s os ts made, iact_all [] [] os = Some (ts, made) ->
  exists s', iexec_all s os = Some s' /\
  forall m xs, get ts m = Some xs -> it_count s' m = Z.of_nat (length xs) /\ forall fuel, (length xs < fuel)%nat -> synced fuel s' m = Some xs.
Proof. exact told_all. Qed.
Print Assumptions C84_told.
Example C84_example : iact_all [] [] iters = Some ([(2, []); (1, [11; 10])], [13; 12; 11; 10]).
Proof. exact iters_run. Qed.
(* an iterator that is opened again without being closed: the next insert never ends *)
Theorem C84_refuted : forall s, exists s', iexec_all s [Table 1; New 10; Open 10 1 false true; Open 10 1 false true] = Some s' /\
  forall fuel, synced fuel s' 1 = None.
Proof. exact opened_stuck. Qed.
Print Assumptions C84_refuted.
