(* Lists: what goes wrong otherwise *)
From Coq Require Import NArith ZArith List Bool Lia.
Import ListNotations.
From Verif Require Import Model.Links Spec.Links.

Local Open Scope N_scope.

Definition blank : heap := fun _ => mk_node 0 0.
(* every operation and every kind of body *)
Definition demo : list op :=
  [Init 1; Init 2; Append 1 10; Append 1 11; Push 1 12; Append 1 13; Append 1 14; Walk 1; Back 1; Is_last 1 14; Is_last 1 10; After 1 10;
   Fetch 1 (N.eqb 10); Unlink 13; Write 13 (mk_node 1 2); Append 2 13; Walk 1; Walk 2;
   Sweep 1 (fun x => if x =? 12 then Shift 2 else if x =? 11 then Keep else Free (mk_node 7 7)); Walk 1; Walk 2; Back 2; Pop 1; Empty 1; Pop 1; Empty 1;
   Append 1 20; Append 1 21; Append 1 22; Drain 1 (fun x => if x =? 21 then Free (mk_node 0 0) else Shift 2); Walk 2; Back 2; Init 1; Empty 1].
Lemma demo_run : exists ls, act_all [] demo = Some (ls,
  [None_; None_; None_; None_; None_; None_; None_; Addrs [12; 10; 11; 13; 14]; Addrs [14; 13; 11; 10; 12]; Bool true; Bool false; Addrs [11; 13; 14];
   Addrs [12; 10]; None_; None_; None_; Addrs [12; 11; 14]; Addrs [13];
   Addrs [12; 11; 14]; Addrs [11]; Addrs [13; 12]; Addrs [12; 13]; Addr 11; Bool true; Addr 1; Bool true;
   None_; None_; None_; Addrs [20; 21; 22]; Addrs [13; 12; 20; 22]; Addrs [22; 20; 12; 13]; None_; Bool true]).
Proof. eexists. vm_compute. reflexivity. Qed.

Lemma loop_forever h a i : i <> a -> next (h i) = i -> forall fuel, foreach fuel h a i = None.
Proof.
  intros H E. induction fuel as [|fuel IH]; [reflexivity|]. cbn. apply N.eqb_neq in H. now rewrite H, E, IH.
Qed.
Definition twice_on : list op := [Init 1; Append 1 10; Append 1 10; Walk 1].
Lemma twice_stuck h : forall fuel, nth 3 (snd (exec_all fuel h twice_on)) None_ = Stuck.
Proof.
  intro fuel. cbn -[foreach]. rewrite loop_forever; [reflexivity|discriminate|reflexivity].
Qed.
Definition moved_up : list op := [Init 1; Append 1 10; Append 1 11; Append 1 10; Walk 1].
Lemma moved_lost : nth 4 (snd (exec_all 9 blank moved_up)) None_ = Addrs [10].
Proof. vm_compute. reflexivity. Qed.
Definition late_unlink : list op := [Init 1; Append 1 10; Append 1 11; Unlink 11; Append 1 12; Unlink 11; Walk 1].
Lemma late_lost : snd (exec_all 9 blank late_unlink) = [None_; None_; None_; None_; None_; None_; Addrs [10]] /\
  exists ls, act_all [] (firstn 5 late_unlink ++ [Walk 1]) = Some (ls, [None_; None_; None_; None_; None_; Addrs [10; 12]]).
Proof. vm_compute. split; [reflexivity|eexists; reflexivity]. Qed.
(* an element that the plain loop takes away while it stands on it: Free then Walk from it *)
Definition init_linked : list op := [Init 1; Append 1 10; Append 1 11; Init 10; Walk 1].
Lemma init_stuck h : forall fuel, nth 4 (snd (exec_all fuel h init_linked)) None_ = Stuck.
Proof.
  intro fuel. cbn -[foreach]. rewrite loop_forever; [reflexivity|discriminate|reflexivity].
Qed.

Definition itables0 : itables := mk_itables blank (fun _ => 0%Z) (fun _ => 0).
Definition iters : list iop :=
  [Table 1; Table 2; New 10; New 11; New 12; New 13; Open 10 1 false true; Open 11 1 false true; Open 12 2 false true; Open 13 1 true true;
   Close 10; Open 10 1 false true; Open 13 2 false false; Close 12; Close 12; Close 13].
Lemma iters_run : iact_all [] [] iters = Some ([(2, []); (1, [11; 10])], [13; 12; 11; 10]).
Proof. vm_compute. reflexivity. Qed.
Definition opened_twice : list iop := [Table 1; New 10; Open 10 1 false true; Open 10 1 false true].
Lemma opened_stuck s : exists s', iexec_all s opened_twice = Some s' /\ forall fuel, synced fuel s' 1 = None.
Proof.
  eexists. split; [reflexivity|]. intro fuel. unfold synced. cbn -[foreach]. apply loop_forever; [discriminate|reflexivity].
Qed.
