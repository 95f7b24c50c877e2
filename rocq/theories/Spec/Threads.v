(* Programs that keep to the order: open once, free cursors before the handle, use nothing that was freed. The system
   gives memory and threads. Only the calls are looked at. *)
From Coq Require Import NArith ZArith Arith List Bool.
Import ListNotations.
From Verif Require Import Model.Base Model.Service Model.Workers.

(* what a program knows: memory there, and a partition below, for each cursor *)
Record plan := mk_plan { p_opened : bool; p_freed : bool; p_cursors : list (bool * bool) }.
Definition plan0 : plan := mk_plan false false [].

Definition allowed (p : plan) (l : label) : Prop :=
  match l with
  | Open k u FailsBefore => p_freed p = false
  | Open k u NoMemory => False
  | Open k u (Threads answers) => p_freed p = false /\ p_opened p = false /\ (k + u < 2 ^ 31)%N /\ Forall (eq true) answers
  | Free => p_freed p = false /\ Forall (fun c => fst c = true -> snd c = false) (p_cursors p)
  | Cursor _ => p_freed p = false
  | Use c _ | FreeCursor c => exists h, nth_error (p_cursors p) c = Some (true, h)
  | Go | Works _ | Ends _ => True
  end.
Definition next (p : plan) (l : label) : plan :=
  match l with
  | Open _ _ (Threads _) => mk_plan true (p_freed p) (p_cursors p)
  | Free => mk_plan (p_opened p) true (p_cursors p)
  | Cursor h => mk_plan (p_opened p) (p_freed p) (p_cursors p ++ [(true, h)])
  | Use c h =>
    match nth_error (p_cursors p) c with
    | Some (true, true) => mk_plan (p_opened p) (p_freed p) (set_nth (p_cursors p) c (true, h))
    | _ => p
    end
  | FreeCursor c => mk_plan (p_opened p) (p_freed p) (set_nth (p_cursors p) c (false, false))
  | _ => p
  end.
Fixpoint careful (p : plan) (ls : list label) : Prop :=
  match ls with
  | [] => True
  | l :: ls => allowed p l /\ careful (next p l) ls
  end.
Definition known (ls : list label) : plan := fold_left next ls plan0.

(* the workers that the settings ask for *)
Definition asked (k u : N) : list filter :=
  repeat (if (u =? 0)%N then Any else WithoutUpload) (N.to_nat k) ++ repeat OnlyUpload (N.to_nat u).
Definition no_thread_left (w : world) : Prop :=
  Forall (fun t => t_state t = TJoined) (wd_threads w) /\ Forall (eq None) (wd_arrays w).

(* the workers when their threads run: [t] is the first thread *)
Fixpoint number (t : nat) (fs : list filter) : array :=
  match fs with
  | [] => []
  | f :: fs => Some (mk_worker f (Some t)) :: number (S t) fs
  end.
Definition blank (fs : list filter) : array := map (fun f => Some (mk_worker f None)) fs.
Definition running (arr i n : nat) : list thread := map (fun j => mk_thread arr j TRuns) (seq i n).
(* what an opening makes; [n] threads were given *)
Definition opened_with (w : world) (fs : list filter) (n : nat) : world :=
  mk_world (wd_handle w) (wd_shutdown w) (Z.of_nat (length fs)) (Some (length (wd_arrays w)))
    (wd_arrays w ++ [Some (number (length (wd_threads w)) (firstn n fs) ++ blank (skipn n fs))])
    (wd_threads w ++ running (length (wd_arrays w)) 0 n) (wd_cursors w) (wd_caller w).
(* what monotone_free waits for *)
Definition free_step (l : label) : Prop := match l with Go | Ends _ => True | _ => False end.
