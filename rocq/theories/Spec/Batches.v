(* Batches of several threads: what is expected. *)
From Coq Require Import NArith ZArith Arith List Bool.
Import ListNotations.
From Verif Require Import Model.Base Model.Event Model.Batches.

Section Batches.
Variable refs0 : Z.
Variable part : N -> N.
Let at_ (e : event) : N := part (ev_id e).

(* the newest of these events with this id and key in a partition; [l] oldest first *)
Fixpoint newest (p : N) (k : key) (l : list event) : option event :=
  match l with
  | [] => None
  | e :: t => match newest p k t with
              | Some x => Some x
              | None => if (at_ e =? p)%N && key_eqb (key_of e) k then Some e else None
              end
  end.
(* batches one at a time, in the order of the log *)
Definition serial (y : system) (p : N) (k : key) : option event := newest p k (concat (map snd (y_log y))).

(* the partitions a thread has locked: those of its cursors and those of its batch *)
Definition busy (s : thread) : list N :=
  match s with
  | Idle => []
  | Adding log _ => map (fun x => at_ (en_event x)) log
  | Holding log e _ => map (fun x => at_ (en_event x)) log ++ [at_ e]
  | Committing _ todo | Undoing todo => map (fun x => at_ (en_event x)) todo
  end.
Definition holds (y : system) (t : nat) : list N := y_cursors y t ++ busy (y_threads y t).
(* a thread asks for a partition it has already: a second event of a batch, a write below a cursor, a
   second cursor *)
Definition again (y : system) (m : move) : Prop :=
  match m with
  | Go t => match y_threads y t with Adding _ (e :: _) => In (at_ e) (holds y t) | _ => False end
  | Open t p => In p (holds y t)
  | _ => False
  end.
Inductive reached : system -> Prop :=
| at_start : reached start
| moved_on y m : reached y -> (refs0 = 1%Z \/ ~ again y m) -> reached (moved refs0 part y m).

(* the events of the batch of a thread that are in memory and not in the log *)
Definition pending (s : thread) : list event :=
  match s with
  | Adding log _ | Holding log _ _ => map en_event log
  | Undoing todo => map en_event (rev todo)
  | _ => []
  end.
Definition quiet (y : system) : Prop := forall t, y_threads y t = Idle.
End Batches.
