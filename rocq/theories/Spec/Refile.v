(* What a refresh is to write: both lists of events in order, of equal ones that of the first list. *)
From Coq Require Import NArith ZArith List Bool.
Import ListNotations.
From Verif Require Import Model.Base Model.Event Model.Codec.

Fixpoint merge2 (a : list mevent) : list mevent -> list mevent :=
  fix inner (b : list mevent) : list mevent :=
    match a, b with
    | [], _ => b
    | _, [] => a
    | x :: a', y :: b' =>
      let rc := compare (fst x) (fst y) in
      if (rc =? 0)%Z then x :: merge2 a' b'
      else if (0 <? rc)%Z then y :: inner b'
      else x :: merge2 a' b
    end.
Definition live (m : mevent) : bool := negb (event_is_delete (fst m)).
