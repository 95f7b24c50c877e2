(* Files as the user sees them: events split into regions. *)
From Coq Require Import NArith List Bool.
Import ListNotations.
From Verif Require Import Model.Event Spec.Order.

(* ascending events in non-empty regions *)
Definition file_ok (f : list (list event)) : Prop :=
  ascending (concat f) /\ Forall (fun r => r <> []) f.

(* two regions never hold events with the same id *)
Definition ids_apart (f : list (list event)) : Prop :=
  forall i j ri rj a b, i < j -> nth_error f i = Some ri -> nth_error f j = Some rj ->
    In a ri -> In b rj -> (ev_id a < ev_id b)%N.

(* a cursor start that sorts after every stored key of its id *)
Definition past_keys (evs : list event) (k : event) : Prop :=
  (exists e, In e evs /\ ev_id e = ev_id k) /\
  forall e, In e evs -> ev_id e = ev_id k -> ev_lt e k.
