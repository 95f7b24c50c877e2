(* How events are cut into regions. *)
From Coq Require Import NArith ZArith List Bool.
Import ListNotations.
From Verif Require Import Model.Event.

(* bytes of a region with these events in a file: 24 header, 4 per event and the event, whose
   key counts twice *)
Definition event_weight (e : event) : N :=
  (14 + 2 * N.of_nat (length (ev_key e)) + N.of_nat (length (ev_val e)))%N.
Definition region_weight (r : list event) : N :=
  (24 + 4 * N.of_nat (length r) + fold_right (fun e n => event_weight e + n) 0 r)%N.

(* [regions] cuts [evs] at a size limit: nothing lost or reordered, no region empty, every
   region but the last reached the limit, no id in two regions, and no region goes on after
   reaching the limit except with the id it reached it with *)
Record cut (limit : N) (evs : list event) (regions : list (list event)) : Prop := {
  cut_all : concat regions = evs;
  cut_nonempty : Forall (fun r => r <> []) regions;
  cut_full : forall pre r post, regions = pre ++ r :: post -> post <> [] -> (limit <= region_weight r)%N;
  cut_tight : forall r a e b, In r regions -> r = a ++ e :: b -> a <> [] ->
     (limit <= region_weight a)%N -> exists x, In x a /\ ev_id x = ev_id e
}.
