(* The merged view of several contents, newest first. *)
From Coq Require Import NArith ZArith List Bool Sorted.
Import ListNotations.
From Verif Require Import Model.Event Spec.Order.

(* every key of any source once, ascending, with the event of the first source that has it *)
Definition merged (srcs : list (list event)) (out : list event) : Prop :=
  ascending out /\ forall k, lookup out k = lookup (concat srcs) k.

(* the same, said with positions *)
Definition newest (srcs : list (list event)) (e : event) : Prop :=
  exists pre l post, srcs = pre ++ l :: post /\ In e l /\
    forall l' e', In l' pre -> In e' l' -> ~ same_key e e'.
