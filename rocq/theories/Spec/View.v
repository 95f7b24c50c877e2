(* What a reader must see. *)
From Coq Require Import NArith List Bool.
Import ListNotations.
From Verif Require Import Model.Event Model.Memtable Model.Mapping Model.Scan Spec.Order Spec.Merged.

(* the contents of a partition, newest first *)
Definition contents (p : part) : list (list event) :=
  [mt_events (pt_mem p); mt_events (pt_prev p);
   match pt_file p with Some f => concat f | None => [] end].

(* the latest version of a key, not deleted, in one of the partitions *)
Definition visible (parts : list part) (e : event) : Prop :=
  event_is_delete e = false /\ exists p, In p parts /\ newest (contents p) e.

(* not below the start of a cursor *)
Definition from (key : option event) (e : event) : Prop :=
  match key with None => True | Some k => ev_le k e end.
