(* Specification: the order of events and histories of writes. *)
From Coq Require Import NArith ZArith List Bool Sorted.
Import ListNotations.
From Verif Require Import Model.Base Model.Event.

(* byte strings in dictionary order, a proper prefix first *)
Fixpoint bytes_cmp (a b : list N) : comparison :=
  match a, b with
  | [], [] => Eq
  | [], _ :: _ => Lt
  | _ :: _, [] => Gt
  | x :: a', y :: b' =>
      match N.compare x y with
      | Eq => bytes_cmp a' b'
      | c => c
      end
  end.

(* events by id, then by key *)
Definition ev_cmp (a b : event) : comparison :=
  match N.compare (ev_id a) (ev_id b) with
  | Eq => bytes_cmp (ev_key a) (ev_key b)
  | c => c
  end.

Definition ev_lt (a b : event) : Prop := ev_cmp a b = Lt.
Definition ev_le (a b : event) : Prop := ev_cmp a b <> Gt.
Definition same_key (a b : event) : Prop := ev_id a = ev_id b /\ ev_key a = ev_key b.
Definition same_keyb (a b : event) : bool :=
  match ev_cmp a b with Eq => true | _ => false end.

(* representable in the C structures: 64-bit id, 8-bit key size and bytes *)
Definition ev_ok (e : event) : Prop :=
  (ev_id e < 2 ^ 64)%N /\ (length (ev_key e) <= 255)%nat /\
  Forall (fun b => (b < 256)%N) (ev_key e) /\
  Forall (fun b => (b < 256)%N) (ev_val e) /\ (ev_flags e < 256)%N.

(* ids in a range narrower than 2^31 *)
Definition win (lo : N) (e : event) : Prop :=
  (lo <= ev_id e /\ ev_id e < lo + 2 ^ 31)%N.

Definition ascending (l : list event) : Prop := StronglySorted ev_lt l.

(* the last event written for the key of k, in a history in time order *)
Definition last_write (hist : list event) (k : event) : option event :=
  find (same_keyb k) (rev hist).

(* the event stored for the key of k in a content *)
Definition lookup (l : list event) (k : event) : option event :=
  find (same_keyb k) l.

(* number of distinct keys in a history *)
Fixpoint distinct (hist : list event) : nat :=
  match hist with
  | [] => 0
  | e :: t => if existsb (same_keyb e) t then distinct t else S (distinct t)
  end.

(* events not below a key *)
Definition geb (k e : event) : bool :=
  match ev_cmp e k with Lt => false | _ => true end.

(* content l' is content l with e stored for its key *)
Definition updated (l l' : list event) (e : event) : Prop :=
  ascending l' /\
  forall k, lookup l' k = if same_keyb k e then Some e else lookup l k.

(* events above a key *)
Definition gtb (k e : event) : bool :=
  match ev_cmp e k with Gt => true | _ => false end.
