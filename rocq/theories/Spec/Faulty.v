(* What can be read when some regions cannot. *)
From Coq Require Import NArith List Bool.
Import ListNotations.
From Verif Require Import Model.Base Model.Event Model.Memtable Model.Mapping Model.Scan Model.Faulty
  Model.Engine Spec.Order Spec.Files Spec.Engine.

(* the regions that can be read, from number i on *)
Fixpoint readable (bad : nat -> bool) (i : nat) (f : list (list event)) : list (list event) :=
  match f with
  | [] => []
  | r :: f => if bad i then readable bad (S i) f else r :: readable bad (S i) f
  end.

(* what is left of a partition for a cursor: its file without the regions that cannot be read, and
   nothing of the file if the first region cannot and the cursor does not start in the partition *)
Definition starts_in (key : option event) (s : slice part) : bool :=
  match key with Some k => (s_min s <=? ev_id k)%N | None => false end.
Definition remains (bad : N -> nat -> bool) (key : option event) (s : slice part) : part :=
  let p := s_data s in
  mk_part (pt_mem p) (pt_prev p)
    match pt_file p with
    | None => None
    | Some f => if bad (s_min s) 0 && negb (starts_in key s) then None
                else Some (readable (bad (s_min s)) 0 f)
    end (pt_lsn p).

(* the events that were read, in all and before the first error *)
Fixpoint saw (l : list told) : list event :=
  match l with [] => [] | Saw e :: l => e :: saw l | _ :: l => saw l end.
Fixpoint before_error (l : list told) : list event :=
  match l with Saw e :: l => e :: before_error l | Nothing :: l => before_error l | _ => [] end.

(* a start of a cursor: none, or an event that is not past the stored keys of its id *)
Definition start_ok (lo : N) (en : engine) (key : option event) : Prop :=
  match key with
  | None => (lo + 2^31 < 2^63)%N
  | Some k => ev_ok k /\ win lo k /\ forall p, In p (parts en) -> ~ past_keys (file_events p) k
  end.
