(* What is asked of a partition that is kept in a storage and in a cloud. *)
From Coq Require Import NArith List Bool.
Import ListNotations.
From Verif Require Import Model.Base Model.CloudFiles.

Section Index.
Variable idx : bytes -> bytes.

(* a complete copy from which a start goes on *)
Definition holds (d : disk) (b : bytes) : Prop :=
  d_id d = Some b \/ (d_id d = None /\ d_comp d = Some b) \/
  (d_id d = None /\ d_cloud d = Some (idx b) /\ d_object d = Some b).

(* nothing is under way: what the partition says of itself is what is on disk and in the cloud *)
Definition tidy (s : pst) : Prop :=
  d_inc (p_disk s) = None /\ d_comp (p_disk s) = None /\ d_cinc (p_disk s) = None.
Definition settled (su : setup) (s : pst) (c : option bytes) : Prop :=
  tidy s /\
  (in_cloud (p_flags s) = true -> su_cloud su = true) /\
  d_id (p_disk s) = (if in_id (p_flags s) then c else None) /\
  match c with
  | None => in_id (p_flags s) = false /\ in_cloud (p_flags s) = false /\ d_cloud (p_disk s) = None
  | Some b =>
      (in_id (p_flags s) = true \/ in_cloud (p_flags s) = true) /\
      d_cloud (p_disk s) = (if in_cloud (p_flags s) then Some (idx b) else None) /\
      (in_cloud (p_flags s) = true -> d_object (p_disk s) = Some b)
  end.
(* the cloud takes an object whole: it replaces, or there is nothing to replace *)
Definition clear (su : setup) (s : pst) : Prop :=
  su_replaces su = true \/ (in_cloud (p_flags s) = false -> d_object (p_disk s) = None).

(* what is left of the contents c by an action on a partition that has a local file (i) and one in the
   cloud (u) *)
Definition contents_after (a : action) (i u : bool) (c : option bytes) : option bytes :=
  match a with
  | ARefresh b => if u then c else Some b
  | ADropCloud => if i then c else None
  | ADropLocal => if u then c else None
  | ADropBoth => None
  | _ => c
  end.

(* what a request may leave *)
Definition turn_leaves (t : turn) (c c' : option bytes) : Prop :=
  match t with
  | Whole (RRefresh b) => c' = Some b
  | Cut (RRefresh b) i n k => (i <= 2 /\ c' = c) \/ (2 <= i /\ c' = Some b)
  | _ => c' = c
  end.
Fixpoint turns_leave (l : list turn) (c c' : option bytes) : Prop :=
  match l with
  | [] => c' = c
  | t :: l => exists d, turn_leaves t c d /\ turns_leave l d c'
  end.
Definition whole (t : turn) : Prop := match t with Whole _ => True | Cut _ _ _ _ => False end.
Definition refreshes (r : request) : Prop := match r with RRefresh _ => True | _ => False end.
End Index.
