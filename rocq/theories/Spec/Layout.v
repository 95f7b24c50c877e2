(* Partition layouts: what the user knows about partitions is their id ranges. *)
From Coq Require Import NArith List Bool Sorted.
Import ListNotations.
From Verif Require Import Model.Mapping.

(* inclusive range of ids *)
Definition range := (N * N)%type.
Definition in_range (x : N) (r : range) : Prop := (fst r <= x /\ x <= snd r)%N.

(* non-empty ranges, ascending, none overlapping another *)
Definition layout (l : list range) : Prop :=
  StronglySorted (fun a b => (snd a < fst b)%N) l /\ Forall (fun r => (fst r <= snd r)%N) l.

Definition covered (l : list range) (x : N) : Prop := exists r, In r l /\ in_range x r.

(* the whole range lies within 2^31 ids above lo *)
Definition near (lo : N) (r : range) : Prop := (lo <= fst r /\ snd r < lo + 2 ^ 31)%N.

Definition range_of {P} (s : slice P) : range := (s_min s, s_max s).
Definition ranges {P} (m : mapping P) : list range := map range_of (mapping_list m).

(* every range an operation of the history can touch lies in the window *)
Fixpoint hist_near (lo iv : N) (ops : list lop) : Prop :=
  match ops with
  | [] => True
  | LWrite id :: t => near lo (interval_of iv id, interval_of iv id + iv - 1)%N /\ hist_near lo iv t
  | LCreate mn mx :: t => ((mn <= mx)%N -> near lo (mn, mx)) /\ hist_near lo iv t
  | LDrop id :: t => (lo <= id < lo + 2^31)%N /\ hist_near lo iv t
  | LInterval n :: t => (0 < n)%N /\ hist_near lo n t
  end.

(* the partition lies inside [mn, mx] *)
Definition inside {P} (mn mx : N) (s : slice P) : bool := ((mn <=? s_min s) && (s_max s <=? mx))%N.
(* a partition that starts before [mn] and reaches it *)
Definition straddles {P} (mn : N) (s : slice P) : bool := ((s_min s <? mn) && (mn <=? s_max s))%N.

