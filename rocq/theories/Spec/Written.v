(* What writing is for: the bytes of [l] at position [pos] of a file, the rest as before. *)
From Coq Require Import NArith List.
Import ListNotations.

Definition byte_at (d : list N) (i : nat) : option N := nth_error d i.

(* [d'] is [d] with the bytes [l] at [pos], for a position inside the file or at its end *)
Definition written (d : list N) (pos : nat) (l d' : list N) : Prop :=
  length d' = Nat.max (length d) (pos + length l) /\
  (forall i, i < pos -> byte_at d' i = byte_at d i) /\
  (forall i, i < length l -> byte_at d' (pos + i) = byte_at l i) /\
  (forall i, pos + length l <= i -> byte_at d' i = byte_at d i).
Definition prefix (a b : list N) : Prop := exists t, b = a ++ t.
