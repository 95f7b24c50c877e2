(* Events and their comparison.

   Sources:
     /repo/monotone/engine/io/event.h:34-110
     /repo/monotone/engine/io/comparator.h:29-48
     /repo/monotone/runtime/runtime/misc.h:16-22 (compare_u64) *)
From Coq Require Import NArith ZArith List Bool.
Import ListNotations.
From Verif Require Import Model.Base.

(* event.h:34-41 (struct Event). The packed struct stores data = key ++ value,
   key_size and data_size = key_size + value_size; here the two byte strings are
   kept apart and the sizes are their lengths. The byte layout is modelled
   in Codec.v. *)
Record event : Type := mk_event {
  ev_id    : N;
  ev_flags : N;
  ev_key   : list byte;
  ev_val   : list byte
}.

(* event.h:20-23 *)
Definition MN_DELETE : N := 1%N.

(* event.h:43-47 *)
Definition event_is_delete (e : event) : bool :=
  negb (N.land (ev_flags e) MN_DELETE =? 0)%N.

Definition ev_none : event := mk_event 0 0 [] [].

(* memcmp over two equally long buffers: difference of the first
   differing bytes (the C standard only fixes the sign; every use in the code
   but memtable.c:106 uses only the sign). *)
Fixpoint memcmp (a b : list byte) : Z :=
  match a, b with
  | x :: a', y :: b' =>
      if (x =? y)%N then memcmp a' b' else (Z.of_N x - Z.of_N y)%Z
  | _, _ => 0%Z
  end.

(* comparator.h:29-48. [id] difference in uint64_t, converted to int64_t;
   then memcmp over the shorter key; then difference of the key sizes.
   memcmp on lists stops at the end of the shorter list, which is the size the
   code computes. *)
Definition compare (a b : event) : Z :=
  let diff := i64_of_u64 (sub64 (ev_id a) (ev_id b)) in
  if (diff =? 0)%Z then
    if ((length (ev_key a) =? 0)%nat && (length (ev_key b) =? 0)%nat)%bool
    then 0%Z
    else
      let size := Nat.min (length (ev_key a)) (length (ev_key b)) in
      let rc := memcmp (firstn size (ev_key a)) (firstn size (ev_key b)) in
      if (rc =? 0)%Z
      then (Z.of_nat (length (ev_key a)) - Z.of_nat (length (ev_key b)))%Z
      else rc
  else diff.

(* the same result stored into an int, as memtable.c:56-60 (return type int)
   and memtable.c:128, region_iterator.h (int rc = compare(..)) do *)
Definition compare_int (a b : event) : Z := i32_of_z (compare a b).

(* misc.h:16-20: (int64_t)a - (int64_t)b. Signed overflow is modelled as wrap. *)
Definition compare_u64 (a b : N) : Z := i64_of_u64 (sub64 a b).
