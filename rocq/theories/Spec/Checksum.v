(* CRC-32C without initial and final inversion: the remainder of the message, first bit first,
   modulo the reflected Castagnoli polynomial. *)
From Coq Require Import NArith List Bool.
Import ListNotations.

Definition castagnoli : N := 2197175160%N.                    (* 0x82F63B78 *)

(* the bits of a byte, lowest first *)
Definition bits_of (b : N) : list bool := map (fun i => N.testbit b (N.of_nat i)) (seq 0 8).
Definition message_bits (l : list N) : list bool := flat_map bits_of l.

(* shift in one message bit *)
Definition crc_shift (c : N) (b : bool) : N :=
  let out := xorb (N.odd c) b in
  if out then N.lxor (N.div2 c) castagnoli else N.div2 c.

Definition crc32c (start : N) (l : list N) : N := fold_left crc_shift (message_bits l) start.

Definition bytes (l : list N) : Prop := Forall (fun b => (b < 256)%N) l.
