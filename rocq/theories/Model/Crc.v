(* Checksums: /repo/monotone/runtime/lib/crc.c.
   Bytes are N below 256, buffers are lists of bytes; [align] is the address of the buffer
   modulo 4. The length parameter of the code is an int; buffers of 2^31 bytes and more are
   outside of this model. *)
From Coq Require Import NArith Arith List Bool.
Import ListNotations.
From Verif Require Import Model.Base Model.CrcTables.

Definition tab (t : list N) (i : N) : N := nth (N.to_nat i) t 0%N.

(* crc.c:336-337 and 361-362, one byte *)
Definition sw_byte (crc b : N) : N :=
  N.lxor (tab crc_tableil8_o32 (N.land (N.lxor crc b) 255)) (N.shiftr crc 8).

Definition sw_bytes (crc : N) (l : list byte) : N := fold_left sw_byte l crc.

(* crc.c:318-325: four bytes read as a little-endian uint32_t *)
Definition align32 (l : list byte) : N :=
  match l with
  | a :: b :: c :: d :: _ => (a + 256 * b + 65536 * c + 16777216 * d)%N
  | _ => 0%N
  end.

(* crc.c:342-358, one step over eight bytes *)
Definition sw_eight (crc : N) (l : list byte) : N :=
  let crc := N.lxor crc (align32 l) in
  let l := skipn 4 l in
  let term1 := N.lxor (tab crc_tableil8_o88 (N.land crc 255))
                      (tab crc_tableil8_o80 (N.land (N.shiftr crc 8) 255)) in
  let term2 := N.shiftr crc 16 in
  let crc := N.lxor (N.lxor term1 (tab crc_tableil8_o72 (N.land term2 255)))
                    (tab crc_tableil8_o64 (N.land (N.shiftr term2 8) 255)) in
  let term1 := N.lxor (tab crc_tableil8_o56 (N.land (align32 l) 255))
                      (tab crc_tableil8_o48 (N.land (N.shiftr (align32 l) 8) 255)) in
  let term2 := N.shiftr (align32 l) 16 in
  N.lxor (N.lxor (N.lxor crc term1) (tab crc_tableil8_o40 (N.land term2 255)))
         (tab crc_tableil8_o32 (N.land (N.shiftr term2 8) 255)).

(* crc.c:342: running_len / 8 steps *)
Fixpoint sw_running (n : nat) (crc : N) (l : list byte) : N :=
  match n with
  | O => crc
  | S n => sw_running n (sw_eight crc l) (skipn 8 l)
  end.

(* crc.c:327-365 *)
Definition crc32_sw (align : nat) (crc : N) (l : list byte) : N :=
  let initial := Nat.min (length l) ((4 - align mod 4) mod 4) in
  let crc := sw_bytes crc (firstn initial l) in
  let l := skipn initial l in
  let steps := length l / 8 in
  sw_bytes (sw_running steps crc l) (skipn (8 * steps) l).

(* The SSE4.2 instruction CRC32: reflected polynomial 0x11EDC6F41, as the bit-serial division
   the Intel manual defines. One bit: *)
Definition crc_poly : N := 2197175160%N.                      (* 0x82F63B78 *)
Definition crc_bit (c : N) : N :=
  if N.odd c then N.lxor (N.div2 c) crc_poly else N.div2 c.
Fixpoint crc_bits (n : nat) (c : N) : N :=
  match n with
  | O => c
  | S n => crc_bits n (crc_bit c)
  end.

(* CRC32 r32, r/m8 and CRC32 r64, r/m64 *)
Definition hw_crc8 (crc b : N) : N := crc_bits 8 (N.lxor crc b).
Definition hw_crc64 (crc q : N) : N := crc_bits 64 (N.lxor crc q).

Fixpoint le_value (l : list byte) : N :=
  match l with
  | [] => 0%N
  | b :: t => (b + 256 * le_value t)%N
  end.

(* crc.c:398-415: iquotient words, then the remaining bytes one by one (383-396) *)
Fixpoint hw_words (n : nat) (crc : N) (l : list byte) : N :=
  match n with
  | O => crc
  | S n => hw_words n (hw_crc64 crc (le_value (firstn 8 l))) (skipn 8 l)
  end.
Definition crc32_hw (crc : N) (l : list byte) : N :=
  let steps := length l / 8 in
  fold_left hw_crc8 (skipn (8 * steps) l) (hw_words steps crc l).

(* crc.c:429-437 *)
Definition crc32 (hw : bool) (align : nat) (crc : N) (l : list byte) : N :=
  if hw then crc32_hw crc l else crc32_sw align crc l.
