(* Uuids as text: /repo/monotone/runtime/lib/{uuid.h,uuid.c}. *)
From Coq Require Import NArith Arith List Bool.
Import ListNotations.
From Verif Require Import Model.Base.
Local Open Scope N_scope.

(* uuid.h:19-23 *)
Record uuid := mk_uuid { u_a : N; u_b : N }.

(* uuid.c:20-28: the same 16 bytes seen through a packed struct (little-endian) *)
Record uuid_bits := mk_bits { b_a : N; b_b : N; b_c : N; b_d : N; b_e : N; b_f : N }.
Definition bits_of (u : uuid) : uuid_bits :=
  mk_bits (u_a u mod 2 ^ 32) (u_a u / 2 ^ 32 mod 2 ^ 16) (u_a u / 2 ^ 48 mod 2 ^ 16)
          (u_b u mod 2 ^ 16) (u_b u / 2 ^ 16 mod 2 ^ 16) (u_b u / 2 ^ 32 mod 2 ^ 32).
Definition uuid_of (b : uuid_bits) : uuid :=
  mk_uuid (b_a b + 2 ^ 32 * b_b b + 2 ^ 48 * b_c b) (b_d b + 2 ^ 16 * b_e b + 2 ^ 32 * b_f b).

(* "%08x", "%04x" *)
Definition hex_digit (n : N) : byte := if n <? 10 then 48 + n else 97 + (n - 10).
Fixpoint hex (k : nat) (n : N) : list byte :=
  match k with
  | O => []
  | S k => hex k (n / 16) ++ [hex_digit (n mod 16)]
  end.

(* uuid.c:44-53: the terminating zero is not part of the text *)
Definition uuid_to_string (u : uuid) : list byte :=
  let b := bits_of u in
  hex 8 (b_a b) ++ [45] ++ hex 4 (b_b b) ++ [45] ++ hex 4 (b_c b) ++ [45] ++ hex 4 (b_d b) ++ [45]
  ++ hex 4 (b_e b) ++ hex 8 (b_f b).

(* uuid.c:100-111 *)
Definition nibble (c : byte) : option N :=
  if (48 <=? c) && (c <=? 57) then Some (c - 48)
  else if (97 <=? c) && (c <=? 102) then Some (c - 97 + 10)
  else if (65 <=? c) && (c <=? 70) then Some (c - 65 + 10)
  else None.
Definition shift_in (v d : N) : N := N.lor (w64 (N.shiftl v 4)) (N.land d 15).

Definition set_a b v := mk_bits (v mod 2 ^ 32) (b_b b) (b_c b) (b_d b) (b_e b) (b_f b).
Definition set_b b v := mk_bits (b_a b) (v mod 2 ^ 16) (b_c b) (b_d b) (b_e b) (b_f b).
Definition set_c b v := mk_bits (b_a b) (b_b b) (v mod 2 ^ 16) (b_d b) (b_e b) (b_f b).
Definition set_d b v := mk_bits (b_a b) (b_b b) (b_c b) (v mod 2 ^ 16) (b_e b) (b_f b).
Definition set_e b v := mk_bits (b_a b) (b_b b) (b_c b) (b_d b) (v mod 2 ^ 16) (b_f b).
Definition set_f b v := mk_bits (b_a b) (b_b b) (b_c b) (b_d b) (b_e b) (v mod 2 ^ 32).

(* uuid.c:69-114: one character at position [i] *)
Definition uuid_step (i : nat) (b : uuid_bits) (v : N) (c : byte) : option (uuid_bits * N) :=
  match i with
  | 8%nat => if c =? 45 then Some (set_a b v, 0) else None
  | 13%nat => if c =? 45 then Some (set_b b v, 0) else None
  | 18%nat => if c =? 45 then Some (set_c b v, 0) else None
  | 23%nat => if c =? 45 then Some (set_d b v, 0) else None
  | 28%nat => match nibble c with Some d => Some (set_e b v, shift_in 0 d) | None => None end
  | _ => match nibble c with Some d => Some (b, shift_in v d) | None => None end
  end.
Fixpoint uuid_loop (i : nat) (b : uuid_bits) (v : N) (l : list byte) : option (uuid_bits * N) :=
  match l with
  | [] => Some (b, v)
  | c :: t => match uuid_step i b v c with Some (b, v) => uuid_loop (S i) b v t | None => None end
  end.

(* uuid.c:55-118; UUID_SZ is 37. All of the uuid is overwritten if the text is accepted, so the
   start value does not matter; after a refusal the code leaves it half overwritten. *)
Definition uuid_from_string (s : list byte) : option uuid :=
  if (length s <? 36)%nat then None
  else match uuid_loop 0 (mk_bits 0 0 0 0 0 0) 0 (firstn 36 s) with
       | Some (b, v) => Some (uuid_of (set_f b v))
       | None => None
       end.
