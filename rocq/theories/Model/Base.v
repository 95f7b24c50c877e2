(* Machine integers and outcomes shared by all model files.

   Sources: C fixed-width integer arithmetic as used in /repo/monotone.
   - uint64_t / uint32_t values are N, arithmetic is reduced explicitly;
   - int64_t / int32_t values are Z, narrowing is explicit (two's complement,
     as gcc and clang define the implementation-defined conversion). *)
From Coq Require Import NArith ZArith List Bool.
Import ListNotations.

Notation byte := N (only parsing).

Definition two64 : N := (2 ^ 64)%N.
Definition two32 : N := (2 ^ 32)%N.
Definition u64_max : N := (2 ^ 64 - 1)%N.

(* unsigned 64-bit / 32-bit wrap *)
Definition w64 (n : N) : N := (n mod two64)%N.
Definition w32 (n : N) : N := (n mod two32)%N.

(* a - b, a + b, a * b in uint64_t *)
Definition sub64 (a b : N) : N := ((a + two64 - b) mod two64)%N.
Definition add64 (a b : N) : N := ((a + b) mod two64)%N.
Definition mul64 (a b : N) : N := ((a * b) mod two64)%N.

(* conversion of a 64-bit pattern to int64_t *)
Definition i64_of_u64 (n : N) : Z :=
  let z := Z.of_N (w64 n) in
  if (z <? 2 ^ 63)%Z then z else (z - 2 ^ 64)%Z.

(* conversion of an int64_t to int (32 bits) *)
Definition i32_of_z (z : Z) : Z :=
  let m := (z mod 2 ^ 32)%Z in
  if (m <? 2 ^ 31)%Z then m else (m - 2 ^ 32)%Z.

(* Outcome of a C function: a value, an error raised with error() (longjmp to
   the handler), or undefined behaviour (wild pointer, null dereference,
   violated assert). *)
Inductive res (A : Type) : Type :=
| Ok (a : A)
| Err
| UB.
Arguments Ok {A} a.
Arguments Err {A}.
Arguments UB {A}.

Definition bind {A B} (r : res A) (f : A -> res B) : res B :=
  match r with
  | Ok a => f a
  | Err => Err
  | UB => UB
  end.

Definition of_opt {A} (o : option A) : res A :=
  match o with
  | Some a => Ok a
  | None => UB
  end.

Declare Scope res_scope.
Notation "'do' x <- r ; k" := (bind r (fun x => k))
  (at level 200, x pattern, r at level 100, k at level 200) : res_scope.
