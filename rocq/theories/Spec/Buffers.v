(* Buffers as sequences. *)
From Coq Require Import NArith ZArith List.
From Verif Require Import Model.Base Model.Buf.
Local Open Scope Z_scope.
Definition held (b : buf) : Prop := Z.of_nat (length (b_bytes b)) <= b_cap b < 2 ^ 31.
Definition size_all (ls : list (list N)) : Z := Z.of_nat (length (concat ls)).
(* the capacity after room for n was asked of an empty buffer *)
Definition grown (cap n : Z) : Z := if n <=? cap then cap else Z.max (2 * cap) n.
