(* What is said of the libraries and of the sizes for a file that is compressed and encrypted. *)
From Coq Require Import NArith ZArith List.
Import ListNotations.
From Verif Require Import Model.Base Spec.Checksum Spec.Buffers Spec.Packing.
Local Open Scope Z_scope.

(* the libraries write bytes *)
Record bytes_ok (start : Z -> list N) (update : Z -> list (list N) -> list N -> list N) (finish : Z -> list (list N) -> list N)
  (aes : list N -> list N -> list N -> list N * list N) : Prop := {
  by_start  : forall level, bytes (start level);
  by_update : forall level past l, bytes l -> bytes (update level past l);
  by_finish : forall level argv, bytes (concat argv) -> bytes (finish level argv);
  by_aes    : forall k iv x, bytes x -> bytes (fst (aes k iv x)) /\ bytes (snd (aes k iv x))
}.
(* buffers of up to 512 MiB before *)
Definition rooms_ok (rooms : nat -> Z) : Prop := forall n, 0 <= rooms n < 2 ^ 29.
(* a content in pieces *)
Definition pieces_ok (pieces : nat -> list N -> list (list N)) : Prop := forall n x, concat (pieces n x) = x.
(* contents of up to 1 GiB, also as the largest that lz4 could make of them *)
Definition size_ok (bound : Z -> Z -> Z) (level : Z) (pieces : list (list N)) : Prop :=
  size_of (concat pieces) <= 2 ^ 30 /\
  let v := Z.max level 0 in 19 + bound v 0 + fold_right (fun l n => bound v (size_of l) + n) 0 pieces <= 2 ^ 30.
(* the frame of zstd is no longer than the room there is *)
Definition fits (frame : Z -> list N -> list N) (rooms : nat -> Z) (level : Z) (n : nat) (x : list N) : Prop :=
  size_of (frame level x) <= grown (rooms n) (size_of x).
