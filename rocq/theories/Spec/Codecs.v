(* Compression and encryption that give back what they were given. *)
From Coq Require Import NArith List.
Import ListNotations.
From Verif Require Import Model.Base Spec.Checksum.

Record codecs_ok (compress : N -> nat -> list N -> list N) (decompress : N -> list N -> N -> res (list N))
                 (encrypt : N -> nat -> list N -> list N) (decrypt : N -> list N -> res (list N)) : Prop := {
  co_decompress : forall id n b, bytes b -> decompress id (compress id n b) (N.of_nat (length b)) = Ok b;
  co_decrypt    : forall id n b, bytes b -> decrypt id (encrypt id n b) = Ok b;
  co_compress_bytes : forall id n b, bytes b -> bytes (compress id n b);
  co_encrypt_bytes  : forall id n b, bytes b -> bytes (encrypt id n b);
  co_compress_some  : forall id n b, b <> [] -> compress id n b <> [];
  co_encrypt_some   : forall id n b, b <> [] -> encrypt id n b <> []
}.
