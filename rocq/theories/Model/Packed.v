(* Compression and encryption of the contents of a partition file by the code over the libraries:
   /repo/monotone/runtime/lib/{compression.h,encryption.h,compression_mgr.c,encryption_mgr.c},
   /repo/monotone/engine/io/{region_writer.h,index_writer.h,reader.h,index_op.c}, in a release (asserts
   are not checked). The buffers of a writer are used again: [rooms] is the capacity of the buffer at
   the n-th content, [pieces] the buffers the n-th content is in (region_writer.h:109-120,
   index_writer.h:106-111), [rnd] the random numbers. Where the code is undefined nothing is written. *)
From Coq Require Import NArith ZArith List Bool.
Import ListNotations.
From Verif Require Import Model.Base Model.Buf Model.Pack.

Section Libs.
Variable frame : Z -> list byte -> list byte.
Variable content : list byte -> Z -> option (list byte).
Variable bound : Z -> Z -> Z.
Variable start : Z -> list byte.
Variable update : Z -> list (list byte) -> list byte -> list byte.
Variable finish : Z -> list (list byte) -> list byte.
Variable step : list byte -> list byte -> Z -> option (nat * list byte).
Variable aes : list byte -> list byte -> list byte -> list byte * list byte.
Variable unaes : list byte -> list byte -> list byte -> list byte -> option (list byte).

(* compression.h:19-24, encryption.h:19-23 *)
Definition COMPRESSION_ZSTD : N := 1%N.
Definition COMPRESSION_LZ4 : N := 2%N.
Definition ENCRYPTION_AES : N := 1%N.

Definition taken (r : res buf) : list byte := match r with Ok b => b_bytes b | _ => [] end.
Definition given_back (r : res buf) : res (list byte) := match r with Ok b => Ok (b_bytes b) | Err => Err | UB => UB end.

(* region_writer.h:109-120, index_writer.h:106-116 *)
Definition file_compress (rooms : nat -> Z) (pieces : nat -> list byte -> list (list byte)) (level : Z)
  (id : N) (n : nat) (x : list byte) : list byte :=
  if (id =? COMPRESSION_ZSTD)%N then taken (compression_zstd_compress frame false (mk_buf [] (rooms n)) level (pieces n x))
  else if (id =? COMPRESSION_LZ4)%N then taken (compression_lz4_compress bound start update finish (mk_buf [] (rooms n)) level (pieces n x))
  else [].
(* reader.h:121-130, index_op.c:112-136; of another id: index_op.c:125-127 *)
Definition file_decompress (room : Z) (id : N) (z : list byte) (size : N) : res (list byte) :=
  if (id =? COMPRESSION_ZSTD)%N then given_back (compression_zstd_decompress content (mk_buf [] room) z (Z.of_N size))
  else if (id =? COMPRESSION_LZ4)%N then given_back (compression_lz4_decompress step (length z) (mk_buf [] room) z (Z.of_N size))
  else Err.
(* the same with the context that compression_mgr_pop gives for zstd when one of lz4 was put back
   (compression_mgr.c:59-73, Alloc.v) *)
Definition other_context (room : Z) (id : N) (z : list byte) (size : N) : res (list byte) :=
  file_decompress room (if (id =? COMPRESSION_ZSTD)%N then COMPRESSION_LZ4 else id) z size.
(* region_writer.h:122-139, index_writer.h:118-136 *)
Definition file_encrypt (rooms : nat -> Z) (rnd : nat -> N * N) (key : list byte) (id : N) (n : nat) (x : list byte) : list byte :=
  if (id =? ENCRYPTION_AES)%N then taken (encryption_aes_encrypt aes (fst (rnd n)) (snd (rnd n)) key (mk_buf [] (rooms n)) [x])
  else [].
(* reader.h:110-119, index_op.c:85-110; of another id: index_op.c:97-99 *)
Definition file_decrypt (room : Z) (key : list byte) (id : N) (z : list byte) : res (list byte) :=
  if (id =? ENCRYPTION_AES)%N then given_back (encryption_aes_decrypt unaes key (mk_buf [] room) z)
  else Err.
End Libs.
