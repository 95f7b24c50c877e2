(* Compression and encryption as the code calls the libraries:
   /repo/monotone/runtime/lib/{compression_zstd.c,compression_lz4.c,encryption_aes.c}.
   The libraries are functions given to the sections; what is said of them is in Spec/Packing.v.
   The buffers that are decompressed, encrypted and decrypted into are empty, as where they are
   used (reader.h:88-90, region_writer.h:52-63, index_writer.h:65-67, index_op.c:163-172); the code
   writes to their start. Left out: contexts that cannot be made. *)
From Coq Require Import NArith ZArith List Bool.
Import ListNotations.
From Verif Require Import Model.Base Model.Codec Model.Buf.
Local Open Scope res_scope.
Local Open Scope Z_scope.

Definition total (argv : list (list byte)) : Z := fold_right (fun l n => len l + n) 0 argv.

Section ZSTD.
(* the frame of a content at a level, and the content of a frame if there is room for it *)
Variable frame : Z -> list byte -> list byte.
Variable content : list byte -> Z -> option (list byte).
(* asserts are checked: not in a release *)
Variable checked : bool.

(* compression_zstd.c:51-94: the output is what there is room for; what the last call returns is
   how much of the frame is left *)
Definition compression_zstd_compress (b : buf) (level : Z) (argv : list (list byte)) : res buf :=
  do b <- buf_reserve b (i32_of_z (total argv)) ;
  let z := frame level (concat argv) in
  let room := buf_size_unused b in
  if checked && (room <? len z) then UB
  else buf_advance b (firstn (Z.to_nat room) z).

(* compression_zstd.c:96-111 *)
Definition compression_zstd_decompress (b : buf) (data : list byte) (size : Z) : res buf :=
  do b <- buf_reserve b size ;
  match content data size with
  | None => Err
  | Some l => if len l =? size then buf_advance b l else UB
  end.
End ZSTD.

Section LZ4.
Variable bound : Z -> Z -> Z.
(* what is written by begin, by update after the chunks before, and by end *)
Variable start : Z -> list byte.
Variable update : Z -> list (list byte) -> list byte -> list byte.
Variable finish : Z -> list (list byte) -> list byte.
(* LZ4F_decompress: from the bytes taken so far and those that are left, with room for some more:
   the bytes taken and the bytes written *)
Variable step : list byte -> list byte -> Z -> option (nat * list byte).

Definition LZ4F_HEADER_SIZE_MAX := 19.
(* compression_lz4.c:81-87 *)
Definition lz4_level (level : Z) : Z := if 0 <? level then level else 0.
(* compression_lz4.c:95-106 *)
Fixpoint lz4_updates (b : buf) (level : Z) (before argv : list (list byte)) : res buf :=
  match argv with
  | [] => Ok b
  | l :: argv =>
    do b <- buf_advance b (update level before l) ;
    lz4_updates b level (before ++ [l]) argv
  end.
(* compression_lz4.c:71-113 *)
Definition compression_lz4_compress (b : buf) (level : Z) (argv : list (list byte)) : res buf :=
  let level := lz4_level level in
  let size := LZ4F_HEADER_SIZE_MAX + bound level 0 + fold_right (fun l n => bound level (len l) + n) 0 argv in
  do b <- buf_reserve b (i32_of_z size) ;
  do b <- buf_advance b (start level) ;
  do b <- lz4_updates b level [] argv ;
  buf_advance b (finish level argv).

(* compression_lz4.c:126-140: a round that takes nothing and writes nothing is followed by the same *)
Fixpoint lz4_loop (fuel : nat) (b : buf) (taken data : list byte) : res buf :=
  match data with
  | [] => Ok b
  | _ =>
    match fuel with
    | O => UB
    | S fuel =>
      match step taken data (buf_size_unused b) with
      | None => Err
      | Some (n, l) =>
        do b <- buf_advance b l ;
        lz4_loop fuel b (taken ++ firstn n data) (skipn n data)
      end
    end
  end.
(* compression_lz4.c:115-141 *)
Definition compression_lz4_decompress (fuel : nat) (b : buf) (data : list byte) (size : Z) : res buf :=
  do b <- buf_reserve b size ;
  do b <- lz4_loop fuel b [] data ;
  if buf_size b =? size then Ok b else UB.
End LZ4.

Section AES.
(* AES-256-GCM with a nonce of 12 bytes: the encrypted bytes and the tag; the plain bytes *)
Variable seal : list byte -> list byte -> list byte -> list byte * list byte.
Variable unseal : list byte -> list byte -> list byte -> list byte -> option (list byte).

Definition EVP_MAX_BLOCK_LENGTH := 32.
(* encryption_aes.c:58-107: r1, r2 are the next numbers of random.c; the first 12 bytes of the 16 are
   the nonce. GCM writes as many bytes as it reads, and none at the end. *)
Definition encryption_aes_encrypt (r1 r2 : N) (key : list byte) (b : buf) (argv : list (list byte)) : res buf :=
  if negb (length key =? 32)%nat then Err
  else
    do b <- buf_reserve b (i32_of_z (32 + EVP_MAX_BLOCK_LENGTH + total argv)) ;
    let iv := pack [(8%nat, r1); (8%nat, r2)] in
    let (c, tag) := seal key (firstn 12 iv) (concat argv) in
    buf_advance b (iv ++ tag ++ c).
(* encryption_aes.c:109-146 *)
Definition encryption_aes_decrypt (key : list byte) (b : buf) (data : list byte) : res buf :=
  if negb (length key =? 32)%nat then Err
  else
    do b <- buf_reserve b (len data) ;
    if len data <? 32 then UB
    else
      match unseal key (firstn 12 data) (firstn 16 (skipn 16 data)) (skipn 32 data) with
      | None => Err
      | Some l => buf_advance b l
      end.
End AES.
