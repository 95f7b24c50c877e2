(* Buffers: /repo/monotone/runtime/runtime/buf.h. A buffer is the bytes from start to position and
   the capacity; what lies between position and end is not kept. Sizes are int: an overflow is
   undefined behaviour. A size below zero given to realloc is a failed allocation (allocator.h:26-32);
   otherwise memory does not run out. *)
From Coq Require Import NArith ZArith List Bool.
Import ListNotations.
From Verif Require Import Model.Base.
Local Open Scope res_scope.
Local Open Scope Z_scope.

Record buf := mk_buf { b_bytes : list byte; b_cap : Z }.
(* buf.h:25-31 *)
Definition buf_init : buf := mk_buf [] 0.
Definition len (l : list byte) : Z := Z.of_nat (length l).
(* a sum, a product of int *)
Definition int_of (z : Z) : res Z := if (- 2 ^ 31 <=? z) && (z <? 2 ^ 31) then Ok z else UB.
(* buf.h:40-56: a difference of pointers as int *)
Definition buf_capacity (b : buf) : Z := i32_of_z (b_cap b).
Definition buf_size (b : buf) : Z := i32_of_z (len (b_bytes b)).
Definition buf_size_unused (b : buf) : Z := i32_of_z (b_cap b - len (b_bytes b)).
(* buf.h:58-62 *)
Definition buf_reset (b : buf) : buf := mk_buf [] (b_cap b).
(* buf.h:64-84 *)
Definition buf_reserve (b : buf) (size : Z) : res buf :=
  if size <=? buf_size_unused b then Ok b
  else
    do actual <- int_of (buf_size b + size) ;
    do grow <- int_of (buf_capacity b * 2) ;
    let grow := if grow <? actual then actual else grow in
    if grow <? 0 then Err else Ok (mk_buf (b_bytes b) grow).
(* buf.h:86-91 and the bytes written there before *)
Definition buf_advance (b : buf) (l : list byte) : res buf :=
  if len (b_bytes b) + len l <=? b_cap b then Ok (mk_buf (b_bytes b ++ l) (b_cap b)) else UB.
(* buf.h:93-98 *)
Definition buf_truncate (b : buf) (n : nat) : res buf :=
  if (n <=? length (b_bytes b))%nat then Ok (mk_buf (firstn (length (b_bytes b) - n) (b_bytes b)) (b_cap b)) else UB.
(* buf.h:100-105 *)
Definition buf_append (b : buf) (l : list byte) : res buf := buf_advance b l.
(* buf.h:131-136; the size is given as int *)
Definition buf_write (b : buf) (l : list byte) : res buf :=
  do b <- buf_reserve b (len l) ; buf_append b l.
(* buf.h:144-151: l is the text of the format; of a longer text tmp has 1023 bytes and a zero *)
Definition buf_vprintf (b : buf) (l : list byte) : res buf :=
  if len l <? 1025 then buf_write b (if len l =? 1024 then firstn 1023 l ++ [0%N] else l) else UB.
(* many writes, and how often the memory was moved *)
Fixpoint buf_writes (b : buf) (ls : list (list byte)) : res (buf * nat) :=
  match ls with
  | [] => Ok (b, O)
  | l :: ls =>
    do c <- buf_write b l ;
    do (d, n) <- buf_writes c ls ;
    Ok (d, if len l <=? buf_size_unused b then n else S n)
  end.
