(* A refresh reading one file while it writes another, or the same one:
   /repo/monotone/engine/io/merger.c:54-128, merge_iterator.h:67-112, part_iterator.h (the next
   region is read when the last event of one was passed), part.c:84-136 (the new file is
   <min>.incomplete), refresh.c:168-199.
   When the rename to <min>.complete fails (refresh.c:179-182), the partition in use keeps reading
   <min>.incomplete, and the next refresh writes to that path again.
   Left out: the index of the origin is in memory. *)
From Coq Require Import NArith ZArith Arith List Bool.
Import ListNotations.
From Verif Require Import Model.Base Model.Event Model.Crc Model.Codec Model.File Model.Vfs.
Local Open Scope res_scope.

Section Refile.
Variable compress : N -> nat -> list byte -> list byte.
Variable decompress : N -> list byte -> N -> res (list byte).
Variable encrypt : N -> nat -> list byte -> list byte.
Variable decrypt : N -> list byte -> res (list byte).
Variable s : source.
Variable ix : index.                       (* of the origin *)
(* bytes that a read of the origin sees, when so many were written *)
Variable seen : list byte -> list byte.

(* region.h:26-35, with the bytes behind the event *)
Definition region_mget (raw : list byte) (n pos : nat) : res mevent :=
  match slice_of (24 + 4 * pos) 4 raw with
  | None => UB
  | Some o =>
      let at_ := skipn (24 + 4 * n + N.to_nat (le_value o)) raw in
      do e <- of_opt (event_load at_);
      Ok (e, skipn (14 + length (ev_key e) + length (ev_val e)) at_)
  end.
Definition region_mevents (raw : list byte) : res (list mevent) :=
  match slice_of 4 4 raw with
  | None => UB
  | Some h => let n := N.to_nat (le_value h) in map_res (region_mget raw n) (seq 0 n)
  end.
Definition load (file : list byte) (r : index_region) : res (list mevent) :=
  do raw <- reader_execute decompress decrypt file ix r;
  region_mevents raw.

(* the events of the region at hand; the next region if there are none *)
Definition refill (w : writer) (refs : list index_region) (cur : list mevent) : res (list index_region * list mevent) :=
  match cur, refs with
  | [], r :: t => do l <- load (seen (w_file w)) r; Ok (t, l)
  | _, _ => Ok (refs, cur)
  end.
(* merger.c:69-75 *)
Definition merger_add (w : writer) (m : mevent) : writer :=
  if event_is_delete (fst m) then w else writer_add compress encrypt s w m.
(* merger.c:64-76; the memtable is the first source, of equal events the first is taken *)
Fixpoint merger_loop (fuel : nat) (w : writer) (mem : list mevent) (refs : list index_region) (cur : list mevent) : res writer :=
  match fuel with
  | O => Err
  | S fuel =>
    do rc <- refill w refs cur;
    let (refs, cur) := rc in
    match mem, cur with
    | [], [] => Ok w
    | m :: mem, [] => merger_loop fuel (merger_add w m) mem refs []
    | [], c :: cur => merger_loop fuel (merger_add w c) [] refs cur
    | m :: mem', c :: cur' =>
      let rc := compare (fst m) (fst c) in
      if (rc =? 0)%Z then merger_loop fuel (merger_add w m) mem' refs cur'
      else if (0 <? rc)%Z then merger_loop fuel (merger_add w c) mem refs cur'
      else merger_loop fuel (merger_add w m) mem' refs cur
    end
  end.
End Refile.

(* the file <min>.incomplete after a refresh that reads [old] and writes
   over [left] (None: no such file) *)
Definition refresh_file (own : bool) compress decompress encrypt decrypt (s : source) (st : stamp)
  (old : list byte) (left : option (list byte)) (ix : index) (refs : list index_region) (fuel : nat) (mem : list mevent) : res (list byte) :=
  let seen := fun written => if own then fd_data (os_write (fl_fd (file_create (Some old))) written) else old in
  do w <- merger_loop compress decompress encrypt decrypt s ix seen fuel writer_start mem refs [];
  Ok (fd_data (os_write (fl_fd (file_create (if own then Some old else left))) (writer_stop compress encrypt s w st))).
