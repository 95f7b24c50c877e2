(* Stops inside of a record of the log, inside of a drop and inside of a new file, in a database
   with drops whose log and partition files are bytes.

   Sources: /repo/monotone/engine/wal/wal.c:198-239, wal_file.h:65-125, wal_cursor.c:83-118;
   /repo/monotone/engine/engine/op.c:239-315, write.c:74-138, refresh.c:100-245;
   /repo/monotone/main/main/main.c:173-256.
   A record is appended at the end of the last file of the log, wherever its last whole record ends.
   Simplifications: those of WholeDrops.v; a stop leaves a prefix of what was being written. *)
From Coq Require Import NArith ZArith List Bool.
Import ListNotations.
From Verif Require Import Model.Base Model.Event Model.Memtable Model.Mapping Model.PartIter Model.Scan Model.Codec
  Model.File Model.Wal Model.Engine Model.Crash Model.Whole Model.WholeDrops.
Local Open Scope res_scope.

Section Torn.
Variable compress : N -> nat -> list byte -> list byte.
Variable decompress : N -> list byte -> N -> res (list byte).
Variable encrypt : N -> nat -> list byte -> list byte.
Variable decrypt : N -> list byte -> res (list byte).
Variable src : source.
Variable wal_crc : bool.
Let start := drops_start decompress decrypt wal_crc.

(* write.c:74-138, wal.c:198-218: stop when [n] bytes of the record of a batch are in the log *)
Definition stop_batch (w : whole) (l : list warg) (m : list (list byte * list byte)) (n : nat) (ids : list N) : res whole :=
  do r <- engine_write (wh_en w) l true;
  match snd r with
  | Some evs =>
      do g <- wal_file_append (log_of w) (log_record wal_crc (w64 (en_lsn (wh_en w) + 1)) (entries evs m)) (Some n);
      start (wh_en w) (wh_storages w) (wh_dir w) (fst g) ids
  | None => start (wh_en w) (wh_storages w) (wh_dir w) (wh_wal w) ids
  end.
(* op.c:239-315: the file of the partition is removed; stop when [n] bytes of the record are in the log *)
Definition stop_drop (w : whole) (id : N) (n : nat) (ids : list N) : res whole :=
  match part_slice (en_map (wh_en w)) id with
  | None => start (wh_en w) (wh_storages w) (wh_dir w) (wh_wal w) ids
  | Some s =>
      let k := (wh_home w (s_min s), s_min s) in
      let f := dget (wh_dir w) k in
      do g <- wal_file_append (log_of w) (drop_record wal_crc (w64 (en_lsn (wh_en w) + 1)) id) (Some n);
      start (wh_en w) (wh_storages w) (dset (wh_dir w) k (mk_slot None (sl_inc f) (sl_comp f))) (fst g) ids
  end.
(* refresh.c:100-245: stop when [n] bytes of the new file of a refresh are written *)
Definition stop_file (w : whole) (ref : N) (x : extra) (n : nat) (cuts : list nat) (ids : list N) : res whole :=
  match find (fun j => (jb_ref j =? ref)%N) (wh_jobs w) with
  | None => Err
  | Some j =>
      let kto := (jb_to j, ref) in
      let t := dget (wh_dir w) kto in
      do s <- ref_slice (en_map (wh_en w)) ref;
      do f <- new_bytes compress encrypt src s x;
      do d <- interrupted (wh_storages w) (dset (wh_dir w) kto (mk_slot (sl_id t) (Some (firstn n f)) (sl_comp t))) cuts;
      start (wh_en w) (wh_storages w) d (wh_wal w) ids
  end.
End Torn.
