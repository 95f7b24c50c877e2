(* Texts about partitions that are stopped inside of one of the things that they do: when a part of the bytes
   of a record of the log or of a new partition file is written.

   Sources: those of WholeOrders.v and TornDrops.v. *)
From Coq Require Import NArith ZArith List Bool.
Import ListNotations.
From Verif Require Import Model.Base Model.Show Model.Parse.
From Verif Require Import Model.Event Model.Memtable Model.Mapping Model.PartIter Model.Scan Model.File Model.Wal Model.Engine
  Model.Crash Model.Orders Model.Whole Model.WholeDrops Model.WholeOrders Model.TornDrops.
Local Open Scope res_scope.

Section TEXTS.
Variable compress : N -> nat -> list byte -> list byte.
Variable decompress : N -> list byte -> N -> res (list byte).
Variable encrypt : N -> nat -> list byte -> list byte.
Variable decrypt : N -> list byte -> res (list byte).
Variable src : source.
Variable wal_crc : bool.
Variable names : list byte -> option N.
Variable strtod : list byte -> option (N * nat).
Variable e : env.

(* a refresh that is about to write its file, refresh.c:100-124 *)
Definition writing (w : whole) (ref : N) : bool :=
  match find (fun j => (jb_ref j =? ref)%N) (wh_jobs w) with Some j => (jb_stage j =? 1)%nat | None => false end.
(* op.c:239-315, refresh.c:100-245: stop when [k] bytes are written; what writes none is not begun *)
Definition stop_inside (w : whole) (a : option bact) (k : nat) (cuts : list nat) (ids : list N) : res whole :=
  match a with
  | Some (BDo (EDrop id)) => stop_drop decompress decrypt wal_crc w id k ids
  | Some (BDo (EDo (WStep ref x))) =>
      if writing w ref then stop_file compress decompress encrypt decrypt src wal_crc w ref x k cuts ids
      else bstep compress decompress encrypt decrypt src wal_crc w (BDo (EStop cuts ids))
  | _ => bstep compress decompress encrypt decrypt src wal_crc w (BDo (EStop cuts ids))
  end.
(* execute.c:370-590: stop when [n] things are done and [k] bytes of the next are written *)
Definition stop_text (x : N -> extra) (w : whole) (text : list byte) (n k : nat) (cuts : list nat) (ids : list N) : res whole :=
  do r <- btell compress decompress encrypt decrypt src wal_crc names strtod e x w text;
  do w' <- brun compress decompress encrypt decrypt src wal_crc w (firstn n (bp_acts r));
  stop_inside w' (nth_error (bp_acts r) n) k cuts ids.
End TEXTS.
