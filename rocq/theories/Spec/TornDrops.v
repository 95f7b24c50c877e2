(* Stops inside of records of a log with drops: what is being written, and which logs can be read after it. *)
From Coq Require Import NArith ZArith List Bool.
Import ListNotations.
From Verif Require Import Model.Base Model.Event Model.Codec Model.File Model.Wal Model.Memtable Model.Mapping Model.PartIter Model.Scan Model.Engine Spec.Order Spec.Layout Spec.Regions Spec.View Spec.Engine.
From Verif Require Import Model.Crash Spec.Crash Spec.Drops Model.Whole Model.WholeDrops Spec.WholeDrops.

Section Torn.
Variable decompress : N -> list byte -> N -> res (list byte).
Variable decrypt : N -> list byte -> res (list byte).
Variable wal_crc : bool.

(* no file of the log but the last has the record of a drop *)
Definition drops_last (w : whole) : Prop :=
  Forall (fun f => fst f = wal_id_max (wl_list (wh_wal w)) \/ existsb is_drop (fst (wal_read wal_crc [f] [fst f])) = false)
    (wl_files (wh_wal w)).
(* the files of the log have room for [k] bytes more *)
Definition log_room (w : whole) (k : nat) : Prop :=
  Forall (fun f => N.of_nat (length (snd f) + k) + 21 < 2 ^ 32)%N (wl_files (wh_wal w)).
(* the files without that of a partition *)
Definition without (w : whole) (s : slice part) : bdir :=
  let k := (wh_home w (s_min s), s_min s) in
  let f := dget (wh_dir w) k in
  dset (wh_dir w) k (mk_slot None (sl_inc f) (sl_comp f)).
(* a drop can be stopped: as Spec/Drops.v for the drop, and the log can be replayed without the file *)
Definition drop_stop_fine (lo : N) (R : list range) (w : whole) (id : N) : Prop :=
  dop_fine lo R (eread decompress decrypt wal_crc w) (CDrop id) /\
  forall s, part_slice (en_map (wh_en w)) id = Some s ->
    Forall (fun j => jb_ref j <> s_min s) (wh_jobs w) /\
    drestart_fine lo (eread decompress decrypt wal_crc w) (dir_content decompress decrypt (without w s))
      (db_log (eread decompress decrypt wal_crc w)).
End Torn.
