(* Histories with DROP of a database whose log and partition files are bytes: the limits, and what
   is acknowledged and not dropped. *)
From Coq Require Import NArith ZArith List Bool Permutation.
Import ListNotations.
From Verif Require Import Model.Base Model.Event Model.Memtable Model.Mapping Model.PartIter
  Model.Codec Model.Scan Model.File Model.Wal Model.Engine Spec.Order Spec.Layout Spec.Regions
  Spec.View Spec.Engine Spec.FileLimits Spec.Log.
From Verif Require Import Model.Crash Spec.Crash Spec.Drops Model.Whole Spec.Whole Model.WholeDrops.

Section Drops.
Variable compress : N -> nat -> list byte -> list byte.
Variable decompress : N -> list byte -> N -> res (list byte).
Variable encrypt : N -> nat -> list byte -> list byte.
Variable decrypt : N -> list byte -> res (list byte).
Variable src : source.
Variable wal_crc : bool.
Let step := estep compress decompress encrypt decrypt src wal_crc.

(* what the log reads as *)
Definition log_read (w : whole) : list logged := fst (wal_read wal_crc (wl_files (wh_wal w)) (wl_list (wh_wal w))).
Definition record_of (r : logged) : Crash.lrec :=
  match r with Wal.LWrite n evs => Crash.LWrite n evs | Wal.LDrop n id => Crash.LDrop n id end.
Definition is_drop (r : logged) : bool := match r with Wal.LDrop _ _ => true | _ => false end.
(* the database with its files and its log as they read back: the limits are those of Spec/Drops.v *)
Definition eread (w : whole) : db :=
  mk_db (wh_en w) (wh_storages w) (wh_home w) (dir_content decompress decrypt (wh_dir w))
    (map record_of (log_read w)) (wh_jobs w).

(* a new file of the log is named by the next number: none has that name or a later one, and the
   records so far are below it. Drops that a start applies again take numbers anew, from those of the
   records before them (C97_rotate_refuted). *)
Definition rotate_fine (w : whole) (wm : N) : Prop :=
  wal_rotate_ready (wh_wal w) wm = true ->
  files_short (wh_wal w) /\
  Forall (fun i => i <= en_lsn (wh_en w))%N (wl_list (wh_wal w)) /\
  Forall (fun r => logged_lsn r <= en_lsn (wh_en w))%N (log_read w).
(* the log can be listed and read by a start, with the records of drops that the start appends *)
Definition elog_fine (w : whole) (ids : list N) : Prop :=
  Permutation ids (wl_list (wh_wal w)) /\
  Forall (fun f => N.of_nat (length (snd f)) + 29 * N.of_nat (length (filter is_drop (log_read w))) + 21 < 2 ^ 32)%N
    (wl_files (wh_wal w)).

Definition eop_fine (lo : N) (R : list range) (w : whole) (o : eop) : Prop :=
  match o with
  | EDo (WWrite l m fail) => lsn_room w /\ dop_fine lo R (eread w) (CWrite l true) /\ record_fine wal_crc w l m /\ fail = None
  | EDo (WBegin id to) => dop_fine lo R (eread w) (CBegin id to)
  | EDo (WStep ref x) =>
      dop_fine lo R (eread w) (CStep ref) /\
      forall j, find (fun j => (jb_ref j =? ref)%N) (wh_jobs w) = Some j -> jb_stage j = 1 -> new_fine compress encrypt src w ref x
  | EDo (WFail ref) => dop_fine lo R (eread w) (CFail ref)
  | EDo (WRotate wm) => lsn_room w /\ rotate_fine w wm
  | EDo WGc => dop_fine lo R (eread w) (CGc 0)
  | EDo (WCreate mn mx) => dop_fine lo R (eread w) (CCreate mn mx)
  | EDo _ => False
  | EDrop id => lsn_room w /\ dop_fine lo R (eread w) (CDrop id)
  | EStop cuts ids => elog_fine w ids /\ dop_fine lo R (eread w) (CCrash cuts)
  end.
(* the range that a step drops *)
Definition edropped (w : whole) (o : eop) : list range :=
  match o with
  | EDrop id => match part_slice (en_map (wh_en w)) id with Some s => [range_of s] | None => [] end
  | _ => []
  end.
Fixpoint ehist_fine (lo : N) (R : list range) (w : whole) (l : list eop) : Prop :=
  match l with
  | [] => True
  | o :: t =>
      eop_fine lo R w o /\
      match step w o with
      | Ok w' => ehist_fine lo (edropped w o ++ R) w' t
      | _ => ehist_fine lo R w t
      end
  end.

(* acknowledged events that are not dropped *)
Definition eack_step (w : whole) (o : eop) (h : list event) : list event :=
  let en := wh_en w in
  match o with
  | EDo (WWrite l _ _) =>
      match engine_write en l true with
      | Ok (_, Some _) => h ++ assigned (en_serial en) (en_ssn en) l
      | _ => h
      end
  | _ => h
  end.
Fixpoint eacked (w : whole) (l : list eop) (h : list event) : list event :=
  match l with
  | [] => h
  | o :: t =>
      let h := eack_step w o h in
      match step w o with
      | Ok w' => eacked w' t (filter (fun e => negb (gone (edropped w o) (ev_id e))) h)
      | _ => eacked w t h
      end
  end.
Fixpoint all_gone (R : list range) (w : whole) (l : list eop) : list range :=
  match l with
  | [] => R
  | o :: t => match step w o with
              | Ok w' => all_gone (edropped w o ++ R) w' t
              | _ => all_gone R w t
              end
  end.
Definition ereachable (lo : N) (R : list range) (w : whole) (h : list event) : Prop :=
  exists storages iv serial page ops,
    limits lo iv /\ storages_ok storages /\
    ehist_fine lo [] (whole_new src storages iv serial page) ops /\
    erun compress decompress encrypt decrypt src wal_crc (whole_new src storages iv serial page) ops = Ok w /\
    R = all_gone [] (whole_new src storages iv serial page) ops /\
    h = eacked (whole_new src storages iv serial page) ops [].
End Drops.
