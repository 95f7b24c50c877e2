(* A database whose log and partition files are bytes: writes with the bytes of their records,
   refreshes with the bytes of their files, starts that read both.

   Sources: /repo/monotone/engine/engine/write.c:74-193, refresh.c, engine_recover.c:115-251,
   op.c:618-652; /repo/monotone/engine/io/merger.c:54-128, part.c:84-210;
   /repo/monotone/engine/wal/wal.c, wal_cursor.c; /repo/monotone/main/main/main.c:173-256.
   The parts are the definitions of Crash.v (partitions and directories), File.v (bytes of partition
   files) and Wal.v (bytes of the log), which share config_lsn here.
   Simplifications: those of the three; all storages have the same settings; a file is read when it
   is opened, not when its events are; no DROP (WholeDrops.v has it), so a log with one is not replayed. *)
From Coq Require Import NArith ZArith List Bool.
Import ListNotations.
From Verif Require Import Model.Base Model.Event Model.Memtable Model.Mapping Model.PartIter Model.Scan Model.Codec
  Model.File Model.Wal Model.Engine Model.Crash.
Local Open Scope res_scope.

(* the bytes that follow an event in memory *)
Fixpoint behind {A} (none : A) (l : list event) (m : list A) : list (event * A) :=
  match l with
  | [] => []
  | e :: t => (e, hd none m) :: behind none t (tl m)
  end.
(* log.h:106-122: when the event is added to the log, and when the log is written *)
Definition entries (l : list event) (m : list (list byte * list byte)) : list lentry :=
  map (fun x => mk_lentry (fst x) (fst (snd x)) (snd (snd x))) (behind ([], []) l m).

Section Whole.
Variable compress : N -> nat -> list byte -> list byte.
Variable decompress : N -> list byte -> N -> res (list byte).
Variable encrypt : N -> nat -> list byte -> list byte.
Variable decrypt : N -> list byte -> res (list byte).
Variable src : source.                                    (* settings of the storages *)
Variable wal_crc : bool.

Definition bdir : Type := gdir (list byte).
Record whole : Type := mk_whole {
  wh_en : engine;                                         (* config_lsn is en_lsn *)
  wh_storages : list N;
  wh_home : N -> N;
  wh_dir : bdir;
  wh_wal : wal;
  wh_jobs : list job
}.
Definition log_of (w : whole) : wal :=
  mk_wal (wl_files (wh_wal w)) (wl_list (wh_wal w)) (wl_current (wh_wal w)) (en_lsn (wh_en w)).
Definition put_log (w : whole) (g : wal) : whole :=
  mk_whole (wh_en w) (wh_storages w) (wh_home w) (wh_dir w) g (wh_jobs w).
Definition put_dir (w : whole) (d : bdir) : whole :=
  mk_whole (wh_en w) (wh_storages w) (wh_home w) d (wh_wal w) (wh_jobs w).
(* what Crash.v does without files and log *)
Definition bare (w : whole) : db := mk_db (wh_en w) (wh_storages w) (wh_home w) [] [] (wh_jobs w).
Definition put_bare (w : whole) (b : db) : whole :=
  mk_whole (db_en b) (db_storages b) (db_home b) (wh_dir w) (wh_wal w) (db_jobs b).

(* part.c:121-210: what is found in a file *)
Definition file_content (b : list byte) : content :=
  match read_file decompress decrypt b with
  | Ok (ix, rs) => Some (mk_dfile (ix_min ix) (ix_max ix) (ix_lsn ix) rs)
  | _ => None
  end.
Definition slot_content (s : gslot (list byte)) : slot :=
  mk_slot (option_map file_content (sl_id s)) (option_map file_content (sl_inc s))
          (option_map file_content (sl_comp s)).
Definition dir_content (d : bdir) : dir := map (fun x => (fst x, slot_content (snd x))) d.

(* write.c:74-138; [fail]: writing the log fails after that many bytes *)
Definition whole_write (w : whole) (l : list warg) (m : list (list byte * list byte)) (fail : option nat)
  : res whole :=
  do r <- engine_write (wh_en w) l true;
  match r with
  | (en, None) => Ok (put_bare w (with_en (bare w) en))
  | (en, Some evs) =>
      do g <- wal_write wal_crc (log_of w) (entries evs m) fail;
      if snd g then Ok (put_log (put_bare w (with_en (bare w) en)) (fst g))
      else
        do r <- engine_write (wh_en w) l false;
        Ok (put_log (put_bare w (with_en (bare w) (fst r))) (fst g))
  end.

(* what a refresh adds: part.c time_create, time_refresh, the number of refreshes, the bytes behind
   the events in memory *)
Record extra : Type := mk_extra { ex_refreshes : N; ex_create : N; ex_refresh : N; ex_memory : list (list byte) }.
(* merger.c:54-128: the bytes of the new file *)
Definition new_bytes (s : slice part) (x : extra) : res (list byte) :=
  do l <- merger_events (s_data s);
  Ok (write_file compress encrypt src
        (mk_stamp (s_min s) (s_max s) (ex_refreshes x) (ex_create x) (ex_refresh x) (merger_lsn (s_data s)))
        (behind [] l (ex_memory x))).

(* the steps of a refresh: Crash.v job_step with bytes *)
Definition whole_job (w : whole) (j : job) (x : extra) : res (whole * bool) :=
  let ref := jb_ref j in
  let kto := (jb_to j, ref) in
  let kfrom := (jb_from j, ref) in
  let d := wh_dir w in
  let t := dget d kto in
  match jb_stage j with
  | 0 => Ok (put_dir w (dset d kto (mk_slot (sl_id t) (Some []) (sl_comp t))), true)
  | 1 =>
      do s <- ref_slice (en_map (wh_en w)) ref;
      do f <- new_bytes s x;
      Ok (put_dir w (dset d kto (mk_slot (sl_id t) (Some f) (sl_comp t))), true)
  | 2 =>
      do en <- refresh_apply (wh_en w) ref;
      Ok (put_bare w (with_home (with_en (bare w) en)
                        (fun x => if (x =? ref)%N then jb_to j else wh_home w x)), true)
  | 3 =>
      match sl_inc t with
      | Some c => Ok (put_dir w (dset d kto (mk_slot (sl_id t) None (Some c))), true)
      | None => Ok (w, true)
      end
  | 4 =>
      let f := dget d kfrom in
      Ok (put_dir w (dset d kfrom (mk_slot None (sl_inc f) (sl_comp f))), true)
  | _ =>
      match sl_comp t with
      | Some c => Ok (put_dir w (dset d kto (mk_slot (Some c) (sl_inc t) None)), false)
      | None => Ok (w, false)
      end
  end.
Definition whole_step (w : whole) (ref : N) (x : extra) : res whole :=
  match find (fun j => (jb_ref j =? ref)%N) (wh_jobs w) with
  | None => Err
  | Some j =>
      do r <- whole_job w j x;
      let '(w, more) := r in
      let rest := filter (fun y => negb (jb_ref y =? ref)%N) (wh_jobs w) in
      Ok (put_bare w (with_jobs (bare w) (if more then job_next j :: rest else rest)))
  end.

(* engine_recover.c:115-251 *)
Definition whole_recover (en : engine) (storages : list N) (d : bdir) : res (engine * bdir) :=
  do d <- validate_all storages d (worklist storages d);
  do r <- open_all mapping_init 0 (dir_content d) (worklist storages d);
  let '(m, lsn) := r in
  Ok (mk_engine m (en_interval en) (en_serial en) 0 lsn (en_page en) (en_region en), d).

(* main.c:173-209: the records of the log *)
Fixpoint log_writes (l : list logged) : res (list Crash.lrec) :=
  match l with
  | [] => Ok []
  | Wal.LWrite n evs :: t => do r <- log_writes t; Ok (Crash.LWrite n evs :: r)
  | Wal.LDrop _ _ :: _ => UB
  end.
(* main.c:211-256: engine_open, wal_open, main_replay, engine_set_serial. [ids]: the files of the log
   in the order of the directory. *)
Definition whole_start (en : engine) (storages : list N) (d : bdir) (g : wal) (ids : list N) : res whole :=
  do r <- whole_recover en storages d;
  let '(en, d) := r in
  let home := home_of (worklist storages d) (hd 0%N storages) in
  do g <- wal_open (wl_files g) ids (en_lsn en);
  let '(l, e) := wal_read wal_crc (wl_files g) (wl_list g) in
  do rs <- log_writes l;
  do b <- replay_log (mk_db en storages home [] [] []) rs;
  do _ <- e;
  Ok (mk_whole (if en_serial en then engine_set_serial (db_en b) else db_en b) storages home d g []).

(* histories *)
Inductive wop : Type :=
| WWrite (l : list warg) (m : list (list byte * list byte)) (fail : option nat)
| WBegin (id : N) (to : option N)
| WStep (ref : N) (x : extra)
| WFail (ref : N)
| WRotate (wm : N)
| WGc
| WCreate (mn mx : N)
| WInterval (n : N)
| WCrash (cuts : list nat) (ids : list N)
(* stop when [n] bytes of the record of a batch are in the log *)
| WCrashIn (l : list warg) (m : list (list byte * list byte)) (n : nat) (ids : list N)
(* stop when [n] bytes of the new file of a refresh are written *)
| WCrashFile (ref : N) (x : extra) (n : nat) (cuts : list nat) (ids : list N).

Definition restart (w : whole) (cuts : list nat) (ids : list N) : res whole :=
  do d <- interrupted (wh_storages w) (wh_dir w) cuts;
  whole_start (wh_en w) (wh_storages w) d (wh_wal w) ids.
Definition wstep (w : whole) (o : wop) : res whole :=
  match o with
  | WWrite l m fail => whole_write w l m fail
  | WBegin id to => do b <- db_begin (bare w) id to; Ok (put_bare w b)
  | WStep ref x => whole_step w ref x
  | WFail ref =>
      Ok (put_bare w (with_jobs (bare w) (filter (fun x => negb (jb_ref x =? ref)%N) (wh_jobs w))))
  | WRotate wm => Ok (put_log w (wal_rotate (log_of w) wm))
  | WGc => do g <- wal_gc (log_of w) (gc_min (wh_en w)); Ok (put_log w g)
  | WCreate mn mx =>
      do m <- engine_fill part_new (en_map (wh_en w)) mn mx;
      Ok (put_bare w (with_en (bare w) (with_map (wh_en w) m)))
  | WInterval n => Ok (put_bare w (with_en (bare w) (with_interval (wh_en w) n)))
  | WCrash cuts ids => restart w cuts ids
  | WCrashIn l m n ids =>
      do r <- engine_write (wh_en w) l true;
      match snd r with
      | Some evs =>
          do g <- wal_file_append (log_of w) (log_record wal_crc (w64 (en_lsn (wh_en w) + 1)) (entries evs m)) (Some n);
          restart (put_log w (fst g)) [] ids
      | None => restart w [] ids
      end
  | WCrashFile ref x n cuts ids =>
      match find (fun j => (jb_ref j =? ref)%N) (wh_jobs w) with
      | None => restart w cuts ids
      | Some j =>
          let kto := (jb_to j, ref) in
          let t := dget (wh_dir w) kto in
          do s <- ref_slice (en_map (wh_en w)) ref;
          do f <- new_bytes s x;
          restart (put_dir w (dset (wh_dir w) kto (mk_slot (sl_id t) (Some (firstn n f)) (sl_comp t)))) cuts ids
      end
  end.
Definition wstops (o : wop) : bool :=
  match o with WCrash _ _ => true | WCrashIn _ _ _ _ => true | WCrashFile _ _ _ _ _ => true | _ => false end.
Fixpoint wrun (w : whole) (l : list wop) : res whole :=
  match l with
  | [] => Ok w
  | o :: t =>
      match wstep w o with
      | Ok w => wrun w t
      | Err => if wstops o then Err else wrun w t
      | UB => UB
      end
  end.
(* a new database: wal.c:169-196 creates the first file *)
Definition whole_new (storages : list N) (interval : N) (serial : bool) (page : N) : whole :=
  mk_whole (engine_new interval serial page (Z.to_N (so_region_size src mod 2 ^ 32))) storages
    (fun _ => hd 0%N storages) [] (wal_rotate wal_init 0) [].
End Whole.
