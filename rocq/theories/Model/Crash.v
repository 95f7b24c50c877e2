(* Partition files, the log and restarts: refresh with its file operations, recovery, replay.

   Sources: /repo/monotone/engine/engine/engine_recover.c, refresh.c, op.c:163-315, 529-575,
   write.c:140-193; /repo/monotone/engine/io/part.c:84-210, merger.c;
   /repo/monotone/engine/storage/storage_mgr.c:397-412; /repo/monotone/main/main/main.c:173-256.
   Simplifications: a file is its footer fields and regions (bytes are in File.v); the log is its
   list of records (bytes, files, cuts are in Wal.v); what is written before a file is renamed is
   on disk after a crash; a leftover file below a new one makes it unreadable (File create is in
   Vfs.v); no cloud files (Cloud.v); records appended while the log is replayed are read by the
   next start. *)
From Coq Require Import NArith ZArith List Bool.
Import ListNotations.
From Verif Require Import Model.Base Model.Event Model.Memtable Model.Mapping Model.PartIter
  Model.Scan Model.Writer Model.Engine.
Local Open Scope res_scope.

(* a partition file: index.h fields that recovery uses, and the regions *)
Record dfile : Type := mk_dfile { df_min : N; df_max : N; df_lsn : N; df_regions : pfile }.
(* None: not a valid partition file *)
Definition content : Type := option dfile.

(* files of one partition in one storage: <min>, <min>.incomplete, <min>.complete. What a file
   holds is its content here, its bytes in Whole.v *)
Record gslot (C : Type) : Type := mk_slot { sl_id : option C; sl_inc : option C; sl_comp : option C }.
Arguments mk_slot {C}. Arguments sl_id {C}. Arguments sl_inc {C}. Arguments sl_comp {C}.
Definition slot : Type := gslot content.
Definition no_files {C} : gslot C := mk_slot None None None.
Definition dkey : Type := (N * N)%type.               (* storage, min *)
Definition dkey_eqb (a b : dkey) : bool := ((fst a =? fst b) && (snd a =? snd b))%N.
Definition gdir (C : Type) : Type := list (dkey * gslot C).
Definition dir : Type := gdir content.
Definition dget {C} (d : gdir C) (k : dkey) : gslot C :=
  match find (fun x => dkey_eqb (fst x) k) d with Some x => snd x | None => no_files end.
Definition is_some {A} (o : option A) : bool := match o with Some _ => true | None => false end.
Definition drop_key {C} (d : gdir C) (k : dkey) : gdir C := filter (fun x => negb (dkey_eqb (fst x) k)) d.
Definition dset {C} (d : gdir C) (k : dkey) (s : gslot C) : gdir C :=
  if (is_some (sl_id s) || is_some (sl_inc s) || is_some (sl_comp s))%bool
  then (k, s) :: drop_key d k else drop_key d k.

(* storage_mgr.c:397-412: a partition with files on another storage, in storage order *)
Definition find_part {C} (storages : list N) (d : gdir C) (k : dkey) : option (gslot C) :=
  let others := filter (fun st => negb (st =? fst k)%N) storages in
  match find (fun st => existsb (fun x => dkey_eqb (fst x) (st, snd k)) d) others with
  | Some st => Some (dget d (st, snd k))
  | None => None
  end.

(* engine_recover.c:115-200: one partition. Err: the database does not open. *)
Definition recover_validate {C} (storages : list N) (d : gdir C) (k : dkey) : res (gdir C) :=
  let s := dget d k in
  match is_some (sl_id s), is_some (sl_inc s), is_some (sl_comp s) with
  | true, false, false => Ok d
  | false, true, false => Ok (drop_key d k)
  | true, true, false => Ok (dset d k (mk_slot (sl_id s) None None))
  | true, false, true => Ok (dset d k (mk_slot (sl_id s) None None))
  | false, false, true =>
      match find_part storages d k with
      | Some o => if is_some (sl_id o) then Ok (drop_key d k) else Err
      | None => Ok (dset d k (mk_slot (sl_comp s) None None))
      end
  | _, _, _ => Err
  end.
Fixpoint validate_all {C} (storages : list N) (d : gdir C) (l : list dkey) : res (gdir C) :=
  match l with
  | [] => Ok d
  | k :: t => do d <- recover_validate storages d k; validate_all storages d t
  end.
(* the partitions of each storage, in storage order *)
Definition worklist {C} (storages : list N) (d : gdir C) : list dkey :=
  flat_map (fun st => filter (fun k => (fst k =? st)%N) (map fst d)) storages.

(* engine_recover.c:221-250: open, follow the sequence number, add to the mapping *)
Fixpoint open_all (m : mapping part) (lsn : N) (d : dir) (l : list dkey) : res (mapping part * N) :=
  match l with
  | [] => Ok (m, lsn)
  | k :: t =>
      match sl_id (dget d k) with
      | Some (Some f) =>
          do m <- mapping_add m (mk_slice (df_min f) (df_max f)
                    (mk_part memtable_new memtable_new (Some (df_regions f)) (df_lsn f)));
          open_all m (N.max lsn (df_lsn f)) d t
      | Some None => Err                                  (* the file is not accepted *)
      | None => UB                                        (* abort() *)
      end
  end.

(* the log: one record per batch or drop *)
Inductive lrec : Type := LWrite (lsn : N) (l : list event) | LDrop (lsn id : N).
Definition rec_lsn (r : lrec) : N := match r with LWrite n _ => n | LDrop n _ => n end.

(* a refresh on its way: partition, storages, the number of steps done *)
Record job : Type := mk_job { jb_ref : N; jb_from : N; jb_to : N; jb_stage : nat }.

Record db : Type := mk_db {
  db_en : engine;
  db_storages : list N;                                   (* the first is used for new partitions *)
  db_home : N -> N;                                       (* storage of a partition *)
  db_dir : dir;
  db_log : list lrec;
  db_jobs : list job
}.
Definition with_en (b : db) (en : engine) : db :=
  mk_db en (db_storages b) (db_home b) (db_dir b) (db_log b) (db_jobs b).
Definition with_dir (b : db) (d : dir) : db :=
  mk_db (db_en b) (db_storages b) (db_home b) d (db_log b) (db_jobs b).
Definition with_log (b : db) (l : list lrec) : db :=
  mk_db (db_en b) (db_storages b) (db_home b) (db_dir b) l (db_jobs b).
Definition with_jobs (b : db) (l : list job) : db :=
  mk_db (db_en b) (db_storages b) (db_home b) (db_dir b) (db_log b) l.
Definition with_home (b : db) (h : N -> N) : db :=
  mk_db (db_en b) (db_storages b) h (db_dir b) (db_log b) (db_jobs b).

Definition part_slice (m : mapping part) (id : N) : option (slice part) :=
  find (fun s => slice_in s id) (mapping_list m).

(* op.c:290-315 with op.c:163-288: the file, the reference, then the log. A missing partition is
   skipped (if_exists). The record carries the id that was given. *)
Definition db_drop (b : db) (id : N) : res db :=
  let en := db_en b in
  match part_slice (en_map en) id with
  | None => Ok b
  | Some s =>
      do en' <- engine_drop en id;
      let k := (db_home b (s_min s), s_min s) in
      let f := dget (db_dir b) k in
      let lsn := w64 (en_lsn en + 1) in
      Ok (mk_db (with_lsn en' lsn) (db_storages b) (db_home b)
            (dset (db_dir b) k (mk_slot None (sl_inc f) (sl_comp f)))
            (db_log b ++ [LDrop lsn id]) (db_jobs b))
  end.

(* main.c:173-209 main_replay *)
Fixpoint replay_log (b : db) (l : list lrec) : res db :=
  match l with
  | [] => Ok b
  | LWrite lsn evs :: t =>
      do en <- engine_write_replay (db_en b) lsn evs; replay_log (with_en b en) t
  | LDrop _ id :: t => do b <- db_drop b id; replay_log b t
  end.

(* main.c:211-256: engine_open (engine_recover), main_replay, engine_set_serial.
   home: the storage in which a partition was found. *)
Definition home_of (l : list dkey) (dflt : N) : N -> N :=
  fun mn => match find (fun k => (snd k =? mn)%N) l with Some k => fst k | None => dflt end.
(* engine_recover.c:202-251: the engine before the log is replayed *)
Definition engine_recover (en : engine) (storages : list N) (d : dir) : res (engine * dir) :=
  do d <- validate_all storages d (worklist storages d);
  do r <- open_all mapping_init 0 d (worklist storages d);
  let '(m, lsn) := r in
  Ok (mk_engine m (en_interval en) (en_serial en) 0 lsn (en_page en) (en_region en), d).
Definition main_start (en : engine) (storages : list N) (d : dir) (log : list lrec) : res db :=
  do r <- engine_recover en storages d;
  let '(en, d) := r in
  let home := home_of (worklist storages d) (hd 0%N storages) in
  do b <- replay_log (mk_db en storages home d log []) log;
  Ok (with_en b (if en_serial en then engine_set_serial (db_en b) else db_en b)).

(* starts that stop while they validate partitions, after that many *)
Fixpoint interrupted {C} (storages : list N) (d : gdir C) (cuts : list nat) : res (gdir C) :=
  match cuts with
  | [] => Ok d
  | c :: t =>
      do d <- validate_all storages d (firstn c (worklist storages d));
      interrupted storages d t
  end.

(* op.c:618-652 engine_gc and wal_gc: the first k records are in files that are removed *)
Definition gc_min (en : engine) : N :=
  fold_right N.min u64_max
    (flat_map (fun s => [mt_lsn_min (pt_mem (s_data s)); mt_lsn_min (pt_prev (s_data s))])
              (mapping_list (en_map en))).
Definition db_gc (b : db) (k : nat) : res db :=
  if forallb (fun r => (rec_lsn r <? gc_min (db_en b))%N) (firstn k (db_log b))
  then Ok (with_log b (skipn k (db_log b)))
  else Err.

(* refresh.c:55-118. None: no request for a storage. The partition is locked for service, so a
   second refresh of it waits: Err, nothing changes. *)
Definition db_begin (b : db) (id : N) (to : option N) : res db :=
  match part_slice (en_map (db_en b)) id with
  | None => Err
  | Some s =>
      let from := db_home b (s_min s) in
      if existsb (fun j => (jb_ref j =? s_min s)%N) (db_jobs b) then Err
      else if match to with Some st => (st =? from)%N | None => false end then Ok b
      else
        do r <- refresh_begin (db_en b) id;
        let '(en, ref) := r in
        let st := match to with Some st => st | None => from end in
        Ok (with_jobs (with_en b en) (mk_job ref from st 0 :: db_jobs b))
  end.

(* the file written for a partition: merger.c:54-128 *)
Definition new_file (region : N) (s : slice part) : res dfile :=
  do p <- refresh_part region (s_data s);
  match pt_file p with
  | Some f => Ok (mk_dfile (s_min s) (s_max s) (pt_lsn p) f)
  | None => UB
  end.
Definition ref_slice (m : mapping part) (ref : N) : res (slice part) :=
  match find (fun s => (s_min s =? ref)%N) (mapping_list m) with Some s => Ok s | None => UB end.

(* the next step of a refresh: part_create, writer_stop, refresh_apply, refresh_end *)
Definition job_next (j : job) : job := mk_job (jb_ref j) (jb_from j) (jb_to j) (S (jb_stage j)).
Definition job_step (b : db) (j : job) : res (db * bool) :=
  let ref := jb_ref j in
  let kto := (jb_to j, ref) in
  let kfrom := (jb_from j, ref) in
  let d := db_dir b in
  let t := dget d kto in
  match jb_stage j with
  | 0 =>                                                   (* part.c:84-96 *)
      Ok (with_dir b (dset d kto (mk_slot (sl_id t) (Some None) (sl_comp t))), true)
  | 1 =>                                                   (* merger.c:54-97 *)
      do s <- ref_slice (en_map (db_en b)) ref;
      do f <- new_file (en_region (db_en b)) s;
      Ok (with_dir b (dset d kto (mk_slot (sl_id t) (Some (Some f)) (sl_comp t))), true)
  | 2 =>                                                   (* refresh.c:134-166 *)
      do en <- refresh_apply (db_en b) ref;
      Ok (with_home (with_en b en) (fun x => if (x =? ref)%N then jb_to j else db_home b x), true)
  | 3 =>                                                   (* refresh.c:182 *)
      match sl_inc t with
      | Some c => Ok (with_dir b (dset d kto (mk_slot (sl_id t) None (Some c))), true)
      | None => Ok (b, true)
      end
  | 4 =>                                                   (* refresh.c:188-190 *)
      let f := dget d kfrom in
      Ok (with_dir b (dset d kfrom (mk_slot None (sl_inc f) (sl_comp f))), true)
  | _ =>                                                   (* refresh.c:197 *)
      match sl_comp t with
      | Some c => Ok (with_dir b (dset d kto (mk_slot (Some c) (sl_inc t) None)), false)
      | None => Ok (b, false)
      end
  end.
Definition db_step (b : db) (ref : N) : res db :=
  match find (fun j => (jb_ref j =? ref)%N) (db_jobs b) with
  | None => Err
  | Some j =>
      do r <- job_step b j;
      let '(b, more) := r in
      let rest := filter (fun x => negb (jb_ref x =? ref)%N) (db_jobs b) in
      Ok (with_jobs b (if more then job_next j :: rest else rest))
  end.

(* histories *)
Inductive cop : Type :=
| CWrite (l : list warg) (logged : bool)
| CBegin (id : N) (to : option N)
| CStep (ref : N)
| CFail (ref : N)                     (* an error ends the refresh of this partition *)
| CGc (k : nat)
| CDrop (id : N)
| CCreate (mn mx : N)
| CInterval (n : N)
| CCrash (cuts : list nat)            (* stop, interrupted starts, and a start *)
| CCrashIn (l : list warg) (whole : bool)   (* stop while this batch is logged, and a start *)
| CCrashDrop (id : N).                (* stop in DROP when the file is removed, and a start *)

Definition write_rec (b : db) (l : list event) : lrec := LWrite (w64 (en_lsn (db_en b) + 1)) l.
Definition cstep (b : db) (o : cop) : res db :=
  match o with
  | CWrite l logged =>
      do r <- engine_write (db_en b) l logged;
      match r with
      | (en, Some evs) => Ok (with_log (with_en b en) (db_log b ++ [write_rec b evs]))
      | (en, None) => Ok (with_en b en)
      end
  | CBegin id to => db_begin b id to
  | CStep ref => db_step b ref
  | CFail ref => Ok (with_jobs b (filter (fun x => negb (jb_ref x =? ref)%N) (db_jobs b)))
  | CGc k => db_gc b k
  | CDrop id =>
      if existsb (fun j => match part_slice (en_map (db_en b)) id with
                           | Some s => (jb_ref j =? s_min s)%N | None => false end) (db_jobs b)
      then Err else db_drop b id
  | CCreate mn mx =>
      do m <- engine_fill part_new (en_map (db_en b)) mn mx; Ok (with_en b (with_map (db_en b) m))
  | CInterval n => Ok (with_en b (with_interval (db_en b) n))
  | CCrash cuts =>
      do d <- interrupted (db_storages b) (db_dir b) cuts;
      main_start (db_en b) (db_storages b) d (db_log b)
  | CCrashIn l whole =>
      do r <- engine_write (db_en b) l true;
      let log := match snd r with
                 | Some evs => if whole then db_log b ++ [write_rec b evs] else db_log b
                 | None => db_log b
                 end in
      main_start (db_en b) (db_storages b) (db_dir b) log
  | CCrashDrop id =>
      do b' <- db_drop b id; main_start (db_en b) (db_storages b) (db_dir b') (db_log b)
  end.
(* refused commands change nothing; a database that does not open ends the history *)
Definition stops (o : cop) : bool :=
  match o with CCrash _ => true | CCrashIn _ _ => true | CCrashDrop _ => true | _ => false end.
Fixpoint crun (b : db) (l : list cop) : res db :=
  match l with
  | [] => Ok b
  | o :: t =>
      match cstep b o with
      | Ok b => crun b t
      | Err => if stops o then Err else crun b t
      | UB => UB
      end
  end.
Definition db_new (storages : list N) (interval : N) (serial : bool) (page region : N) : db :=
  mk_db (engine_new interval serial page region) storages (fun _ => hd 0%N storages) [] [] [].
