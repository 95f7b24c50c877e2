(* DROP PARTITION in a database whose log and partition files are bytes.

   Sources: /repo/monotone/engine/engine/op.c:239-315; /repo/monotone/engine/wal/wal.c:220-239,
   wal_cursor.c:83-118, wal_file.h:65-125; /repo/monotone/main/main/main.c:173-256.
   Whole.v with drops: a start applies them with engine_drop, which appends a record to the last
   file of the log while a cursor reads the log. The cursor takes the size of a file when it opens
   it: what is appended to a file that is opened later is read by the same start, what is appended
   to the open one by the next.
   Simplifications: those of Whole.v but the one about DROP; the cursor takes the records of a file
   when it opens it (each is applied before the next file is opened, as in main.c); no stops inside
   of a record (Whole.v) or inside of a drop (Crash.v, C66). *)
From Coq Require Import NArith ZArith List Bool.
Import ListNotations.
From Verif Require Import Model.Base Model.Event Model.Memtable Model.Mapping Model.PartIter Model.Scan Model.Codec
  Model.File Model.Wal Model.Engine Model.Crash Model.Whole.
Local Open Scope res_scope.

Section Drops.
Variable compress : N -> nat -> list byte -> list byte.
Variable decompress : N -> list byte -> N -> res (list byte).
Variable encrypt : N -> nat -> list byte -> list byte.
Variable decrypt : N -> list byte -> res (list byte).
Variable src : source.
Variable wal_crc : bool.

(* op.c:239-315 engine_drop: the file of the partition, the partition, the record *)
Definition whole_drop (w : whole) (id : N) : res whole :=
  match part_slice (en_map (wh_en w)) id with
  | None => Ok w
  | Some s =>
      do en <- engine_drop (wh_en w) id;
      let k := (wh_home w (s_min s), s_min s) in
      let f := dget (wh_dir w) k in
      do g <- wal_write_drop wal_crc (log_of w) id None;
      Ok (mk_whole (with_lsn en (wl_lsn (fst g))) (wh_storages w) (wh_home w)
            (dset (wh_dir w) k (mk_slot None (sl_inc f) (sl_comp f))) (fst g) (wh_jobs w))
  end.

(* main.c:173-209 main_replay: records are applied in turn *)
Fixpoint replay_records (w : whole) (l : list logged) : res whole :=
  match l with
  | [] => Ok w
  | Wal.LWrite n evs :: t =>
      do en <- engine_write_replay (wh_en w) n evs;
      replay_records (put_bare w (with_en (bare w) en)) t
  | Wal.LDrop _ id :: t => do w <- whole_drop w id; replay_records w t
  end.
(* wal_cursor.c:83-118: the file [id] as it is when it is opened, then the next one *)
Fixpoint replay_files (fuel : nat) (w : whole) (id : N) : res whole :=
  match fuel with
  | O => UB
  | S fuel =>
      match file_of id (wl_files (wh_wal w)) with
      | None => Err
      | Some b =>
          let '(l, e) := wal_read wal_crc [(id, b)] [id] in
          do w <- replay_records w l;
          do _ <- e;
          let n := wal_id_next id (wl_list (wh_wal w)) in
          if (n =? u64_max)%N then Ok w else replay_files fuel w n
      end
  end.

(* main.c:211-256 *)
Definition drops_start (en : engine) (storages : list N) (d : bdir) (g : wal) (ids : list N) : res whole :=
  do r <- whole_recover decompress decrypt en storages d;
  let '(en, d) := r in
  let home := home_of (worklist storages d) (hd 0%N storages) in
  do g <- wal_open (wl_files g) ids (en_lsn en);
  let w := mk_whole en storages home d g [] in
  let id := wal_id_min (wl_list g) in
  do w <- (if (id =? u64_max)%N then Ok w else replay_files (length (wl_list g)) w id);
  Ok (put_bare w (with_en (bare w) (if en_serial en then engine_set_serial (wh_en w) else wh_en w))).

(* histories *)
Inductive eop : Type :=
| EDo (o : wop)                                   (* of Whole.v, but stops *)
| EDrop (id : N)                                  (* waits for a refresh of the partition *)
| EStop (cuts : list nat) (ids : list N).         (* stop, interrupted starts, and a start *)
Definition estep (w : whole) (o : eop) : res whole :=
  match o with
  | EDo o => if wstops o then UB else wstep compress decompress encrypt decrypt src wal_crc w o
  | EDrop id =>
      if existsb (fun j => match part_slice (en_map (wh_en w)) id with
                           | Some s => (jb_ref j =? s_min s)%N | None => false end) (wh_jobs w)
      then Err else whole_drop w id
  | EStop cuts ids =>
      do d <- interrupted (wh_storages w) (wh_dir w) cuts;
      drops_start (wh_en w) (wh_storages w) d (wh_wal w) ids
  end.
Definition estops (o : eop) : bool := match o with EStop _ _ => true | _ => false end.
Fixpoint erun (w : whole) (l : list eop) : res whole :=
  match l with
  | [] => Ok w
  | o :: t =>
      match estep w o with
      | Ok w => erun w t
      | Err => if estops o then Err else erun w t
      | UB => UB
      end
  end.
End Drops.
