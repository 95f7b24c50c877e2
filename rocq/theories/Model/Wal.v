(* The write-ahead log.

   Sources: /repo/monotone/engine/wal/log.h, log_write.h, log_drop.h, wal_file.h, wal_id.h,
   wal.c, wal_cursor.c; /repo/monotone/main/main/main.c:173-209 (main_replay);
   /repo/monotone/runtime/runtime/file.h, vfs.c:107-133.
   Simplifications: mutexes and spinlocks are left out (one operation at a time, interleavings
   are in Gc.v); file names are their ids; file_writev appends its buffers (Vfs.v); a failing
   write leaves a prefix of its bytes; syncs are left out (Crash.v has them). *)
From Coq Require Import NArith ZArith Arith List Bool.
Import ListNotations.
From Verif Require Import Model.Base Model.Event Model.Crc Model.Codec Model.File.
Local Open Scope res_scope.

(* ------------------------------------------------------------------ *)
(* records *)

(* log_write.h:18-31 *)
Definition LOG_WRITE : N := 0%N.
Definition LOG_DROP : N := 1%N.
Record log_write : Type := mk_lwrite {
  lw_crc : N; lw_lsn : N; lw_type : N; lw_count : N; lw_size : N
}.
Definition lwrite_fields : list nat := [4;8;1;4;4].
Definition LWRITE : nat := 21.
Definition lwrite_bytes (w : log_write) : list byte :=
  pack [(4, lw_crc w); (8, lw_lsn w); (1, lw_type w); (4, lw_count w); (4, lw_size w)].
Definition lwrite_load (l : list byte) : option log_write :=
  match unpack lwrite_fields l with
  | [c; s; t; n; z] => Some (mk_lwrite c s t n z)
  | _ => None
  end.

(* log_write.h:33-41 *)
Definition log_write_init : log_write := mk_lwrite 0 0 LOG_WRITE 0 0.

(* an event of a batch: the bytes behind it in memory when it is added to the log, and when the
   log is written *)
Record lentry : Type := mk_lentry { le_event : event; le_added : list byte; le_written : list byte }.

(* log.h:93-104 log_add and 106-122 log_add_event *)
Definition log_add_event (wal_crc : bool) (w : log_write) (x : lentry) : log_write :=
  let count := w32 (lw_count w + 1) in
  let size := if (count =? 1)%N then w32 (lw_size w + 21) else lw_size w in
  let size := w32 (size + event_size (le_event x)) in
  let c := if wal_crc then crc (lw_crc w) (event_image (le_event x, le_added x)) else lw_crc w in
  mk_lwrite c (lw_lsn w) (lw_type w) count size.

(* log_write.h:69-75 *)
Definition log_write_seal (wal_crc : bool) (w : log_write) : log_write :=
  if wal_crc then
    mk_lwrite (crc (lw_crc w) (skipn 4 (lwrite_bytes w))) (lw_lsn w) (lw_type w) (lw_count w) (lw_size w)
  else w.

Definition set_lsn (w : log_write) (lsn : N) : log_write :=
  mk_lwrite (lw_crc w) lsn (lw_type w) (lw_count w) (lw_size w).

(* the bytes wal.c:198-218 writes for a batch: the header is first in the vector (log.h:104-109);
   an empty batch has an empty vector *)
Definition log_record (wal_crc : bool) (lsn : N) (l : list lentry) : list byte :=
  match l with
  | [] => []
  | _ =>
      let w := fold_left (log_add_event wal_crc) l log_write_init in
      lwrite_bytes (log_write_seal wal_crc (set_lsn w lsn))
      ++ flat_map (fun x => event_image (le_event x, le_written x)) l
  end.

(* log_drop.h:26-39 and wal.c:220-239 *)
Definition drop_record (wal_crc : bool) (lsn id : N) : list byte :=
  let c := if wal_crc then crc 0 (le 8 id) else 0%N in
  lwrite_bytes (log_write_seal wal_crc (mk_lwrite c lsn LOG_DROP 0 29)) ++ le 8 id.

(* ------------------------------------------------------------------ *)
(* reading *)

(* wal_file.h:81-85: uint32_t arguments *)
Definition wal_file_eof (size off n : N) : bool := (size <? w32 (w32 off + w32 n))%N.

(* file.h:259-265 file_pread_buf: the size is an int; a read of no bytes is an error
   (vfs.c:120-124 treats a result of 0 as one), a negative size is rejected by pread(2) *)
Definition pread_buf (off n : N) (file : list byte) : res (list byte) :=
  if (n =? 0)%N then Err
  else if (2 ^ 31 <=? n)%N then Err
  else pread off n file.

(* wal_file.h:87-125; [file] is what was in the file when it was opened *)
Definition wal_file_pread (wal_crc : bool) (file : list byte) (off : N)
  : res (option (log_write * list byte)) :=
  let size := N.of_nat (length file) in
  if wal_file_eof size off 21 then Ok None
  else
    do h <- pread_buf off 21 file;
    do w <- of_opt (lwrite_load h);
    if wal_file_eof size off (lw_size w) then Ok None
    else
      do body <- pread_buf (off + 21) (w32 (lw_size w + two32 - 21)) file;
      if wal_crc && negb (crc (crc 0 body) (skipn 4 h) =? lw_crc w)%N then Err
      else Ok (Some (w, body)).

(* log_write.h:53-67: the events of a record; [body] is what follows the header.
   UB: an event reaches outside of the buffer. *)
Fixpoint log_events (fuel : nat) (body : list byte) : res (list event) :=
  match fuel with
  | O => UB
  | S fuel =>
      match event_load body with
      | None => UB
      | Some e =>
          let n := N.to_nat (event_size e) in
          if (length body <=? n)%nat then Ok [e]
          else do t <- log_events fuel (skipn n body); Ok (e :: t)
      end
  end.

(* ------------------------------------------------------------------ *)
(* wal_id.h: the list of file ids *)

(* wal_id.h:38-64 *)
Fixpoint wal_id_add (id : N) (l : list N) : list N :=
  match l with
  | [] => [id]
  | x :: t => if (x <? id)%N then x :: wal_id_add id t else id :: x :: t
  end.

(* wal_id.h:66-84 *)
Fixpoint wal_id_delete (id : N) (l : list N) : list N :=
  match l with
  | [] => []
  | x :: t => if (x =? id)%N then t else x :: wal_id_delete id t
  end.

(* wal_id.h:86-112 *)
Fixpoint wal_id_copy (limit : N) (l : list N) : list N :=
  match l with
  | [] => []
  | x :: t => if (limit <? x)%N then [] else x :: wal_id_copy limit t
  end.

(* wal_id.h:114-140 *)
Definition wal_id_min (l : list N) : N := match l with x :: _ => x | [] => u64_max end.
Definition wal_id_max (l : list N) : N := last l u64_max.

(* wal_id.h:161-178 *)
Fixpoint wal_id_find_from (value id : N) (l : list N) : N :=
  match l with
  | [] => id
  | x :: t => if (value <? x)%N then id else wal_id_find_from value x t
  end.
Definition wal_id_find (value : N) (l : list N) : N := wal_id_find_from value u64_max l.

(* wal_id.h:180-198 *)
Fixpoint wal_id_next (value : N) (l : list N) : N :=
  match l with
  | [] => u64_max
  | x :: t => if (value <? x)%N then x else wal_id_next value t
  end.

(* wal_id.h:200-237: what is removed, what stays *)
Fixpoint wal_id_gc_between (id : N) (l : list N) : list N * list N :=
  match l with
  | x :: (y :: _) as t =>
      if (y <=? id)%N then let '(r, k) := wal_id_gc_between id t in (x :: r, k)
      else ([], l)
  | _ => ([], l)
  end.

(* ------------------------------------------------------------------ *)
(* wal.c: files on disk, list, current file (id, file.size, position), last lsn *)
Record wal : Type := mk_wal {
  wl_files : list (N * list byte);
  wl_list  : list N;
  wl_current : option (N * N);
  wl_lsn   : N
}.
Definition wal_init : wal := mk_wal [] [] None 0.

Fixpoint file_of (id : N) (fs : list (N * list byte)) : option (list byte) :=
  match fs with
  | [] => None
  | (i, b) :: t => if (i =? id)%N then Some b else file_of id t
  end.
Fixpoint file_put (id : N) (b : list byte) (fs : list (N * list byte)) : list (N * list byte) :=
  match fs with
  | [] => [(id, b)]
  | (i, x) :: t => if (i =? id)%N then (id, b) :: t else (i, x) :: file_put id b t
  end.
Definition file_delete (id : N) (fs : list (N * list byte)) : list (N * list byte) :=
  filter (fun p => negb (fst p =? id)%N) fs.

(* bytes written at a position: what was there is overwritten *)
Definition overwrite (pos : nat) (data file : list byte) : list byte :=
  firstn pos file ++ data ++ skipn (pos + length data) file.

(* wal.c:45-49 *)
Definition wal_rotate_ready (s : wal) (wm : N) : bool :=
  match wl_current s with
  | None => true
  | Some (_, size) => (wm <? size)%N
  end.

(* wal.c:51-97; O_CREAT without O_TRUNC: an existing file keeps its bytes, file.size is 0 *)
Definition wal_rotate (s : wal) (wm : N) : wal :=
  if wal_rotate_ready s wm then
    let id := w64 (wl_lsn s + 1) in
    let files := match file_of id (wl_files s) with
                 | Some _ => wl_files s
                 | None => wl_files s ++ [(id, [])]
                 end in
    mk_wal files (wal_id_add id (wl_list s)) (Some (id, 0%N)) (wl_lsn s)
  else s.

(* wal.c:99-125; fs_unlink of a missing file is an error, after the ids left the list *)
Fixpoint unlink_all (ids : list N) (fs : list (N * list byte)) : res (list (N * list byte)) :=
  match ids with
  | [] => Ok fs
  | id :: t =>
      match file_of id fs with
      | None => Err
      | Some _ => unlink_all t (file_delete id fs)
      end
  end.
Definition wal_gc (s : wal) (min : N) : res wal :=
  let '(removed, kept) := wal_id_gc_between min (wl_list s) in
  do fs <- unlink_all removed (wl_files s);
  Ok (mk_wal fs kept (wl_current s) (wl_lsn s)).

(* a write of [data] to the current file: Some n, it fails after n bytes.
   wal_file.h:65-79, file.h:185-219 *)
Definition wal_file_append (s : wal) (data : list byte) (fail : option nat) : res (wal * bool) :=
  match wl_current s with
  | None => UB
  | Some (id, size) =>
      match file_of id (wl_files s) with
      | None => UB
      | Some b =>
          match fail with
          | None =>
              Ok (mk_wal (file_put id (overwrite (N.to_nat size) data b) (wl_files s)) (wl_list s)
                         (Some (id, (size + N.of_nat (length data))%N)) (wl_lsn s), true)
          | Some n =>
              (* file.h:202-219: self->size is not advanced for the failing call, the position of
                 the descriptor is; the next write goes behind the partial one *)
              let data := firstn n data in
              Ok (mk_wal (file_put id (overwrite (N.to_nat size) data b) (wl_files s)) (wl_list s)
                         (Some (id, (size + N.of_nat (length data))%N)) (wl_lsn s), false)
          end
      end
  end.

(* wal.c:198-218 wal_write: the lsn is taken only if the write succeeds *)
Definition wal_write (wal_crc : bool) (s : wal) (l : list lentry) (fail : option nat) : res (wal * bool) :=
  let lsn := w64 (wl_lsn s + 1) in
  do p <- wal_file_append s (log_record wal_crc lsn l) fail;
  let '(s, ok) := p in
  if ok then Ok (mk_wal (wl_files s) (wl_list s) (wl_current s) lsn, true) else Ok (s, false).

(* wal.c:220-239 wal_write_op of a LogDrop *)
Definition wal_write_drop (wal_crc : bool) (s : wal) (id : N) (fail : option nat) : res (wal * bool) :=
  let lsn := w64 (wl_lsn s + 1) in
  do p <- wal_file_append s (drop_record wal_crc lsn id) fail;
  let '(s, ok) := p in
  if ok then Ok (mk_wal (wl_files s) (wl_list s) (wl_current s) lsn, true) else Ok (s, false).

(* wal.c:147-196: the directory is listed in an order of its own *)
Definition wal_recover (dir : list N) : list N := fold_left (fun l id => wal_id_add id l) dir [].
Definition wal_open (files : list (N * list byte)) (dir : list N) (lsn : N) : res wal :=
  let l := wal_recover dir in
  match l with
  | [] => Ok (wal_rotate (mk_wal files l None lsn) 0)
  | _ =>
      let id := wal_id_max l in
      match file_of id files with
      | None => Err
      | Some b => Ok (mk_wal files l (Some (id, N.of_nat (length b))) lsn)
      end
  end.

(* ------------------------------------------------------------------ *)
(* wal_cursor.c: open file (id and bytes at the time it was opened), offset *)
Record wcursor : Type := mk_wcursor { wc_file : option (N * list byte); wc_off : N }.

(* wal_cursor.c:83-118 *)
Fixpoint wal_cursor_next (fuel : nat) (wal_crc : bool) (files : list (N * list byte)) (ids : list N)
  (c : wcursor) : res (option (log_write * list byte) * wcursor) :=
  match fuel with
  | O => UB
  | S fuel =>
      match wc_file c with
      | None => Ok (None, c)
      | Some (id, b) =>
          do r <- wal_file_pread wal_crc b (wc_off c);
          match r with
          | Some (w, body) => Ok (Some (w, body), mk_wcursor (wc_file c) (wc_off c + lw_size w))
          | None =>
              let n := wal_id_next id ids in
              if (n =? u64_max)%N then Ok (None, c)
              else
                match file_of n files with
                | None => Err
                | Some b => wal_cursor_next fuel wal_crc files ids (mk_wcursor (Some (n, b)) 0)
                end
          end
      end
  end.

(* wal_cursor.c:32-63; the rewind loop *)
Fixpoint wal_cursor_seek (fuel : nat) (wal_crc : bool) (files : list (N * list byte)) (ids : list N)
  (lsn : N) (c : wcursor) : res wcursor :=
  match fuel with
  | O => UB
  | S fuel =>
      do p <- wal_cursor_next (S (length ids)) wal_crc files ids c;
      match p with
      | (None, c) => Ok c
      | (Some (w, _), c) =>
          if (lsn <=? lw_lsn w)%N then Ok (mk_wcursor (wc_file c) (sub64 (wc_off c) (lw_size w)))
          else wal_cursor_seek fuel wal_crc files ids lsn c
      end
  end.
Definition wal_cursor_open (fuel : nat) (wal_crc : bool) (files : list (N * list byte)) (ids : list N)
  (lsn : N) : res wcursor :=
  let id := if (lsn =? 0)%N then wal_id_min ids else wal_id_find lsn ids in
  if (id =? u64_max)%N then Ok (mk_wcursor None 0)
  else
    match file_of id files with
    | None => Err
    | Some b => wal_cursor_seek fuel wal_crc files ids lsn (mk_wcursor (Some (id, b)) 0)
    end.

(* main.c:173-209: what recovery replays *)
Inductive logged : Type :=
| LWrite (lsn : N) (events : list event)
| LDrop (lsn id : N).
Definition log_decode (w : log_write) (body : list byte) : res logged :=
  if (lw_type w =? LOG_WRITE)%N then
    do l <- log_events (S (length body)) body; Ok (LWrite (lw_lsn w) l)
  else if (lw_type w =? LOG_DROP)%N then
    match slice_of 0 8 body with
    | Some b => Ok (LDrop (lw_lsn w) (le_value b))
    | None => UB
    end
  else Err.

(* the records in the order they are replayed, and whether the log was read to the end: an error
   ends recovery after the records before it were replayed *)
Fixpoint wal_replay (fuel : nat) (wal_crc : bool) (files : list (N * list byte)) (ids : list N)
  (c : wcursor) : list logged * res unit :=
  match fuel with
  | O => ([], UB)
  | S fuel =>
      match wal_cursor_next (S (length ids)) wal_crc files ids c with
      | Err => ([], Err)
      | UB => ([], UB)
      | Ok (None, _) => ([], Ok tt)
      | Ok (Some (w, body), c) =>
          match log_decode w body with
          | Err => ([], Err)
          | UB => ([], UB)
          | Ok x => let '(l, r) := wal_replay fuel wal_crc files ids c in (x :: l, r)
          end
      end
  end.
Definition wal_read (wal_crc : bool) (files : list (N * list byte)) (ids : list N) : list logged * res unit :=
  let fuel := S (length (flat_map snd files)) in
  match wal_cursor_open fuel wal_crc files ids 0 with
  | Err => ([], Err)
  | UB => ([], UB)
  | Ok c => wal_replay fuel wal_crc files ids c
  end.

(* ------------------------------------------------------------------ *)
(* histories *)
Inductive wal_op : Type :=
| OpWrite (l : list lentry) (fail : option nat)
| OpDrop (id : N) (fail : option nat)
| OpRotate (wm : N)
| OpGc (min : N)
| OpRestart (dir : list N) (base : N).

(* main.c:237-242 and write.c:190 config_lsn_follow, in replay order; [base] is what recovery of
   the partitions set (engine_recover.c:242). LOG_DROP does not follow. *)
Definition follow_lsn (lsn : N) (x : logged) : N :=
  match x with
  | LWrite n _ => if (lsn <? n)%N then n else lsn
  | LDrop _ _ => lsn
  end.
Definition wal_restart (wal_crc : bool) (s : wal) (dir : list N) (base : N) : res wal :=
  do s <- wal_open (wl_files s) dir base;
  let '(l, r) := wal_read wal_crc (wl_files s) (wl_list s) in
  do _ <- r;
  Ok (mk_wal (wl_files s) (wl_list s) (wl_current s) (fold_left follow_lsn l (wl_lsn s))).

Definition wal_step (wal_crc : bool) (s : wal) (o : wal_op) : res wal :=
  match o with
  | OpWrite l f => do p <- wal_write wal_crc s l f; Ok (fst p)
  | OpDrop id f => do p <- wal_write_drop wal_crc s id f; Ok (fst p)
  | OpRotate wm => Ok (wal_rotate s wm)
  | OpGc min => wal_gc s min
  | OpRestart dir base => wal_restart wal_crc s dir base
  end.
Fixpoint wal_run (wal_crc : bool) (s : wal) (l : list wal_op) : res wal :=
  match l with
  | [] => Ok s
  | o :: t => do s <- wal_step wal_crc s o; wal_run wal_crc s t
  end.

(* ------------------------------------------------------------------ *)
(* heap.h:56-78, event.h:82-89: the events of a batch for one partition are allocated one behind
   the other; [mem] is the free memory of the heap page. When an event is added to the log the
   memory behind it is still free memory; when the log is written the later events are there. *)
Definition heap_after (mem : list byte) (l : list event) : list byte :=
  flat_map event_bytes l ++ skipn (length (flat_map event_bytes l)) mem.
Fixpoint heap_batch (mem : list byte) (l : list event) : list lentry :=
  match l with
  | [] => []
  | e :: t =>
      let mem := skipn (length (event_bytes e)) mem in
      mk_lentry e mem (heap_after mem t) :: heap_batch mem t
  end.
