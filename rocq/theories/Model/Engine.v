(* The engine: writing batches, rollback, commit, refresh, DROP and CREATE PARTITION, replay.

   Sources: /repo/monotone/engine/engine/write.c, refresh.c, engine.c:78-166, op.c:25-130,
   239-315; /repo/monotone/engine/io/merger.c, part.h:94-115, event.h:80-98, memtable.c:62-88;
   /repo/monotone/engine/wal/log.h:93-104; /repo/monotone/runtime/lib/heap.h:56-78.
   Simplifications: one operation at a time (locks are in Lockage.v); a partition reference is
   named by the start of its range; the service queue is in Service.v; what the log holds is in
   Wal.v, here only whether writing it succeeds; a refresh that fails does so before it replaces
   the partition (the steps behind that are in Crash.v); one storage. *)
From Coq Require Import NArith ZArith List Bool.
Import ListNotations.
From Verif Require Import Model.Base Model.Event Model.Rbtree Model.Memtable Model.Mapping
  Model.Merge Model.PartIter Model.Scan Model.Writer Model.Codec.
Local Open Scope res_scope.

Record engine : Type := mk_engine {
  en_map      : mapping part;
  en_interval : N;
  en_serial   : bool;
  en_ssn      : N;              (* next serial id *)
  en_lsn      : N;              (* last sequence number *)
  en_page     : N;              (* memory_mgr page_size *)
  en_region   : N               (* region_size of the storage *)
}.
Definition with_map (en : engine) (m : mapping part) : engine :=
  mk_engine m (en_interval en) (en_serial en) (en_ssn en) (en_lsn en) (en_page en) (en_region en).
Definition with_ssn (en : engine) (n : N) : engine :=
  mk_engine (en_map en) (en_interval en) (en_serial en) n (en_lsn en) (en_page en) (en_region en).
Definition with_lsn (en : engine) (n : N) : engine :=
  mk_engine (en_map en) (en_interval en) (en_serial en) (en_ssn en) n (en_page en) (en_region en).
Definition with_interval (en : engine) (n : N) : engine :=
  mk_engine (en_map en) n (en_serial en) (en_ssn en) (en_lsn en) (en_page en) (en_region en).

Definition with_mem (p : part) (m : memtable) : part := mk_part m (pt_prev p) (pt_file p) (pt_lsn p).

(* the partition behind a reference, and storing it back *)
Fixpoint tree_map {A} (f : A -> A) (t : tree A) : tree A :=
  match t with
  | Leaf => Leaf
  | Node c l x r => Node c (tree_map f l) (f x) (tree_map f r)
  end.
Definition ref_part (m : mapping part) (ref : N) : res part :=
  match find (fun s => (s_min s =? ref)%N) (mapping_list m) with
  | Some s => Ok (s_data s)
  | None => UB
  end.
Definition ref_put (m : mapping part) (ref : N) (p : part) : mapping part :=
  mk_mapping (tree_map (fun s => if (s_min s =? ref)%N then mk_slice (s_min s) (s_max s) p else s)
                       (mp_tree m)) (mp_count m).

(* log.h:18-23, 93-104 *)
Record logop : Type := mk_logop { lo_ref : option N; lo_event : option event; lo_prev : option event }.
Definition log_add : logop := mk_logop None None None.

(* monotone.h event and what the memory manager answers: it gives the pages that are needed, or
   refuses the page for the event, or the one for the memtable (memory_mgr.h:136-146) *)
Inductive mem : Type := MemOk | MemEvent | MemTable.
Record warg : Type := mk_warg { wa_event : event; wa_mem : mem }.

(* a batch in progress: partitions, next serial id, log (last entry first) *)
Record wstate : Type := mk_wstate { ws_map : mapping part; ws_ssn : N; ws_log : list logop }.

(* write.c:85-108: one event. false: an error was raised.
   UB: heap_allocate returns NULL for an event larger than a page and event_init writes to it. *)
Definition write_event (en : engine) (w : wstate) (a : warg) : res (wstate * bool) :=
  let e := wa_event a in
  if (255 <? length (ev_key e))%nat then Ok (w, false)
  else
    let serial := ((ev_id e =? u64_max)%N && en_serial en)%bool in
    let e := if serial then mk_event (ws_ssn w) (ev_flags e) (ev_key e) (ev_val e) else e in
    let ssn := if serial then w64 (ws_ssn w + 1) else ws_ssn w in
    match engine_lock part_new (ws_map w) (en_interval en) (ev_id e) false true with
    | UB => UB
    | Err => Ok (mk_wstate (ws_map w) ssn (log_add :: ws_log w), false)
    | Ok (_, None) => UB
    | Ok (m, Some z) =>
        match zelem z with
        | None => UB
        | Some s =>
            let ref := s_min s in
            if (en_page en <? N.of_nat (14 + length (ev_key e) + length (ev_val e)))%N then UB
            else
              match wa_mem a with
              | MemEvent =>
                  Ok (mk_wstate m ssn (mk_logop (Some ref) None None :: ws_log w), false)
              | g =>
                  let p := s_data s in
                  do r <- memtable_set (pt_mem p) e;
                  let '(t, prev) := r in
                  let needs := negb (mt_count_pages t =? mt_count_pages (pt_mem p))%N in
                  match g, needs with
                  | MemTable, true =>
                      Ok (mk_wstate m ssn (mk_logop (Some ref) (Some e) None :: ws_log w), false)
                  | _, _ =>
                      Ok (mk_wstate (ref_put m ref (with_mem p t)) ssn
                                    (mk_logop (Some ref) (Some e) prev :: ws_log w), true)
                  end
              end
        end
    end.

(* write.c:83-109: the loop *)
Fixpoint write_loop (en : engine) (w : wstate) (l : list warg) : res (wstate * bool) :=
  match l with
  | [] => Ok (w, true)
  | a :: t =>
      do r <- write_event en w a;
      let '(w, ok) := r in
      if ok then write_loop en w t else Ok (w, false)
  end.

(* write.c:24-43, the log last entry first *)
Definition undo_op (m : mapping part) (o : logop) : res (mapping part) :=
  match lo_ref o with
  | None => Ok m
  | Some ref =>
      do p <- ref_part m ref;
      match lo_prev o with
      | Some prev => do r <- memtable_set (pt_mem p) prev; Ok (ref_put m ref (with_mem p (fst r)))
      | None =>
          match lo_event o with
          | Some e => do t <- memtable_unset (pt_mem p) e; Ok (ref_put m ref (with_mem p t))
          | None => UB                                 (* memtable_unset of a NULL event *)
          end
      end
  end.
Fixpoint undo_ops (m : mapping part) (l : list logop) : res (mapping part) :=
  match l with
  | [] => Ok m
  | o :: t => do m <- undo_op m o; undo_ops m t
  end.
(* UB: with no entry the buffer is not allocated, log_last is NULL - 24 and the loop starts there *)
Definition engine_rollback (m : mapping part) (l : list logop) : res (mapping part) :=
  match l with
  | [] => UB
  | _ => undo_ops m l
  end.

(* write.c:45-72 *)
Fixpoint engine_commit (m : mapping part) (lsn : N) (l : list logop) : res (mapping part) :=
  match l with
  | [] => Ok m
  | o :: t =>
      match lo_ref o with
      | None => engine_commit m lsn t
      | Some ref =>
          do p <- ref_part m ref;
          engine_commit (ref_put m ref (with_mem p (memtable_follow (pt_mem p) lsn))) lsn t
      end
  end.

(* events of a log in the order they were written *)
Definition log_written (l : list logop) : list event :=
  flat_map (fun o => match lo_event o with Some e => [e] | None => [] end) (rev l).

(* write.c:74-138; [logged]: writing the log succeeds. The events written, with their ids, or
   None when an error was raised. *)
Definition engine_write (en : engine) (l : list warg) (logged : bool)
  : res (engine * option (list event)) :=
  do r <- write_loop en (mk_wstate (en_map en) (en_ssn en) []) l;
  let '(w, ok) := r in
  let en := with_ssn en (ws_ssn w) in
  if (ok && logged)%bool then
    let lsn := w64 (en_lsn en + 1) in
    do m <- engine_commit (ws_map w) lsn (rev (ws_log w));
    Ok (with_lsn (with_map en m) lsn, Some (log_written (ws_log w)))
  else
    do m <- engine_rollback (ws_map w) (ws_log w);
    Ok (with_map en m, None).

(* write.c:140-193: one event of a logged record. event_copy takes event_size bytes. *)
Definition replay_event (en : engine) (lsn : N) (w : wstate) (e : event) : res wstate :=
  do r <- engine_lock part_new (ws_map w) (en_interval en) (ev_id e) false true;
  match r with
  | (_, None) => UB
  | (m, Some z) =>
      match zelem z with
      | None => UB
      | Some s =>
          let p := s_data s in
          let ref := s_min s in
          let newer := match pt_file p with Some _ => (lsn <=? pt_lsn p)%N | None => false end in
          if newer then Ok (mk_wstate m (ws_ssn w) (ws_log w))
          else if (en_page en <? event_size e)%N then UB
          else
            do r <- memtable_set (pt_mem p) e;
            Ok (mk_wstate (ref_put m ref (with_mem p (fst r))) (ws_ssn w)
                          (mk_logop (Some ref) (Some e) (snd r) :: ws_log w))
      end
  end.
Fixpoint replay_loop (en : engine) (lsn : N) (w : wstate) (l : list event) : res wstate :=
  match l with
  | [] => Ok w
  | e :: t => do w <- replay_event en lsn w e; replay_loop en lsn w t
  end.
Definition engine_write_replay (en : engine) (lsn : N) (l : list event) : res engine :=
  do w <- replay_loop en lsn (mk_wstate (en_map en) (en_ssn en) []) l;
  do m <- engine_commit (ws_map w) lsn (rev (ws_log w));
  Ok (with_lsn (with_map en m) (if (en_lsn en <? lsn)%N then lsn else en_lsn en)).

(* part.h:94-105 *)
Definition part_memtable_rotate (p : part) : part :=
  mk_part (pt_prev p) (pt_mem p) (pt_file p) (pt_lsn p).

(* merger.c:54-128: the file written for a rotated partition *)
Definition merger_events (p : part) : res (list event) :=
  do a <- memtable_source (pt_prev p) None;
  Ok (filter (fun e => negb (event_is_delete e))
        (merge_all (a ++ match pt_file p with None => [] | Some f => [file_scan f None] end))).
Definition merger_lsn (p : part) : N :=
  match pt_file p with
  | Some _ => N.max (mt_lsn_max (pt_prev p)) (pt_lsn p)
  | None => mt_lsn_max (pt_prev p)
  end.

(* merger.c:54-128, refresh.c:139-146: the new partition, which takes the active memtable *)
Definition refresh_part (region : N) (p : part) : res part :=
  do l <- merger_events p;
  Ok (mk_part (pt_mem p) memtable_new (Some (cut_regions region l)) (merger_lsn p)).

(* refresh.c:55-118 refresh_begin: the tables are switched. Err: no such partition.
   The reference stays valid until the refresh ends, it holds the service lock and the shared
   control lock (engine.c:114, 160-168). *)
Definition refresh_begin (en : engine) (id : N) : res (engine * N) :=
  do r <- engine_lock part_new (en_map en) (en_interval en) id false false;
  match snd r with
  | None => Err
  | Some z =>
      match zelem z with
      | None => UB
      | Some s =>
          Ok (with_map en (ref_put (en_map en) (s_min s) (part_memtable_rotate (s_data s))), s_min s)
      end
  end.

(* refresh.c:120-166: the merge reads the previous table and the file, which do not change until
   the new partition replaces the old one *)
Definition refresh_apply (en : engine) (ref : N) : res engine :=
  do p <- ref_part (en_map en) ref;
  do p <- refresh_part (en_region en) p;
  Ok (with_map en (ref_put (en_map en) ref p)).

(* refresh.c:201-237. [fails]: an error while the new file is written. *)
Definition engine_refresh (en : engine) (id : N) (fails : bool) : res (engine * bool) :=
  do r <- refresh_begin en id;
  let '(en, ref) := r in
  if fails then Ok (en, false)
  else do en <- refresh_apply en ref; Ok (en, true).

(* op.c:290-315: file and reference *)
Definition engine_drop (en : engine) (id : N) : res engine :=
  do m <- engine_drop_reference (en_map en) id; Ok (with_map en m).

(* engine.c:78-104 *)
Definition index_max (f : pfile) : option N :=
  match rev (concat f) with e :: _ => Some (ev_id e) | [] => None end.
Definition engine_set_serial (en : engine) : engine :=
  match mapping_max (en_map en) with
  | None => en
  | Some z =>
      match zelem z with
      | None => en
      | Some s =>
          let p := s_data s in
          let a := match pt_file p with Some f => index_max f | None => None end in
          let serial := match a with Some n => n | None => 0%N end in
          match memtable_max (pt_mem p) with
          | Some e => if (serial <=? ev_id e)%N then with_ssn en (w64 (ev_id e + 1))
                      else match a with Some n => with_ssn en (w64 (n + 1)) | None => with_ssn en 0 end
          | None => match a with Some n => with_ssn en (w64 (n + 1)) | None => with_ssn en 0 end
          end
      end
  end.

(* histories of API calls *)
Inductive eop : Type :=
| EWrite (l : list warg) (logged : bool)
| ERefresh (id : N) (fails : bool)
| EBegin (id : N)                       (* a refresh that goes on *)
| EApply (ref : N)                      (* and replaces the partition *)
| EDrop (id : N)
| ECreate (mn mx : N)
| EInterval (n : N).

Definition estep (en : engine) (o : eop) : res engine :=
  match o with
  | EWrite l logged => do r <- engine_write en l logged; Ok (fst r)
  | ERefresh id fails => do r <- engine_refresh en id fails; Ok (fst r)
  | EBegin id => do r <- refresh_begin en id; Ok (fst r)
  | EApply ref => refresh_apply en ref
  | EDrop id => engine_drop en id
  | ECreate mn mx => do m <- engine_fill part_new (en_map en) mn mx; Ok (with_map en m)
  | EInterval n => Ok (with_interval en n)
  end.
(* a refused command changes nothing *)
Fixpoint erun (en : engine) (l : list eop) : res engine :=
  match l with
  | [] => Ok en
  | o :: t =>
      match estep en o with
      | Ok en => erun en t
      | Err => erun en t
      | UB => UB
      end
  end.
Definition engine_new (interval : N) (serial : bool) (page region : N) : engine :=
  mk_engine mapping_init interval serial 0 0 page region.
