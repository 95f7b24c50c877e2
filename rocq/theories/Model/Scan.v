(* Cursors over partitions and over the whole storage.

   Sources: /repo/monotone/engine/io/part_cursor.h, /repo/monotone/engine/engine/engine_cursor.h,
   /repo/monotone/main/api/monotone.c:167-259 (monotone_cursor, monotone_read, monotone_next).
   Locks and the close/reset calls that only release memory are left out. While a cursor moves
   nothing else changes here; writes under an open cursor are modelled in Memtable.v. *)
From Coq Require Import NArith ZArith List Bool.
Import ListNotations.
From Verif Require Import Model.Base Model.Event Model.Rbtree Model.Memtable Model.Mapping
  Model.Merge Model.PartIter.
Local Open Scope res_scope.

(* part.h:16-40: current memtable, previous memtable, file, index.lsn. No file is
   state == ID_NONE. *)
Record part : Type := mk_part {
  pt_mem  : memtable;
  pt_prev : memtable;
  pt_file : option pfile;
  pt_lsn  : N
}.

(* part.c:20-41 *)
Definition part_new (_ _ : N) : part := mk_part memtable_new memtable_new None 0.

Definition memtable_source (m : memtable) (key : option event) : res (list (list event)) :=
  if (mt_count m =? 0)%N then Ok []
  else do l <- memtable_scan m key; Ok [l].

(* part_cursor.h:27-51: the sources added to the merge iterator *)
Definition part_sources (p : part) (key : option event) : res (list (list event)) :=
  do a <- memtable_source (pt_mem p) key;
  do b <- memtable_source (pt_prev p) key;
  Ok (a ++ b ++ match pt_file p with
                | None => []
                | Some f => [file_scan f key]
                end).

(* part_cursor.h:53-54 *)
Definition part_cursor_open (p : part) (key : option event) : res merge :=
  do srcs <- part_sources p key; Ok (merge_open srcs).

(* engine_cursor.h:17-22: partition and its cursor; None is ref == NULL *)
Definition ecursor := option (slice part * merge)%type.

(* engine_cursor.h:24-37 *)
Definition engine_cursor_open_part (m : mapping part) (mn : N) (key : option event) : res ecursor :=
  do r <- engine_lock part_new m 1 mn true false;
  match snd r with
  | None => Ok None
  | Some z =>
      match zelem z with
      | None => UB
      | Some s => do c <- part_cursor_open (s_data s) key; Ok (Some (s, c))
      end
  end.

(* engine_cursor.h:79-83 *)
Definition engine_cursor_at (c : ecursor) : option event :=
  match c with
  | None => None
  | Some (_, mg) => merge_at mg
  end.

(* engine_cursor.h:91-112; slice.max + 1 is computed in uint64_t *)
Definition engine_cursor_next (m : mapping part) (c : ecursor) : res ecursor :=
  match c with
  | None => Ok None
  | Some (s, mg) =>
      let mg' := merge_next mg in
      match merge_at mg' with
      | Some _ => Ok (Some (s, mg'))
      | None => engine_cursor_open_part m (add64 (s_max s) 1) None
      end
  end.

(* engine_cursor.h:42-58 *)
Definition engine_cursor_open (m : mapping part) (key : option event) : res ecursor :=
  let mn := match key with Some k => ev_id k | None => 0%N end in
  do c <- engine_cursor_open_part m mn key;
  match c with
  | None => Ok None
  | Some (_, mg) => match merge_at mg with
                    | Some _ => Ok c
                    | None => engine_cursor_next m c
                    end
  end.

(* engine_cursor.h:114-125; None: more than [fuel] steps *)
Fixpoint engine_cursor_skip_deletes (fuel : nat) (m : mapping part) (c : ecursor)
  : res (option ecursor) :=
  match fuel with
  | O => Ok None
  | S fuel =>
      match c with
      | None => Ok (Some None)
      | Some _ =>
          let stop := match engine_cursor_at c with
                      | Some e => negb (event_is_delete e)
                      | None => false
                      end in
          if stop then Ok (Some c)
          else do c' <- engine_cursor_next m c; engine_cursor_skip_deletes fuel m c'
      end
  end.

(* monotone.c:245-259 *)
Definition monotone_next (fuel : nat) (m : mapping part) (c : ecursor) : res (option ecursor) :=
  do c' <- engine_cursor_next m c; engine_cursor_skip_deletes fuel m c'.

(* monotone.c:210-243: the event read, if any *)
Definition monotone_read (c : ecursor) : option event :=
  match engine_cursor_at c with
  | Some e => if event_is_delete e then None else Some e
  | None => None
  end.

(* while (monotone_read) monotone_next: None when [n] events or [fuel] steps do not suffice *)
Fixpoint scan_loop (n fuel : nat) (m : mapping part) (c : ecursor) : res (option (list event)) :=
  match n with
  | O => Ok None
  | S n =>
      match monotone_read c with
      | None => Ok (Some [])
      | Some e =>
          do c' <- monotone_next fuel m c;
          match c' with
          | None => Ok None
          | Some c' =>
              do l <- scan_loop n fuel m c';
              Ok (match l with None => None | Some l => Some (e :: l) end)
          end
      end
  end.

(* monotone.c:167-208 and the loop *)
Definition monotone_scan (fuel : nat) (m : mapping part) (key : option event)
  : res (option (list event)) :=
  do c <- engine_cursor_open m key;
  do c' <- engine_cursor_skip_deletes fuel m c;
  match c' with
  | None => Ok None
  | Some c' => scan_loop fuel fuel m c'
  end.
