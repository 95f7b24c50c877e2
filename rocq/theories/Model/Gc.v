(* A writer, log rotation and log garbage collection running side by side.

   Sources: /repo/monotone/engine/engine/write.c:45-138 (engine_write: wal_write, then
   engine_commit marks the memtables), /repo/monotone/engine/engine/op.c:618-653 (engine_gc: scan
   of the marks, then wal_gc), wal.c (Wal.v), refresh.c:168-199 (memtable_free clears a mark).
   Each step is what one thread does while it holds a lock: wal->lock for GWrite and GRotate, the
   lock of the memtable for GMark and GRefresh, engine->lock for GScan, the list lock for GRun.
   Simplification: a mark is kept per write instead of the minimum per memtable; the minimum over
   all marks is the same. *)
From Coq Require Import NArith List Bool.
Import ListNotations.
From Verif Require Import Model.Base Model.Wal.
Local Open Scope res_scope.

Record gstate : Type := mk_gstate {
  g_wal     : wal;
  g_pending : list N;       (* logged, memtable not marked yet *)
  g_marks   : list N;       (* marked, not refreshed *)
  g_scan    : option N      (* what the collector read *)
}.
Inductive gop : Type :=
| GWrite (l : list lentry)
| GMark (lsn : N)
| GRotate (wm : N)
| GScan
| GRun
| GRefresh (lsn : N).

Definition remove_lsn (n : N) (l : list N) : list N := filter (fun x => negb (x =? n)%N) l.
Definition marks_min (l : list N) : N := fold_left N.min l u64_max.

Definition gstep (wal_crc : bool) (s : gstate) (o : gop) : res gstate :=
  match o with
  | GWrite l =>
      do p <- wal_write wal_crc (g_wal s) l None;
      Ok (mk_gstate (fst p) (wl_lsn (fst p) :: g_pending s) (g_marks s) (g_scan s))
  | GMark n =>
      if existsb (N.eqb n) (g_pending s)
      then Ok (mk_gstate (g_wal s) (remove_lsn n (g_pending s)) (n :: g_marks s) (g_scan s))
      else Err
  | GRotate wm => Ok (mk_gstate (wal_rotate (g_wal s) wm) (g_pending s) (g_marks s) (g_scan s))
  | GScan => Ok (mk_gstate (g_wal s) (g_pending s) (g_marks s) (Some (marks_min (g_marks s))))
  | GRun =>
      match g_scan s with
      | None => Err
      | Some m => do w <- wal_gc (g_wal s) m; Ok (mk_gstate w (g_pending s) (g_marks s) None)
      end
  | GRefresh n => Ok (mk_gstate (g_wal s) (g_pending s) (remove_lsn n (g_marks s)) (g_scan s))
  end.
Fixpoint grun (wal_crc : bool) (s : gstate) (l : list gop) : res gstate :=
  match l with
  | [] => Ok s
  | o :: t => do s <- gstep wal_crc s o; grun wal_crc s t
  end.
Definition ginit : gstate := mk_gstate (wal_rotate wal_init 0) [] [] None.
