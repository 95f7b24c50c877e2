(* Batches of several threads at once: writers, cursors and refreshes, with the locks of partitions,
   what is in memory and in files, and the log.

   Sources: /repo/monotone/engine/engine/write.c:24-193 (engine_write, engine_commit, engine_rollback,
   engine_write_replay), lockage.h:56-111, engine.c engine_lock and engine_unlock,
   engine_cursor.h:24-106, refresh.c; /repo/monotone/engine/wal/wal.c wal_write (one record at a time
   under its mutex, numbered in the order of the log).
   Simplifications: the events of a partition are a map from (id, key) (C02, C03); memory does not run
   out (C62); a refresh does not fail (C36), and its new file is found by a start in one step (C34, C63);
   the service lock, the lock of the engine and waiting are in Locks.v; ids are given (serial ids come from one atomic
   counter); a failed write of the log leaves no record; the log is not collected (C26). *)
From Coq Require Import NArith ZArith Arith List Bool.
Import ListNotations.
From Verif Require Import Model.Base Model.Event.
Local Open Scope res_scope.

Definition key : Type := (N * list byte)%type.
Definition key_of (e : event) : key := (ev_id e, ev_key e).
Definition key_eqb (a b : key) : bool :=
  (fst a =? fst b)%N && (if list_eq_dec N.eq_dec (snd a) (snd b) then true else false).
Definition table : Type := key -> option event.
Definition tset (t : table) (k : key) (v : option event) : table := fun x => if key_eqb x k then v else t x.

(* lockage.h Lock: locker, locker_refs *)
Record lock : Type := mk_lock { lk_owner : option nat; lk_refs : Z }.
Definition free_lock : lock := mk_lock None 0.
Section Batches.
Variable refs0 : Z.              (* lockage.h:86: locker_refs of a first lock: 0 *)
Variable part : N -> N.          (* engine.c: the partition of an id *)

(* lockage.h:61-88; None: it waits *)
Definition lock_by (k : lock) (t : nat) : option lock :=
  match lk_owner k with
  | Some o => if o =? t then Some (mk_lock (lk_owner k) (lk_refs k + 1)) else None
  | None => Some (mk_lock (Some t) refs0)
  end.
(* lockage.h:90-111: nobody looks at who gives it back *)
Definition unlock (k : lock) : lock :=
  let refs := (lk_refs k - 1)%Z in
  if (0 <? refs)%Z then mk_lock (lk_owner k) refs else free_lock.

(* log.h: LogOp with its event and the version before *)
Record entry : Type := mk_entry { en_event : event; en_prev : option event }.
Inductive thread : Type :=
| Idle
| Adding (log : list entry) (rest : list event)        (* write.c:83-109: at the head of the loop *)
| Holding (log : list entry) (e : event) (rest : list event)   (* engine_lock has returned *)
| Committing (lsn : N) (todo : list entry)             (* engine_commit *)
| Undoing (todo : list entry).                         (* engine_rollback, last entry first *)

Record system : Type := mk_system {
  y_mem : N -> table;              (* part->memtable *)
  y_mark : N -> N;                 (* its lsn_max *)
  y_side : N -> option (table * N);  (* the table a refresh has taken, with its lsn_max *)
  y_file : N -> table;
  y_flsn : N -> N;                 (* part->index.lsn *)
  y_disk : N -> table * N;         (* the file a start would find, with its lsn *)
  y_locks : N -> lock;
  y_threads : nat -> thread;
  y_cursors : nat -> list N;       (* partitions in which a thread has open cursors *)
  y_lsn : N;                       (* config_lsn *)
  y_log : list (N * list event);   (* records, oldest first *)
  y_acks : list N                  (* numbers of batches whose engine_write has returned *)
}.
Definition put {A} (f : N -> A) (p : N) (x : A) : N -> A := fun q => if (q =? p)%N then x else f q.
Definition turn (y : system) (t : nat) (s : thread) : system :=
  mk_system (y_mem y) (y_mark y) (y_side y) (y_file y) (y_flsn y) (y_disk y) (y_locks y) (fun u => if u =? t then s else y_threads y u)
    (y_cursors y) (y_lsn y) (y_log y) (y_acks y).
Definition with_lock (y : system) (p : N) (k : lock) : system :=
  mk_system (y_mem y) (y_mark y) (y_side y) (y_file y) (y_flsn y) (y_disk y) (put (y_locks y) p k) (y_threads y) (y_cursors y) (y_lsn y) (y_log y) (y_acks y).
Definition with_mem (y : system) (p : N) (m : table) : system :=
  mk_system (put (y_mem y) p m) (y_mark y) (y_side y) (y_file y) (y_flsn y) (y_disk y) (y_locks y) (y_threads y) (y_cursors y) (y_lsn y) (y_log y) (y_acks y).
Definition with_mark (y : system) (p : N) (n : N) : system :=
  mk_system (y_mem y) (put (y_mark y) p n) (y_side y) (y_file y) (y_flsn y) (y_disk y) (y_locks y) (y_threads y) (y_cursors y) (y_lsn y) (y_log y) (y_acks y).
Definition with_ack (y : system) (n : N) : system :=
  mk_system (y_mem y) (y_mark y) (y_side y) (y_file y) (y_flsn y) (y_disk y) (y_locks y) (y_threads y) (y_cursors y) (y_lsn y) (y_log y) (y_acks y ++ [n]).
Definition with_log (y : system) (r : N * list event) : system :=
  mk_system (y_mem y) (y_mark y) (y_side y) (y_file y) (y_flsn y) (y_disk y) (y_locks y) (y_threads y) (y_cursors y) (fst r) (y_log y ++ [r]) (y_acks y).

Definition with_cursors (y : system) (t : nat) (l : list N) : system :=
  mk_system (y_mem y) (y_mark y) (y_side y) (y_file y) (y_flsn y) (y_disk y) (y_locks y) (y_threads y) (fun u => if u =? t then l else y_cursors y u)
    (y_lsn y) (y_log y) (y_acks y).

Definition where_ (e : event) : N := part (ev_id e).
Fixpoint remove1 (p : N) (l : list N) : list N :=
  match l with [] => [] | q :: r => if (q =? p)%N then r else q :: remove1 p r end.
Inductive move : Type :=
| Begin (t : nat) (l : list event)
| Go (t : nat)                     (* the next step of engine_write, engine_commit or engine_rollback *)
| Fail (t : nat)                   (* an error before the next event, or of writing the log *)
| Open (t : nat) (p : N)           (* engine_cursor_open_part *)
| Close (t : nat) (p : N)          (* engine_cursor_reset, or the next partition *)
| Rotate (p : N)                   (* refresh.c:107-114: the table is taken away, a new one put in its place *)
| Apply (p : N)                    (* refresh.c:134-166: the new file is in use *)
| Finish (p : N).                  (* refresh.c:168-203: and found by a start *)

Definition go (y : system) (t : nat) : system :=
  match y_threads y t with
  | Adding log [] =>
      (* wal_write: the next number, the record *)
      let n := (y_lsn y + 1)%N in
      turn (with_log y (n, map en_event log)) t (Committing n log)
  | Adding log (e :: rest) =>
      match lock_by (y_locks y (where_ e)) t with
      | Some k => turn (with_lock y (where_ e) k) t (Holding log e rest)
      | None => y
      end
  | Holding log e rest =>
      let p := where_ e in
      let m := y_mem y p in
      turn (with_mem y p (tset m (key_of e) (Some e))) t (Adding (log ++ [mk_entry e (m (key_of e))]) rest)
  | Committing n (x :: todo) =>
      let p := where_ (en_event x) in
      turn (with_lock (with_mark y p (N.max (y_mark y p) n)) p (unlock (y_locks y p))) t (Committing n todo)
  | Committing n [] => turn (with_ack y n) t Idle
  | Undoing (x :: todo) =>
      let p := where_ (en_event x) in
      turn (with_lock (with_mem y p (tset (y_mem y p) (key_of (en_event x)) (en_prev x))) p (unlock (y_locks y p))) t (Undoing todo)
  | Undoing [] => turn y t Idle
  | Idle => y
  end.
(* what readers find in a partition *)
Definition below_table (y : system) (p : N) : table :=
  fun k => match y_side y p with
           | Some (m, _) => match m k with Some e => Some e | None => y_file y p k end
           | None => y_file y p k
           end.
Definition view (y : system) (p : N) : table :=
  fun k => match y_mem y p k with Some e => Some e | None => below_table y p k end.
Definition moved (y : system) (m : move) : system :=
  match m with
  | Begin t l => match y_threads y t with Idle => turn y t (Adding [] l) | _ => y end
  | Go t => go y t
  | Fail t => match y_threads y t with Adding log _ => turn y t (Undoing (rev log)) | _ => y end
  | Open t p =>
      match y_threads y t with
      | Idle => match lock_by (y_locks y p) t with
                | Some k => with_cursors (with_lock y p k) t (p :: y_cursors y t)
                | None => y
                end
      | _ => y
      end
  | Close t p =>
      match y_threads y t with
      | Idle => if existsb (N.eqb p) (y_cursors y t)
                then with_cursors (with_lock y p (unlock (y_locks y p))) t (remove1 p (y_cursors y t))
                else y
      | _ => y
      end
  | Rotate p =>
      match lk_owner (y_locks y p), y_side y p with
      | None, None =>
          mk_system (put (y_mem y) p (fun _ => None)) (put (y_mark y) p 0%N) (put (y_side y) p (Some (y_mem y p, y_mark y p)))
            (y_file y) (y_flsn y) (y_disk y) (y_locks y) (y_threads y) (y_cursors y) (y_lsn y) (y_log y) (y_acks y)
      | _, _ => y
      end
  | Apply p =>
      match lk_owner (y_locks y p), y_side y p with
      | None, Some (m, n) =>
          mk_system (y_mem y) (y_mark y) (put (y_side y) p None) (put (y_file y) p (below_table y p))
            (put (y_flsn y) p (N.max (y_flsn y p) n)) (y_disk y)
            (y_locks y) (y_threads y) (y_cursors y) (y_lsn y) (y_log y) (y_acks y)
      | _, _ => y
      end
  | Finish p =>
      mk_system (y_mem y) (y_mark y) (y_side y) (y_file y) (y_flsn y) (put (y_disk y) p (y_file y p, y_flsn y p))
        (y_locks y) (y_threads y) (y_cursors y) (y_lsn y) (y_log y) (y_acks y)
  end.
Definition start : system :=
  mk_system (fun _ _ => None) (fun _ => 0%N) (fun _ => None) (fun _ _ => None) (fun _ => 0%N) (fun _ => (fun _ => None, 0%N)) (fun _ => free_lock) (fun _ => Idle) (fun _ => []) 0 [] [].
Definition moves (l : list move) : system := fold_left moved l start.

(* main.c:173-209, write.c:140-193: files, then the records that are newer than the file *)
Definition replay_event (p : N) (t : table) (e : event) : table :=
  if (where_ e =? p)%N then tset t (key_of e) (Some e) else t.
Definition recover_record (y : system) (p : N) (t : table) (r : N * list event) : table :=
  if (fst r <=? snd (y_disk y p))%N then t else fold_left (replay_event p) (snd r) t.
Definition recover (y : system) (p : N) : table :=
  fold_left (recover_record y p) (y_log y) (fst (y_disk y p)).
End Batches.
