(* The locks of a partition and the control lock, with threads: engine/engine/lockage.h, ref.h,
   engine.c engine_lock and engine_unlock, runtime/runtime/rwlock.h, and the order in which
   write.c, engine_cursor.h, op.c and refresh.c take them.
   Simplified: a step runs while its thread holds the engine mutex, or is one call on the control
   lock. What is done between the locks is left out. The control lock lets readers in while a
   writer waits (the default of glibc). Threads are numbers; locks are numbers too, see [service]
   and [access]. *)
From Coq Require Import NArith ZArith Arith List Bool.
Import ListNotations.

(* lockage.h:26-31; no locker is pthread_t 0 *)
Record lock := mk_lock { lk_owner : option nat; lk_refs : Z; lk_pending : Z }.
(* lockage.h:39-53 *)
Definition lockage_init : lock := mk_lock None 0 0.
Definition owned_by (k : lock) (t : nat) : bool := match lk_owner k with Some u => u =? t | None => false end.
(* lockage.h:77-86, one turn of the loop: taken, or wait *)
Definition lockage_turn (k : lock) (t : nat) : lock * bool :=
  match lk_owner k with
  | None => (mk_lock (Some t) 0 (lk_pending k), true)
  | Some _ => (mk_lock (lk_owner k) (lk_refs k) (lk_pending k + 1), false)
  end%Z.
(* lockage.h:62-89 *)
Definition lockage_lock (k : lock) (t : nat) : lock * bool :=
  if owned_by k t then (mk_lock (lk_owner k) (lk_refs k + 1) (lk_pending k), true)
  else lockage_turn k t.
(* lockage.h:86-88, after the wait *)
Definition lockage_again (k : lock) (t : nat) : lock * bool :=
  lockage_turn (mk_lock (lk_owner k) (lk_refs k) (lk_pending k - 1)) t.
(* lockage.h:91-111; true: broadcast. Nobody looks who the locker is. *)
Definition lockage_unlock (k : lock) : lock * bool :=
  let refs := (lk_refs k - 1)%Z in
  if (0 <? refs)%Z then (mk_lock (lk_owner k) refs (lk_pending k), false)
  else (mk_lock None 0 (lk_pending k), (0 <? lk_pending k)%Z).

(* what a thread does next *)
Inductive act := Lock (l : nat) | Unlock (l : nat) | Share | Unshare | Exclude | Unexclude.
Inductive mode := Run | Sleep | Woken.
(* held, shares, excludes: the locks the thread has taken and not given back *)
Record thread := mk_thread { th_code : list act; th_mode : mode; th_held : list nat; th_shares : nat; th_excl : bool }.
Record sys := mk_sys { s_locks : nat -> lock; s_threads : list thread }.

Definition set_lock (f : nat -> lock) (l : nat) (k : lock) : nat -> lock := fun i => if i =? l then k else f i.
Fixpoint set_nth (l : list thread) (t : nat) (x : thread) : list thread :=
  match l, t with [], _ => [] | _ :: r, 0 => x :: r | a :: r, S n => a :: set_nth r n x end.
Definition wake (x : thread) : thread :=
  match th_mode x with Sleep => mk_thread (th_code x) Woken (th_held x) (th_shares x) (th_excl x) | _ => x end.
(* pthread_rwlock: shared when nobody has it exclusively, exclusive when nobody has it *)
Definition no_writer (l : list thread) : bool := forallb (fun x => negb (th_excl x)) l.
Definition no_reader (l : list thread) : bool := forallb (fun x => th_shares x =? 0) l.
Definition remove_one (l : nat) (h : list nat) : list nat :=
  (fix go (h : list nat) := match h with [] => [] | a :: r => if a =? l then r else a :: go r end) h.

(* one step of thread [t]; None: it is finished, asleep or blocked *)
Definition step (s : sys) (t : nat) : option sys :=
  match nth_error (s_threads s) t with
  | None => None
  | Some x =>
    match th_mode x, th_code x with
    | Sleep, _ => None
    | _, [] => None
    | m, Lock l :: r =>
      let k := s_locks s l in
      let '(k', taken) := match m with Woken => lockage_again k t | _ => lockage_lock k t end in
      let x' := if taken then mk_thread r Run (l :: th_held x) (th_shares x) (th_excl x)
                else mk_thread (th_code x) Sleep (th_held x) (th_shares x) (th_excl x) in
      Some (mk_sys (set_lock (s_locks s) l k') (set_nth (s_threads s) t x'))
    | _, Unlock l :: r =>
      let '(k', broadcast) := lockage_unlock (s_locks s l) in
      let x' := mk_thread r Run (remove_one l (th_held x)) (th_shares x) (th_excl x) in
      let ts := set_nth (s_threads s) t x' in
      Some (mk_sys (set_lock (s_locks s) l k') (if broadcast then map wake ts else ts))
    | _, Share :: r =>
      if no_writer (s_threads s)
      then Some (mk_sys (s_locks s) (set_nth (s_threads s) t (mk_thread r Run (th_held x) (S (th_shares x)) (th_excl x))))
      else None
    | _, Unshare :: r =>
      Some (mk_sys (s_locks s) (set_nth (s_threads s) t (mk_thread r Run (th_held x) (pred (th_shares x)) (th_excl x))))
    | _, Exclude :: r =>
      if no_writer (s_threads s) && no_reader (s_threads s)
      then Some (mk_sys (s_locks s) (set_nth (s_threads s) t (mk_thread r Run (th_held x) (th_shares x) true)))
      else None
    | _, Unexclude :: r =>
      Some (mk_sys (s_locks s) (set_nth (s_threads s) t (mk_thread r Run (th_held x) (th_shares x) false)))
    end
  end.
(* a step, or a wakeup without reason *)
Inductive move := Go (t : nat) | Spurious (t : nat).
Definition moved (s : sys) (m : move) : option sys :=
  match m with
  | Go t => step s t
  | Spurious t => match nth_error (s_threads s) t with
                  | Some x => Some (mk_sys (s_locks s) (set_nth (s_threads s) t (wake x)))
                  | None => None
                  end
  end.
Fixpoint moves (s : sys) (l : list move) : option sys :=
  match l with [] => Some s | m :: l => match moved s m with Some s' => moves s' l | None => None end end.
Definition start (progs : list (list act)) : sys :=
  mk_sys (fun _ => lockage_init) (map (fun c => mk_thread c Run [] 0 false) progs).

(* the locks of partition [p], lockage.h:19-24 *)
Definition service (p : nat) : nat := 2 * p.
Definition access (p : nat) : nat := 2 * p + 1.
(* engine.c:108-168, 170-180 *)
Definition engine_lock (l : nat) : list act := [Share; Lock l].
Definition engine_unlock (l : nat) : list act := [Unlock l; Unshare].
(* write.c:74-138 with engine_commit write.c:45-72: one lock for each event, given back in the same order *)
Definition engine_write (parts : list nat) : list act :=
  flat_map (fun p => engine_lock (access p)) parts ++ flat_map (fun p => engine_unlock (access p)) parts.
(* engine_cursor.h:26-108: one partition after the other *)
Definition cursor_on (p : nat) (body : list act) : list act := engine_lock (access p) ++ body ++ engine_unlock (access p).
Definition engine_cursor (parts : list nat) : list act := flat_map (fun p => cursor_on p []) parts.
(* refresh.c:55-118, 134-166, 201-237: rotate, apply, end *)
Definition refresh_run (p : nat) : list act :=
  engine_lock (service p) ++ [Lock (access p); Unlock (access p); Lock (access p); Unlock (access p)] ++ engine_unlock (service p).
(* op.c:164-237; the same order in 325-384 and 394-454 *)
Definition engine_drop_file (p : nat) : list act :=
  engine_lock (service p) ++ [Lock (access p); Unlock (access p)] ++ engine_unlock (service p).
(* op.c:239-315 *)
Definition engine_drop (p : nat) : list act := engine_drop_file p ++ [Exclude; Unexclude].
(* execute.c:546-579, commands with EXECUTE_LOCK_EXCLUSIVE; op.c:596-616 *)
Definition exclusive : list act := [Exclude; Unexclude].
(* what a thread asks of the engine, one after the other *)
Inductive call := Write (parts : list nat) | Cursor (parts : list nat) | Refresh (p : nat) | DropFile (p : nat) | Drop (p : nat) | Command.
Definition does (c : call) : list act :=
  match c with
  | Write parts => engine_write parts
  | Cursor parts => engine_cursor parts
  | Refresh p => refresh_run p
  | DropFile p => engine_drop_file p
  | Drop p => engine_drop p
  | Command => exclusive
  end.
Definition program (l : list call) : list act := flat_map does l.
