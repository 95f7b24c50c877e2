(* Exceptions and guards: /repo/monotone/runtime/runtime/exception.h, guard.h, throw.h.
   A program is one path through the C code: its branches are taken and its loops unrolled, and a call
   that fails is a Throw. Guards and exceptions are variables of the C stack: a cell is not alive when
   its block is left, by its end, by return or by longjmp; a use of it then is undefined behaviour.
   Left out: the other variables of the functions (C gives no value after longjmp to those that were
   changed after setjmp and are not volatile), the text of the error. *)
From Coq Require Import Arith List Bool.
Import ListNotations.

Inductive prog :=
| Skip
| Seq (p q : prog)
| Do (a : nat)                     (* something that is seen *)
| Guard (f : nat) (fails : nat)    (* guard(f, ..); f throws the first so many times *)
| Unguard
| Block (p : prog)                 (* { .. } *)
| Call (p : prog)                  (* a function *)
| Return
| Throw                            (* error(..), rethrow() *)
| Try (p mid handler : prog).      (* if (enter(&e)) {p} mid; if (leave(&e)) {handler} *)

(* what is seen: an action, a guard set, taken off by unguard, and its function called *)
Inductive seen := Did (a : nat) | Set_ (f : nat) | Off (f : nat) | Ran (f : nat).

(* exception.h:21-26 *)
Record gcell := mk_gcell { g_name : nat; g_function : bool; g_fails : nat; g_prev : option nat; g_alive : bool }.
(* exception.h:28-34; the jmp_buf is the number of the cell *)
Record ecell := mk_ecell { e_prev : option nat; e_triggered : bool; e_stack : option nat; e_alive : bool }.
Record machine := mk_machine { m_guards : list gcell; m_excs : list ecell; m_last : option nat; m_seen : list seen }.
(* exception.h:41-45 *)
Definition machine_init : machine := mk_machine [] [] None [].

Inductive out :=
| Norm | Ret
| Jump (e : nat)    (* longjmp to the setjmp of e *)
| Bad.              (* undefined behaviour, or no end *)

Definition set_nth {A} (n : nat) (x : A) (l : list A) : list A := firstn n l ++ x :: skipn (S n) l.
Definition say (s : seen) (m : machine) : machine := mk_machine (m_guards m) (m_excs m) (m_last m) (m_seen m ++ [s]).
Definition put_guard (i : nat) (g : gcell) (m : machine) : machine := mk_machine (set_nth i g (m_guards m)) (m_excs m) (m_last m) (m_seen m).
Definition put_exc (i : nat) (e : ecell) (m : machine) : machine := mk_machine (m_guards m) (set_nth i e (m_excs m)) (m_last m) (m_seen m).
Definition set_last (l : option nat) (m : machine) : machine := mk_machine (m_guards m) (m_excs m) l (m_seen m).
Definition live_guard (m : machine) (i : nat) : option gcell :=
  match nth_error (m_guards m) i with Some g => if g_alive g then Some g else None | None => None end.
Definition live_exc (m : machine) (i : nat) : option ecell :=
  match nth_error (m_excs m) i with Some e => if e_alive e then Some e else None | None => None end.
(* the exception in use *)
Definition current (m : machine) : option (nat * ecell) :=
  match m_last m with None => None | Some i => match live_exc m i with Some e => Some (i, e) | None => None end end.
Definition kill_guards (ids : list nat) (m : machine) : machine :=
  fold_left (fun m i => match nth_error (m_guards m) i with
    | Some g => put_guard i (mk_gcell (g_name g) (g_function g) (g_fails g) (g_prev g) false) m | None => m end) ids m.
Definition kill_exc (i : nat) (m : machine) : machine :=
  match nth_error (m_excs m) i with
  | Some e => put_exc i (mk_ecell (e_prev e) (e_triggered e) (e_stack e) false) m | None => m end.

(* exception.h:47-57 from guard at; a function that throws calls exception_mgr_throw, that begins again
   with the guards of the exception in use (top) *)
Fixpoint execute_guards (fuel : nat) (top at_ : option nat) (m : machine) : option machine :=
  match at_ with
  | None => Some m
  | Some i =>
    match fuel with
    | O => None
    | S fuel =>
      match live_guard m i with
      | None => None
      | Some g =>
        if negb (g_function g) then execute_guards fuel top (g_prev g) m
        else
          let m := say (Ran (g_name g)) m in
          match g_fails g with
          | O => execute_guards fuel top (g_prev g) (put_guard i (mk_gcell (g_name g) false 0 (g_prev g) true) m)
          | S k => execute_guards fuel top top (put_guard i (mk_gcell (g_name g) true k (g_prev g) true) m)
          end
      end
    end
  end.
(* more than there can be to do *)
Definition guards_fuel (m : machine) : nat :=
  S (length (m_guards m)) * S (fold_right (fun g n => g_fails g + n) 0 (m_guards m)).
(* exception.h:59-68 *)
Definition exception_mgr_throw (m : machine) : out * machine :=
  match current m with
  | None => (Bad, m)
  | Some (i, e) =>
    match execute_guards (guards_fuel m) (e_stack e) (e_stack e) m with
    | None => (Bad, m)
    | Some m => (Jump i, put_exc i (mk_ecell (e_prev e) true None true) m)
    end
  end.
(* exception.h:70-77 *)
Definition exception_mgr_enter (m : machine) : nat * machine :=
  let i := length (m_excs m) in
  (i, mk_machine (m_guards m) (m_excs m ++ [mk_ecell (m_last m) false None true]) (Some i) (m_seen m)).
(* exception.h:79-84 *)
Definition exception_mgr_leave (i : nat) (m : machine) : option (bool * machine) :=
  match live_exc m i with None => None | Some e => Some (e_triggered e, set_last (e_prev e) m) end.
(* guard.h:17-24 *)
Definition guard_pop (m : machine) : option (nat * gcell * machine) :=
  match current m with
  | None => None
  | Some (i, e) =>
    match e_stack e with
    | None => None
    | Some j =>
      match live_guard m j with
      | None => None
      | Some g => Some (j, g, put_exc i (mk_ecell (e_prev e) (e_triggered e) (g_prev g) true) m)
      end
    end
  end.
(* guard.h:26-34: at the end of the block of guard i *)
Definition guard_runner (i : nat) (m : machine) : out * machine :=
  match live_guard m i with
  | None => (Bad, m)
  | Some g =>
    if negb (g_function g) then (Norm, m)
    else
      match guard_pop m with
      | None => (Bad, m)
      | Some (_, _, m) =>
        let m := say (Ran (g_name g)) m in
        match g_fails g with
        | O => (Norm, put_guard i (mk_gcell (g_name g) false 0 (g_prev g) true) m)
        | S k => exception_mgr_throw (put_guard i (mk_gcell (g_name g) true k (g_prev g) true) m)
        end
      end
  end.
(* guard.h:36-42 *)
Definition unguard (m : machine) : option machine :=
  match guard_pop m with
  | None => None
  | Some (j, g, m) => Some (say (Off (g_name g)) (put_guard j (mk_gcell (g_name g) false (g_fails g) (g_prev g) true) m))
  end.
(* guard.h:44-54 *)
Definition guard_as (f fails : nat) (m : machine) : option (nat * machine) :=
  match current m with
  | None => None
  | Some (i, e) =>
    let j := length (m_guards m) in
    Some (j, say (Set_ f) (put_exc i (mk_ecell (e_prev e) (e_triggered e) (Some j) true)
      (mk_machine (m_guards m ++ [mk_gcell f true fails (e_stack e) true]) (m_excs m) (m_last m) (m_seen m))))
  end.

(* the cleanup of the variables of a block, the last one first *)
Fixpoint cleanup (ids : list nat) (m : machine) : out * machine :=
  match ids with
  | [] => (Norm, m)
  | i :: ids => match guard_runner i m with (Norm, m) => cleanup ids m | r => r end
  end.
(* the end of a block with the guards ids *)
Definition block_end (o : out) (ids : list nat) (m : machine) : out * machine :=
  match o with
  | Norm | Ret => let (o', m) := cleanup ids m in (match o' with Norm => o | _ => o' end, kill_guards ids m)
  | _ => (o, kill_guards ids m)
  end.

(* ids: the guards of the block so far, the last one first *)
Fixpoint exec (p : prog) (ids : list nat) (m : machine) : out * list nat * machine :=
  match p with
  | Skip => (Norm, ids, m)
  | Seq p q => match exec p ids m with (Norm, ids, m) => exec q ids m | r => r end
  | Do a => (Norm, ids, say (Did a) m)
  | Guard f fails => match guard_as f fails m with Some (j, m) => (Norm, j :: ids, m) | None => (Bad, ids, m) end
  | Unguard => match unguard m with Some m => (Norm, ids, m) | None => (Bad, ids, m) end
  | Block p => let '(o, own, m) := exec p [] m in let (o, m) := block_end o own m in (o, ids, m)
  | Call p => let '(o, own, m) := exec p [] m in let (o, m) := block_end o own m in (match o with Ret => Norm | o => o end, ids, m)
  | Return => (Ret, ids, m)
  | Throw => let (o, m) := exception_mgr_throw m in (o, ids, m)
  | Try p mid handler =>
    let (e, m) := exception_mgr_enter m in
    let '(o, own, m) := exec p [] m in
    let (o, m) := block_end o own m in
    let rest (m : machine) :=
      let '(o, ids, m) := exec mid ids m in
      match o with
      | Norm =>
        match exception_mgr_leave e m with
        | None => (Bad, ids, m)
        | Some (triggered, m) =>
          if triggered then
            let '(o, own, m) := exec handler [] m in let (o, m) := block_end o own m in (o, ids, kill_exc e m)
          else (Norm, ids, kill_exc e m)
        end
      | Jump i => (if i =? e then Bad else Jump i, ids, kill_exc e m)  (* mid is run again *)
      | o => (o, ids, kill_exc e m)
      end in
    match o with
    | Norm => rest m
    | Jump i => if i =? e then rest m else (Jump i, ids, kill_exc e m)
    | o => (o, ids, kill_exc e m)
    end
  end.

(* a call of the API: monotone.c *)
Definition run (p : prog) : out * machine :=
  let '(o, _, m) := exec (Try p Skip Skip) [] machine_init in (o, m).
