(* The threads of a handle: engine/engine/worker_mgr.c, worker.c, runtime/runtime/thread.h; the part of main_start
   (main.c:252), main_stop (main.c:258-270), monotone_free and the cursors (main/api/monotone.c) that decides when a
   thread, an array of workers or the memory of a handle begins and ends.
   The program calls one handle from one thread. Memory is there or not; what it holds is left out, but for the array
   of workers. A step of a thread is one turn of its loop: it reads its worker and the engine. engine_close and
   main_free do not fail. malloc of no bytes gives memory; malloc of more than half of the address space does not.
   Memory that is not there, a worker that was not set up, and joining no thread or one that was joined, are
   undefined behaviour. *)
From Coq Require Import NArith ZArith Arith List Bool.
Import ListNotations.
From Verif Require Import Model.Base Model.Service.
Local Open Scope res_scope.

(* global.h:67-77: an int of a uint64_t *)
Definition to_int (n : N) : Z :=
  let m := Z.of_N (n mod 2 ^ 32) in
  if (m <? 2 ^ 31)%Z then m else (m - 2 ^ 32)%Z.

(* worker.h:17-24 with thread.h:19-24: the id of a thread is 0 or a thread; a place that malloc gave is None *)
Record worker := mk_worker { w_filter : filter; w_thread : option nat }.
Definition array := list (option worker).
Inductive tstate := TRuns | TEnded | TJoined.
(* the worker of a thread is at a place of an array *)
Record thread := mk_thread { t_array : nat; t_slot : nat; t_state : tstate }.
(* a cursor that is at its end has no partition *)
Record cursor := mk_cursor { c_memory : bool; c_holds : bool }.

(* where monotone_free is *)
Inductive caller := Outside | Joining (i : nat) | Closing.

Record world := mk_world {
  wd_handle : bool;                 (* the memory of the handle *)
  wd_shutdown : bool;               (* service.h:32 *)
  wd_count : Z;                     (* worker_mgr.h:19-23; an array is a place in wd_arrays *)
  wd_workers : option nat;
  wd_arrays : list (option array);  (* None after free *)
  wd_threads : list thread;
  wd_cursors : list cursor;
  wd_caller : caller }.
(* monotone_init *)
Definition world0 : world := mk_world true false 0 None [] [] [] Outside.

Definition set_nth {A} (l : list A) (i : nat) (x : A) : list A :=
  if (i <? length l)%nat then firstn i l ++ x :: skipn (S i) l else l.

(* worker_mgr.c:39-49: for (; i < n; i++) worker_init(&self->workers[i], ...). The whole loop at once *)
Definition init_loop (a : array) (i n : Z) (f : filter) : res (array * Z) :=
  if (n <=? i)%Z then Ok (a, i)
  else if (Z.of_nat (length a) <? n)%Z then UB
  else Ok (firstn (Z.to_nat i) a ++ repeat (Some (mk_worker f None)) (Z.to_nat (n - i)) ++ skipn (Z.to_nat n) a, n).
(* worker_mgr.c:50-51: pthread_create answers; the array, the threads, and whether it came to the end *)
Fixpoint start_loop (arr : nat) (n i : nat) (answers : list bool) (a : array) (ts : list thread) : res (array * list thread * bool) :=
  match n with
  | O => Ok (a, ts, true)
  | S n =>
    match nth_error a i with
    | Some (Some w) =>
      if hd true answers then
        start_loop arr n (S i) (tl answers) (set_nth a i (Some (mk_worker (w_filter w) (Some (length ts))))) (ts ++ [mk_thread arr i TRuns])
      else Ok (a, ts, false)
    | _ => UB
    end
  end.

(* how an opening goes: it fails before the workers, there is no memory for them, or pthread_create answers *)
Inductive opening := FailsBefore | NoMemory | Threads (answers : list bool).
(* worker_mgr.c:32-52: true if nothing was thrown *)
Definition worker_mgr_start (w : world) (workers upload : N) (o : opening) : res (world * bool) :=
  let k := to_int workers in
  let u := to_int upload in
  let count := (k + u)%Z in
  if (count <? - 2 ^ 31)%Z || (2 ^ 31 <=? count)%Z then UB
  else
    let nothing := (mk_world (wd_handle w) (wd_shutdown w) count (wd_workers w) (wd_arrays w) (wd_threads w) (wd_cursors w) (wd_caller w), false) in
    match o with
    | Threads answers =>
      if (count <? 0)%Z then Ok nothing
      else
        let a := repeat None (Z.to_nat count) in
        do a <- (if (u =? 0)%Z then (do (a, _) <- init_loop a 0 k Any ; Ok a)
                 else (do (a, i) <- init_loop a 0 k WithoutUpload ; do (a, _) <- init_loop a i count OnlyUpload ; Ok a)) ;
        let arr := length (wd_arrays w) in
        do (a, ts, ok) <- start_loop arr (Z.to_nat count) 0 answers a (wd_threads w) ;
        Ok (mk_world (wd_handle w) (wd_shutdown w) count (Some arr) (wd_arrays w ++ [Some a]) ts (wd_cursors w) (wd_caller w), ok)
    | _ => Ok nothing
    end.

Inductive label :=
| Open (workers upload : N) (o : opening)     (* monotone_open *)
| Free                                         (* monotone_free of the handle: as far as service_shutdown *)
| Go                                           (* and on to its end, one step at a time *)
| Cursor (holds : bool)                        (* monotone_cursor *)
| Use (c : nat) (holds : bool)                 (* monotone_read, monotone_next *)
| FreeCursor (c : nat)
| Works (t : nat)                              (* one turn of a thread *)
| Ends (t : nat).

Definition with_caller (w : world) (c : caller) : world :=
  mk_world (wd_handle w) (wd_shutdown w) (wd_count w) (wd_workers w) (wd_arrays w) (wd_threads w) (wd_cursors w) c.
Definition with_cursors (w : world) (l : list cursor) : world :=
  mk_world (wd_handle w) (wd_shutdown w) (wd_count w) (wd_workers w) (wd_arrays w) (wd_threads w) l (wd_caller w).
Definition with_threads (w : world) (l : list thread) : world :=
  mk_world (wd_handle w) (wd_shutdown w) (wd_count w) (wd_workers w) (wd_arrays w) l (wd_cursors w) (wd_caller w).

(* worker_mgr.c:54-65, main.c:265-269, main.c:95-108, monotone.c:100-103 *)
Definition go (w : world) : res world :=
  match wd_caller w with
  | Outside => Ok w
  | Joining i =>
    if (Z.of_nat i <? wd_count w)%Z then
      match wd_workers w with
      | None => UB
      | Some arr =>
        match nth_error (wd_arrays w) arr with
        | Some (Some a) =>
          match nth_error a i with
          | Some (Some x) =>
            match w_thread x with
            | None => UB
            | Some t =>
              match nth_error (wd_threads w) t with
              | Some th =>
                match t_state th with
                | TRuns => Ok w
                | TEnded =>
                  Ok (mk_world (wd_handle w) (wd_shutdown w) (wd_count w) (wd_workers w)
                        (set_nth (wd_arrays w) arr (Some (set_nth a i (Some (mk_worker (w_filter x) None)))))
                        (set_nth (wd_threads w) t (mk_thread (t_array th) (t_slot th) TJoined)) (wd_cursors w) (Joining (S i)))
                | TJoined => UB
                end
              | None => UB
              end
            end
          | _ => UB
          end
        | _ => UB
        end
      end
    else
      match wd_workers w with
      | None => Ok (mk_world (wd_handle w) (wd_shutdown w) 0 None (wd_arrays w) (wd_threads w) (wd_cursors w) Closing)
      | Some arr =>
        match nth_error (wd_arrays w) arr with
        | Some (Some _) => Ok (mk_world (wd_handle w) (wd_shutdown w) 0 None (set_nth (wd_arrays w) arr None) (wd_threads w) (wd_cursors w) Closing)
        | _ => UB
        end
      end
  | Closing => Ok (mk_world false (wd_shutdown w) (wd_count w) (wd_workers w) (wd_arrays w) (wd_threads w) (wd_cursors w) Outside)
  end.

(* the memory a thread looks at *)
Definition sees (w : world) (t : thread) : bool :=
  wd_handle w && match nth_error (wd_arrays w) (t_array t) with Some (Some a) => (t_slot t <? length a)%nat | _ => false end.

(* a step that cannot be taken changes nothing *)
Definition step (w : world) (l : label) : res world :=
  match l with
  | Go => go w
  | Works t =>
    match nth_error (wd_threads w) t with
    | Some th => match t_state th with TRuns => if sees w th then Ok w else UB | _ => Ok w end
    | None => Ok w
    end
  | Ends t =>
    match nth_error (wd_threads w) t with
    | Some th =>
      match t_state th with
      | TRuns =>
        if sees w th then
          (if wd_shutdown w then Ok (with_threads w (set_nth (wd_threads w) t (mk_thread (t_array th) (t_slot th) TEnded))) else Ok w)
        else UB
      | _ => Ok w
      end
    | None => Ok w
    end
  | _ =>
    match wd_caller w with
    | Outside =>
      match l with
      | FreeCursor c =>
        match nth_error (wd_cursors w) c with
        | Some x =>
          if c_memory x then
            (if c_holds x && negb (wd_handle w) then UB else Ok (with_cursors w (set_nth (wd_cursors w) c (mk_cursor false false))))
          else UB
        | None => Ok w
        end
      | Use c holds =>
        match nth_error (wd_cursors w) c with
        | Some x =>
          if c_memory x then
            (if c_holds x then (if wd_handle w then Ok (with_cursors w (set_nth (wd_cursors w) c (mk_cursor true holds))) else UB) else Ok w)
          else UB
        | None => Ok w
        end
      | _ =>
        if negb (wd_handle w) then UB
        else
          match l with
          | Open k u FailsBefore => Ok w
          | Open k u o => do (w, _) <- worker_mgr_start w k u o ; Ok w
          | Free => Ok (mk_world true true (wd_count w) (wd_workers w) (wd_arrays w) (wd_threads w) (wd_cursors w) (Joining 0))
          | Cursor holds => Ok (with_cursors w (wd_cursors w ++ [mk_cursor true holds]))
          | _ => Ok w
          end
      end
    | _ => Ok w
    end
  end.
Fixpoint run (w : world) (ls : list label) : res world :=
  match ls with
  | [] => Ok w
  | l :: ls => do w <- step w l ; run w ls
  end.
