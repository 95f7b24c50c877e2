(* The queue of background work and its workers: engine/engine/service.h, service_req.h, worker.c,
   worker_mgr.c, op.c engine_service, and the requests made by write.c, engine.c and op.c.
   Simplified: each call on the queue is one step (it runs under the mutex of the queue); an action
   of a request is one step whose outcome is given; `int` counters do not overflow. Requests carry
   a number, their place in the order of service_add, for stating theorems only. *)
From Coq Require Import NArith ZArith Arith List Bool.
Import ListNotations.
From Verif Require Import Model.Base.
Local Open Scope res_scope.

(* service_req.h:19-30 *)
Inductive action := Rotate | Gc | Rebalance | DropOnStorage | DropOnCloud | Refresh | Download | Upload.
(* service_req.h:37-44 *)
Record req := mk_req { rq_no : nat; rq_id : N; rq_actions : list action; rq_current : nat }.
(* service_req.h:66-70; reading behind the actions gives no action *)
Definition current_action (r : req) : option action := nth_error (rq_actions r) (rq_current r).
Definition is_upload (r : req) : bool := match current_action r with Some Upload => true | _ => false end.
(* service.h:18-23 *)
Inductive filter := Any | WithoutUpload | OnlyUpload.
(* service.h:25-33 *)
Record service := mk_service { sv_list : list req; sv_count : Z; sv_count_upload : Z; sv_shutdown : bool }.
(* service.h:35-44 *)
Definition service_init : service := mk_service [] 0 0 false.
(* service.h:57-64; wakes everybody *)
Definition service_shutdown (s : service) : service := mk_service (sv_list s) (sv_count s) (sv_count_upload s) true.
(* service.h:66-78; wakes everybody *)
Definition service_schedule (s : service) (r : req) : service :=
  mk_service (sv_list s ++ [r]) (sv_count s + 1) (if is_upload r then sv_count_upload s + 1 else sv_count_upload s)%Z (sv_shutdown s).
(* service.h:97-133 *)
Definition rotate_actions : list action := [Rotate; Gc].
Definition rebalance_actions : list action := [Rebalance; Gc].
Definition refresh_actions (cloud : bool) : list action :=
  if cloud then [Rebalance; Download; DropOnCloud; Refresh; Upload; DropOnStorage; Gc] else [Rebalance; Refresh; Gc].
Definition upload_actions : list action := [Upload; DropOnStorage; Gc].

(* the loops of service.h:160-170, 177-188: the first request for which [f] holds, taken out *)
Fixpoint take_first (f : req -> bool) (l : list req) : option (req * list req) :=
  match l with
  | [] => None
  | r :: l => if f r then Some (r, l) else match take_first f l with Some (x, l') => Some (x, r :: l') | None => None end
  end.
(* service.h:142-195 *)
Definition service_fetch (s : service) (f : filter) : res (option req * service) :=
  if (sv_count s =? 0)%Z then Ok (None, s) else
  match f with
  | Any =>
    match sv_list s with
    | [] => UB
    | r :: l => Ok (Some r, mk_service l (sv_count s - 1) (if is_upload r then sv_count_upload s - 1 else sv_count_upload s)%Z (sv_shutdown s))
    end
  | WithoutUpload =>
    if (sv_count s - sv_count_upload s =? 0)%Z then Ok (None, s) else
    match take_first (fun r => negb (is_upload r)) (sv_list s) with
    | None => Ok (None, s)
    | Some (r, l) => Ok (Some r, mk_service l (sv_count s - 1) (sv_count_upload s) (sv_shutdown s))
    end
  | OnlyUpload =>
    if (sv_count_upload s =? 0)%Z then Ok (None, s) else
    match take_first is_upload (sv_list s) with
    | None => Ok (None, s)
    | Some (r, l) => Ok (Some r, mk_service l (sv_count s - 1) (sv_count_upload s - 1) (sv_shutdown s))
    end
  end.
(* service.h:223-238 *)
Definition service_filter (r : req) (f : filter) : bool :=
  match f with Any => true | WithoutUpload => negb (is_upload r) | OnlyUpload => is_upload r end.

(* worker.c:24-39; a thread in SERVICE (execute.c:221-233) does not wait *)
Inductive wstate := Ready | Asleep | Busy (r : req) | Gone.
Record worker := mk_worker { wk_filter : filter; wk_wait : bool; wk_state : wstate }.
Definition put (k : worker) (st : wstate) : worker := mk_worker (wk_filter k) (wk_wait k) st.
Definition awaken (k : worker) : worker := match wk_state k with Asleep => put k Ready | _ => k end.
(* worker_mgr.c:31-54 *)
Definition worker_mgr (workers uploads : nat) : list worker :=
  match uploads with
  | 0 => repeat (mk_worker Any true Ready) workers
  | _ => repeat (mk_worker WithoutUpload true Ready) workers ++ repeat (mk_worker OnlyUpload true Ready) uploads
  end.
(* what happened *)
Inductive event :=
| Added (no : nat) (id : N) (a : list action)
| Ran (no : nat) (a : action)
| Failed (no : nat) (a : action)
| Ended (no : nat)
| Replaced (p : N)
| Asked (p : N).
(* y_marks: part->refresh of the partition *)
Record system := mk_system { y_service : service; y_workers : list worker; y_next : nat; y_marks : N -> bool; y_log : list event }.
Fixpoint set_worker (l : list worker) (w : nat) (k : worker) : list worker :=
  match l, w with [], _ => [] | _ :: r, 0 => k :: r | a :: r, S w => a :: set_worker r w k end.
Definition mark (b : bool) (m : N -> bool) (p : N) : N -> bool := fun q => if (q =? p)%N then b else m q.

(* service.h:80-95 *)
Definition service_add (y : system) (id : N) (a : list action) : system :=
  mk_system (service_schedule (y_service y) (mk_req (y_next y) id a 0)) (map awaken (y_workers y)) (S (y_next y)) (y_marks y)
            (Added (y_next y) id a :: y_log y).
(* write.c:57-63, op.c:608-613: the partition has enough in memory; nothing when it is marked *)
Definition want_refresh (y : system) (p : N) (cloud : bool) : system :=
  if y_marks y p then y else
  let z := service_add y p (refresh_actions cloud) in
  mk_system (y_service z) (y_workers z) (y_next z) (mark true (y_marks z) p) (Asked p :: y_log z).
(* outcome of an action: whether it succeeds; for REFRESH whether the partition was replaced by a new
   one, which is not marked (refresh.c:134-166, part.c part_allocate); for REBALANCE the partitions found
   one after the other and whether each was replaced or dropped. Marked ones are skipped (op.c:562-566),
   others are marked first. *)
Record outcome := mk_outcome { o_fine : bool; o_replaced : bool; o_moved : list (N * bool) }.
Fixpoint rebalance_marks (m : N -> bool) (l : list (N * bool)) : (N -> bool) * list N :=
  match l with
  | [] => (m, [])
  | (p, b) :: l =>
    if m p then rebalance_marks m l
    else let '(m', q) := rebalance_marks (mark (negb b) m p) l in (m', if b then p :: q else q)
  end.
Definition action_marks (m : N -> bool) (r : req) (a : action) (o : outcome) : (N -> bool) * list N :=
  match a with
  | Refresh => if o_replaced o then (mark false m (rq_id r), [rq_id r]) else (m, [])
  | Rebalance => rebalance_marks m (o_moved o)
  | _ => (m, [])
  end.
(* op.c:654-723 in steps: service_next, then one action at a time *)
Definition work (y : system) (w : nat) (o : outcome) : res system :=
  match nth_error (y_workers y) w with
  | None => Ok y
  | Some k =>
    let same l := mk_system (y_service y) l (y_next y) (y_marks y) (y_log y) in
    match wk_state k with
    | Gone | Asleep => Ok y
    | Ready =>
      (* service.h:197-221 *)
      if sv_shutdown (y_service y) then Ok (same (set_worker (y_workers y) w (put k Gone)))
      else match service_fetch (y_service y) (wk_filter k) with
           | Ok (Some r, s') => Ok (mk_system s' (set_worker (y_workers y) w (put k (Busy r))) (y_next y) (y_marks y) (y_log y))
           | Ok (None, _) => Ok (same (set_worker (y_workers y) w (put k (if wk_wait k then Asleep else Ready))))
           | Err => Err
           | UB => UB
           end
    | Busy r =>
      match current_action r with
      | None =>
        Ok (mk_system (y_service y) (set_worker (y_workers y) w (put k Ready)) (y_next y) (y_marks y) (Ended (rq_no r) :: y_log y))
      | Some a =>
        if negb (service_filter r (wk_filter k))
        then Ok (mk_system (service_schedule (y_service y) r) (map awaken (set_worker (y_workers y) w (put k Ready))) (y_next y) (y_marks y) (y_log y))
        else
          let (m, q) := action_marks (y_marks y) r a o in
          let st := if o_fine o then Busy (mk_req (rq_no r) (rq_id r) (rq_actions r) (S (rq_current r))) else Ready in
          let e := if o_fine o then Ran (rq_no r) a else Failed (rq_no r) a in
          Ok (mk_system (y_service y) (set_worker (y_workers y) w (put k st)) (y_next y) m (map Replaced (rev q) ++ e :: y_log y))
      end
    end
  end.
(* add: WAL rotation, rebalance, upload, and the refresh of the previous head (engine.c:151-153), which
   looks at no mark; replace: a command of the user *)
Inductive move :=
| Add (id : N) (a : action) (l : list action)
| Want (p : N) (cloud : bool)
| Work (w : nat) (o : outcome)
| Spurious (w : nat)
| Replace (p : N)
| Stop.
Definition moved (y : system) (m : move) : res system :=
  match m with
  | Add id a l => Ok (service_add y id (a :: l))
  | Want p cloud => Ok (want_refresh y p cloud)
  | Work w o => work y w o
  | Spurious w =>
    Ok match nth_error (y_workers y) w with
       | Some k => mk_system (y_service y) (set_worker (y_workers y) w (awaken k)) (y_next y) (y_marks y) (y_log y)
       | None => y
       end
  | Replace p => Ok (mk_system (y_service y) (y_workers y) (y_next y) (mark false (y_marks y) p) (Replaced p :: y_log y))
  | Stop => Ok (mk_system (service_shutdown (y_service y)) (map awaken (y_workers y)) (y_next y) (y_marks y) (y_log y))
  end.
Fixpoint moves (y : system) (l : list move) : res system :=
  match l with [] => Ok y | m :: l => do z <- moved y m ; moves z l end.
Definition start (workers : list worker) : system := mk_system service_init workers 0 (fun _ => false) [].
