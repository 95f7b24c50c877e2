(* Lists: /repo/monotone/runtime/runtime/list.h. Memory is a function from the address of a List to
   its two pointers. Every statement is a read or a write of one pointer, in the order of the code, so
   what is read after a write is what was written, also when the pointers are the same.
   foreach_reverse_safe is not modelled: no code uses it. A loop that does not end within the fuel is
   the answer Stuck. *)
From Coq Require Import NArith ZArith List Bool.
Import ListNotations.

Local Open Scope N_scope.

Record node := mk_node { next : N; prev : N }.
Definition heap := N -> node.

(* p->next = v; p->prev = v *)
Definition set_next (h : heap) (p v : N) : heap := fun q => if q =? p then mk_node v (prev (h q)) else h q.
Definition set_prev (h : heap) (p v : N) : heap := fun q => if q =? p then mk_node (next (h q)) v else h q.
(* the memory of an element is given back and used for anything else *)
Definition overwrite (h : heap) (p : N) (n : node) : heap := fun q => if q =? p then n else h q.

(* list.h:24-28 *)
Definition list_init (h : heap) (self : N) : heap :=
  let h := set_prev h self self in
  set_next h self (prev (h self)).
(* list.h:30-35 *)
Definition list_empty (h : heap) (self : N) : bool := (next (h self) =? self) && (prev (h self) =? self).
(* list.h:37-41 *)
Definition list_is_last (h : heap) (self link : N) : bool := next (h link) =? self.
(* list.h:43-50 *)
Definition list_append (h : heap) (self link : N) : heap :=
  let h := set_next h link self in
  let h := set_prev h link (prev (h self)) in
  let h := set_next h (prev (h link)) link in
  set_prev h (next (h link)) link.
(* list.h:52-57 *)
Definition list_unlink (h : heap) (link : N) : heap :=
  let h := set_next h (prev (h link)) (next (h link)) in
  set_prev h (next (h link)) (prev (h link)).
(* list.h:59-66 *)
Definition list_push (h : heap) (self link : N) : heap :=
  let h := set_next h link (next (h self)) in
  let h := set_prev h link self in
  let h := set_next h (prev (h link)) link in
  set_prev h (next (h link)) link.
(* list.h:68-74 *)
Definition list_pop (h : heap) (self : N) : heap * N :=
  let pop := next (h self) in (list_unlink h pop, pop).

(* list.h:76-77, 84-85: from i up to the head; the addresses that the body sees *)
Fixpoint foreach (fuel : nat) (h : heap) (head i : N) : option (list N) :=
  match fuel with
  | O => None
  | S fuel =>
    if i =? head then Some []
    else match foreach fuel h head (next (h i)) with Some l => Some (i :: l) | None => None end
  end.
(* list.h:87-88 *)
Fixpoint foreach_reverse (fuel : nat) (h : heap) (head i : N) : option (list N) :=
  match fuel with
  | O => None
  | S fuel =>
    if i =? head then Some []
    else match foreach_reverse fuel h head (prev (h i)) with Some l => Some (i :: l) | None => None end
  end.
(* list.h:79-82: the body may change the lists; it is given the address and tells whether to go on.
   _i_copy is read before the body. (The loop also ends at a NULL pointer; no List has one here.) *)
Fixpoint foreach_safe (body : heap -> N -> heap * bool) (fuel : nat) (h : heap) (head i : N) : option (heap * list N) :=
  match fuel with
  | O => None
  | S fuel =>
    if i =? head then Some (h, [])
    else
      let copy := next (h i) in
      let '(h, more) := body h i in
      if more then match foreach_safe body fuel h head copy with Some (h, l) => Some (h, i :: l) | None => None end
      else Some (h, [i])
  end.

(* what the bodies of the loops over foreach_safe do with an element *)
Inductive fate :=
| Keep                 (* nothing *)
| Cut                  (* list_unlink *)
| Free (n : node)      (* list_unlink and the element is freed; in a loop that empties the list it is only freed *)
| Shift (b : N).       (* list_unlink and list_append to b; pipeline.c:157-158: list_init and list_append to b *)
(* service.h:162-171, 179-189: the first with some property is taken and the loop is left *)
Definition fetch_body (p : N -> bool) (h : heap) (i : N) : heap * bool :=
  if p i then (list_unlink h i, false) else (h, true).
Definition sweep_body (f : N -> fate) (h : heap) (i : N) : heap * bool :=
  (match f i with
   | Keep => h
   | Cut => list_unlink h i
   | Free n => overwrite (list_unlink h i) i n
   | Shift b => list_append (list_unlink h i) b i
   end, true).
(* pipeline.c:33-37, 144-148, 154-160, service.h:49-53 and the other loops that free a list: no unlink *)
Definition drain_body (f : N -> fate) (h : heap) (i : N) : heap * bool :=
  (match f i with
   | Keep => h
   | Cut => h
   | Free n => overwrite h i n
   | Shift b => list_append (list_init h i) b i
   end, true).

Inductive op :=
| Init (a : N) | Drop (a : N) | Write (x : N) (n : node)
| Append (a x : N) | Push (a x : N) | Unlink (x : N) | Pop (a : N)
| Fetch (a : N) (p : N -> bool) | Sweep (a : N) (f : N -> fate) | Drain (a : N) (f : N -> fate)
| Empty (a : N) | Is_last (a x : N) | Walk (a : N) | Back (a : N) | After (a x : N).
Inductive answer := None_ | Addr (a : N) | Bool (b : bool) | Addrs (l : list N) | Stuck.

Definition addrs (r : option (list N)) : answer := match r with Some l => Addrs l | None => Stuck end.
Definition swept (h0 : heap) (r : option (heap * list N)) : heap * answer :=
  match r with Some (h, l) => (h, Addrs l) | None => (h0, Stuck) end.
Definition exec (fuel : nat) (h : heap) (o : op) : heap * answer :=
  match o with
  | Init a => (list_init h a, None_)
  | Drop a => (h, None_)
  | Write x n => (overwrite h x n, None_)
  | Append a x => (list_append h a x, None_)
  | Push a x => (list_push h a x, None_)
  | Unlink x => (list_unlink h x, None_)
  | Pop a => let '(h, x) := list_pop h a in (h, Addr x)
  | Fetch a p => swept h (foreach_safe (fetch_body p) fuel h a (next (h a)))
  | Sweep a f => swept h (foreach_safe (sweep_body f) fuel h a (next (h a)))
  | Drain a f => swept h (foreach_safe (drain_body f) fuel h a (next (h a)))
  | Empty a => (h, Bool (list_empty h a))
  | Is_last a x => (h, Bool (list_is_last h a x))
  | Walk a => (h, addrs (foreach fuel h a (next (h a))))
  | Back a => (h, addrs (foreach_reverse fuel h a (prev (h a))))
  | After a x => (h, addrs (foreach fuel h a (next (h x))))
  end.
Fixpoint exec_all (fuel : nat) (h : heap) (os : list op) : heap * list answer :=
  match os with
  | [] => (h, [])
  | o :: os => let '(h, r) := exec fuel h o in let '(h, rs) := exec_all fuel h os in (h, r :: rs)
  end.

(* the iterators of a memtable: memtable_iterator.h:28-56, 96-117, memtable.c:185-194. The memtable is
   the address of its list and its count, an iterator the address of its link and its memtable. *)
Record itables := mk_itables { it_heap : heap; it_count : N -> Z; it_memtable : N -> N }.
(* memtable_iterator_init: memtable_iterator.h:119-131 *)
Definition iterator_init (s : itables) (i : N) : itables :=
  mk_itables (list_init (it_heap s) i) (it_count s) (fun j => if j =? i then 0 else it_memtable s j).
(* memtable_init: memtable.c:21-39 *)
Definition table_init (s : itables) (m : N) : itables :=
  mk_itables (list_init (it_heap s) m) (fun n => if n =? m then 0%Z else it_count s n) (it_memtable s).
(* memtable_iterator_open: at_end tells that there is no event at or after the key *)
Definition iterator_open (s : itables) (i m : N) (at_end attach : bool) : itables :=
  let s := mk_itables (it_heap s) (it_count s) (fun j => if j =? i then m else it_memtable s j) in
  if at_end then s
  else if attach then mk_itables (list_append (it_heap s) m i) (fun n => if n =? m then (it_count s n + 1)%Z else it_count s n) (it_memtable s)
  else s.
(* memtable_iterator_close; None: the assert *)
Definition iterator_close (s : itables) (i : N) : option itables :=
  if negb (list_empty (it_heap s) i) then
    let m := it_memtable s i in
    let c := (it_count s m - 1)%Z in
    if (c <? 0)%Z then None
    else Some (iterator_init (mk_itables (list_unlink (it_heap s) i) (fun n => if n =? m then c else it_count s n) (it_memtable s)) i)
  else Some (iterator_init s i).
(* the iterators that an insert tells: memtable.c:204-206, 250-252 *)
Definition synced (fuel : nat) (s : itables) (m : N) : option (list N) :=
  if (0 <? it_count s m)%Z then foreach fuel (it_heap s) m (next (it_heap s m)) else Some [].

Inductive iop := Table (m : N) | New (i : N) | Open (i m : N) (at_end attach : bool) | Close (i : N).
Definition iexec (s : itables) (o : iop) : option itables :=
  match o with
  | Table m => Some (table_init s m)
  | New i => Some (iterator_init s i)
  | Open i m e a => Some (iterator_open s i m e a)
  | Close i => iterator_close s i
  end.
Fixpoint iexec_all (s : itables) (os : list iop) : option itables :=
  match os with
  | [] => Some s
  | o :: os => match iexec s o with Some s => iexec_all s os | None => None end
  end.
