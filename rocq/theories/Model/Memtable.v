(* In-memory table of one partition.

   Sources: /repo/monotone/engine/io/memtable.c, memtable.h.
   A page is a sorted array of event pointers; here a list, events_count is
   its length. Pages carry an identity (their address) so that iterators can
   refer to them. The allocation from the heap is modelled in Heap.v. *)
From Coq Require Import NArith ZArith List Bool.
Import ListNotations.
From Verif Require Import Model.Base Model.Event Model.Rbtree.
Local Open Scope res_scope.

(* memtable.h:19-24 *)
Record page : Type := mk_page { pg_id : N; pg_ev : list event }.

(* memtable.h:26-39 (iterators and heap are modelled elsewhere) *)
Record memtable : Type := mk_memtable {
  mt_tree        : tree page;
  mt_size_page   : nat;
  mt_size_split  : nat;
  mt_count_pages : N;
  mt_count       : N;
  mt_lsn_min     : N;
  mt_lsn_max     : N;
  mt_next_page   : N            (* next page identity (address) *)
}.

(* memtable.c:21-38 *)
Definition memtable_init (size_page size_split : nat) : memtable :=
  mk_memtable Leaf size_page size_split 0 0 u64_max 0 0.

(* memtable.c:62-72 *)
Definition memtable_free (m : memtable) : memtable :=
  mk_memtable Leaf (mt_size_page m) (mt_size_split m) 0 0 u64_max 0 (mt_next_page m).

Definition mt_with (m : memtable) (t : tree page) (pages count : N) (next : N) : memtable :=
  mk_memtable t (mt_size_page m) (mt_size_split m) pages count
              (mt_lsn_min m) (mt_lsn_max m) next.

Definition ev_at (l : list event) (i : Z) : event := nth (Z.to_nat i) l ev_none.

(* memtable.c:56-60: first event of the page against the key, as an int *)
Definition memtable_compare (pg : page) (key : event) : Z :=
  compare_int (ev_at (pg_ev pg) 0) key.

(* memtable.c:90-91 *)
Definition memtable_find (m : memtable) (key : event) : option (zipper page) * Z :=
  rbtree_get (fun pg => memtable_compare pg key) (mt_tree m).

(* memtable.c:93-113 *)
Definition memtable_search_page (m : memtable) (key : event) : res (zipper page) :=
  if (mt_count_pages m =? 1)%N then of_opt (rbtree_min (mt_tree m))
  else
    let '(z, rc) := memtable_find m key in
    match z with
    | None => UB                                     (* assert, line 105 *)
    | Some z =>
        if (rc =? 1)%Z then                          (* line 106 *)
          match rbtree_prev z with
          | Some prev => Ok prev
          | None => Ok z
          end
        else Ok z
    end.

(* the loop of memtable.c:125-139 and of the other binary searches:
   [cmp i] is the int result of comparing element i with the key *)
Fixpoint bsearch (fuel : nat) (cmp : Z -> Z) (mn mx : Z) : option (Z * bool) :=
  match fuel with
  | O => None
  | S fuel =>
      if (mn <=? mx)%Z then
        let mid := (mn + Z.shiftr (mx - mn) 1)%Z in
        let rc := cmp mid in
        if (rc <? 0)%Z then bsearch fuel cmp (mid + 1)%Z mx
        else if (0 <? rc)%Z then bsearch fuel cmp mn (mid - 1)%Z
        else Some (mid, true)
      else Some (mn, false)
  end.

(* memtable.c:115-141: (position, match). The first comparison (line 122) is in
   int64_t, the others (line 128) in int. *)
Definition memtable_search (evs : list event) (key : event) : res (Z * bool) :=
  let max := (Z.of_nat (length evs) - 1)%Z in
  if (max <? 0)%Z then UB                            (* events[-1] *)
  else if (compare (ev_at evs max) key <? 0)%Z then Ok ((max + 1)%Z, false)
  else of_opt (bsearch (S (length evs)) (fun i => compare_int (ev_at evs i) key) 0 max).

Definition insert_at (pos : nat) (e : event) (l : list event) : list event :=
  firstn pos l ++ e :: skipn pos l.
Definition replace_at (pos : nat) (e : event) (l : list event) : list event :=
  firstn pos l ++ e :: skipn (S pos) l.
Definition remove_at (pos : nat) (l : list event) : list event :=
  firstn pos l ++ skipn (S pos) l.

(* Result of memtable.c:196-251 memtable_insert: events of the page afterwards, of
   the split page if any, and the replaced event or the position of the insert. *)
Inductive inserted : Type :=
| Replaced (evs : list event) (pos : nat) (prev : event)
| Added (evs : list event) (split : option (list event)) (pos : nat).

Definition memtable_insert (m : memtable) (evs : list event) (e : event) : res inserted :=
  do r <- memtable_search evs e;
  let '(pos, found) := r in
  let pos := Z.to_nat pos in
  if (found : bool) then
    Ok (Replaced (replace_at pos e evs) pos (nth pos evs ev_none))   (* 204-215 *)
  else if (length evs =? mt_size_page m)%nat then                    (* 223-235 *)
    let l := firstn (mt_size_split m) evs in
    let r := skipn (mt_size_split m) evs in
    if (mt_size_split m <=? pos)%nat then
      Ok (Added l (Some (insert_at (pos - mt_size_split m) e r)) (pos - mt_size_split m))
    else
      Ok (Added (insert_at pos e l) (Some r) pos)
  else
    Ok (Added (insert_at pos e evs) None pos).                       (* 237-250 *)

Definition zset (z : zipper page) (pg : page) : zipper page :=
  match z with
  | (p, Node c l _ r) => (p, Node c l pg r)
  | (p, Leaf) => (p, Leaf)
  end.

(* memtable.c:253-281 memtable_set: the new table and the replaced event *)
Definition memtable_set (m : memtable) (e : event) : res (memtable * option event) :=
  if (mt_count_pages m =? 0)%N then
    do t <- of_opt (rbtree_set (mt_tree m) None 0 (mk_page (mt_next_page m) [e]));
    Ok (mt_with m t 1 (mt_count m + 1) (mt_next_page m + 1), None)
  else
    do z <- memtable_search_page m e;
    match zelem z with
    | None => UB
    | Some pg =>
        do r <- memtable_insert m (pg_ev pg) e;
        match r with
        | Replaced evs _ prev =>
            let z' := zset z (mk_page (pg_id pg) evs) in
            Ok (mt_with m (plug (fst z') (snd z')) (mt_count_pages m) (mt_count m)
                        (mt_next_page m), Some prev)
        | Added evs None _ =>
            let z' := zset z (mk_page (pg_id pg) evs) in
            Ok (mt_with m (plug (fst z') (snd z')) (mt_count_pages m) (mt_count m + 1)
                        (mt_next_page m), None)
        | Added evs (Some split) _ =>
            let z' := zset z (mk_page (pg_id pg) evs) in
            (* line 277: the split page becomes the right child of the page *)
            do t <- of_opt (rbtree_set (plug (fst z') (snd z')) (Some z') (-1)
                                       (mk_page (mt_next_page m) split));
            Ok (mt_with m t (mt_count_pages m + 1) (mt_count m + 1)
                        (mt_next_page m + 1), None)
        end
    end.

(* memtable.c:283-313 *)
Definition memtable_unset (m : memtable) (e : event) : res memtable :=
  if (mt_count_pages m =? 0)%N then UB                    (* assert, line 286 *)
  else
    do z <- memtable_search_page m e;
    match zelem z with
    | None => UB
    | Some pg =>
        do r <- memtable_search (pg_ev pg) e;
        let '(pos, found) := r in
        if (found : bool) then
          let evs := remove_at (Z.to_nat pos) (pg_ev pg) in
          match evs with
          | [] =>
              do t <- of_opt (rbtree_remove z);
              Ok (mt_with m t (mt_count_pages m - 1) (mt_count m - 1) (mt_next_page m))
          | _ =>
              let z' := zset z (mk_page (pg_id pg) evs) in
              Ok (mt_with m (plug (fst z') (snd z')) (mt_count_pages m)
                          (mt_count m - 1) (mt_next_page m))
          end
        else Ok m
    end.

(* memtable.c:315-323 *)
Definition memtable_max (m : memtable) : option event :=
  if (mt_count_pages m =? 0)%N then None
  else match rbtree_max (mt_tree m) with
       | Some z => match zelem z with
                   | Some pg => Some (ev_at (pg_ev pg) (Z.of_nat (length (pg_ev pg)) - 1))
                   | None => None
                   end
       | None => None
       end.

(* memtable.c:325-346 memtable_seek, for a non-empty table: (page, pos, match) *)
Definition memtable_seek (m : memtable) (key : option event)
  : res (zipper page * Z * bool) :=
  match key with
  | None =>
      do z <- of_opt (rbtree_min (mt_tree m)); Ok (z, 0%Z, false)
  | Some k =>
      do z <- memtable_search_page m k;
      match zelem z with
      | None => UB
      | Some pg => do r <- memtable_search (pg_ev pg) k;
                   let '(pos, found) := r in Ok (z, pos, found)
      end
  end.

(* memtable.c:348-356 *)
Definition memtable_follow (m : memtable) (lsn : N) : memtable :=
  mk_memtable (mt_tree m) (mt_size_page m) (mt_size_split m) (mt_count_pages m)
              (mt_count m) (N.min lsn (mt_lsn_min m)) (N.max lsn (mt_lsn_max m))
              (mt_next_page m).

(* ------------------------------------------------------------------ *)
(* Iterator: /repo/monotone/engine/io/memtable_iterator.h.
   [None] is an iterator with current == NULL. Otherwise the page pointer
   (zipper) and the position; current is the event at that position. *)
Definition mt_iter := option (zipper page * nat)%type.

Definition zevents (z : zipper page) : list event :=
  match zelem z with Some pg => pg_ev pg | None => [] end.

(* memtable_iterator.h:28-56 *)
Definition memtable_iterator_open (m : memtable) (key : option event) : res mt_iter :=
  if (mt_count m =? 0)%N then Ok None
  else if (mt_count_pages m =? 0)%N then UB     (* page NULL, dereferenced at 41 *)
  else
    do r <- memtable_seek m key;
    let '(z, pos, _) := r in
    if (Z.of_nat (length (zevents z)) <=? pos)%Z then Ok None
    else Ok (Some (z, Z.to_nat pos)).

(* memtable_iterator.h:64-68 *)
Definition memtable_iterator_at (it : mt_iter) : option event :=
  match it with
  | None => None
  | Some (z, pos) => nth_error (zevents z) pos
  end.

(* memtable_iterator.h:70-93 *)
Definition memtable_iterator_next (it : mt_iter) : mt_iter :=
  match it with
  | None => None
  | Some (z, pos) =>
      if (pos + 1 <? length (zevents z))%nat then Some (z, S pos)
      else match rbtree_next z with
           | None => None
           | Some z' => match zevents z' with
                        | [] => None
                        | _ => Some (z', 0)
                        end
           end
  end.

(* reading an iterator to its end; [fuel] bounds the number of events *)
Fixpoint memtable_drain (fuel : nat) (it : mt_iter) : list event :=
  match fuel with
  | O => []
  | S fuel =>
      match memtable_iterator_at it with
      | None => []
      | Some e => e :: memtable_drain fuel (memtable_iterator_next it)
      end
  end.

(* all events reachable from the tree, in tree order *)
Definition mt_events (m : memtable) : list event :=
  flat_map pg_ev (elements (mt_tree m)).

(* scan of a table from a key: open and read to the end. One more than the number of
   events is enough fuel. *)
Definition memtable_scan (m : memtable) (key : option event) : res (list event) :=
  do it <- memtable_iterator_open m key;
  Ok (memtable_drain (S (length (mt_events m))) it).

(* the sizes used by the engine: /repo/monotone/engine/io/part.c:35-36 *)
Definition MEMTABLE_PAGE : nat := 512.
Definition MEMTABLE_SPLIT : nat := 508.
Definition memtable_new : memtable := memtable_init MEMTABLE_PAGE MEMTABLE_SPLIT.

(* a sequence of memtable_set calls: the table and the replaced events *)
Fixpoint memtable_writes (m : memtable) (evs : list event)
  : res (memtable * list (option event)) :=
  match evs with
  | [] => Ok (m, [])
  | e :: t =>
      do r1 <- memtable_set m e;
      do r2 <- memtable_writes (fst r1) t;
      Ok (fst r2, snd r1 :: snd r2)
  end.

(* engine/engine/write.c:24-43 for one partition: undo the log entries
   (event, replaced event) from the last to the first: a replaced event is set
   again, an inserted event is removed. *)
Fixpoint memtable_undo (m : memtable) (log : list (event * option event)) : res memtable :=
  match log with
  | [] => Ok m
  | (e, prev) :: t =>
      do m1 <- memtable_undo m t;
      match prev with
      | Some p => do r <- memtable_set m1 p; Ok (fst r)
      | None => memtable_unset m1 e
      end
  end.

(* memtable_iterator.h:133-165 memtable_iterator_sync. The attached iterator is (page
   address, position, current event); [page] is the page that was changed with
   its events afterwards, [split] the new page if any, [pos] the position
   passed by memtable.c:212,247. Reading an event slot outside the
   page (stale pointer) is None. *)
Record mt_pos : Type := mk_pos { mp_page : N; mp_pos : nat; mp_cur : option event }.

Definition memtable_iterator_sync (it : mt_pos) (pg : page) (split : option page) (pos : nat)
  : mt_pos :=
  if (negb (mp_page it =? pg_id pg)%N ||
      match mp_cur it with None => true | Some _ => false end)%bool then it
  else if (mp_pos it =? pos)%nat then
    mk_pos (mp_page it) (mp_pos it) (nth_error (pg_ev pg) (mp_pos it))
  else
    let '(cur_pg, cur_pos) :=
      match split with
      | Some r =>
          if (length (pg_ev pg) <=? mp_pos it)%nat
          then (r, mp_pos it - length (pg_ev pg))
          else (pg, mp_pos it)
      | None => (pg, mp_pos it)
      end in
    let cur_pos := if (pos <=? cur_pos)%nat then S cur_pos else cur_pos in
    mk_pos (pg_id cur_pg) cur_pos (nth_error (pg_ev cur_pg) cur_pos).

(* insert of an event into a page with one attached iterator:
   memtable.c:196-251 including the memtable_sync calls *)
Definition insert_with_iter (m : memtable) (pg : page) (e : event) (it : mt_pos)
  : res (page * option page * mt_pos) :=
  do r <- memtable_insert m (pg_ev pg) e;
  match r with
  | Replaced evs pos _ =>
      let pg' := mk_page (pg_id pg) evs in
      Ok (pg', None, memtable_iterator_sync it pg' None pos)
  | Added evs None pos =>
      let pg' := mk_page (pg_id pg) evs in
      Ok (pg', None, memtable_iterator_sync it pg' None pos)
  | Added evs (Some sp) pos =>
      let pg' := mk_page (pg_id pg) evs in
      let r' := mk_page (mt_next_page m) sp in
      Ok (pg', Some r', memtable_iterator_sync it pg' (Some r') pos)
  end.
