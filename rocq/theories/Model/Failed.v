(* A batch that fails while a cursor stands on the page: engine/engine/write.c:24-43, 74-138 with the
   attached iterator of memtable.c:196-313. One page; a split is not modelled here and is Err. The
   iterator is told of every memtable_set, also those of the rollback, and of no memtable_unset. *)
From Coq Require Import NArith ZArith List Bool.
Import ListNotations.
From Verif Require Import Model.Base Model.Event Model.Memtable.
Local Open Scope res_scope.

(* memtable.c:196-251: the page, the replaced event and the iterator *)
Definition set_with_iter (m : memtable) (pg : page) (e : event) (it : mt_pos) : res (page * option event * mt_pos) :=
  do r <- memtable_insert m (pg_ev pg) e;
  match r with
  | Replaced evs pos prev => let pg' := mk_page (pg_id pg) evs in Ok (pg', Some prev, memtable_iterator_sync it pg' None pos)
  | Added evs None pos => let pg' := mk_page (pg_id pg) evs in Ok (pg', None, memtable_iterator_sync it pg' None pos)
  | Added _ (Some _) _ => Err
  end.
(* memtable.c:283-313 *)
Definition unset_with_iter (pg : page) (e : event) (it : mt_pos) : res (page * mt_pos) :=
  do r <- memtable_search (pg_ev pg) e;
  let '(pos, found) := r in
  if (found : bool) then Ok (mk_page (pg_id pg) (remove_at (Z.to_nat pos) (pg_ev pg)), it) else Ok (pg, it).
(* the writes of the batch, the failure, and the rollback from the last to the first *)
Fixpoint failed_batch (m : memtable) (pg : page) (it : mt_pos) (es : list event) : res (page * mt_pos) :=
  match es with
  | [] => Ok (pg, it)
  | e :: es =>
    do r <- set_with_iter m pg e it;
    let '(pg, prev, it) := r in
    do r <- failed_batch m pg it es;
    let '(pg, it) := r in
    match prev with
    | Some p => do r <- set_with_iter m pg p it; let '(pg, _, it) := r in Ok (pg, it)
    | None => unset_with_iter pg e it
    end
  end.
(* what the cursor shows now and what it goes on with: memtable_iterator.h:58-97 *)
Definition cursor_view (pg : page) (it : mt_pos) : option event * list event := (mp_cur it, skipn (S (mp_pos it)) (pg_ev pg)).
