(* Partition mapping and range operations.

   Sources: /repo/monotone/engine/io/mapping.h (Slice, Mapping),
   /repo/monotone/engine/engine/engine.c:106-166 (engine_lock),
   /repo/monotone/engine/engine/op.c:25-162 (engine_create, engine_fill,
   engine_foreach), 239-288 (engine_drop_reference, mapping part).
   Locks and storages are not part of this file. *)
From Coq Require Import NArith ZArith List Bool.
Import ListNotations.
From Verif Require Import Model.Base Model.Event Model.Rbtree.
Local Open Scope res_scope.

Section Mapping.
(* data of a partition (Ref, Part) *)
Variable P : Type.

(* mapping.h:19-24 *)
Record slice : Type := mk_slice { s_min : N; s_max : N; s_data : P }.

(* mapping.h:26-30; tree_count is an int *)
Record mapping : Type := mk_mapping { mp_tree : tree slice; mp_count : N }.

(* mapping.h:46-51 *)
Definition mapping_init : mapping := mk_mapping Leaf 0.

(* mapping.h:40-44 *)
Definition slice_in (s : slice) (x : N) : bool := ((s_min s <=? x) && (x <=? s_max s))%N.

(* mapping.h:59-75 *)
Definition mapping_min (m : mapping) : option (zipper slice) :=
  if (mp_count m =? 0)%N then None else rbtree_min (mp_tree m).
Definition mapping_max (m : mapping) : option (zipper slice) :=
  if (mp_count m =? 0)%N then None else rbtree_max (mp_tree m).

(* mapping.h:77-78: compare_u64 returns int64_t, the function returns int *)
Definition mapping_find (m : mapping) (id : N) : option (zipper slice) * Z :=
  rbtree_get (fun s => compare_u64 (s_min s) id) (mp_tree m).

(* mapping.h:80-90 *)
Definition mapping_add (m : mapping) (s : slice) : res mapping :=
  let '(z, rc) := mapping_find m (s_min s) in
  match z with
  | Some _ =>
      if (rc =? 0)%Z then UB                             (* assert(0), line 87 *)
      else do t <- of_opt (rbtree_set (mp_tree m) z rc s); Ok (mk_mapping t (mp_count m + 1))
  | None => do t <- of_opt (rbtree_set (mp_tree m) None rc s); Ok (mk_mapping t (mp_count m + 1))
  end.

(* mapping.h:92-98 *)
Definition mapping_remove (m : mapping) (z : zipper slice) : res mapping :=
  do t <- of_opt (rbtree_remove z);
  if (mp_count m =? 0)%N then UB else Ok (mk_mapping t (mp_count m - 1)).

(* mapping.h:124-137 *)
Definition mapping_seek (m : mapping) (id : N) : res (zipper slice) :=
  let '(z, rc) := mapping_find m id in
  match z with
  | None => UB                                           (* assert, line 130 *)
  | Some z =>
      if (0 <? rc)%Z
      then match rbtree_prev z with Some p => Ok p | None => Ok z end
      else Ok z
  end.

(* mapping.h:139-148 *)
Definition mapping_gte (m : mapping) (id : N) : res (option (zipper slice)) :=
  if (mp_count m =? 0)%N then Ok None
  else
    do z <- mapping_seek m id;
    match zelem z with
    | None => UB
    | Some s => if (s_max s <? id)%N then Ok (rbtree_next z) else Ok (Some z)
    end.

(* mapping.h:150-160 *)
Definition mapping_match (m : mapping) (id : N) : res (option (zipper slice)) :=
  if (mp_count m =? 0)%N then Ok None
  else
    do z <- mapping_seek m id;
    match zelem z with
    | None => UB
    | Some s => if slice_in s id then Ok (Some z) else Ok None
    end.

(* all partitions, in tree order *)
Definition mapping_list (m : mapping) : list slice := elements (mp_tree m).

(* data of a newly created partition with this range (op.c:26-66) *)
Variable fresh : N -> N -> P.

(* op.c:25-66, mapping part *)
Definition engine_create (m : mapping) (mn mx : N) : res mapping :=
  mapping_add m (mk_slice mn mx (fresh mn mx)).

(* op.c:88-123: the list of gaps. None: fuel exhausted *)
Fixpoint fill_gaps (fuel : nat) (z : option (zipper slice)) (mn mx : N) : option (list (N * N)) :=
  match fuel with
  | O => None
  | S fuel =>
      if (mn <=? mx)%N then
        match z with
        | Some z =>
            match zelem z with
            | None => None
            | Some s =>
                if (mn <? s_min s)%N then
                  obind (fill_gaps fuel (rbtree_next z) (add64 (s_max s) 1) mx) (fun r =>
                  Some ((mn, if (mx <? s_min s)%N then mx else sub64 (s_min s) 1) :: r))
                else if slice_in s mn then
                  fill_gaps fuel (rbtree_next z) (add64 (s_max s) 1) mx
                else
                  fill_gaps fuel (rbtree_next z) mn mx
            end
        | None => Some [(mn, mx)]
        end
      else Some []
  end.

(* op.c:125-129 *)
Fixpoint create_all (m : mapping) (gaps : list (N * N)) : res mapping :=
  match gaps with
  | [] => Ok m
  | (mn, mx) :: t => do m1 <- engine_create m mn mx; create_all m1 t
  end.

(* op.c:68-130. The number of loop steps is at most the number of partitions
   plus one. *)
Definition engine_fill (m : mapping) (mn mx : N) : res mapping :=
  if (mx <? mn)%N then Err
  else if (mp_count m =? 0)%N then engine_create m mn mx
  else
    do z <- mapping_seek m mn;
    do gaps <- of_opt (fill_gaps (S (S (length (mapping_list m)))) (Some z) mn mx);
    create_all m gaps.

(* runtime/config/global.h:61-65; interval 0 is a division by zero *)
Definition interval_of (interval id : N) : N := (id - id mod interval)%N.

(* engine.c:111-156, the partition found or created: new mapping and partition *)
Definition engine_lock (m : mapping) (interval id : N) (gte create : bool)
  : res (mapping * option (zipper slice)) :=
  if gte then do r <- mapping_gte m id; Ok (m, r)
  else
    let head := mapping_max m in
    let hit := match head with
               | Some z => match zelem z with Some s => slice_in s id | None => false end
               | None => false
               end in
    if hit then Ok (m, head)
    else
      do r <- mapping_match m id;
      match r with
      | Some z => Ok (m, Some z)
      | None =>
          if create then
            if (interval =? 0)%N then UB
            else
              let mn := interval_of interval id in
              let mx := sub64 (add64 mn interval) 1 in
              do m1 <- engine_fill m mn mx;
              do r1 <- mapping_match m1 id;
              match r1 with
              | Some z => Ok (m1, Some z)
              | None => UB                               (* assert, engine.c:149 *)
              end
          else Ok (m, None)
      end.

(* op.c:239-273: remove the partition that contains [id] *)
Definition engine_drop_reference (m : mapping) (id : N) : res mapping :=
  do r <- mapping_match m id;
  match r with
  | None => Ok m
  | Some z => mapping_remove m z
  end.

(* op.c:145-162: the partition to act on and the next start *)
Definition engine_foreach (m : mapping) (mn mx : N) : res (option (N * N)) :=
  do r <- engine_lock m 1 mn true false;
  match snd r with
  | None => Ok None
  | Some z =>
      match zelem z with
      | None => UB
      | Some s =>
          if ((mn <=? s_min s) && (s_max s <=? mx))%N
          then Ok (Some (s_min s, add64 (s_max s) 1))
          else Ok None
      end
  end.

(* op.c:317-323,386-392,456-462,485-492: the loop over a range. [act] is the
   command for one partition. Returns the starts of the partitions acted on, or None
   when the fuel does not suffice. *)
Fixpoint engine_range (fuel : nat) (act : mapping -> N -> res mapping) (m : mapping) (mn mx : N)
  : res (option (mapping * list N)) :=
  match fuel with
  | O => Ok None
  | S fuel =>
      do r <- engine_foreach m mn mx;
      match r with
      | None => Ok (Some (m, []))
      | Some (id, next) =>
          do m1 <- act m id;
          do r1 <- engine_range fuel act m1 next mx;
          match r1 with
          | None => Ok None
          | Some (m2, ids) => Ok (Some (m2, id :: ids))
          end
      end
  end.

(* commands that leave the set of partitions alone (refresh, move, upload, download) *)
Definition act_keep (m : mapping) (_ : N) : res mapping := Ok m.

(* histories: writes (any API call that creates partitions), CREATE PARTITION, DROP
   PARTITION, reopening with another interval *)
Inductive lop : Type :=
| LWrite (id : N)
| LCreate (mn mx : N)
| LDrop (id : N)
| LInterval (n : N).

Definition lstep (st : mapping * N) (o : lop) : res (mapping * N) :=
  let '(m, iv) := st in
  match o with
  | LWrite id => do r <- engine_lock m iv id false true; Ok (fst r, iv)
  | LCreate mn mx => do m1 <- engine_fill m mn mx; Ok (m1, iv)
  | LDrop id => do m1 <- engine_drop_reference m id; Ok (m1, iv)
  | LInterval n => Ok (m, n)
  end.

Fixpoint lrun (st : mapping * N) (ops : list lop) : res (mapping * N) :=
  match ops with
  | [] => Ok st
  | o :: t =>
      match lstep st o with
      | Ok st1 => lrun st1 t
      | Err => lrun st t                 (* the command is refused *)
      | UB => UB
      end
  end.
End Mapping.

Arguments mk_slice {P} _ _ _.
Arguments s_min {P} _.
Arguments s_max {P} _.
Arguments s_data {P} _.
Arguments mk_mapping {P} _ _.
Arguments mp_tree {P} _.
Arguments mp_count {P} _.
Arguments mapping_init {P}.
Arguments slice_in {P} _ _.
Arguments mapping_min {P} _.
Arguments mapping_max {P} _.
Arguments mapping_find {P} _ _.
Arguments mapping_add {P} _ _.
Arguments mapping_remove {P} _ _.
Arguments mapping_seek {P} _ _.
Arguments mapping_gte {P} _ _.
Arguments mapping_match {P} _ _.
Arguments mapping_list {P} _.
Arguments engine_create {P} _ _ _ _.
Arguments fill_gaps {P} _ _ _ _.
Arguments create_all {P} _ _ _.
Arguments engine_fill {P} _ _ _ _.
Arguments engine_lock {P} _ _ _ _ _ _.
Arguments engine_drop_reference {P} _ _.
Arguments engine_foreach {P} _ _ _ _.
Arguments engine_range {P} _ _ _ _ _ _.
Arguments act_keep {P} _ _.
Arguments lstep {P} _ _ _.
Arguments lrun {P} _ _ _.
