(* Reading the events of a partition file.

   Sources: /repo/monotone/engine/io/region_iterator.h, index_iterator.h,
   part_iterator.h, index.h:64-94.
   A file is the list of its regions, a region the list of its events; the bytes of
   regions and index are modelled in File.v. The min and max of an index entry are the ids of
   the first and last event of the region (writer.c:40-51, index_writer.h). *)
From Coq Require Import NArith ZArith List Bool.
Import ListNotations.
From Verif Require Import Model.Base Model.Event Model.Memtable.

Definition region := list event.
Definition pfile := list region.

(* ------------------------------------------------------------------ *)
(* region iterator: region and position; None is current == NULL *)
Definition region_iter := (region * option nat)%type.

(* region_iterator.h:27-38 *)
Definition region_set_pos (r : region) (pos : Z) : region_iter :=
  if ((pos <? 0) || (Z.of_nat (length r) <=? pos))%Z then (r, None)
  else (r, Some (Z.to_nat pos)).

(* region_iterator.h:47-68, the comparison is an int (40-45). The loop makes at most as
   many steps as there are events. *)
Definition region_search (r : region) (key : event) : Z :=
  match bsearch (S (length r)) (fun i => compare_int (ev_at r i) key) 0
                (Z.of_nat (length r) - 1) with
  | Some (pos, _) => pos
  | None => -1
  end.

(* region_iterator.h:70-90 *)
Definition region_iterator_open (r : region) (key : option event) : region_iter :=
  match r with
  | [] => (r, None)
  | _ => match key with
         | None => region_set_pos r 0
         | Some k => region_set_pos r (region_search r k)
         end
  end.

(* region_iterator.h:98-102 *)
Definition region_iterator_at (it : region_iter) : option event :=
  match snd it with
  | None => None
  | Some pos => nth_error (fst it) pos
  end.

(* region_iterator.h:104-110 *)
Definition region_iterator_next (it : region_iter) : region_iter :=
  match snd it with
  | None => it
  | Some pos => region_set_pos (fst it) (Z.of_nat pos + 1)
  end.

(* ------------------------------------------------------------------ *)
(* index entries: index.h:72-82 *)
Definition region_min (r : region) : N := ev_id (ev_at r 0).
Definition region_max (r : region) : N := ev_id (ev_at r (Z.of_nat (length r) - 1)).
Definition index_max_at (f : pfile) (pos : nat) : N := region_max (nth pos f []).

(* index_iterator.h:40-48; None: fuel exhausted *)
Fixpoint index_search_loop (fuel : nat) (f : pfile) (id : N) (b e : nat) : option nat :=
  match fuel with
  | O => None
  | S fuel =>
      if (b =? e)%nat then Some e
      else
        let mid := (b + (e - b) / 2)%nat in
        if (compare_u64 (index_max_at f mid) id <? 0)%Z
        then index_search_loop fuel f id (mid + 1) e
        else index_search_loop fuel f id b mid
  end.

(* index_iterator.h:35-52, for at least one region *)
Definition index_search (f : pfile) (id : N) : option nat :=
  match index_search_loop (S (length f)) f id 0 (length f - 1) with
  | None => None
  | Some e => Some (if (length f <=? e)%nat then (length f - 1)%nat else e)
  end.

(* index_iterator.h:54-81: the position, None when current stays NULL. Line 74 stores
   the difference in an int. *)
Definition index_iterator_open (f : pfile) (key : option event) : option nat :=
  match f with
  | [] => None
  | _ =>
      match key with
      | None => Some 0%nat
      | Some k =>
          match index_search f (ev_id k) with
          | None => None
          | Some pos =>
              let rc := i32_of_z (compare_u64 (index_max_at f pos) (ev_id k)) in
              let pos := if (rc <? 0)%Z then S pos else pos in
              if (length f <=? pos)%nat then None else Some pos
          end
      end
  end.

(* ------------------------------------------------------------------ *)
(* part iterator: index position (None is current == NULL) and region iterator *)
Record part_iter : Type := mk_piter { pi_index : option nat; pi_region : region_iter }.

(* part_iterator.h:41-57. reader_execute of a region yields its events (File.v). *)
Definition part_iterator_open (f : pfile) (key : option event) : part_iter :=
  match index_iterator_open f key with
  | None => mk_piter None ([], None)
  | Some pos => mk_piter (Some pos) (region_iterator_open (nth pos f []) key)
  end.

(* part_iterator.h:59-69 *)
Definition part_iterator_at (it : part_iter) : option event := region_iterator_at (pi_region it).

(* part_iterator.h:80-92: [fuel] is the number of regions *)
Fixpoint part_iterator_skip (fuel : nat) (f : pfile) (pos : nat) (it : region_iter) : part_iter :=
  match region_iterator_at it with
  | Some _ => mk_piter (Some pos) it
  | None =>
      match fuel with
      | O => mk_piter None it
      | S fuel =>
          if (length f <=? S pos)%nat then mk_piter None it
          else part_iterator_skip fuel f (S pos) (region_iterator_open (nth (S pos) f []) None)
      end
  end.

(* part_iterator.h:71-93 *)
Definition part_iterator_next (f : pfile) (it : part_iter) : part_iter :=
  match pi_index it with
  | None => it
  | Some pos => part_iterator_skip (length f) f pos (region_iterator_next (pi_region it))
  end.

(* reading to the end, with at most [fuel] events *)
Fixpoint part_drain (fuel : nat) (f : pfile) (it : part_iter) : list event :=
  match fuel with
  | O => []
  | S fuel =>
      match part_iterator_at it with
      | None => []
      | Some e => e :: part_drain fuel f (part_iterator_next f it)
      end
  end.

(* scan of a file from a key. One more than the number of events is enough fuel. *)
Definition file_scan (f : pfile) (key : option event) : list event :=
  part_drain (S (length (concat f))) f (part_iterator_open f key).
