(* Merge iterator.

   Source: /repo/monotone/engine/io/merge_iterator.h, iterator.h.
   A source iterator is represented by the events it still yields: at() is the head
   (NULL for the empty list), next() drops the head. *)
From Coq Require Import NArith ZArith List Bool.
Import ListNotations.
From Verif Require Import Model.Base Model.Event.

(* merge_iterator.h:19-23: iterator and advance flag *)
Definition msrc := (list event * bool)%type.

(* merge_iterator.h:25-32: the list and the current iterator (its position) *)
Record merge := mk_merge { mg_list : list msrc; mg_current : option nat }.

(* merge_iterator.h:129-141, 34-44: the sources in the order they were added *)
Definition merge_init (srcs : list (list event)) : merge :=
  mk_merge (map (fun s => (s, false)) srcs) None.

(* merge_iterator.h:71-79 *)
Definition merge_advance (l : list msrc) : list msrc :=
  map (fun s : msrc => if snd s then (tl (fst s), false) else s) l.

(* merge_iterator.h:104-105 *)
Definition merge_clear (l : list msrc) : list msrc := map (fun s : msrc => (fst s, false)) l.

(* merge_iterator.h:84-110: [done] are the refs before pos, [todo] the others; [cl] says
   that line 105 has reset the flags of the refs still to come *)
Fixpoint merge_scan (done todo : list msrc) (cl : bool) (mn : option (nat * event))
  : list msrc * option (nat * event) :=
  match todo with
  | [] => (done, mn)
  | (s, adv0) :: t =>
      let adv := if cl then false else adv0 in
      match s with
      | [] => merge_scan (done ++ [(s, adv)]) t cl mn
      | row :: _ =>
          match mn with
          | None => merge_scan (done ++ [(s, true)]) t cl (Some (length done, row))
          | Some (_, m) =>
              let rc := compare m row in
              if (rc =? 0)%Z then merge_scan (done ++ [(s, true)]) t cl mn
              else if (0 <? rc)%Z then
                merge_scan (merge_clear done ++ [(s, true)]) t true (Some (length done, row))
              else merge_scan (done ++ [(s, adv)]) t cl mn
          end
      end
  end.

(* merge_iterator.h:67-112 *)
Definition merge_next (m : merge) : merge :=
  let '(l, mn) := merge_scan [] (merge_advance (mg_list m)) false None in
  mk_merge l (match mn with Some (i, _) => Some i | None => None end).

(* merge_iterator.h:59-65 *)
Definition merge_at (m : merge) : option event :=
  match mg_current m with
  | None => None
  | Some i => match nth_error (mg_list m) i with
              | Some (e :: _, _) => Some e
              | _ => None
              end
  end.

(* merge_iterator.h:46-51 *)
Definition merge_open (srcs : list (list event)) : merge := merge_next (merge_init srcs).

(* reading to the end, with at most [fuel] events *)
Fixpoint merge_drain (fuel : nat) (m : merge) : list event :=
  match fuel with
  | O => []
  | S fuel =>
      match merge_at m with
      | None => []
      | Some e => e :: merge_drain fuel (merge_next m)
      end
  end.

(* the whole merged sequence. Every step consumes at least one event. *)
Definition merge_all (srcs : list (list event)) : list event :=
  merge_drain (S (length (concat srcs))) (merge_open srcs).
