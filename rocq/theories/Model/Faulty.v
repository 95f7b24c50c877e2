(* Cursors when regions of partition files cannot be read.

   Sources: /repo/monotone/engine/io/part_iterator.h, merge_iterator.h, part_cursor.h, reader.h:83-139,
   /repo/monotone/engine/engine/engine_cursor.h, /repo/monotone/main/api/monotone.c:167-259.
   As Scan.v, but reader_execute may throw: from a file or a cloud that does not answer, or for a region
   that does not match its index entry (reader.h:83-139). What was changed before the throw stays changed.
   A memtable iterator is the events it still yields, as in Merge.v. Comparisons do not use the comparator
   (comparator.h:28-31), so the one that part_cursor_open did not set is not missed. *)
From Coq Require Import NArith ZArith List Bool.
Import ListNotations.
From Verif Require Import Model.Base Model.Event Model.Rbtree Model.Memtable Model.Mapping
  Model.Merge Model.PartIter Model.Scan.
Local Open Scope res_scope.

Section Faulty.
(* the regions that cannot be read: least id of the partition, number of the region *)
Variable bad : N -> nat -> bool.

(* part_iterator.h:80-92, with part_iterator_open_region (28-39) of the next region: reader_execute
   throws before the iterator of the region is touched, but after the index iterator was moved *)
Fixpoint fiter_skip (fuel : nat) (mn : N) (f : pfile) (pos : nat) (it : region_iter) : part_iter * bool :=
  match region_iterator_at it with
  | Some _ => (mk_piter (Some pos) it, true)
  | None =>
      match fuel with
      | O => (mk_piter None it, true)
      | S fuel =>
          if (length f <=? S pos)%nat then (mk_piter None it, true)
          else if bad mn (S pos) then (mk_piter (Some (S pos)) it, false)
          else fiter_skip fuel mn f (S pos) (region_iterator_open (nth (S pos) f []) None)
      end
  end.

(* part_iterator.h:71-93 *)
Definition fiter_next (mn : N) (f : pfile) (it : part_iter) : part_iter * bool :=
  match pi_index it with
  | None => (it, true)
  | Some pos => fiter_skip (length f) mn f pos (region_iterator_next (pi_region it))
  end.

(* part_iterator.h:41-57 *)
Definition fiter_open (mn : N) (f : pfile) (key : option event) : option part_iter :=
  match index_iterator_open f key with
  | None => Some (mk_piter None ([], None))
  | Some pos => if bad mn pos then None else Some (mk_piter (Some pos) (region_iterator_open (nth pos f []) key))
  end.

(* the iterators a merge iterator is over *)
Inductive fsrc :=
| FMem (l : list event)
| FFile (f : pfile) (it : part_iter).
Definition fsrc_at (s : fsrc) : option event :=
  match s with FMem l => hd_error l | FFile _ it => part_iterator_at it end.
Definition fsrc_next (mn : N) (s : fsrc) : fsrc * bool :=
  match s with
  | FMem l => (FMem (tl l), true)
  | FFile f it => let '(it, ok) := fiter_next mn f it in (FFile f it, ok)
  end.

(* merge_iterator.h:25-32 *)
Record fmerge := mk_fmerge { fm_list : list (fsrc * bool); fm_current : option nat }.

(* merge_iterator.h:71-79: the loop is left where an iterator throws, its flag stays *)
Fixpoint fmerge_advance (mn : N) (l : list (fsrc * bool)) : list (fsrc * bool) * bool :=
  match l with
  | [] => ([], true)
  | (s, true) :: t =>
      let '(s, ok) := fsrc_next mn s in
      if ok then let '(t, ok) := fmerge_advance mn t in ((s, false) :: t, ok)
      else ((s, true) :: t, false)
  | (s, false) :: t => let '(t, ok) := fmerge_advance mn t in ((s, false) :: t, ok)
  end.

(* merge_iterator.h:84-110, as merge_scan *)
Fixpoint fmerge_scan (done todo : list (fsrc * bool)) (cl : bool) (mn : option (nat * event))
  : list (fsrc * bool) * option (nat * event) :=
  match todo with
  | [] => (done, mn)
  | (s, adv0) :: t =>
      let adv := if cl then false else adv0 in
      match fsrc_at s with
      | None => fmerge_scan (done ++ [(s, adv)]) t cl mn
      | Some row =>
          match mn with
          | None => fmerge_scan (done ++ [(s, true)]) t cl (Some (length done, row))
          | Some (_, m) =>
              let rc := compare m row in
              if (rc =? 0)%Z then fmerge_scan (done ++ [(s, true)]) t cl mn
              else if (0 <? rc)%Z then
                fmerge_scan (map (fun s : fsrc * bool => (fst s, false)) done ++ [(s, true)]) t true (Some (length done, row))
              else fmerge_scan (done ++ [(s, adv)]) t cl mn
          end
      end
  end.

(* merge_iterator.h:67-112; after a throw current is what it was *)
Definition fmerge_next (mn : N) (m : fmerge) : fmerge * bool :=
  let '(l, ok) := fmerge_advance mn (fm_list m) in
  if ok then
    let '(l, r) := fmerge_scan [] l false None in
    (mk_fmerge l (match r with Some (i, _) => Some i | None => None end), true)
  else (mk_fmerge l (fm_current m), false).

(* merge_iterator.h:59-65 *)
Definition fmerge_at (m : fmerge) : option event :=
  match fm_current m with
  | None => None
  | Some i => match nth_error (fm_list m) i with
              | Some (s, _) => fsrc_at s
              | None => None
              end
  end.

(* part_cursor.h:27-55: the iterator of the file is added after it was opened *)
Definition fpart_open (s : slice part) (key : option event) : res (fmerge * bool) :=
  let p := s_data s in
  do a <- memtable_source (pt_mem p) key;
  do b <- memtable_source (pt_prev p) key;
  let l := map (fun l => (FMem l, false)) (a ++ b) in
  match pt_file p with
  | None => Ok (fmerge_next (s_min s) (mk_fmerge l None))
  | Some f =>
      match fiter_open (s_min s) f key with
      | None => Ok (mk_fmerge l None, false)
      | Some it => Ok (fmerge_next (s_min s) (mk_fmerge (l ++ [(FFile f it, false)]) None))
      end
  end.

Definition fcursor := option (slice part * fmerge)%type.
Definition fcursor_at (c : fcursor) : option event :=
  match c with None => None | Some (_, m) => fmerge_at m end.

(* engine_cursor.h:24-37; ref is set before the cursor of the partition is opened *)
Definition fcursor_open_part (m : mapping part) (mn : N) (key : option event) : res (fcursor * bool) :=
  do r <- engine_lock part_new m 1 mn true false;
  match snd r with
  | None => Ok (None, true)
  | Some z =>
      match zelem z with
      | None => UB
      | Some s => do r <- fpart_open s key; let '(fm, ok) := r in Ok (Some (s, fm), ok)
      end
  end.

(* engine_cursor.h:91-112 *)
Definition fcursor_next (m : mapping part) (c : fcursor) : res (fcursor * bool) :=
  match c with
  | None => Ok (None, true)
  | Some (s, fm) =>
      let '(fm, ok) := fmerge_next (s_min s) fm in
      if negb ok then Ok (Some (s, fm), false)
      else match fmerge_at fm with
           | Some _ => Ok (Some (s, fm), true)
           | None => fcursor_open_part m (add64 (s_max s) 1) None
           end
  end.

(* engine_cursor.h:42-58 *)
Definition fcursor_open (m : mapping part) (key : option event) : res (fcursor * bool) :=
  let mn := match key with Some k => ev_id k | None => 0%N end in
  do r <- fcursor_open_part m mn key;
  let '(c, ok) := r in
  if negb ok then Ok (c, false)
  else match c with
       | None => Ok (None, true)
       | Some (_, fm) => match fmerge_at fm with
                         | Some _ => Ok (c, true)
                         | None => fcursor_next m c
                         end
       end.

(* engine_cursor.h:114-125; None: more than [fuel] steps *)
Fixpoint fcursor_skip (fuel : nat) (m : mapping part) (c : fcursor) : res (option (fcursor * bool)) :=
  match fuel with
  | O => Ok None
  | S fuel =>
      match c with
      | None => Ok (Some (None, true))
      | Some _ =>
          let stop := match fcursor_at c with
                      | Some e => negb (event_is_delete e)
                      | None => false
                      end in
          if stop then Ok (Some (c, true))
          else do r <- fcursor_next m c;
               let '(c, ok) := r in
               if ok then fcursor_skip fuel m c else Ok (Some (c, false))
      end
  end.

(* monotone.c:245-259: 1, 0 or -1 *)
Definition fmonotone_next (fuel : nat) (m : mapping part) (c : fcursor) : res (option (fcursor * Z)) :=
  do r <- fcursor_next m c;
  let '(c, ok) := r in
  if negb ok then Ok (Some (c, (-1)%Z))
  else do r <- fcursor_skip fuel m c;
       Ok (match r with
           | None => None
           | Some (c, ok) => Some (c, if ok then match c with Some _ => 1%Z | None => 0%Z end else (-1)%Z)
           end).

(* monotone.c:210-243: the event read, None for 0. Nothing in it throws *)
Definition fmonotone_read (c : fcursor) : option event :=
  match fcursor_at c with
  | Some e => if event_is_delete e then None else Some e
  | None => None
  end.

(* monotone.c:167-208: Ok (Some None) is NULL *)
Definition fmonotone_cursor (fuel : nat) (m : mapping part) (key : option event) : res (option (option fcursor)) :=
  do r <- fcursor_open m key;
  let '(c, ok) := r in
  if negb ok then Ok (Some None)
  else do r <- fcursor_skip fuel m c;
       Ok (match r with
           | None => None
           | Some (c, ok) => Some (if ok then Some c else None)
           end).

(* a program that reads an event whenever monotone_next says 1, and asks again when it says -1 *)
Inductive told := Saw (e : event) | Nothing | Failed.
Fixpoint fread (n fuel : nat) (m : mapping part) (c : fcursor) : res (option (list told)) :=
  match n with
  | O => Ok None
  | S n =>
      do r <- fmonotone_next fuel m c;
      match r with
      | None => Ok None
      | Some (c, rc) =>
          if (rc =? 0)%Z then Ok (Some [])
          else
            let t := if (rc =? 1)%Z then match fmonotone_read c with Some e => Saw e | None => Nothing end else Failed in
            do l <- fread n fuel m c;
            Ok (match l with Some l => Some (t :: l) | None => None end)
      end
  end.
(* the whole program: None inside is a cursor that could not be opened *)
Definition fscan (fuel : nat) (m : mapping part) (key : option event) : res (option (option (list told))) :=
  do r <- fmonotone_cursor fuel m key;
  match r with
  | None => Ok None
  | Some None => Ok (Some None)
  | Some (Some c) =>
      match fmonotone_read c with
      | None => Ok (Some (Some []))
      | Some e =>
          do l <- fread fuel fuel m c;
          Ok (match l with Some l => Some (Some (Saw e :: l)) | None => None end)
      end
  end.
End Faulty.
