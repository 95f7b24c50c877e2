(* What memory pages and blocks are for. *)
From Coq Require Import NArith ZArith List Bool.
Import ListNotations.
From Verif Require Import Model.Base Model.Alloc.

(* pages in the hands of the heaps *)
Definition used_pages (s : sys) : list N := flat_map (map fst) (sy_heaps s).
(* every page there is *)
Definition all_pages (s : sys) : list N := used_pages s ++ mm_free (sy_mgr s).

(* sizes are non-negative ints, mmap gives a page that is not in use *)
Definition sop_fine (s : sys) (o : sop) : Prop :=
  match o with
  | SAlloc _ size mmap => (0 <= size < 2 ^ 31)%Z /\ forall p, mmap = Some p -> ~ In p (all_pages s)
  | _ => True
  end.
Fixpoint hist_fine (s : sys) (l : list sop) : Prop :=
  match l with
  | [] => True
  | o :: l => sop_fine s o /\ match sstep s o with Some s => hist_fine s l | None => True end
  end.
(* no mmap fails *)
Fixpoint all_mapped (l : list sop) : Prop :=
  match l with
  | [] => True
  | SAlloc _ _ None :: _ => False
  | _ :: l => all_mapped l
  end.

Definition inside (psize : Z) (b : block) : Prop := (0 <= bk_off b /\ bk_off b + bk_size b <= psize)%Z.
Definition separate (a b : block) : Prop :=
  bk_page a <> bk_page b \/ (bk_off a + bk_size a <= bk_off b)%Z \/ (bk_off b + bk_size b <= bk_off a)%Z.
