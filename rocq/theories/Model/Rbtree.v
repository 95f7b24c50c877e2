(* Red-black trees of /repo/monotone/runtime/lib/rbtree.c, rbtree.h.

   Nodes are linked by parent/left/right pointers in the code. A pointer to
   a node is modelled by the zipper of that node: the path from the
   node up to the root and the subtree at the node.
   [None] is undefined behaviour (null dereference, failed assert). *)
From Coq Require Import NArith ZArith List Bool.
Import ListNotations.
From Verif Require Import Model.Base.

(* rbtree.c:33-34; RBTREE_UNDEF (node not in a tree) does not occur inside a
   tree. *)
Inductive color := Red | Black.

Inductive tree (A : Type) : Type :=
| Leaf
| Node (c : color) (l : tree A) (x : A) (r : tree A).
Arguments Leaf {A}.
Arguments Node {A} c l x r.

(* the side on which the focused subtree hangs below its parent *)
Inductive side := L | R.

Record frame (A : Type) : Type := mk_frame {
  f_side  : side;
  f_color : color;
  f_elem  : A;
  f_sib   : tree A
}.
Arguments mk_frame {A} _ _ _ _.
Arguments f_side {A} _.
Arguments f_color {A} _.
Arguments f_elem {A} _.
Arguments f_sib {A} _.

(* head of the list: the parent of the focus; last: the root *)
Definition path (A : Type) := list (frame A).

Definition zipper (A : Type) := (path A * tree A)%type.

Definition up {A} (f : frame A) (t : tree A) : tree A :=
  match f_side f with
  | L => Node (f_color f) t (f_elem f) (f_sib f)
  | R => Node (f_color f) (f_sib f) (f_elem f) t
  end.

Fixpoint plug {A} (p : path A) (t : tree A) : tree A :=
  match p with
  | [] => t
  | f :: p' => plug p' (up f t)
  end.

Definition set_color {A} (c : color) (t : tree A) : tree A :=
  match t with
  | Leaf => Leaf
  | Node _ l x r => Node c l x r
  end.

Definition is_red {A} (t : tree A) : bool :=
  match t with
  | Node Red _ _ _ => true
  | _ => false
  end.

Fixpoint elements {A} (t : tree A) : list A :=
  match t with
  | Leaf => []
  | Node _ l x r => elements l ++ x :: elements r
  end.

(* rbtree.h:39-66 (macro rbtree_get): descends from the root; returns the
   last visited node and the last comparison result. The comparison is
   compare(node, key). *)
Fixpoint rb_get {A} (cmp : A -> Z) (t : tree A) (p : path A)
         (match_ : option (zipper A)) (rc : Z) : option (zipper A) * Z :=
  match t with
  | Leaf => (match_, rc)
  | Node c l x r =>
      let here := Some (p, t) in
      let rc := cmp x in
      if (rc <? 0)%Z then rb_get cmp r (mk_frame R c x l :: p) here rc
      else if (0 <? rc)%Z then rb_get cmp l (mk_frame L c x r :: p) here rc
      else (here, rc)
  end.

(* the int result of rbtree_get functions (int64_t rc; return rc) *)
Definition rbtree_get {A} (cmp : A -> Z) (t : tree A) : option (zipper A) * Z :=
  let '(z, rc) := rb_get cmp t [] None 0%Z in (z, i32_of_z rc).

(* rbtree.c:37-79: rotations at the root of the given subtree *)
Definition rotate_left {A} (t : tree A) : option (tree A) :=
  match t with
  | Node c a x (Node c' b y d) => Some (Node c' (Node c a x b) y d)
  | _ => None
  end.
Definition rotate_right {A} (t : tree A) : option (tree A) :=
  match t with
  | Node c (Node c' a x b) y d => Some (Node c' a x (Node c b y d))
  | _ => None
  end.

Definition obind {A B} (o : option A) (f : A -> option B) : option B :=
  match o with Some a => f a | None => None end.

(* rbtree.c:81-125 set_fixup. [n] is the subtree at node n, [p] its path.
   Returns the new tree with the root coloured black (line 124). *)
Fixpoint set_fixup {A} (p : path A) (n : tree A) : option (tree A) :=
  match p with
  | [] => Some (set_color Black n)
  | fp :: p1 =>
      match f_color fp with
      | Black => Some (set_color Black (plug p n))
      | Red =>
          match p1 with
          | [] => None                     (* g = NULL, g->l dereferenced *)
          | fg :: p2 =>
              match f_side fg with
              | L =>                       (* p == g->l, lines 88-104 *)
                  let u := f_sib fg in
                  if is_red u then
                    set_fixup p2
                      (Node Red (set_color Black (up fp n)) (f_elem fg)
                            (set_color Black u))
                  else
                    (* lines 96-100: n == p->r: rotate_left(p) *)
                    obind (match f_side fp with
                           | R => rotate_left (up fp n)
                           | L => Some (up fp n)
                           end) (fun pt =>
                    (* lines 101-103 *)
                    obind (rotate_right (Node Red (set_color Black pt)
                                              (f_elem fg) u)) (fun t =>
                    (* the loop condition is now false: the parent of n is black *)
                    Some (set_color Black (plug p2 t))))
              | R =>                       (* lines 105-121 *)
                  let u := f_sib fg in
                  if is_red u then
                    set_fixup p2
                      (Node Red (set_color Black u) (f_elem fg)
                            (set_color Black (up fp n)))
                  else
                    obind (match f_side fp with
                           | L => rotate_right (up fp n)
                           | R => Some (up fp n)
                           end) (fun pt =>
                    obind (rotate_left (Node Red u (f_elem fg)
                                             (set_color Black pt))) (fun t =>
                    Some (set_color Black (plug p2 t))))
              end
          end
      end
  end.

(* rbtree.c:127-144 rbtree_set(self, p, prel, n). The new node replaces the
   child pointer of p unconditionally: a subtree already there is dropped.
   assert(prel != 0) when p is not NULL. *)
Definition rbtree_set {A} (t : tree A) (p : option (zipper A)) (prel : Z) (x : A)
  : option (tree A) :=
  let n := Node Red Leaf x Leaf in
  match p with
  | None => set_fixup [] n
  | Some (pp, Node c l y r) =>
      if (prel =? 0)%Z then None
      else if (0 <? prel)%Z then set_fixup (mk_frame L c y r :: pp) n
      else set_fixup (mk_frame R c y l :: pp) n
  | Some (_, Leaf) => None
  end.

(* rbtree.c:297-317 *)
Fixpoint min_from {A} (p : path A) (t : tree A) : option (zipper A) :=
  match t with
  | Leaf => None
  | Node c Leaf x r => Some (p, t)
  | Node c l x r => min_from (mk_frame L c x r :: p) l
  end.
Fixpoint max_from {A} (p : path A) (t : tree A) : option (zipper A) :=
  match t with
  | Leaf => None
  | Node c l x Leaf => Some (p, t)
  | Node c l x r => max_from (mk_frame R c x l :: p) r
  end.
Definition rbtree_min {A} (t : tree A) := min_from [] t.
Definition rbtree_max {A} (t : tree A) := max_from [] t.

(* rbtree.c:331-333: climb while the node is the right child *)
Fixpoint climb_next {A} (p : path A) (n : tree A) : option (zipper A) :=
  match p with
  | [] => None
  | f :: p' =>
      match f_side f with
      | R => climb_next p' (up f n)
      | L => Some (p', up f n)
      end
  end.
(* rbtree.c:348-350 *)
Fixpoint climb_prev {A} (p : path A) (n : tree A) : option (zipper A) :=
  match p with
  | [] => None
  | f :: p' =>
      match f_side f with
      | L => climb_prev p' (up f n)
      | R => Some (p', up f n)
      end
  end.

(* rbtree.c:319-334 rbtree_next, for a node of the tree *)
Definition rbtree_next {A} (z : zipper A) : option (zipper A) :=
  match z with
  | (p, Node c l x (Node _ _ _ _ as r)) => min_from (mk_frame R c x l :: p) r
  | (p, n) => climb_next p n
  end.
(* rbtree.c:336-351 rbtree_prev *)
Definition rbtree_prev {A} (z : zipper A) : option (zipper A) :=
  match z with
  | (p, Node c (Node _ _ _ _ as l) x r) => max_from (mk_frame L c x r :: p) l
  | (p, n) => climb_prev p n
  end.

Definition zelem {A} (z : zipper A) : option A :=
  match snd z with
  | Leaf => None
  | Node _ _ x _ => Some x
  end.

(* rbtree.c:226-294: removal fixup loop. [n] is the (black or empty) subtree that
   is one black short, [p] its path. *)
Fixpoint remove_fixup {A} (p : path A) (n : tree A) : option (tree A) :=
  match p with
  | [] => Some (set_color Black n)                 (* n == root: line 228, 293 *)
  | fp :: p1 =>
      let pc := f_color fp in
      let px := f_elem fp in
      match f_side fp with
      | L =>
          (* lines 231-260; s = p->r *)
          match f_sib fp with
          | Leaf => None
          | Node sc sl sx sr =>
              (* lines 233-239: red sibling: recolour, rotate_left(p); n's new
                 parent is p (red) below s (black) *)
              let '(p1', pc', s) :=
                match sc with
                | Red => (mk_frame L Black sx sr :: p1, Red, sl)
                | Black => (p1, pc, Node sc sl sx sr)
                end in
              match s with
              | Leaf => None
              | Node sc2 sl2 sx2 sr2 =>
                  if (negb (is_red sl2) && negb (is_red sr2))%bool then
                    (* lines 240-247: s red; continue with n = p while black *)
                    let n' := Node pc' n px (Node Red sl2 sx2 sr2) in
                    match pc' with
                    | Red => Some (plug p1' (set_color Black n'))
                    | Black =>
                        (* pc' is Black only if the sibling was black *)
                        remove_fixup p1 n'
                    end
                  else
                    (* lines 248-254 *)
                    obind (if negb (is_red sr2)
                           then rotate_right (Node Red (set_color Black sl2) sx2 sr2)
                           else Some (Node sc2 sl2 sx2 sr2)) (fun s2 =>
                    match s2 with
                    | Leaf => None
                    | Node _ sl3 sx3 sr3 =>
                        (* lines 255-260 *)
                        obind (rotate_left
                                 (Node Black n px
                                       (Node pc' sl3 sx3 (set_color Black sr3))))
                              (fun t => Some (set_color Black (plug p1' t)))
                    end)
              end
          end
      | R =>
          (* lines 261-291; s = p->l *)
          match f_sib fp with
          | Leaf => None
          | Node sc sl sx sr =>
              let '(p1', pc', s) :=
                match sc with
                | Red => (mk_frame R Black sx sl :: p1, Red, sr)
                | Black => (p1, pc, Node sc sl sx sr)
                end in
              match s with
              | Leaf => None
              | Node sc2 sl2 sx2 sr2 =>
                  if (negb (is_red sl2) && negb (is_red sr2))%bool then
                    let n' := Node pc' (Node Red sl2 sx2 sr2) px n in
                    match pc' with
                    | Red => Some (plug p1' (set_color Black n'))
                    | Black => remove_fixup p1 n'
                    end
                  else
                    obind (if negb (is_red sl2)
                           then rotate_left (Node Red sl2 sx2 (set_color Black sr2))
                           else Some (Node sc2 sl2 sx2 sr2)) (fun s2 =>
                    match s2 with
                    | Leaf => None
                    | Node _ sl3 sx3 sr3 =>
                        obind (rotate_right
                                 (Node Black (Node pc' (set_color Black sl3) sx3 sr3)
                                       px n))
                              (fun t => Some (set_color Black (plug p1' t)))
                    end)
              end
          end
      end
  end.

(* rbtree.c:216-224 and the loop: [color] is the colour that left the tree *)
Definition remove_done {A} (p : path A) (n : tree A) (c : color) : option (tree A) :=
  match c with
  | Red => Some (plug p n)
  | Black =>
      if is_red n then Some (plug p (set_color Black n))
      else remove_fixup p n
  end.

(* rbtree.c:166-215 rbtree_remove of the node at the zipper *)
Definition rbtree_remove {A} (z : zipper A) : option (tree A) :=
  match z with
  | (_, Leaf) => None
  | (p, Node c Leaf x r) => remove_done p r c
  | (p, Node c l x Leaf) => remove_done p l c
  | (p, Node c l x r) =>
      (* the successor (minimum of r) takes the place and colour of the node *)
      match min_from [] r with
      | Some (q, Node c' _ y yr) =>
          remove_done (q ++ mk_frame R c y l :: p) yr c'
      | _ => None
      end
  end.

(* rbtree.c:146-164 rbtree_replace *)
Definition rbtree_replace {A} (z : zipper A) (y : A) : option (tree A) :=
  match z with
  | (p, Node c l _ r) => Some (plug p (Node c l y r))
  | (_, Leaf) => None
  end.
