(* Lists as they are meant: for every head the elements in their order; no pointers. *)
From Coq Require Import NArith List Bool.
Import ListNotations.
From Verif Require Import Model.Links.

Local Open Scope N_scope.

Definition lists := list (N * list N).
(* every address in use: the heads and the elements *)
Definition nodes (ls : lists) : list N := flat_map (fun r => fst r :: snd r) ls.
Definition unused (ls : lists) (x : N) : bool := negb (existsb (N.eqb x) (nodes ls)).
Fixpoint get (ls : lists) (a : N) : option (list N) :=
  match ls with
  | [] => None
  | (b, xs) :: ls => if b =? a then Some xs else get ls a
  end.
Definition change (ls : lists) (a : N) (g : list N -> list N) : lists :=
  map (fun r => (fst r, if fst r =? a then g (snd r) else snd r)) ls.
Definition forget (ls : lists) (a : N) : lists := filter (fun r => negb (fst r =? a)) ls.
Definition without (x : N) (xs : list N) : list N := filter (fun y => negb (y =? x)) xs.
Definition in_list (ls : lists) (x : N) : bool := existsb (fun r => existsb (N.eqb x) (snd r)) ls.

Definition keeps (f : N -> fate) (x : N) : bool := match f x with Keep => true | _ => false end.
Definition goes (f : N -> fate) (b x : N) : bool := match f x with Shift c => c =? b | _ => false end.
(* elements go to lists that there are, and not to the one that the loop is over *)
Definition sound (ls : lists) (a : N) (f : N -> fate) (xs : list N) : bool :=
  forallb (fun x => match f x with Shift b => negb (b =? a) && match get ls b with Some _ => true | None => false end | _ => true end) xs.
Definition joined (f : N -> fate) (xs : list N) (ls : lists) : lists :=
  map (fun r => (fst r, snd r ++ filter (goes f (fst r)) xs)) ls.
Definition after (x : N) (xs : list N) : list N :=
  (fix go xs := match xs with [] => [] | y :: xs => if y =? x then xs else go xs end) xs.

(* None: not allowed *)
Definition act (ls : lists) (o : op) : option (lists * answer) :=
  match o with
  | Init a => if unused ls a then Some ((a, []) :: ls, None_) else None
  | Drop a => match get ls a with Some _ => Some (forget ls a, None_) | None => None end
  | Write x _ => if unused ls x then Some (ls, None_) else None
  | Append a x =>
    match get ls a with
    | Some _ => if unused ls x then Some (change ls a (fun xs => xs ++ [x]), None_) else None
    | None => None
    end
  | Push a x =>
    match get ls a with
    | Some _ => if unused ls x then Some (change ls a (cons x), None_) else None
    | None => None
    end
  | Unlink x => if in_list ls x then Some (map (fun r => (fst r, without x (snd r))) ls, None_) else None
  | Pop a =>
    match get ls a with
    | Some (x :: xs) => Some (change ls a (fun _ => xs), Addr x)
    | Some [] => Some (ls, Addr a)
    | None => None
    end
  | Fetch a p =>
    match get ls a with
    | Some xs =>
      match find p xs with
      | Some x => Some (change ls a (without x), Addrs (firstn (length xs - length (after x xs)) xs))
      | None => Some (ls, Addrs xs)
      end
    | None => None
    end
  | Sweep a f =>
    match get ls a with
    | Some xs => if sound ls a f xs then Some (change (joined f xs ls) a (fun _ => filter (keeps f) xs), Addrs xs) else None
    | None => None
    end
  | Drain a f =>
    match get ls a with
    | Some xs => if sound ls a f xs then Some (joined f xs (forget ls a), Addrs xs) else None
    | None => None
    end
  | Empty a => match get ls a with Some xs => Some (ls, Bool (match xs with [] => true | _ => false end)) | None => None end
  | Is_last a x =>
    match get ls a with
    | Some xs => if existsb (N.eqb x) xs then Some (ls, Bool (match after x xs with [] => true | _ => false end)) else None
    | None => None
    end
  | Walk a => match get ls a with Some xs => Some (ls, Addrs xs) | None => None end
  | Back a => match get ls a with Some xs => Some (ls, Addrs (rev xs)) | None => None end
  | After a x =>
    match get ls a with
    | Some xs => if existsb (N.eqb x) xs then Some (ls, Addrs (after x xs)) else None
    | None => None
    end
  end.
Fixpoint act_all (ls : lists) (os : list op) : option (lists * list answer) :=
  match os with
  | [] => Some (ls, [])
  | o :: os =>
    match act ls o with
    | Some (ls, r) => match act_all ls os with Some (ls, rs) => Some (ls, r :: rs) | None => None end
    | None => None
    end
  end.

(* the iterators that are attached to each memtable, in the order in which they were opened. None: an
   iterator that is not made, or is opened while it is attached *)
Definition attached := list (N * list N).
Definition iact (ts : attached) (made : list N) (o : iop) : option (attached * list N) :=
  let new x := unused ts x && negb (existsb (N.eqb x) made) in
  match o with
  | Table m => if new m then Some ((m, []) :: ts, made) else None
  | New i => if new i then Some (ts, i :: made) else None
  | Open i m at_end attach =>
    match get ts m with
    | Some _ => if existsb (N.eqb i) made && negb (in_list ts i)
                then Some (if negb at_end && attach then change ts m (fun l => l ++ [i]) else ts, made) else None
    | None => None
    end
  | Close i => if existsb (N.eqb i) made then Some (map (fun r => (fst r, without i (snd r))) ts, made) else None
  end.
Fixpoint iact_all (ts : attached) (made : list N) (os : list iop) : option (attached * list N) :=
  match os with
  | [] => Some (ts, made)
  | o :: os => match iact ts made o with Some (ts, made) => iact_all ts made os | None => None end
  end.
