(* Programs of threads with locks: what is expected of them and of the locks. *)
From Coq Require Import NArith ZArith Arith List Bool.
Import ListNotations.
From Verif Require Import Model.Locks.

Definition reached (progs : list (list act)) (s : sys) : Prop := exists l, moves (start progs) l = Some s.
(* thread [t] has taken lock [l] and not given it back *)
Definition holds (s : sys) (t l : nat) : Prop := exists x, nth_error (s_threads s) t = Some x /\ In l (th_held x).
Definition shares (s : sys) (t : nat) : Prop := exists x, nth_error (s_threads s) t = Some x /\ 0 < th_shares x.
Definition excludes (s : sys) (t : nat) : Prop := exists x, nth_error (s_threads s) t = Some x /\ th_excl x = true.
Definition sleeps (s : sys) (t l : nat) : Prop :=
  exists x r, nth_error (s_threads s) t = Some x /\ th_mode x = Sleep /\ th_code x = Lock l :: r.
Definition finished (s : sys) : Prop := Forall (fun x => th_code x = []) (s_threads s).

(* no thread takes a lock it has, or gives back one it does not have *)
Fixpoint unnested (held : list nat) (c : list act) : Prop :=
  match c with
  | [] => True
  | Lock l :: r => ~ In l held /\ unnested (l :: held) r
  | Unlock l :: r => In l held /\ unnested (remove_one l held) r
  | _ :: r => unnested held r
  end.
(* locks are taken in increasing order; the control lock is taken exclusively with empty hands;
   everything is given back *)
Fixpoint orderly (held : list nat) (shares : nat) (excl : bool) (c : list act) : Prop :=
  match c with
  | [] => held = [] /\ shares = 0 /\ excl = false
  | Lock l :: r => excl = false /\ Forall (fun h => h < l) held /\ orderly (l :: held) shares excl r
  | Unlock l :: r => In l held /\ orderly (remove_one l held) shares excl r
  | Share :: r => excl = false /\ orderly held (S shares) excl r
  | Unshare :: r => 0 < shares /\ orderly held (pred shares) excl r
  | Exclude :: r => held = [] /\ shares = 0 /\ excl = false /\ orderly held shares true r
  | Unexclude :: r => excl = true /\ orderly held shares false r
  end.
(* a lock is held only together with a share of the control lock *)
Fixpoint covered (held : list nat) (shares : nat) (c : list act) : Prop :=
  (held = [] \/ 0 < shares) /\
  match c with
  | [] => True
  | Lock l :: r => covered (l :: held) shares r
  | Unlock l :: r => covered (remove_one l held) shares r
  | Share :: r => covered held (S shares) r
  | Unshare :: r => covered held (pred shares) r
  | _ :: r => covered held shares r
  end.
(* the partitions of a batch are all different; they come in increasing order *)
Definition apart (c : call) : Prop := match c with Write parts => NoDup parts | _ => True end.
Fixpoint increasing (l : list nat) : Prop := match l with [] => True | a :: r => Forall (fun b => a < b) r /\ increasing r end.
Definition in_order (c : call) : Prop := match c with Write parts => increasing parts | _ => True end.
(* thread [t] has its next wish granted *)
Definition goes_on (s : sys) (t : nat) : Prop :=
  exists s' x y a, step s t = Some s' /\ nth_error (s_threads s) t = Some x /\ nth_error (s_threads s') t = Some y /\ th_code x = a :: th_code y.
(* whatever happens next, the programs do not end *)
Definition stuck (s : sys) : Prop := forall l s', moves s l = Some s' -> ~ finished s'.
