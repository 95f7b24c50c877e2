(* What a record of calls and answers says about handles and directories.  Only the names of the calls and of the
   answers are taken from the model. *)
From Coq Require Import List NArith.
From Verif Require Import Model.Opening.
Import ListNotations.
Local Open Scope N_scope.

(* for a handle that is in use: the process that made it, and its openings with their answers, the last first *)
Definition past : Type := N -> option (N * list (N * ret)).
Definition set_past (m : past) (h : N) (x : option (N * list (N * ret))) : past :=
  fun k => if N.eq_dec k h then x else m k.
Definition note (m : past) (x : call * ret) : past :=
  match x with
  | (Init p h, _) => set_past m h (Some (p, []))
  | (Open h d _ _, r) =>
    set_past m h (match m h with Some (p, l) => Some (p, (d, r) :: l) | None => None end)
  | (Free h, _) => set_past m h None
  | (Exit p, _) =>
    fun k => match m k with Some (q, l) => if N.eq_dec q p then None else Some (q, l) | None => None end
  | _ => m
  end.
Definition history (t : list (call * ret)) : past := fold_left note t (fun _ => None).

(* the handle is in use, and the last opening through it was that of d, answered by 0 *)
Definition open_in (t : list (call * ret)) (h d : N) : Prop :=
  exists p l, history t h = Some (p, (d, Done) :: l).

(* the handle a call is made through *)
Definition caller (c : call) : option N :=
  match c with
  | Init _ h | Open h _ _ _ | Cloud h _ | Storage h _ | Write h | Rotate h | Gc h _ | Free h => Some h
  | Exit _ => None
  end.

(* a program with care: each handle is opened once, and used only when that has been answered by 0 *)
Definition careful_call (m : past) (c : call) : Prop :=
  match c with
  | Open h _ _ _ => exists p, m h = Some (p, [])
  | Cloud h _ | Storage h _ | Write h | Rotate h | Gc h _ => exists p d, m h = Some (p, [(d, Done)])
  | Init _ _ | Free _ | Exit _ => True
  end.
Fixpoint careful_from (m : past) (t : list (call * ret)) : Prop :=
  match t with
  | [] => True
  | (c, r) :: l => careful_call m c /\ careful_from (note m (c, r)) l
  end.
Definition careful (t : list (call * ret)) : Prop := careful_from (fun _ => None) t.

(* what SHOW answers of a handle, against config.json: uuid, clouds, storages (main may be missing in the file) *)
Definition agrees (e : env) (c : conf) : Prop :=
  e_uuid e = Some (c_uuid c) /\
  e_clouds e = c_clouds c /\
  (e_storages e = c_storages c \/ (~ In 0 (c_storages c) /\ e_storages e = c_storages c ++ [0])).

Definition tidy (f : folder) : Prop :=
  match f_conf f with Some c => NoDup (c_clouds c) /\ NoDup (c_storages c) | None => True end.

(* the records of the WAL of a directory *)
Definition wal_of (w : world) (d : N) : list (N * list N) :=
  match get d (w_dirs w) with Some f => match f_wal f with Some l => l | None => [] end | None => [] end.
Definition top (files : list (N * list N)) : N := fold_right N.max 0 (flat_map snd files).
(* the first name is the first lsn a file may hold: no file is ahead of the records, but for an empty one *)
Definition in_step (files : list (N * list N)) : Prop :=
  NoDup (map fst files) /\
  forall id b, In (id, b) files -> id <= top files + 1 /\ (id = top files + 1 -> b = []).
(* files stay, with all they had *)
Definition extends (a b : list (N * list N)) : Prop :=
  forall id x, In (id, x) a -> exists y, In (id, x ++ y) b.
Definition is_gc (c : call) : Prop := match c with Gc _ _ => True | _ => False end.
