(* Exceptions and guards as they are meant: blocks within blocks, no stacks of pointers. *)
From Coq Require Import Arith List Bool.
Import ListNotations.
From Verif Require Import Model.Except.

Inductive ends := Done | Returned | Thrown.
Definition ran (fs : list nat) : list seen := map Ran fs.

(* the guards that are set, block by block up to the enter *)
Definition take_off (frames : list (list nat)) : option (nat * list (list nat)) :=
  (fix go frames := match frames with
   | [] => None
   | (f :: fs) :: rest => Some (f, fs :: rest)
   | [] :: rest => match go rest with Some (f, rest) => Some (f, [] :: rest) | None => None end
   end) frames.

(* the end of a block: its guards are run, the last one first *)
Definition close (r : option (ends * list (list nat) * list seen)) : option (ends * list (list nat) * list seen) :=
  match r with
  | Some (o, fs :: rest, t) => Some (o, rest, t ++ ran fs)
  | _ => None
  end.

(* None: unguard without a guard, a return that leaves out a leave, a throw between an exception and
   its leave, a guard that throws *)
Fixpoint sem (p : prog) (frames : list (list nat)) : option (ends * list (list nat) * list seen) :=
  match p with
  | Skip => Some (Done, frames, [])
  | Seq p q =>
    match sem p frames with
    | Some (Done, frames, t) => match sem q frames with Some (o, frames, u) => Some (o, frames, t ++ u) | None => None end
    | r => r
    end
  | Do a => Some (Done, frames, [Did a])
  | Guard f 0 => match frames with fs :: rest => Some (Done, (f :: fs) :: rest, [Set_ f]) | [] => None end
  | Guard _ _ => None
  | Unguard => match take_off frames with Some (f, frames) => Some (Done, frames, [Off f]) | None => None end
  | Block p => close (sem p ([] :: frames))
  | Call p => match close (sem p ([] :: frames)) with Some (Returned, frames, t) => Some (Done, frames, t) | r => r end
  | Return => Some (Returned, frames, [])
  | Throw => Some (Thrown, frames, [])
  | Try p mid handler =>
    match close (sem p [[]]) with
    | Some (Returned, _, _) | None => None
    | Some (o, _, t) =>
      (* mid leaves no guard *)
      match sem mid [[]] with
      | Some (Done, [[]], u) =>
        match o with
        | Thrown => match close (sem handler ([] :: frames)) with Some (o, frames, v) => Some (o, frames, t ++ u ++ v) | None => None end
        | _ => Some (Done, frames, t ++ u)
        end
      | _ => None
      end
    end
  end.

(* what is seen of guards: every one that is set is run or taken off, once, the last one first *)
Fixpoint nested (stack : list nat) (t : list seen) : Prop :=
  match t with
  | [] => stack = []
  | Did _ :: t => nested stack t
  | Set_ f :: t => nested (f :: stack) t
  | Off f :: t | Ran f :: t => match stack with g :: stack => g = f /\ nested stack t | [] => False end
  end.
