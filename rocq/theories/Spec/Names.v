(* The names of files: twenty decimal digits and a word for the state. *)
From Coq Require Import NArith Arith List String.
Import ListNotations.
From Verif Require Import Model.Base Model.Lex Model.Names Spec.Units.
Local Open Scope N_scope.

Definition word (s : state) : string :=
  match s with
  | ID => "" | INCOMPLETE => ".incomplete" | COMPLETE => ".complete"
  | CLOUD => ".cloud" | CLOUD_INCOMPLETE => ".cloud.incomplete"
  end%string.

(* the name that the program gives *)
Definition own_name (min : N) (w : string) (name : list byte) : Prop :=
  exists ds, List.length ds = 20%nat /\ Forall digit ds /\ number ds = min /\ name = ds ++ chars w.

(* the names that the program takes for its own: any number of digits *)
Definition taken_for (min : N) (s : state) (name : list byte) : Prop :=
  exists ds, Forall digit ds /\ number ds mod 2 ^ 64 = min /\ name = ds ++ chars (word s).
Definition foreign (name : list byte) : Prop :=
  (exists t, name = 46 :: t) \/ forall min s, ~ taken_for min s name.

(* the state of a partition in a list *)
Fixpoint lookup (min : N) (parts : list (N * N)) : option N :=
  match parts with
  | [] => None
  | (m, st) :: rest => if m =? min then Some st else lookup min rest
  end.

(* the files of the log, in the order of the directory, among others *)
Inductive listing : list (list byte) -> list N -> Prop :=
| l_nil : listing [] []
| l_own id names ids : id < 2 ^ 64 - 1 -> listing names ids -> listing (wal_name id :: names) (id :: ids)
| l_hidden t names ids : listing names ids -> listing ((46 :: t) :: names) ids
| l_other name names ids :
    (forall ds r, Forall digit ds -> r = [] \/ (exists t, r = 46 :: t) -> name <> ds ++ r) ->
    listing names ids -> listing (name :: names) ids.
