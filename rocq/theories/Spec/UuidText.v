(* The usual text of a uuid: groups of 8, 4, 4, 4 and 12 hexadecimal digits. *)
From Coq Require Import NArith List.
Import ListNotations.
From Verif Require Import Model.Base.
Local Open Scope N_scope.

Definition is_hex (c : byte) : Prop := 48 <= c <= 57 \/ 97 <= c <= 102 \/ 65 <= c <= 70.
Definition group (k : nat) (g : list byte) : Prop := length g = k /\ Forall is_hex g.
Definition uuid_text (s : list byte) : Prop :=
  exists g1 g2 g3 g4 g5, group 8 g1 /\ group 4 g2 /\ group 4 g3 /\ group 4 g4 /\ group 12 g5
    /\ s = g1 ++ [45] ++ g2 ++ [45] ++ g3 ++ [45] ++ g4 ++ [45] ++ g5.
