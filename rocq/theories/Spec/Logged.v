(* What a line of the log should be, and which messages fit into one. *)
From Coq Require Import NArith Arith String List Bool.
Import ListNotations.
From Verif Require Import Model.Base Model.Lex Model.Config Model.Logger.
Local Open Scope N_scope.

(* thousandths of a second and a space *)
Definition thousandths (usec : N) : list byte := [48 + usec / 100000; 48 + usec / 10000 mod 10; 48 + usec / 1000 mod 10; 32].
Definition line (t : moment) (prefix message : list byte) : list byte := mo_time t ++ thousandths (mo_usec t) ++ prefix ++ message.

(* a moment as the code meets it *)
Definition moment_ok (t : moment) : Prop :=
  List.length (mo_memory t) = 1024%nat /\ List.length (mo_time t) = 18%nat /\ mo_usec t < 1000000.

(* what goes to the log at a moment: nothing if it is off *)
Definition noted (lg : logger) (out : lines) (l : list byte) : lines :=
  if lg_enable lg then
    mk_lines (if lg_file lg then ln_file out ++ [l] else ln_file out) (if lg_stdout lg then ln_stdout out ++ [l] else ln_stdout out)
  else out.

(* the lines of the settings, in their order *)
Fixpoint print_all (lg : logger) (at_ : nat -> moment) (out : lines) (c : config) : lines :=
  match c with
  | [] => out
  | v :: c =>
    print_all lg at_
      (match visible v, var_text v with
       | true, Some m => noted lg out (line (at_ (List.length c)) [] m ++ [10])
       | _, _ => out
       end) c
  end.

(* the longest line among the settings *)
Definition widest (c : config) (n : nat) : Prop := exists v m, In v c /\ visible v = true /\ var_text v = Some m /\ List.length m = n.

(* a setting that is on *)
Definition switched (c : config) (name : list byte) : Prop := exists v, config_find c name = Some v /\ v_int v <> 0.

(* the greeting of an opening *)
Definition greeting (lg : logger) (at_ : nat -> moment) (out : lines) (c : config) : lines :=
  let n := List.length c in
  let out := noted lg out (line (at_ (3 + n)%nat) [] [] ++ [10]) in
  let out := noted lg out (line (at_ (2 + n)%nat) [] (chars "monotone.") ++ [10]) in
  let out := noted lg out (line (at_ (1 + n)%nat) [] [] ++ [10]) in
  noted lg (print_all lg at_ out c) (line (at_ n) [] [] ++ [10]).
