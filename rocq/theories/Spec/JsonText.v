(* Values that JSON text can carry. *)
From Coq Require Import NArith ZArith List Bool.
Import ListNotations.
From Verif Require Import Model.Base Model.Data Spec.Value.

(* between quotes: no quote that is not after a backslash, and no backslash left at the end *)
Fixpoint closed (slash : bool) (s : list byte) : bool :=
  match s with
  | [] => negb slash
  | b :: t => if slash then closed false t
              else if (b =? 92)%N then closed true t
              else if (b =? 34)%N then false
              else closed false t
  end.

(* neither a double quote nor a backslash *)
Definition plain (s : list byte) : Prop := Forall (fun b => b <> 34%N /\ b <> 92%N) s.

Inductive json_ok : value -> Prop :=
| js_null : json_ok VNull
| js_bool b : json_ok (VBool b)
| js_int z : (Z.abs z < 2 ^ 63 - 48)%Z -> json_ok (VInt z)
| js_str s : closed false s = true -> (N.of_nat (length s) < 2 ^ 31)%N -> json_ok (VStr s)
| js_arr l : (N.of_nat (length l) < 2 ^ 31)%N -> Forall json_ok l -> json_ok (VArr l)
| js_map l : (N.of_nat (length l) < 2 ^ 31)%N ->
    Forall (fun p => (exists s, fst p = VStr s) /\ json_ok (fst p) /\ json_ok (snd p)) l -> json_ok (VMap l).

(* reals that are kept by the encoding, with a text that the exporter has room for *)
Inductive printable (fmt_real : N -> list byte) : value -> Prop :=
| pr_null : printable fmt_real VNull
| pr_bool b : printable fmt_real (VBool b)
| pr_int z : printable fmt_real (VInt z)
| pr_real d : (fits_float d = true -> (d mod 2 ^ 29 = 0)%N) -> length (fmt_real d) <= 31 -> printable fmt_real (VReal d)
| pr_str s : printable fmt_real (VStr s)
| pr_arr l : Forall (printable fmt_real) l -> printable fmt_real (VArr l)
| pr_map l : Forall (fun p => printable fmt_real (fst p) /\ printable fmt_real (snd p)) l -> printable fmt_real (VMap l).
