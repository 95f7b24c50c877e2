(* Values as a user thinks of them, and how they are laid out with the encode calls and read
   with the read calls. *)
From Coq Require Import NArith ZArith List Bool.
Import ListNotations.
From Verif Require Import Model.Base Model.Data.
Local Open Scope res_scope.

Inductive value :=
| VNull
| VBool (b : bool)
| VInt (z : Z)
| VReal (d : N)                      (* bit pattern of a double *)
| VStr (s : list byte)
| VArr (l : list value)
| VMap (l : list (value * value)).

(* a value as a caller of encode.h writes it *)
Fixpoint encode (v : value) : list byte :=
  match v with
  | VNull => data_write_null
  | VBool b => data_write_bool b
  | VInt z => data_write_integer (Z.to_N (z mod 2 ^ 64))
  | VReal d => data_write_real d
  | VStr s => data_write_raw s
  | VArr l => data_write_len MN_ARRAYV0 (N.of_nat (length l)) ++ flat_map encode l
  | VMap l => data_write_len MN_MAPV0 (N.of_nat (length l)) ++ flat_map (fun p => encode (fst p) ++ encode (snd p)) l
  end.

(* the same with the wide headers that are patched after the elements (json.c, engine_show.c) *)
Fixpoint encode_wide (v : value) : list byte :=
  match v with
  | VArr l => data_write_len32 MN_ARRAYV0 (N.of_nat (length l)) ++ flat_map encode_wide l
  | VMap l => data_write_len32 MN_MAPV0 (N.of_nat (length l))
              ++ flat_map (fun p => encode_wide (fst p) ++ encode_wide (snd p)) l
  | _ => encode v
  end.

(* reading a value whatever it is: the read call for its tag *)
Fixpoint list_of {A} (n : nat) (f : list byte -> res (A * list byte)) (l : list byte) : res (list A * list byte) :=
  match n with
  | O => Ok ([], l)
  | S n => do (a, l) <- f l ; do (r, l) <- list_of n f l ; Ok (a :: r, l)
  end.

Fixpoint decode_at (fuel : nat) (l : list byte) : res (value * list byte) :=
  match fuel with
  | O => UB
  | S fuel =>
    match l with
    | [] => UB
    | t :: _ =>
      if (t =? MN_NULL)%N then (do l <- data_read_null l ; Ok (VNull, l))
      else if is_bool t then (do (b, l) <- data_read_bool l ; Ok (VBool b, l))
      else if is_int t then (do (z, l) <- data_read_integer l ; Ok (VInt z, l))
      else if is_real t then (do (d, l) <- data_read_real l ; Ok (VReal d, l))
      else if is_string t then (do (s, l) <- data_read_raw l ; Ok (VStr s, l))
      else if is_array t then
        (do (n, l) <- data_read_len MN_ARRAYV0 l ;
         do (r, l) <- list_of (Z.to_nat n) (decode_at fuel) l ; Ok (VArr r, l))
      else if is_map t then
        (do (n, l) <- data_read_len MN_MAPV0 l ;
         do (r, l) <- list_of (Z.to_nat n)
                        (fun l => do (k, l) <- decode_at fuel l ; do (v, l) <- decode_at fuel l ; Ok ((k, v), l)) l ;
         Ok (VMap r, l))
      else Err
    end
  end.
Definition decode (l : list byte) : res (value * list byte) := decode_at (S (length l)) l.

Definition vbytes (s : list byte) : Prop := Forall (fun b => (b < 256)%N) s.

(* what the types of the calls allow: int64_t integers, int sizes and counts, doubles *)
Inductive value_ok : value -> Prop :=
| ok_null : value_ok VNull
| ok_bool b : value_ok (VBool b)
| ok_int z : (- 2 ^ 63 <= z < 2 ^ 63)%Z -> value_ok (VInt z)
| ok_real d : (d < 2 ^ 64)%N -> value_ok (VReal d)
| ok_str s : (N.of_nat (length s) < 2 ^ 31)%N -> value_ok (VStr s)
| ok_arr l : (N.of_nat (length l) < 2 ^ 31)%N -> Forall value_ok l -> value_ok (VArr l)
| ok_map l : (N.of_nat (length l) < 2 ^ 31)%N -> Forall (fun p => value_ok (fst p) /\ value_ok (snd p)) l -> value_ok (VMap l).

(* no real in it that a float cannot hold exactly *)
Inductive exact_reals : value -> Prop :=
| ex_null : exact_reals VNull
| ex_bool b : exact_reals (VBool b)
| ex_int z : exact_reals (VInt z)
| ex_real d : (fits_float d = true -> (d mod 2 ^ 29 = 0)%N) -> exact_reals (VReal d)
| ex_str s : exact_reals (VStr s)
| ex_arr l : Forall exact_reals l -> exact_reals (VArr l)
| ex_map l : Forall (fun p => exact_reals (fst p) /\ exact_reals (snd p)) l -> exact_reals (VMap l).
