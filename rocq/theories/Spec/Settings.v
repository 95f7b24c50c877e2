(* Settings as a user thinks of them: a value for every name. *)
From Coq Require Import NArith ZArith List Bool.
Import ListNotations.
From Verif Require Import Model.Base Model.Data Model.Lex Model.Config Spec.Value Spec.JsonText.

(* the value of a variable; data that was never set is null *)
Definition setting (v : var) : value :=
  match v_type v with
  | VAR_BOOL => VBool (negb (v_int v =? 0)%N)
  | VAR_INT => VInt (i64_of_u64 (v_int v))
  | VAR_STRING => VStr (v_str v)
  | VAR_DATA => match decode (v_str v) with Ok (x, _) => x | _ => VNull end
  end.
Definition settings (c : config) : list (list byte * value) := map (fun v => (v_name v, setting v)) c.

(* not kept across restarts *)
Definition ephemeral (v : var) : bool := N.testbit (v_flags v) 4.
(* may be set before the start; may be set while running; not shown; secret; never zero *)
Definition at_start (v : var) : bool := N.testbit (v_flags v) 0.
Definition at_run (v : var) : bool := N.testbit (v_flags v) 1.
Definition hidden (v : var) : bool := N.testbit (v_flags v) 2.
Definition secret (v : var) : bool := N.testbit (v_flags v) 3.
Definition nonzero (v : var) : bool := N.testbit (v_flags v) 5.

(* the same variables, with other values *)
Definition shape (v : var) := (v_name v, v_type v, v_flags v).
Definition same_shape (c d : config) : Prop := map shape c = map shape d.

(* [c] was saved and is read into [d] *)
Definition restored (c d : config) : list (list byte * value) :=
  map (fun p => (v_name (fst p), setting (if ephemeral (fst p) then snd p else fst p))) (combine c d).

(* a table of variables: names are distinct and fit between quotes, and what is kept can be given
   at the start *)
Definition table_ok (c : config) : Prop :=
  NoDup (map v_name c) /\
  Forall (fun v => json_ok (VStr (v_name v)) /\ (ephemeral v = false -> at_start v = true)) c /\
  (N.of_nat (length c) < 2 ^ 31)%N.

(* the value has a JSON text that reads back *)
Definition savable (v : var) : Prop :=
  (v_int v < 2 ^ 64)%N /\ json_ok (setting v) /\
  (v_type v = VAR_DATA -> v_str v = [] \/ exists x, json_ok x /\ (v_str v = encode x \/ v_str v = encode_wide x)).
Definition saves (c : config) : Prop := Forall (fun v => ephemeral v = false -> savable v) c.

(* the value a token stands for, for a variable of a type *)
Definition token_value (t : vtype) (tok : token) : option value :=
  match t, t_val tok with
  | VAR_BOOL, _ => if (t_id tok =? KTRUE)%N then Some (VBool true) else if (t_id tok =? KFALSE)%N then Some (VBool false) else None
  | VAR_INT, TInt n => if (t_id tok =? KINT)%N then Some (VInt (i64_of_u64 n)) else None
  | VAR_STRING, TStr s _ => if (t_id tok =? KSTRING)%N then Some (VStr s) else None
  | _, _ => None
  end.
(* SET is allowed *)
Definition allowed (online : bool) (v : var) (tok : token) : Prop :=
  secret v = false /\ (if online then at_run v = true else at_start v = true) /\
  exists x, token_value (v_type v) tok = Some x /\ (nonzero v = true -> v_type v = VAR_INT -> x <> VInt 0).
(* integers of tokens are 64 bits *)
Definition token_ok (tok : token) : Prop := match t_val tok with TInt n => (n < 2 ^ 64)%N | _ => True end.
(* one name gets a value *)
Definition assign (name : list byte) (x : value) (l : list (list byte * value)) : list (list byte * value) :=
  map (fun p => if same_bytes (fst p) name then (fst p, x) else p) l.
Definition value_at (l : list (list byte * value)) (name : list byte) : option value :=
  option_map snd (find (fun p => same_bytes (fst p) name) l).
