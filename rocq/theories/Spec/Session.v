(* Sessions: which histories are considered. *)
From Coq Require Import NArith ZArith String List Bool.
Import ListNotations.
From Verif Require Import Model.Base Model.Lex Model.Uuid Model.Source Model.Config Model.Catalog Model.Startup Model.Parse Model.Session
  Spec.Value Spec.JsonText Spec.Settings Spec.Catalog Spec.Command.

(* strings that config.json can carry: what is between the quotes ends where it should *)
Definition carried (s : list byte) : Prop := closed false s = true /\ (N.of_nat (length s) < 2 ^ 31)%N.
Definition token_carried (t : token) : Prop :=
  match t_val t with
  | TStr s _ => carried s
  | TInt n => (n < 2 ^ 63 - 48)%N
  | _ => True
  end.
Definition few (v : view) : Prop :=
  (N.of_nat (length (vw_clouds v)) < 2 ^ 31)%N /\ (N.of_nat (length (vw_storages v)) < 2 ^ 31)%N /\ (N.of_nat (length (vw_tiers v)) < 2 ^ 31)%N.

(* a table of settings before a start: the variables of the program *)
Definition table (d : config) : Prop := same_shape d defaults /\ Forall (fun v => (v_int v < 2 ^ 64)%N) d.
(* before the first start: with values that can be saved *)
Definition table_for_start (d : config) : Prop :=
  table d /\ saves d /\ uuid_from_string (var_bytes d "uuid") <> None /\
  var_bytes d "clouds" = [] /\ var_bytes d "storages" = [] /\ var_bytes d "pipeline" = [].

Section SESSION.
Variable strtod : list byte -> option (N * nat).
Variable fmt_real : N -> list byte.
Notation say := (say strtod fmt_real).
Notation deploy := (deploy strtod fmt_real).

(* a text is said: its strings and numbers can be carried, a storage that two tiers use is not renamed *)
Definition sayable (u : uuid) (key : list byte) (s : session) (text : list byte) : Prop :=
  (u_a u < 2 ^ 64)%N /\ (u_b u < 2 ^ 64)%N /\ carried key /\
  forall ts, tokens strtod text ts -> Forall token_carried (with_units ts) /\
    forall c, sentence (env_of (se_cfg s) u key) (with_units ts) (Some (CmdCatalog c)) -> once (se_cat s) c.

Inductive reached : session -> Prop :=
| new w d old s : table_for_start d -> deploy w d (mk_cdir None old) = Ok s -> reached s
| said w u key s text s' ok : reached s -> sayable u key s text -> say w u key s text = Ok (s', ok) ->
    (ok = false -> se_cat s' = se_cat s) -> few (view_of (se_cat s')) -> reached s'
| moved s name l : reached s -> reached (parts s name l)
| again w d s s' : reached s -> table d -> deploy w d (se_dir s) = Ok s' -> reached s'.
End SESSION.

(* what is kept of a table of settings: every value but those of this run, and the catalog *)
Definition kept_settings (s : session) : list (list byte * value) :=
  settings (filter (fun v => negb (ephemeral v) && match v_type v with VAR_DATA => false | _ => true end) (se_cfg s)).
