(* Settings: C38, C60. *)
From Coq Require Import NArith ZArith String List Bool.
Import ListNotations.
From Verif Require Import Model.Base Model.Data Model.Json Model.Lex Model.Config Spec.Value Spec.JsonText Spec.Settings Proof.ConfigL Proof.ConfigE.

(* What was saved is what is read. *)
Theorem C38_saved : forall strtod fmt_real c d text old, table_ok c -> saves c -> same_shape c d -> config_text fmt_real c = Ok text ->
  exists c', config_open strtod fmt_real d (mk_cdir (Some text) old) = Ok (c', mk_cdir (Some text) old) /\
             same_shape c' d /\ settings c' = restored c d.
Proof. exact open_saved. Qed.
Print Assumptions C38_saved.

(* Every state that a crash while saving can leave, and the next start. *)
Theorem C38_crash : forall strtod fmt_real c0 c d0 t0 t old st ph dt,
  table_ok c0 -> saves c0 -> same_shape c0 d0 -> config_text fmt_real c0 = Ok t0 ->
  table_ok c -> saves c -> same_shape c d0 -> config_text fmt_real c = Ok t -> config_text fmt_real d0 = Ok dt ->
  In (ph, st) (config_save_states t (mk_cdir (Some t0) old)) ->
  match ph with
  | Before => cd_file st = Some t0 /\ exists c', config_open strtod fmt_real d0 st = Ok (c', st) /\ settings c' = restored c0 d0
  | Gone => cd_old st = Some t0 /\ config_open strtod fmt_real d0 st = Ok (d0, mk_cdir (Some dt) (Some t0))
  | Partial => cd_old st = Some t0 /\ config_open strtod fmt_real d0 st = Err
  | Done => exists c', config_open strtod fmt_real d0 st = Ok (c', st) /\ settings c' = restored c d0
  end.
Proof. exact crash_states. Qed.
Print Assumptions C38_crash.

(* Both windows are always there. *)
Theorem C38_window : forall t t0 old, t <> [] -> forall ph, exists st, In (ph, st) (config_save_states t (mk_cdir (Some t0) old)).
Proof. exact crash_all. Qed.
Print Assumptions C38_window.

(* A configuration with a storage; the next start after a crash does not know it. *)
Theorem C38_refuted : exists t ph st c', config_text no_real with_storage = Ok t /\ saves with_storage /\ table_ok with_storage /\
  In (ph, st) (config_save_states t (mk_cdir (Some t) None)) /\
  config_open no_strtod no_real defaults st = Ok (c', mk_cdir (Some (text_of_defaults no_real)) (cd_old st)) /\
  value_at (settings with_storage) (chars "storages") = Some (VArr [VMap [(VStr (chars "name"), VStr (chars "hot"))]]) /\
  value_at (settings c') (chars "storages") = Some VNull.
Proof. exact storage_forgotten. Qed.
Print Assumptions C38_refuted.

(* The variables of the code, as they are at start, meet the hypotheses. *)
Example C38_example : table_ok defaults /\ saves defaults /\ same_shape with_storage defaults.
Proof. exact defaults_ok. Qed.

(* SET changes that variable only. *)
Theorem C60_set : forall online c name tok c' save, token_ok tok -> NoDup (map v_name c) -> execute_set online c name tok = Ok (c', save) ->
  exists v x, config_find c name = Some v /\ token_value (v_type v) tok = Some x /\ save = (online && negb (ephemeral v)) /\
    same_shape c' c /\ settings c' = assign name x (settings c).
Proof. exact set_effect. Qed.
Print Assumptions C60_set.

(* It is accepted exactly when it is allowed. *)
Theorem C60_refused : forall online c name tok, token_ok tok ->
  ((exists r, execute_set online c name tok = Ok r) <-> exists v, config_find c name = Some v /\ allowed online v tok) /\
  execute_set online c name tok <> UB.
Proof. exact set_decided. Qed.
Print Assumptions C60_refused.

(* SHOW gives a text that reads as the value; strings are shown as they are. *)
Theorem C60_show : forall strtod fmt_real c name v, config_find c name = Some v -> secret v = false -> savable v ->
  exists text, show_name fmt_real c name = Ok text /\ json_parse strtod text = Ok (encode_wide (setting v)).
Proof. exact show_ok. Qed.
Print Assumptions C60_show.
Theorem C60_show_string : forall fmt_real c name v, config_find c name = Some v -> secret v = false -> v_type v = VAR_STRING ->
  (N.of_nat (length (v_str v)) < 2 ^ 31)%N -> show_name fmt_real c name = Ok (34%N :: v_str v ++ [34%N]).
Proof. exact show_string. Qed.
Print Assumptions C60_show_string.
(* A secret is not shown, as if there were no such name. *)
Theorem C60_show_secret : forall fmt_real c name,
  (config_find c name = None \/ exists v, config_find c name = Some v /\ secret v = true) -> show_name fmt_real c name = Err.
Proof. exact show_refused. Qed.
Print Assumptions C60_show_secret.
Example C60_show_secret_example : exists v, config_find [mk_var [107%N] VAR_STRING 8 0 [1%N]] [107%N] = Some v /\ secret v = true.
Proof. eexists. split; vm_compute; reflexivity. Qed.
(* SHOW CONFIG lists the variables that are neither hidden nor secret. *)
Theorem C60_show_config : forall strtod fmt_real c, table_ok c -> Forall (fun v => hidden v = false -> secret v = false -> savable v) c ->
  exists text, json_export fmt_real true (config_show c) = Ok (text, []) /\
    json_parse strtod text = Ok (encode_wide (VMap (map (fun p => (VStr (fst p), snd p))
      (settings (filter (fun v => negb (hidden v) && negb (secret v)) c))))).
Proof. exact show_all. Qed.
Print Assumptions C60_show_config.

(* What SET accepted and saved is there after a restart. *)
Theorem C60_saved : forall strtod fmt_real c name tok c' v x d d0,
  token_ok tok -> table_ok c -> saves c -> Forall (fun v => (v_int v < 2 ^ 64)%N) c -> same_shape c d0 ->
  cd_file d <> None -> execute_set true c name tok = Ok (c', true) ->
  config_find c name = Some v -> token_value (v_type v) tok = Some x -> json_ok x ->
  exists d' c2, config_save fmt_real c' d = Ok d' /\ config_open strtod fmt_real d0 d' = Ok (c2, d') /\
    settings c2 = restored c' d0 /\ value_at (settings c2) name = Some x.
Proof. exact set_restart. Qed.
Print Assumptions C60_saved.
Example C60_example : exists tok c' v x, token_ok tok /\ execute_set true defaults (chars "interval") tok = Ok (c', true) /\
  config_find defaults (chars "interval") = Some v /\ token_value (v_type v) tok = Some x /\ json_ok x /\ x = VInt 10.
Proof. exact interval_set. Qed.

(* A string with a double quote is accepted and saved, and the next start fails. *)
Theorem C60_quote_refuted : exists tok c' d', token_ok tok /\ tok = mk_tok KSTRING (TStr (chars "a" ++ [34%N] ++ chars "b") false) /\
  execute_set true defaults (chars "compression") tok = Ok (c', true) /\
  config_save no_real c' (mk_cdir (Some []) None) = Ok d' /\ config_open no_strtod no_real defaults d' = Err.
Proof. exact quote_lost. Qed.
Print Assumptions C60_quote_refuted.
(* An integer close to the largest is accepted and saved, and reading it overflows. *)
Theorem C60_integer_refuted : exists tok c' d', token_ok tok /\ tok = mk_tok KINT (TInt (2 ^ 63 - 48)) /\
  execute_set true defaults (chars "wal_rotate_wm") tok = Ok (c', true) /\
  config_save no_real c' (mk_cdir (Some []) None) = Ok d' /\ config_open no_strtod no_real defaults d' = UB.
Proof. exact integer_lost. Qed.
Print Assumptions C60_integer_refuted.
(* A zero that SET refuses is accepted from the file. *)
Theorem C60_zero_refuted : exists text d c', execute_set false defaults (chars "interval") (mk_tok KINT (TInt 0)) = Err /\
  d = mk_cdir (Some text) None /\ config_open no_strtod no_real defaults d = Ok (c', d) /\
  value_at (settings c') (chars "interval") = Some (VInt 0).
Proof. exact zero_loaded. Qed.
Print Assumptions C60_zero_refuted.
