(* Commands given as texts, config.json and starts: C92. *)
From Coq Require Import NArith ZArith String List Bool.
Import ListNotations.
From Verif Require Import Model.Base Model.Lex Model.Uuid Model.Source Model.Config Model.Catalog Model.Startup Model.Parse Model.Session.
From Verif Require Import Spec.Value Spec.JsonText Spec.Settings Spec.Catalog Spec.Permitted Spec.Units Spec.Command Spec.Session.
From Verif Require Import Proof.ParseX Proof.SessionT Proof.SessionE Proof.SessionP.

(* A new database has the storage main and nothing else. *)
Theorem C92_starts : forall strtod fmt_real w d old, table_for_start d -> wo_mkdir w = true ->
  exists s u, deploy strtod fmt_real w d (mk_cdir None old) = Ok s /\ uuid_from_string (var_bytes d "uuid") = Some u /\
    view_of (se_cat s) = mk_view [] [main_source u (var_bytes d "compression") (Z.of_N (var_number d "compression_level"))] [].
Proof. exact starts. Qed.
Print Assumptions C92_starts.
Example C92_starts_example : table_for_start first_table /\ wo_mkdir fine_world = true /\
  deploy no_reals no_real_text fine_world first_table (mk_cdir None None) = Ok first_session.
Proof. split; [exact first_fit|]. split; vm_compute; reflexivity. Qed.

(* After any history of texts, changes of partitions and starts, the next start has the same clouds,
   storages and pipeline, and the same settings. *)
Theorem C92_restart : forall strtod fmt_real s w d, reached strtod fmt_real s -> table d -> wo_mkdir w = true ->
  exists s', deploy strtod fmt_real w d (se_dir s) = Ok s' /\ view_of (se_cat s') = view_of (se_cat s) /\ kept_settings s' = kept_settings s /\
    se_dir s' = se_dir s /\ consistent (se_cat s').
Proof. exact restarts. Qed.
Print Assumptions C92_restart.
Example C92_restart_example : reached no_reals no_real_text evening /\ table defaults /\
  deploy no_reals no_real_text fine_world defaults (se_dir evening) = Ok morning /\
  names (view_of (se_cat evening)) = ([chars "c"], [chars "main"; chars "hot"; chars "old"], [(chars "hot", 1%Z); (chars "old", (-1)%Z)]) /\
  names (view_of (se_cat morning)) = names (view_of (se_cat evening)) /\
  wal_wm first_session = Some (VInt 104857600) /\ wal_wm evening = Some (VInt 604800000000) /\ wal_wm morning = wal_wm evening.
Proof. exact day_kept. Qed.

(* A sentence about clouds, storages or the pipeline: it succeeds exactly if it is permitted, and
   then does what it says; if not, nothing is changed, but for a storage and its cloud. *)
Theorem C92_says : forall strtod fmt_real s w u key text ts c, reached strtod fmt_real s -> sayable strtod u key s text -> tokens strtod text ts ->
  sentence (env_of (se_cfg s) u key) (with_units ts) (Some (CmdCatalog c)) -> few (effect c (view_of (se_cat s))) ->
  (permitted w (se_cat s) c -> exists s', say strtod fmt_real w u key s text = Ok (s', true) /\ reached strtod fmt_real s' /\
     view_of (se_cat s') = effect c (view_of (se_cat s)) /\ kept_settings s' = kept_settings s) /\
  (~ permitted w (se_cat s) c -> exists s', say strtod fmt_real w u key s text = Ok (s', false) /\ se_dir s' = se_dir s /\
     (se_cat s' = se_cat s \/ exists n a e m, c = StorageAlter n a e /\ al_cloud a = Some m /\ m <> [])).
Proof. exact says. Qed.
Print Assumptions C92_says.
Example C92_says_example : exists ts, sayable no_reals new_id the_key evening (chars more) /\ tokens no_reals (chars more) ts /\
  ~ crowded (with_units ts) /\ ~ In dollar (with_units ts) /\
  sentence (env_of (se_cfg evening) new_id the_key) (with_units ts) (Some (CmdCatalog (StorageCreate more_storage false))) /\
  few (effect (StorageCreate more_storage false) (view_of (se_cat evening))) /\ permitted fine_world (se_cat evening) (StorageCreate more_storage false).
Proof. exact more_ok. Qed.

(* SET: it succeeds exactly if it is allowed; the one variable has the value, and has it after a
   start if it is kept. *)
Theorem C92_sets : forall strtod fmt_real s w u key text ts n tok, reached strtod fmt_real s -> sayable strtod u key s text -> tokens strtod text ts ->
  sentence (env_of (se_cfg s) u key) (with_units ts) (Some (CmdSet n tok)) ->
  (forall v, config_find (se_cfg s) n = Some v -> allowed true v tok -> exists s' x, say strtod fmt_real w u key s text = Ok (s', true) /\
     reached strtod fmt_real s' /\ token_value (v_type v) tok = Some x /\
     settings (se_cfg s') = assign n x (settings (se_cfg s)) /\ se_cat s' = se_cat s /\
     (ephemeral v = false -> forall w' d, table d -> wo_mkdir w' = true -> exists s2, deploy strtod fmt_real w' d (se_dir s') = Ok s2 /\
        value_at (settings (se_cfg s2)) n = Some x /\ view_of (se_cat s2) = view_of (se_cat s))) /\
  ((forall v, config_find (se_cfg s) n = Some v -> ~ allowed true v tok) -> say strtod fmt_real w u key s text = Ok (s, false)).
Proof. exact sets. Qed.
Print Assumptions C92_sets.
Example C92_sets_example : exists ts, sayable no_reals new_id the_key evening (chars setting_text) /\ tokens no_reals (chars setting_text) ts /\
  sentence (env_of (se_cfg evening) new_id the_key) (with_units ts) (Some (CmdSet (chars "compression_level") (mk_tok KINT (TInt 7)))) /\
  config_find (se_cfg evening) (chars "compression_level") = Some level_var /\ allowed true level_var (mk_tok KINT (TInt 7)) /\ ephemeral level_var = false.
Proof. exact setting_ok. Qed.

(* No text does anything undefined, and what is not a sentence does nothing. *)
Theorem C92_safe : forall strtod fmt_real s w u key text ts, reached strtod fmt_real s -> sayable strtod u key s text -> tokens strtod text ts ->
  ~ crowded (with_units ts) -> ~ In dollar (with_units ts) ->
  (forall c, sentence (env_of (se_cfg s) u key) (with_units ts) (Some (CmdCatalog c)) -> few (effect c (view_of (se_cat s)))) ->
  exists s' ok, say strtod fmt_real w u key s text = Ok (s', ok) /\
    ((forall c, ~ sentence (env_of (se_cfg s) u key) (with_units ts) c) -> s' = s /\ ok = false).
Proof. exact safe. Qed.
Print Assumptions C92_safe.
(* its hypotheses: C92_says_example; a text that is no sentence: *)
Example C92_safe_example : say no_reals no_real_text fine_world new_id the_key evening (chars "DROP STORAGE 'hot'") = Ok (evening, false).
Proof. vm_compute. reflexivity. Qed.

(* The empty text succeeds; it and sentences about partitions and others change neither settings nor catalog. *)
Theorem C92_silent : forall strtod fmt_real s w u key text ts o, tokens strtod text ts -> sentence (env_of (se_cfg s) u key) (with_units ts) o ->
  (forall n tok, o <> Some (CmdSet n tok)) -> (forall c, o <> Some (CmdCatalog c)) ->
  exists ok, say strtod fmt_real w u key s text = Ok (s, ok) /\ (o = None -> ok = true).
Proof. exact silent. Qed.
Print Assumptions C92_silent.
Example C92_silent_example : say no_reals no_real_text fine_world new_id the_key evening [] = Ok (evening, true) /\
  say no_reals no_real_text fine_world new_id the_key evening (chars "SERVICE") = Ok (evening, true).
Proof. split; vm_compute; reflexivity. Qed.

(* What a sentence takes from the settings: compression and its level for a new storage, the interval for partitions. *)
Theorem C92_asked : forall strtod fmt_real s u key, reached strtod fmt_real s -> exists c level interval,
  value_at (settings (se_cfg s)) (chars "compression") = Some (VStr c) /\
  value_at (settings (se_cfg s)) (chars "compression_level") = Some (VInt (i64_of_u64 level)) /\
  value_at (settings (se_cfg s)) (chars "interval") = Some (VInt (i64_of_u64 interval)) /\
  env_of (se_cfg s) u key = mk_env u key c (Z.of_N level) interval.
Proof. exact asked. Qed.
Print Assumptions C92_asked.
Example C92_asked_example : reached no_reals no_real_text evening /\
  env_of (se_cfg evening) new_id the_key = mk_env new_id the_key (chars "zstd") 0 3000000.
Proof. split; [exact evening_reached|vm_compute; reflexivity]. Qed.

(* A stop while config.json is written: the next start has the old settings or the new ones, or
   fails, or makes a new database with main alone. *)
Theorem C92_stop : forall strtod fmt_real s s' w d t ph st, reached strtod fmt_real s -> reached strtod fmt_real s' ->
  cd_file (se_dir s') = Some t -> In (ph, st) (config_save_states t (se_dir s)) -> table d -> wo_mkdir w = true ->
  match ph with
  | Before => exists s2, deploy strtod fmt_real w d st = Ok s2 /\ view_of (se_cat s2) = view_of (se_cat s) /\ kept_settings s2 = kept_settings s
  | Gone => table_for_start d -> exists s2 u, deploy strtod fmt_real w d st = Ok s2 /\ uuid_from_string (var_bytes d "uuid") = Some u /\
      view_of (se_cat s2) = mk_view [] [main_source u (var_bytes d "compression") (Z.of_N (var_number d "compression_level"))] []
  | Partial => deploy strtod fmt_real w d st = Err
  | Done => exists s2, deploy strtod fmt_real w d st = Ok s2 /\ view_of (se_cat s2) = view_of (se_cat s') /\ kept_settings s2 = kept_settings s'
  end.
Proof. exact stops. Qed.
Print Assumptions C92_stop.

Example C92_stop_example : exists t st, reached no_reals no_real_text first_session /\ reached no_reals no_real_text evening /\
  cd_file (se_dir evening) = Some t /\ nth_error (config_save_states t (se_dir first_session)) 7 = Some (Partial, st) /\
  deploy no_reals no_real_text fine_world defaults st = Err.
Proof.
  exists (match cd_file (se_dir evening) with Some t => t | None => [] end),
    (match nth_error (config_save_states (match cd_file (se_dir evening) with Some t => t | None => [] end) (se_dir first_session)) 7 with Some (_, st) => st | None => se_dir evening end).
  split; [exact first_reached|]. split; [exact evening_reached|]. split; [vm_compute; reflexivity|]. split; vm_compute; reflexivity.
Qed.

(* Texts with neither double quotes nor backslashes, and with smaller integers, can be said. *)
Theorem C92_plain : forall strtod text ts, tokens strtod text ts -> plain text -> (N.of_nat (List.length text) < 2 ^ 31)%N ->
  (forall n, In (mk_tok KINT (TInt n)) (with_units ts) -> (n < 2 ^ 63 - 48)%N) -> Forall token_carried (with_units ts).
Proof. exact plain_carried. Qed.
Print Assumptions C92_plain.

(* Other texts succeed, and the database cannot be started again. *)
Theorem C92_quote_refuted : exists s s', reached no_reals no_real_text s /\
  say no_reals no_real_text fine_world new_id the_key s (chars "SET compression TO 'a""b'") = Ok (s', true) /\
  deploy no_reals no_real_text fine_world defaults (se_dir s') = Err.
Proof. exact quote_said. Qed.
Print Assumptions C92_quote_refuted.
Theorem C92_integer_refuted : exists s s', reached no_reals no_real_text s /\
  say no_reals no_real_text fine_world new_id the_key s (chars "SET wal_rotate_wm TO 9223372036854775760") = Ok (s', true) /\
  deploy no_reals no_real_text fine_world defaults (se_dir s') = UB.
Proof. exact integer_said. Qed.
Print Assumptions C92_integer_refuted.
Theorem C92_renamed_refuted : exists s s', reached no_reals no_real_text s /\
  say no_reals no_real_text fine_world new_id the_key s (chars "ALTER STORAGE hot RENAME TO warm") = Ok (s', true) /\
  map tc_name (vw_tiers (view_of (se_cat s'))) = [chars "warm"; chars "cold"; chars "hot"] /\
  deploy no_reals no_real_text fine_world defaults (se_dir s') = Err.
Proof. exact renamed_said. Qed.
Print Assumptions C92_renamed_refuted.
(* A text fails, and a storage is changed; config.json is not. *)
Theorem C92_half_refuted : exists s s', reached no_reals no_real_text s /\ sayable no_reals new_id the_key s (chars halfway) /\
  say no_reals no_real_text fine_world new_id the_key s (chars halfway) = Ok (s', false) /\
  se_dir s' = se_dir s /\ view_of (se_cat s') <> view_of (se_cat s).
Proof. exact half_said. Qed.
Print Assumptions C92_half_refuted.
