(* Clouds, storages and the pipeline: C43, C44, C45, C69, C76. *)
From Coq Require Import NArith ZArith Arith String List Bool.
Import ListNotations.
From Verif Require Import Model.Base Model.Json Model.Lex Model.Uuid Model.Config Model.Source Model.Catalog Model.Startup.
From Verif Require Import Spec.Value Spec.JsonText Spec.Settings Spec.Catalog Spec.Permitted.
From Verif Require Import Proof.CatalogT Proof.CatalogX Proof.CatalogP.

(* After every history, with failed commands and restarts. *)
Theorem C43_always : forall c, reachable c -> sound c.
Proof. exact reachable_sound. Qed.
Print Assumptions C43_always.
Example C43_always_example : reachable (executes a_catalog unlinked) /\ length (ca_storages (executes a_catalog unlinked)) = 1.
Proof. split; [apply executes_reachable; [apply a_catalog_reachable|commands]|vm_compute; reflexivity]. Qed.

(* Every name refers to something, if no command failed half-way and no storage that two tiers use
   was renamed. *)
Theorem C43_careful : forall l c, consistent c -> careful c l -> consistent (executes c l).
Proof. exact careful_consistent. Qed.
Print Assumptions C43_careful.
Theorem C43_names : forall c, consistent c -> names_ok (view_of c).
Proof. exact consistent_names. Qed.
Print Assumptions C43_names.
Theorem C43_new : forall w id compression level c, catalog_open w id compression level [] [] [] = Ok c ->
  consistent c /\ exists u, uuid_from_string id = Some u /\ view_of c = mk_view [] [main_source u compression level] [].
Proof. exact new_consistent. Qed.
Print Assumptions C43_new.
Example C43_careful_example : consistent a_catalog /\ careful a_catalog usual /\
  map tc_name (vw_tiers (view_of (executes a_catalog usual))) = [chars "warm"; chars "main"].
Proof. exact (conj (proj1 usual_ok) (conj (proj1 (proj2 usual_ok)) (proj1 (proj2 (proj2 usual_ok))))). Qed.

(* What is used is not dropped, what is not used is. *)
Theorem C43_cloud_used : forall c n w e, consistent c -> n <> [] -> In n (map so_cloud (vw_storages (view_of c))) ->
  execute w c (CloudDrop n e) = (c, false).
Proof. exact drop_cloud_named. Qed.
Print Assumptions C43_cloud_used.
Theorem C43_cloud_free : forall c n w e, sound c -> In n (map cc_name (vw_clouds (view_of c))) ->
  ~ In n (map so_cloud (vw_storages (view_of c))) -> exists c', execute w c (CloudDrop n e) = (c', true).
Proof. exact drop_cloud_free. Qed.
Print Assumptions C43_cloud_free.
Theorem C43_storage_used : forall c n w e, sound c ->
  n = main_name \/ (exists s, In s (ca_storages c) /\ st_name s = n /\
    (st_parts s <> [] \/ exists t, In t (ca_tiers c) /\ ti_storage t = st_id s)) ->
  execute w c (StorageDrop n e) = (c, false).
Proof. exact drop_storage_kept. Qed.
Print Assumptions C43_storage_used.
Theorem C43_storage_free : forall c s w e, sound c -> In s (ca_storages c) -> st_name s <> main_name -> st_parts s = [] ->
  (forall t, In t (ca_tiers c) -> ti_storage t <> st_id s) -> wo_detach w = true ->
  exists c', execute w c (StorageDrop (st_name s) e) = (c', true).
Proof. exact drop_storage_free. Qed.
Print Assumptions C43_storage_free.

(* A storage was given a cloud whose server did not answer; then the cloud can be dropped, and the
   database cannot be opened any more. *)
Theorem C43_refuted : exists c c', reachable c /\ execute fine c (CloudDrop (chars "amazon") false) = (c', true) /\
  In (chars "amazon") (map so_cloud (vw_storages (view_of c))) /\ settings_json (view_of c') /\
  forall w id compression level, catalog_open w id compression level (va_clouds c') (va_storages c') (va_pipeline c') = Err.
Proof. exact cloud_dropped. Qed.
Print Assumptions C43_refuted.

(* Opening again: it works exactly when every name refers to something, and gives the same. *)
Theorem C44_reopened : forall c w id compression level clouds storages pipeline,
  sound c -> settings_json (view_of c) -> uuid_from_string id <> None ->
  holds clouds (map cloud_value (vw_clouds (view_of c))) ->
  holds storages (map source_value (vw_storages (view_of c))) ->
  holds pipeline (map tier_value (vw_tiers (view_of c))) ->
  (names_ok (view_of c) ->
     exists c', catalog_open w id compression level clouds storages pipeline = Ok c' /\ view_of c' = view_of c /\ consistent c') /\
  (~ names_ok (view_of c) -> forall c', catalog_open w id compression level clouds storages pipeline <> Ok c').
Proof. exact reopened. Qed.
Print Assumptions C44_reopened.

(* The same with the file: the variables are written to config.json, read at the next start and
   the catalog is opened from them. *)
Theorem C44_restart : forall strtod fmt_real c cfg d old w, consistent c -> settings_json (view_of c) ->
  same_shape cfg defaults -> same_shape d defaults -> saves cfg -> uuid_from_string (var_bytes cfg "uuid") <> None ->
  exists text cfg' c', config_text fmt_real (catalog_store cfg c) = Ok text /\
    config_open strtod fmt_real d (mk_cdir (Some text) old) = Ok (cfg', mk_cdir (Some text) old) /\
    catalog_start w cfg' = Ok c' /\ view_of c' = view_of c /\ consistent c'.
Proof. exact restart. Qed.
Print Assumptions C44_restart.
Example C44_example : let c := executes a_catalog usual in
  consistent c /\ settings_json (view_of c) /\ same_shape a_config defaults /\ saves a_config /\
  uuid_from_string (var_bytes a_config "uuid") <> None /\ length (vw_storages (view_of c)) = 2.
Proof.
  destruct usual_ok as (H1 & H2 & _ & H3 & H4 & H5 & H6).
  exact (conj (careful_consistent _ _ H1 H2) (conj H3 (conj H4 (conj H5 (conj H6 eq_refl))))).
Qed.

(* A refused ALTER STORAGE SET (cloud 'missing') is kept and saved by the next command. *)
Theorem C44_refuted : exists c c' c2, reachable c /\
  execute fine c (StorageAlter main_name (set_cloud_to "missing") false) = (c', false) /\
  execute fine c' (StorageCreate (a_source "hot") false) = (c2, true) /\ settings_json (view_of c2) /\
  names_ok (view_of c) /\
  forall w id compression level, catalog_open w id compression level (va_clouds c2) (va_storages c2) (va_pipeline c2) = Err.
Proof. exact refused_kept. Qed.
Print Assumptions C44_refuted.

(* Renaming a storage that at most one tier uses. *)
Theorem C45_renamed : forall w c n m e c', consistent c -> execute w c (StorageRename n m e) = (c', true) ->
  length (filter (fun t => is (ti_name t) n) (ca_tiers c)) <= 1 ->
  vw_tiers (view_of c') = change tc_name n (fun t => mk_tierc m (tc_partitions t) (tc_size t) (tc_events t) (tc_duration t)) (vw_tiers (view_of c)) /\
  vw_storages (view_of c') = change so_name n (fun s => source_set_name s m) (vw_storages (view_of c)) /\
  vw_clouds (view_of c') = vw_clouds (view_of c) /\ consistent c'.
Proof. exact rename_storage. Qed.
Print Assumptions C45_renamed.
Example C45_example : exists c', execute fine (executes a_catalog (firstn 4 usual)) (StorageRename (chars "hot") (chars "warm") false) = (c', true) /\
  length (filter (fun t => is (ti_name t) (chars "hot")) (ca_tiers (executes a_catalog (firstn 4 usual)))) = 1.
Proof. exact once_usual. Qed.

(* Used by two tiers, only the first follows, and the database cannot be opened any more. *)
Theorem C45_refuted : exists c c', reachable c /\ consistent c /\
  execute fine c (StorageRename (chars "hot") (chars "cold") false) = (c', true) /\
  map tc_name (vw_tiers (view_of c)) = [chars "hot"; chars "main"; chars "hot"] /\
  map tc_name (vw_tiers (view_of c')) = [chars "cold"; chars "main"; chars "hot"] /\
  ~ In (chars "hot") (map so_name (vw_storages (view_of c'))) /\ settings_json (view_of c') /\
  forall w compression level, catalog_open w an_id compression level (va_clouds c') (va_storages c') (va_pipeline c') = Err.
Proof. exact renamed_once. Qed.
Print Assumptions C45_refuted.

(* Every command does what it says, or nothing. *)
Theorem C69_command : forall w c cmd c' ok, sound c -> execute w c cmd = (c', ok) ->
  if ok then once c cmd -> view_of c' = effect cmd (view_of c)
  else c' = c \/ exists n a e m, cmd = StorageAlter n a e /\ al_cloud a = Some m /\ m <> [].
Proof. exact command_result. Qed.
Print Assumptions C69_command.
Theorem C69_refuted : exists c c', reachable c /\
  execute fine c (StorageAlter main_name (set_cloud_to "missing") false) = (c', false) /\ view_of c' <> view_of c.
Proof. exact refused_changed. Qed.
Print Assumptions C69_refuted.

(* A command succeeds exactly when it is permitted. *)
Theorem C76_succeeds : forall w c cmd, sound c -> (snd (execute w c cmd) = true <-> permitted w c cmd).
Proof. exact succeeds. Qed.
Print Assumptions C76_succeeds.
Example C76_succeeds_example : sound two_storages /\
  permitted fine two_storages (PipelineAlter [limited "hot"; tier_named "main"]) /\
  ~ permitted fine two_storages (PipelineAlter [limited "hot"; limited "hot"]) /\
  ~ permitted fine two_storages (PipelineAlter [tier_named "hot"; tier_named "main"]) /\
  ~ permitted fine two_storages (StorageRename (chars "hot") (chars "hot") false) /\
  permitted fine two_storages (StorageDrop (chars "hot") false).
Proof. exact permitted_cases. Qed.
