(* The catalog as a user thinks of it: lists of settings of clouds, storages and tiers, where a
   storage names its cloud and a tier names its storage. *)
From Coq Require Import NArith ZArith Arith String List Bool.
Import ListNotations.
From Verif Require Import Model.Base Model.Lex Model.Uuid Model.Source Model.Catalog Spec.Value Spec.JsonText.

(* settings as values *)
Definition pair (key : string) (v : value) : value * value := (VStr (chars key), v).
Definition source_value (s : source) : value :=
  VMap [ pair "uuid" (VStr (uuid_to_string (so_uuid s))); pair "name" (VStr (so_name s)); pair "path" (VStr (so_path s));
         pair "cloud" (VStr (so_cloud s)); pair "cloud_drop_local" (VBool (so_drop_local s)); pair "sync" (VBool (so_sync s));
         pair "crc" (VBool (so_crc s)); pair "refresh_wm" (VInt (so_refresh_wm s)); pair "region_size" (VInt (so_region_size s));
         pair "compression" (VStr (so_compression s)); pair "compression_level" (VInt (so_level s));
         pair "encryption" (VStr (so_encryption s)); pair "encryption_key" (VStr (so_key s)) ].
Definition cloud_value (c : cloudc) : value :=
  VMap [ pair "name" (VStr (cc_name c)); pair "type" (VStr (cc_type c)); pair "login" (VStr (cc_login c));
         pair "password" (VStr (cc_password c)); pair "url" (VStr (cc_url c)); pair "debug" (VBool (cc_debug c)) ].
Definition tier_value (c : tierc) : value :=
  VMap [ pair "name" (VStr (tc_name c)); pair "partitions" (VInt (tc_partitions c)); pair "size" (VInt (tc_size c));
         pair "events" (VInt (tc_events c)); pair "duration" (VInt (tc_duration c)) ].

(* the settings of everything *)
Record view := mk_view { vw_clouds : list cloudc; vw_storages : list source; vw_tiers : list tierc }.
Definition view_of (c : catalog) : view :=
  mk_view (map cl_conf (ca_clouds c)) (map st_source (ca_storages c)) (map ti_conf (ca_tiers c)).

(* an integer given for a storage is kept in 32 bits *)
Definition kept_int (z : Z) : Z := ((z + 2 ^ 31) mod 2 ^ 32 - 2 ^ 31)%Z.
Definition or_else {A} (o : option A) (a : A) : A := match o with Some x => x | None => a end.
Definition int_or (o : option Z) (z : Z) : Z := match o with Some x => kept_int x | None => z end.
Definition as_created (s : source) : source :=
  mk_source (so_uuid s) (so_name s) (so_path s) (so_cloud s) (so_drop_local s) (so_sync s) (so_crc s)
            (kept_int (so_refresh_wm s)) (kept_int (so_region_size s)) (so_compression s) (kept_int (so_level s))
            (so_encryption s) (so_key s).
Definition altered (a : salter) (s : source) : source :=
  mk_source (so_uuid s) (so_name s) (or_else (al_path a) (so_path s)) (or_else (al_cloud a) (so_cloud s))
            (or_else (al_drop_local a) (so_drop_local s)) (or_else (al_sync a) (so_sync s)) (or_else (al_crc a) (so_crc s))
            (int_or (al_refresh_wm a) (so_refresh_wm s)) (int_or (al_region_size a) (so_region_size s))
            (or_else (al_compression a) (so_compression s)) (int_or (al_level a) (so_level s))
            (or_else (al_encryption a) (so_encryption s)) (or_else (al_key a) (so_key s)).
Definition cloud_altered (a : calter) (k : cloudc) : cloudc :=
  mk_cloudc (cc_name k) (cc_type k) (or_else (ac_login a) (cc_login k)) (or_else (ac_password a) (cc_password k))
            (or_else (ac_url a) (cc_url k)) (or_else (ac_debug a) (cc_debug k)).

Definition name_dec : forall a b : list byte, {a = b} + {a <> b} := list_eq_dec N.eq_dec.
Definition is (a b : list byte) : bool := if name_dec a b then true else false.
Definition change {A} (name : A -> list byte) (n : list byte) (f : A -> A) (l : list A) : list A :=
  map (fun a => if is (name a) n then f a else a) l.
Definition without {A} (name : A -> list byte) (n : list byte) (l : list A) : list A :=
  filter (fun a => negb (is (name a) n)) l.
Definition has {A} (name : A -> list byte) (n : list byte) (l : list A) : bool := existsb (fun a => is (name a) n) l.

(* what a command that succeeds does *)
Definition effect (cmd : command) (v : view) : view :=
  match cmd with
  | CloudCreate k _ => if has cc_name (cc_name k) (vw_clouds v) then v else mk_view (vw_clouds v ++ [k]) (vw_storages v) (vw_tiers v)
  | CloudDrop n _ => mk_view (without cc_name n (vw_clouds v)) (vw_storages v) (vw_tiers v)
  | CloudAlter n a _ => mk_view (change cc_name n (cloud_altered a) (vw_clouds v)) (vw_storages v) (vw_tiers v)
  | CloudRename n m _ =>
      mk_view (change cc_name n (fun k => mk_cloudc m (cc_type k) (cc_login k) (cc_password k) (cc_url k) (cc_debug k)) (vw_clouds v))
              (change so_cloud n (fun s => source_set_cloud s m) (vw_storages v)) (vw_tiers v)
  | StorageCreate s _ => if has so_name (so_name s) (vw_storages v) then v else mk_view (vw_clouds v) (vw_storages v ++ [as_created s]) (vw_tiers v)
  | StorageDrop n _ => mk_view (vw_clouds v) (without so_name n (vw_storages v)) (vw_tiers v)
  | StorageAlter n a _ => mk_view (vw_clouds v) (change so_name n (altered a) (vw_storages v)) (vw_tiers v)
  | StorageRename n m _ =>
      mk_view (vw_clouds v) (change so_name n (fun s => source_set_name s m) (vw_storages v))
              (change tc_name n (fun t => mk_tierc m (tc_partitions t) (tc_size t) (tc_events t) (tc_duration t)) (vw_tiers v))
  | PipelineAlter l => mk_view (vw_clouds v) (vw_storages v) l
  | Parts _ _ => v
  end.

(* who uses a cloud or a storage *)
Definition uses_cloud (i : nat) (s : storage) : bool := match st_cloud s with Some j => j =? i | None => false end.
Definition uses_storage (i : nat) (t : tier) : bool := ti_storage t =? i.

(* the variable of the settings holds this list *)
Definition holds (var : list byte) (l : list value) : Prop :=
  var = encode (VArr l) \/ var = encode_wide (VArr l) \/ (l = [] /\ (var = [] \/ var = encode VNull)).

(* what is true after every history, failures included *)
Record sound (c : catalog) : Prop := mk_sound {
  so_cloud_names : NoDup (map cl_name (ca_clouds c));
  so_storage_names : NoDup (map st_name (ca_storages c));
  so_main : In main_name (map st_name (ca_storages c));
  so_cloud_ids : NoDup (map cl_id (ca_clouds c)) /\ Forall (fun k => cl_id k < ca_next c) (ca_clouds c);
  so_storage_ids : NoDup (map st_id (ca_storages c)) /\ Forall (fun s => st_id s < ca_next c) (ca_storages c);
  (* a storage that has a cloud has the one it names *)
  so_links : forall s i, In s (ca_storages c) -> st_cloud s = Some i ->
    exists k, In k (ca_clouds c) /\ cl_id k = i /\ cl_name k = so_cloud (st_source s);
  so_tiers : forall t, In t (ca_tiers c) -> exists s, In s (ca_storages c) /\ st_id s = ti_storage t;
  so_cloud_refs : forall k, In k (ca_clouds c) -> cl_refs k = Z.of_nat (length (filter (uses_cloud (cl_id k)) (ca_storages c)));
  so_storage_refs : forall s, In s (ca_storages c) -> st_refs s = Z.of_nat (length (filter (uses_storage (st_id s)) (ca_tiers c)));
  so_kept : holds (va_clouds c) (map cloud_value (vw_clouds (view_of c))) /\
            holds (va_storages c) (map source_value (vw_storages (view_of c))) /\
            holds (va_pipeline c) (map tier_value (vw_tiers (view_of c)));
  so_types : Forall (fun k => cc_type (cl_conf k) = chars "mock" \/ cc_type (cl_conf k) = chars "s3") (ca_clouds c);
  so_bits : Forall (fun s => as_created (st_source s) = st_source s /\ (u_a (so_uuid (st_source s)) < 2 ^ 64)%N /\ (u_b (so_uuid (st_source s)) < 2 ^ 64)%N) (ca_storages c)
}.

(* every name refers to something *)
Definition names_ok (v : view) : Prop :=
  (forall s, In s (vw_storages v) -> so_cloud s = [] \/ In (so_cloud s) (map cc_name (vw_clouds v))) /\
  (forall t, In t (vw_tiers v) -> In (tc_name t) (map so_name (vw_storages v))).
(* and the objects are linked as the names say *)
Definition linked (c : catalog) : Prop :=
  (forall s, In s (ca_storages c) -> so_cloud (st_source s) <> [] -> st_cloud s <> None) /\
  (forall t s, In t (ca_tiers c) -> In s (ca_storages c) -> st_id s = ti_storage t -> ti_name t = st_name s).
Definition consistent (c : catalog) : Prop := sound c /\ linked c.

(* names are never empty, and a uuid is two 64-bit numbers *)
Definition command_ok (cmd : command) : Prop :=
  match cmd with
  | CloudCreate k _ => cc_name k <> []
  | CloudRename n m _ => n <> [] /\ m <> []
  | StorageCreate s _ => (u_a (so_uuid s) < 2 ^ 64)%N /\ (u_b (so_uuid s) < 2 ^ 64)%N
  | _ => True
  end.

(* the variables after the settings went through config.json *)
Definition settings_json (v : view) : Prop :=
  json_ok (VArr (map cloud_value (vw_clouds v))) /\
  json_ok (VArr (map source_value (vw_storages v))) /\
  json_ok (VArr (map tier_value (vw_tiers v))).

(* the catalogs a database can have: made new, changed by commands, opened again *)
Inductive reachable : catalog -> Prop :=
| re_new w id compression level c :
    catalog_open w id compression level [] [] [] = Ok c -> reachable c
| re_command c w cmd :
    reachable c -> command_ok cmd -> reachable (fst (execute w c cmd))
| re_open c w id compression level clouds storages pipeline c' :
    reachable c -> settings_json (view_of c) ->
    holds clouds (map cloud_value (vw_clouds (view_of c))) ->
    holds storages (map source_value (vw_storages (view_of c))) ->
    holds pipeline (map tier_value (vw_tiers (view_of c))) ->
    catalog_open w id compression level clouds storages pipeline = Ok c' -> reachable c'.

(* a storage is renamed only if at most one tier uses it *)
Definition once (c : catalog) (cmd : command) : Prop :=
  forall n m e, cmd = StorageRename n m e -> length (filter (fun t => is (ti_name t) n) (ca_tiers c)) <= 1.

(* as [executes], with no command that failed after it changed something, and no storage renamed
   that is used by more than one tier *)
Fixpoint careful (c : catalog) (l : list (world * command)) : Prop :=
  match l with
  | [] => True
  | (w, cmd) :: l =>
    command_ok cmd /\
    (snd (execute w c cmd) = false -> fst (execute w c cmd) = c) /\
    once c cmd /\
    careful (fst (execute w c cmd)) l
  end.
