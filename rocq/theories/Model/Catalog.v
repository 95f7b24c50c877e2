(* Clouds, storages and the pipeline: /repo/monotone/cloud/cloud/cloud_mgr.c, engine/storage/
   {storage_mgr.c,pipeline.c,tier.h,storage.h}, the commands of main/main/execute.c and the opening
   in main/main/main.c and engine/engine/engine.c.
   A pointer to a cloud or a storage is its number. An error is raised where the code calls
   error(); what was changed before stays changed, so every command gives a state and says whether
   it succeeded. The outcomes of making directories and of attaching to and detaching from the
   cloud's server are given for every command. Left out: log output, the config file (Config.v):
   it is written from the three variables by every command that succeeds. *)
From Coq Require Import NArith ZArith Arith String List Bool.
Import ListNotations.
From Verif Require Import Model.Base Model.Data Model.Lex Model.Uuid Model.Source.
Local Open Scope res_scope.

(* cloud.h:27-33 *)
Record cloud := mk_cloud { cl_id : nat; cl_conf : cloudc; cl_refs : Z }.
(* storage.h:18-28; of a partition only its start and whether it is on the cloud (ID_CLOUD) *)
Record part := mk_part { pt_min : N; pt_cloud : bool }.
Record storage := mk_storage { st_id : nat; st_source : source; st_cloud : option nat; st_refs : Z; st_parts : list part }.
(* tier.h:18-23 *)
Record tier := mk_tier { ti_conf : tierc; ti_storage : nat }.
(* the managers, the next number, and the variables clouds, storages and pipeline of the settings *)
Record catalog := mk_catalog {
  ca_clouds : list cloud; ca_storages : list storage; ca_tiers : list tier; ca_next : nat;
  va_clouds : list byte; va_storages : list byte; va_pipeline : list byte }.

Definition cl_name (k : cloud) : list byte := cc_name (cl_conf k).
Definition st_name (s : storage) : list byte := so_name (st_source s).
Definition ti_name (t : tier) : list byte := tc_name (ti_conf t).

(* outcomes of the outside world during one command *)
Record world := mk_world { wo_mkdir : bool; wo_attach : bool; wo_detach : bool }.

(* cloud_mgr.c:215-226, storage_mgr.c:384-394 *)
Definition cloud_find (c : catalog) (name : list byte) : option cloud :=
  find (fun k => same_bytes (cl_name k) name) (ca_clouds c).
Definition storage_find (c : catalog) (name : list byte) : option storage :=
  find (fun s => same_bytes (st_name s) name) (ca_storages c).

(* changing one object through its pointer *)
Definition on_cloud (i : nat) (f : cloud -> cloud) (l : list cloud) : list cloud :=
  map (fun k => if cl_id k =? i then f k else k) l.
Definition on_storage (i : nat) (f : storage -> storage) (l : list storage) : list storage :=
  map (fun s => if st_id s =? i then f s else s) l.
Definition set_clouds (c : catalog) (l : list cloud) : catalog :=
  mk_catalog l (ca_storages c) (ca_tiers c) (ca_next c) (va_clouds c) (va_storages c) (va_pipeline c).
Definition set_storages (c : catalog) (l : list storage) : catalog :=
  mk_catalog (ca_clouds c) l (ca_tiers c) (ca_next c) (va_clouds c) (va_storages c) (va_pipeline c).
Definition set_tiers (c : catalog) (l : list tier) : catalog :=
  mk_catalog (ca_clouds c) (ca_storages c) l (ca_next c) (va_clouds c) (va_storages c) (va_pipeline c).
Definition fresh (c : catalog) : catalog :=
  mk_catalog (ca_clouds c) (ca_storages c) (ca_tiers c) (S (ca_next c)) (va_clouds c) (va_storages c) (va_pipeline c).

(* cloud.h:47-57, storage.h:59-70 *)
Definition cloud_add_refs (d : Z) (k : cloud) : cloud := mk_cloud (cl_id k) (cl_conf k) (cl_refs k + d).
Definition cloud_ref (c : catalog) (i : nat) : catalog := set_clouds c (on_cloud i (cloud_add_refs 1) (ca_clouds c)).
Definition cloud_unref (c : catalog) (i : nat) : catalog := set_clouds c (on_cloud i (cloud_add_refs (-1)) (ca_clouds c)).
Definition storage_add_refs (d : Z) (s : storage) : storage :=
  mk_storage (st_id s) (st_source s) (st_cloud s) (st_refs s + d) (st_parts s).
Definition storage_ref (c : catalog) (i : nat) : catalog := set_storages c (on_storage i (storage_add_refs 1) (ca_storages c)).
Definition storage_unref (c : catalog) (i : nat) : catalog := set_storages c (on_storage i (storage_add_refs (-1)) (ca_storages c)).

Definition with_source (f : source -> source) (s : storage) : storage :=
  mk_storage (st_id s) (f (st_source s)) (st_cloud s) (st_refs s) (st_parts s).
Definition with_cloud (o : option nat) (s : storage) : storage :=
  mk_storage (st_id s) (st_source s) o (st_refs s) (st_parts s).
Definition with_parts (l : list part) (s : storage) : storage :=
  mk_storage (st_id s) (st_source s) (st_cloud s) (st_refs s) l.
Definition with_conf (f : cloudc -> cloudc) (k : cloud) : cloud := mk_cloud (cl_id k) (f (cl_conf k)) (cl_refs k).

(* cloud_mgr.c:49-66, storage_mgr.c:40-58, pipeline.c:48-65 *)
Definition dump {A} (write : A -> list byte) (l : list A) : list byte :=
  data_write_len MN_ARRAYV0 (N.of_nat (length l)) ++ flat_map write l.
Definition cloud_save (c : catalog) : catalog :=
  mk_catalog (ca_clouds c) (ca_storages c) (ca_tiers c) (ca_next c)
             (dump (fun k => cloudc_write false (cl_conf k)) (ca_clouds c)) (va_storages c) (va_pipeline c).
Definition storage_save (c : catalog) : catalog :=
  mk_catalog (ca_clouds c) (ca_storages c) (ca_tiers c) (ca_next c)
             (va_clouds c) (dump (fun s => source_write false false (st_source s)) (ca_storages c)) (va_pipeline c).
Definition pipeline_save (c : catalog) : catalog :=
  mk_catalog (ca_clouds c) (ca_storages c) (ca_tiers c) (ca_next c)
             (va_clouds c) (va_storages c) (dump (fun t => tierc_write (ti_conf t)) (ca_tiers c)).

(* cloud_mgr.c:22-30: there is an interface of this type *)
Definition cloud_interface (type : list byte) : bool :=
  same_bytes type (chars "mock") || same_bytes type (chars "s3").
(* cloud_mgr.c:68-82 *)
Definition cloud_create_object (c : catalog) (k : cloudc) : option catalog :=
  if cloud_interface (cc_type k)
  then Some (fresh (set_clouds c (ca_clouds c ++ [mk_cloud (ca_next c) k 0])))
  else None.

(* cloud_mgr.c:107-124 *)
Definition cloud_create (c : catalog) (k : cloudc) (if_not_exists : bool) : catalog * bool :=
  match cloud_find c (cc_name k) with
  | Some _ => (c, if_not_exists)
  | None =>
    match cloud_create_object c k with
    | None => (c, false)
    | Some c => (cloud_save c, true)
    end
  end.
(* cloud_mgr.c:126-148 *)
Definition cloud_drop (c : catalog) (name : list byte) (if_exists : bool) : catalog * bool :=
  match cloud_find c name with
  | None => (c, if_exists)
  | Some k =>
    if (0 <? cl_refs k)%Z then (c, false)
    else (cloud_save (set_clouds c (filter (fun x => negb (cl_id x =? cl_id k)) (ca_clouds c))), true)
  end.
(* cloud_mgr.c:150-165 *)
Definition cloud_alter (c : catalog) (name : list byte) (a : calter) (if_exists : bool) : catalog * bool :=
  match cloud_find c name with
  | None => (c, if_exists)
  | Some k => (cloud_save (set_clouds c (on_cloud (cl_id k) (with_conf (fun x => cloudc_alter x a)) (ca_clouds c))), true)
  end.
(* cloud_mgr.c:167-187 *)
Definition cloud_rename (c : catalog) (name name_new : list byte) (if_exists : bool) : catalog * bool :=
  match cloud_find c name with
  | None => (c, if_exists)
  | Some k =>
    match cloud_find c name_new with
    | Some _ => (c, false)
    | None => (cloud_save (set_clouds c (on_cloud (cl_id k) (with_conf (fun x => cloudc_set_name x name_new)) (ca_clouds c))), true)
    end
  end.

(* storage_mgr.c:116-136: the storage [i] with these settings; an error leaves it without a cloud *)
Definition storage_set_cloud (w : world) (attach : bool) (c : catalog) (i : nat) (s : source) : catalog * bool :=
  match so_cloud s with
  | [] => (c, true)
  | name =>
    match cloud_find c name with
    | None => (c, false)
    | Some k =>
      if attach && negb (wo_attach w) then (c, false)
      else (cloud_ref (set_storages c (on_storage i (with_cloud (Some (cl_id k))) (ca_storages c))) (cl_id k), true)
    end
  end.
(* storage_mgr.c:138-154 and the list_append of its callers; the storage is appended before its
   cloud is set, on an error it is freed *)
Definition storage_create_object (w : world) (attach : bool) (c : catalog) (s : source) : option catalog :=
  let s := source_copy s in
  let c1 := fresh (set_storages c (ca_storages c ++ [mk_storage (ca_next c) s None 0 []])) in
  match storage_set_cloud w attach c1 (ca_next c) s with
  | (c, true) => Some c
  | (_, false) => None
  end.
(* storage_mgr.c:186-208; a directory that was made is not removed on an error *)
Definition storage_create (w : world) (c : catalog) (s : source) (if_not_exists : bool) : catalog * bool :=
  match storage_find c (so_name s) with
  | Some _ => (c, if_not_exists)
  | None =>
    if negb (wo_mkdir w) then (c, false)
    else match storage_create_object w true c s with
         | None => (c, false)
         | Some c => (storage_save c, true)
         end
  end.

Definition main_name : list byte := chars "main".
Definition unlink_cloud (c : catalog) (o : option nat) : catalog :=
  match o with Some i => cloud_unref c i | None => c end.
(* storage_mgr.c:210-245 *)
Definition storage_drop (w : world) (c : catalog) (name : list byte) (if_exists : bool) : catalog * bool :=
  if same_bytes name main_name then (c, false)
  else match storage_find c name with
  | None => (c, if_exists)
  | Some s =>
    if (0 <? st_refs s)%Z then (c, false)
    else if negb (length (st_parts s) =? 0) then (c, false)
    else if (match st_cloud s with Some _ => negb (wo_detach w) | None => false end) then (c, false)
    else (storage_save (unlink_cloud (set_storages c (filter (fun x => negb (st_id x =? st_id s)) (ca_storages c))) (st_cloud s)), true)
  end.

Definition given {A} (o : option A) : bool := match o with Some _ => true | None => false end.
(* storage_mgr.c:247-330 *)
Definition storage_alter (w : world) (c : catalog) (name : list byte) (a : salter) (if_exists : bool) : catalog * bool :=
  match storage_find c name with
  | None => (c, if_exists)
  | Some s =>
    let empty := length (st_parts s) =? 0 in
    if given (al_crc a) && negb empty then (c, false)
    else if given (al_path a) && negb empty then (c, false)
    else if given (al_path a) && negb (wo_mkdir w) then (c, false)
    else if (given (al_encryption a) || given (al_key a)) && negb empty then (c, false)
    else if given (al_cloud a) && existsb pt_cloud (st_parts s) then (c, false)
    else if given (al_cloud a) && given (st_cloud s) && negb (wo_detach w) then (c, false)
    else
      let src := source_alter (st_source s) a in
      let c := storage_save (set_storages c (on_storage (st_id s) (with_source (fun _ => src)) (ca_storages c))) in
      if given (al_cloud a)
      then let c := unlink_cloud c (st_cloud s) in
           let c := set_storages c (on_storage (st_id s) (with_cloud None) (ca_storages c)) in
           storage_set_cloud w true c (st_id s) src
      else (c, true)
  end.
(* storage_mgr.c:332-356 *)
Definition storage_rename (c : catalog) (name name_new : list byte) (if_exists : bool) : catalog * bool :=
  if same_bytes name main_name then (c, false)
  else match storage_find c name with
  | None => (c, if_exists)
  | Some s =>
    match storage_find c name_new with
    | Some _ => (c, false)
    | None => (storage_save (set_storages c (on_storage (st_id s) (with_source (fun x => source_set_name x name_new)) (ca_storages c))), true)
    end
  end.
(* storage_mgr.c:358-369 *)
Definition storage_rename_cloud (c : catalog) (name name_new : list byte) : catalog :=
  storage_save (set_storages c
    (map (fun s => if same_bytes (so_cloud (st_source s)) name then with_source (fun x => source_set_cloud x name_new) s else s)
         (ca_storages c))).

(* pipeline.c:101-121 *)
Fixpoint pipeline_validate (l : list tierc) : bool :=
  match l with
  | t :: ((n :: _) as r) => negb (same_bytes (tc_name t) (tc_name n)) && negb (tierc_terminal t) && pipeline_validate r
  | _ => true
  end.
(* tier.h:47-57 for every tier in turn *)
Fixpoint tiers_resolve (c : catalog) (l : list tierc) : option (list tier) :=
  match l with
  | [] => Some []
  | t :: l =>
    match storage_find c (tc_name t), tiers_resolve c l with
    | Some s, Some r => Some (mk_tier t (st_id s) :: r)
    | _, _ => None
    end
  end.
(* pipeline.c:123-163: the references taken before an error are given back *)
Definition pipeline_alter (c : catalog) (l : list tierc) : catalog * bool :=
  if negb (pipeline_validate l) then (c, false)
  else match tiers_resolve c l with
  | None => (c, false)
  | Some new =>
    let c := fold_left storage_ref (map ti_storage new) c in
    let c := fold_left storage_unref (map ti_storage (ca_tiers c)) c in
    (pipeline_save (set_tiers c new), true)
  end.
(* pipeline.c:165-178 *)
Fixpoint rename_first (name name_new : list byte) (l : list tier) : option (list tier) :=
  match l with
  | [] => None
  | t :: l =>
    if same_bytes (ti_name t) name then Some (mk_tier (tierc_set_name (ti_conf t) name_new) (ti_storage t) :: l)
    else match rename_first name name_new l with Some l => Some (t :: l) | None => None end
  end.
Definition pipeline_rename (c : catalog) (name name_new : list byte) : catalog :=
  match rename_first name name_new (ca_tiers c) with
  | Some l => pipeline_save (set_tiers c l)
  | None => c
  end.

(* execute.c:251-367. [Parts] stands for everything that adds, removes or changes partitions of a
   storage. *)
Inductive command :=
| CloudCreate (k : cloudc) (if_not_exists : bool)
| CloudDrop (name : list byte) (if_exists : bool)
| CloudAlter (name : list byte) (a : calter) (if_exists : bool)
| CloudRename (name name_new : list byte) (if_exists : bool)
| StorageCreate (s : source) (if_not_exists : bool)
| StorageDrop (name : list byte) (if_exists : bool)
| StorageAlter (name : list byte) (a : salter) (if_exists : bool)
| StorageRename (name name_new : list byte) (if_exists : bool)
| PipelineAlter (l : list tierc)
| Parts (name : list byte) (l : list part).

Definition execute (w : world) (c : catalog) (cmd : command) : catalog * bool :=
  match cmd with
  | CloudCreate k e => cloud_create c k e
  | CloudDrop n e => cloud_drop c n e
  | CloudAlter n a e => cloud_alter c n a e
  | CloudRename n m e =>
    let (c, ok) := cloud_rename c n m e in
    if ok then (storage_rename_cloud c n m, true) else (c, false)
  | StorageCreate s e => storage_create w c s e
  | StorageDrop n e => storage_drop w c n e
  | StorageAlter n a e => storage_alter w c n a e
  | StorageRename n m e =>
    let (c, ok) := storage_rename c n m e in
    if ok then (pipeline_rename c n m, true) else (c, false)
  | PipelineAlter l => pipeline_alter c l
  | Parts n l =>
    match storage_find c n with
    | Some s => (set_storages c (on_storage (st_id s) (with_parts l) (ca_storages c)), true)
    | None => (c, false)
    end
  end.
Fixpoint executes (c : catalog) (l : list (world * command)) : catalog :=
  match l with
  | [] => c
  | (w, cmd) :: l => executes (fst (execute w c cmd)) l
  end.

(* the elements of a variable; unset or null is none (cloud_mgr.c:87-95, storage_mgr.c:65-73,
   pipeline.c:70-78) *)
Fixpoint read_all {A} (n : nat) (read : list byte -> res (A * list byte)) (step : catalog -> A -> option catalog)
    (c : catalog) (l : list byte) : res catalog :=
  match n with
  | O => Ok c
  | S n =>
    do (a, l) <- read l ;
    match step c a with
    | Some c => read_all n read step c l
    | None => Err
    end
  end.
Definition open_var {A} (read : list byte -> res (A * list byte)) (step : catalog -> A -> option catalog)
    (c : catalog) (var : list byte) : res catalog :=
  match var with
  | [] => Ok c
  | t :: _ =>
    if (t =? MN_NULL)%N then Ok c
    else do (n, l) <- data_read_len MN_ARRAYV0 var ; read_all (Z.to_nat n) read step c l
  end.
(* pipeline.c:80-92 *)
Definition pipeline_open_step (c : catalog) (t : tierc) : option catalog :=
  match storage_find c (tc_name t) with
  | Some s => Some (storage_ref (set_tiers c (ca_tiers c ++ [mk_tier t (st_id s)])) (st_id s))
  | None => None
  end.
(* storage_mgr.c:87-114: main has the uuid of the database and the default compression *)
Definition main_source (u : uuid) (compression : list byte) (level : Z) : source :=
  mk_source u main_name [] [] true true false (40 * 1024 * 1024) (128 * 1024)
            compression (match compression with [] => 0 | _ => narrow level end) [] [].
Definition create_main (w : world) (c : catalog) (id compression : list byte) (level : Z) : res catalog :=
  match uuid_from_string id with
  | None => Err
  | Some u => match storage_create w c (main_source u compression level) true with
              | (c, true) => Ok c
              | (_, false) => Err
              end
  end.
(* main.c:231-235 and engine.c:50-58: the settings are the variables, the uuid and the default
   compression *)
Definition catalog_open (w : world) (id compression : list byte) (level : Z) (clouds storages pipeline : list byte) : res catalog :=
  let c := mk_catalog [] [] [] 0 clouds storages pipeline in
  do c <- open_var cloudc_read cloud_create_object c clouds ;
  do c <- open_var source_read (storage_create_object w false) c storages ;
  do c <- create_main w c id compression level ;
  open_var tierc_read pipeline_open_step c pipeline.
