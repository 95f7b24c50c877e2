(* Commands: /repo/monotone/main/command/{parse.c,parse_misc.h,parse_config.c,parse_debug.c,
   parse_system.h,parse_cloud.c,parse_storage.c,parse_pipeline.c,parse_partition.c} and main_execute
   of main/main/execute.c.
   The functions are written over any source of tokens with the three operations of lex.h that they
   use; [parse] takes them over the lexer of Lex.v. error() is Err. A member of the union in a token
   that was not the last one written is undefined behaviour. A structure of a command holds only
   what is used when it is executed: a SHOW of clouds, storages or partitions has a name if the
   token kept in it is a name (execute.c:36-66). Left out: allocation and the guards that free. *)
From Coq Require Import NArith ZArith Arith String List Bool.
Import ListNotations.
From Verif Require Import Model.Base Model.Data Model.Lex Model.Uuid Model.Source Model.Catalog Model.Show.
Local Open Scope res_scope.
Local Open Scope N_scope.

(* parse_config.h:20-31; SHOW MEMORY is not in Show.v *)
Inductive sop := OpMemory | Op (o : show_op).

(* cmd.h:20-47 and the structures of the parse_*.h files *)
Inductive cmd :=
| CmdShow (l : list sop)
| CmdSet (name : list byte) (value : token)
| CmdDebug (command : N)
| CmdCheckpoint
| CmdService
| CmdRebalance
| CmdCatalog (c : command)
| CmdCreate (min max : N)
| CmdDrop (id : N) (if_exists : bool) (mask : N)
| CmdDropRange (min max : N) (mask : N)
| CmdMove (id : N) (if_exists : bool) (storage : list byte)
| CmdMoveRange (min max : N) (storage : list byte)
| CmdRefresh (id : N) (if_exists : bool)
| CmdRefreshRange (min max : N)
| CmdDownload (id : N) (if_exists if_cloud : bool)
| CmdDownloadRange (min max : N) (if_cloud : bool)
| CmdUpload (id : N) (if_exists if_cloud : bool)
| CmdUploadRange (min max : N) (if_cloud : bool).

(* parse_debug.h:18-24 *)
Definition DEBUG_WAL_CREATE := 0. Definition DEBUG_WAL_GC := 1.
Definition DEBUG_WAL_READ := 2. Definition DEBUG_MEMORY_GC := 3.

(* what a command takes from elsewhere: a random uuid, 32 random letters and digits, and the
   settings compression, compression_level and interval *)
Record env := mk_env { en_uuid : uuid; en_key : list byte; en_compression : list byte; en_level : Z; en_interval : N }.

(* compression_mgr.c:76-88: -1 is None *)
Definition compression_mgr_of (s : list byte) : option N :=
  if same_bytes s [] then Some 0
  else if same_bytes s (chars "none") then Some 0
  else if same_bytes s (chars "zstd") then Some 1
  else if same_bytes s (chars "lz4") then Some 2
  else None.
(* encryption_mgr.c:60-70 *)
Definition encryption_mgr_of (s : list byte) : option N :=
  if same_bytes s [] then Some 0
  else if same_bytes s (chars "none") then Some 0
  else if same_bytes s (chars "aes") then Some 1
  else None.

(* source.h:17-32 *)
Definition SOURCE_UUID := 1. Definition SOURCE_PATH := 4. Definition SOURCE_CLOUD := 8.
Definition SOURCE_CLOUD_DROP_LOCAL := 16. Definition SOURCE_SYNC := 32. Definition SOURCE_CRC := 64.
Definition SOURCE_REFRESH_WM := 128. Definition SOURCE_REGION_SIZE := 256. Definition SOURCE_COMPRESSION := 512.
Definition SOURCE_COMPRESSION_LEVEL := 1024. Definition SOURCE_ENCRYPTION := 2048. Definition SOURCE_ENCRYPTION_KEY := 4096.
(* cloud_config.h:18-26 *)
Definition CLOUD_TYPE := 2. Definition CLOUD_LOGIN := 4. Definition CLOUD_PASSWORD := 8. Definition CLOUD_URL := 16.
Definition CLOUD_DEBUG := 32.

Definition has (mask bit : N) : bool := 0 <? N.land mask bit.
(* source.h:288-329 *)
Definition salter_of (s : source) (mask : N) : salter :=
  let on {A} (bit : N) (a : A) := if has mask bit then Some a else None in
  mk_salter (on SOURCE_PATH (so_path s)) (on SOURCE_CLOUD (so_cloud s)) (on SOURCE_CLOUD_DROP_LOCAL (so_drop_local s))
            (on SOURCE_SYNC (so_sync s)) (on SOURCE_CRC (so_crc s)) (on SOURCE_REFRESH_WM (so_refresh_wm s))
            (on SOURCE_REGION_SIZE (so_region_size s)) (on SOURCE_COMPRESSION (so_compression s))
            (on SOURCE_COMPRESSION_LEVEL (so_level s)) (on SOURCE_ENCRYPTION (so_encryption s))
            (on SOURCE_ENCRYPTION_KEY (so_key s)).
(* cloud_config.h:174-195 *)
Definition calter_of (k : cloudc) (mask : N) : calter :=
  let on {A} (bit : N) (a : A) := if has mask bit then Some a else None in
  mk_calter (on CLOUD_LOGIN (cc_login k)) (on CLOUD_PASSWORD (cc_password k)) (on CLOUD_URL (cc_url k)) (on CLOUD_DEBUG (cc_debug k)).

(* cloud_config.h:38-49, tier_config.h:28-39 *)
Definition cloudc_new : cloudc := mk_cloudc [] [] [] [] [] false.
Definition tierc_new : tierc := mk_tierc [] (-1) (-1) (-1) (-1).

Definition with_uuid (s : source) (u : uuid) : source :=
  mk_source u (so_name s) (so_path s) (so_cloud s) (so_drop_local s) (so_sync s) (so_crc s) (so_refresh_wm s) (so_region_size s)
            (so_compression s) (so_level s) (so_encryption s) (so_key s).
Definition with_name (s : source) (x : list byte) : source :=
  mk_source (so_uuid s) x (so_path s) (so_cloud s) (so_drop_local s) (so_sync s) (so_crc s) (so_refresh_wm s) (so_region_size s)
            (so_compression s) (so_level s) (so_encryption s) (so_key s).
Definition with_path (s : source) (x : list byte) : source :=
  mk_source (so_uuid s) (so_name s) x (so_cloud s) (so_drop_local s) (so_sync s) (so_crc s) (so_refresh_wm s) (so_region_size s)
            (so_compression s) (so_level s) (so_encryption s) (so_key s).
Definition with_cloud_name (s : source) (x : list byte) : source :=
  mk_source (so_uuid s) (so_name s) (so_path s) x (so_drop_local s) (so_sync s) (so_crc s) (so_refresh_wm s) (so_region_size s)
            (so_compression s) (so_level s) (so_encryption s) (so_key s).
Definition with_drop_local (s : source) (x : bool) : source :=
  mk_source (so_uuid s) (so_name s) (so_path s) (so_cloud s) x (so_sync s) (so_crc s) (so_refresh_wm s) (so_region_size s)
            (so_compression s) (so_level s) (so_encryption s) (so_key s).
Definition with_sync (s : source) (x : bool) : source :=
  mk_source (so_uuid s) (so_name s) (so_path s) (so_cloud s) (so_drop_local s) x (so_crc s) (so_refresh_wm s) (so_region_size s)
            (so_compression s) (so_level s) (so_encryption s) (so_key s).
Definition with_crc (s : source) (x : bool) : source :=
  mk_source (so_uuid s) (so_name s) (so_path s) (so_cloud s) (so_drop_local s) (so_sync s) x (so_refresh_wm s) (so_region_size s)
            (so_compression s) (so_level s) (so_encryption s) (so_key s).
Definition with_refresh_wm (s : source) (x : Z) : source :=
  mk_source (so_uuid s) (so_name s) (so_path s) (so_cloud s) (so_drop_local s) (so_sync s) (so_crc s) x (so_region_size s)
            (so_compression s) (so_level s) (so_encryption s) (so_key s).
Definition with_region_size (s : source) (x : Z) : source :=
  mk_source (so_uuid s) (so_name s) (so_path s) (so_cloud s) (so_drop_local s) (so_sync s) (so_crc s) (so_refresh_wm s) x
            (so_compression s) (so_level s) (so_encryption s) (so_key s).
Definition with_compression (s : source) (x : list byte) : source :=
  mk_source (so_uuid s) (so_name s) (so_path s) (so_cloud s) (so_drop_local s) (so_sync s) (so_crc s) (so_refresh_wm s) (so_region_size s)
            x (so_level s) (so_encryption s) (so_key s).
Definition with_level (s : source) (x : Z) : source :=
  mk_source (so_uuid s) (so_name s) (so_path s) (so_cloud s) (so_drop_local s) (so_sync s) (so_crc s) (so_refresh_wm s) (so_region_size s)
            (so_compression s) x (so_encryption s) (so_key s).
Definition with_encryption (s : source) (x : list byte) : source :=
  mk_source (so_uuid s) (so_name s) (so_path s) (so_cloud s) (so_drop_local s) (so_sync s) (so_crc s) (so_refresh_wm s) (so_region_size s)
            (so_compression s) (so_level s) x (so_key s).
Definition with_key (s : source) (x : list byte) : source :=
  mk_source (so_uuid s) (so_name s) (so_path s) (so_cloud s) (so_drop_local s) (so_sync s) (so_crc s) (so_refresh_wm s) (so_region_size s)
            (so_compression s) (so_level s) (so_encryption s) x.

(* the members of the union of a token *)
Definition tok_str (t : token) : res (list byte) := match t_val t with TStr s _ => Ok s | _ => UB end.
Definition tok_int (t : token) : res N := match t_val t with TInt n => Ok n | _ => UB end.

Definition LPAREN := 40. Definition RPAREN := 41. Definition COMMA := 44.

Section PARSE.
Variable L : Type.
Variable next : L -> res (token * L).
Variable accept : L -> N -> res (option token * L).
Variable accept_name : L -> res (option token * L).

(* lex_if where the token is not used *)
Definition is (l : L) (id : N) : res (bool * L) :=
  do (o, l) <- accept l id ; Ok (match o with Some _ => true | None => false end, l).
(* if (! lex_if(...)) error(...) *)
Definition expect (l : L) (id : N) : res L :=
  do (b, l) <- is l id ; if b then Ok l else Err.
Definition expect_int (l : L) : res (N * L) :=
  do (o, l) <- accept l KINT ; match o with Some t => do n <- tok_int t ; Ok (n, l) | None => Err end.
Definition expect_str (l : L) (id : N) : res (list byte * L) :=
  do (o, l) <- accept l id ; match o with Some t => do s <- tok_str t ; Ok (s, l) | None => Err end.

(* parse_misc.h:16-26 *)
Definition parse_if_not_exists (l : L) : res (bool * L) :=
  do (b, l) <- is l KIF ;
  if b then do l <- expect l KNOT ; do l <- expect l KEXISTS ; Ok (true, l) else Ok (false, l).
(* parse_misc.h:28-36 *)
Definition parse_if_exists (l : L) : res (bool * L) :=
  do (b, l) <- is l KIF ;
  if b then do l <- expect l KEXISTS ; Ok (true, l) else Ok (false, l).
(* parse_misc.h:38-46 *)
Definition parse_if_cloud (l : L) : res (bool * L) :=
  do (b, l) <- is l KIF ;
  if b then do l <- expect l KCLOUD ; Ok (true, l) else Ok (false, l).
(* parse_misc.h:48-58 *)
Definition parse_int (l : L) : res (Z * L) :=
  do (n, l) <- expect_int l ; Ok (i64_of_u64 n, l).
(* parse_misc.h:60-75 *)
Definition parse_bool (l : L) : res (bool * L) :=
  do (b, l) <- is l KTRUE ;
  if b then Ok (true, l)
  else do (b, l) <- is l KFALSE ; if b then Ok (false, l) else Err.
(* parse_misc.h:77-88 *)
Definition parse_string (l : L) : res (list byte * L) := expect_str l KSTRING.
(* parse_misc.h:90-100 *)
Definition parse_uuid (l : L) : res (uuid * L) :=
  do (s, l) <- expect_str l KSTRING ;
  match uuid_from_string s with Some u => Ok (u, l) | None => Err end.

(* parse_config.c:34-95: one element *)
Definition parse_show_what (l : L) (tk : token) : res ((bool -> sop) * L) :=
  if t_id tk =? KMEMORY then Ok (fun _ => OpMemory, l)
  else if t_id tk =? KWAL then Ok (fun _ => Op ShowWal, l)
  else if t_id tk =? KCLOUD then
    do (s, l) <- expect_str l KNAME ; Ok (fun _ => Op (ShowClouds (Some s)), l)
  else if t_id tk =? KCLOUDS then Ok (fun _ => Op (ShowClouds None), l)
  else if t_id tk =? KSTORAGE then
    do (s, l) <- expect_str l KNAME ; Ok (fun d => Op (ShowStorages (Some s) d), l)
  else if t_id tk =? KSTORAGES then Ok (fun d => Op (ShowStorages None d), l)
  else if t_id tk =? KPARTITION then
    do (n, l) <- expect_int l ; Ok (fun d => Op (ShowPartition n d), l)
  else if t_id tk =? KPARTITIONS then
    do (o, l) <- accept l KNAME ;
    match o with
    | Some t => do s <- tok_str t ; Ok (fun d => Op (ShowPartitions (Some s) d), l)
    | None => Ok (fun d => Op (ShowPartitions None d), l)
    end
  else if t_id tk =? KPIPELINE then Ok (fun _ => Op ShowPipeline, l)
  else if (t_id tk =? KCONFIG) || (t_id tk =? KALL) then
    do (o, l) <- accept_name l ;
    match o with
    | Some t => do s <- tok_str t ; Ok (fun _ => Op (ShowName s), l)
    | None =>
      do (o, l) <- accept l KSTRING ;
      match o with
      | Some t => do s <- tok_str t ; Ok (fun _ => Op (ShowName s), l)
      | None => Ok (fun _ => Op ShowConfig, l)
      end
    end
  else if (t_id tk =? KNAME) || (t_id tk =? KSTRING) then
    do s <- tok_str tk ; Ok (fun _ => Op (ShowName s), l)
  else Err.
(* parse_config.c:25-111 *)
Fixpoint parse_show (fuel : nat) (l : L) : res (list sop * L) :=
  match fuel with
  | O => UB
  | S fuel =>
    do (tk, l) <- next l ;
    do (f, l) <- parse_show_what l tk ;
    do (debug, l) <- is l KDEBUG ;
    do (b, l) <- is l COMMA ;
    if b then do (ops, l) <- parse_show fuel l ; Ok (f debug :: ops, l)
    else Ok ([f debug], l)
  end.

(* parse_config.c:113-132 *)
Definition parse_set (l : L) : res (cmd * L) :=
  do (o, l) <- accept_name l ;
  match o with
  | None => Err
  | Some t =>
    do s <- tok_str t ;
    do l <- expect l KTO ;
    do (v, l) <- next l ;
    Ok (CmdSet s v, l)
  end.

(* parse_debug.c:25-55 *)
Definition parse_debug (l : L) : res (cmd * L) :=
  do (s, l) <- expect_str l KSTRING ;
  if same_bytes s (chars "wal_create") then Ok (CmdDebug DEBUG_WAL_CREATE, l)
  else if same_bytes s (chars "wal_gc") then Ok (CmdDebug DEBUG_WAL_GC, l)
  else if same_bytes s (chars "wal_read") then Ok (CmdDebug DEBUG_WAL_READ, l)
  else if same_bytes s (chars "memory_gc") then Ok (CmdDebug DEBUG_MEMORY_GC, l)
  else Err.

(* parse_cloud.c:55-101: an option and its bit *)
Definition cloud_option (n : list byte) (l : L) (k : cloudc) : res (cloudc * N * L) :=
  let set_type x := mk_cloudc (cc_name k) x (cc_login k) (cc_password k) (cc_url k) (cc_debug k) in
  let set_login x := mk_cloudc (cc_name k) (cc_type k) x (cc_password k) (cc_url k) (cc_debug k) in
  let set_password x := mk_cloudc (cc_name k) (cc_type k) (cc_login k) x (cc_url k) (cc_debug k) in
  let set_url x := mk_cloudc (cc_name k) (cc_type k) (cc_login k) (cc_password k) x (cc_debug k) in
  let set_debug x := mk_cloudc (cc_name k) (cc_type k) (cc_login k) (cc_password k) (cc_url k) x in
  if same_bytes n (chars "type") then do (s, l) <- parse_string l ; Ok (set_type s, CLOUD_TYPE, l)
  else if same_bytes n (chars "url") then do (s, l) <- parse_string l ; Ok (set_url s, CLOUD_URL, l)
  else if same_bytes n (chars "login") then do (s, l) <- parse_string l ; Ok (set_login s, CLOUD_LOGIN, l)
  else if same_bytes n (chars "password") then do (s, l) <- parse_string l ; Ok (set_password s, CLOUD_PASSWORD, l)
  else if same_bytes n (chars "access_key") then do (s, l) <- parse_string l ; Ok (set_login s, CLOUD_LOGIN, l)
  else if same_bytes n (chars "secret_key") then do (s, l) <- parse_string l ; Ok (set_password s, CLOUD_PASSWORD, l)
  else if same_bytes n (chars "debug") then do (b, l) <- parse_bool l ; Ok (set_debug b, CLOUD_DEBUG, l)
  else Err.
(* parse_cloud.c:37-113 *)
Fixpoint cloud_options_loop (fuel : nat) (l : L) (k : cloudc) (mask : N) : res (cloudc * N * L) :=
  match fuel with
  | O => UB
  | S fuel =>
    do (tk, l) <- next l ;
    do n <- (if (t_id tk =? KCLOUD) || (t_id tk =? KDEBUG) || (t_id tk =? KNAME) then tok_str tk else Err) ;
    do (k, bit, l) <- cloud_option n l k ;
    do (b, l) <- is l COMMA ;
    if b then cloud_options_loop fuel l k (N.lor mask bit)
    else do l <- expect l RPAREN ; Ok (k, N.lor mask bit, l)
  end.
(* parse_cloud.c:25-114 *)
Definition parse_cloud_options (fuel : nat) (l : L) (k : cloudc) : res (cloudc * N * L) :=
  do (b, l) <- is l LPAREN ;
  if negb b then Ok (k, 0, l)
  else do (b, l) <- is l RPAREN ;
       if b then Ok (k, 0, l) else cloud_options_loop fuel l k 0.

(* parse_cloud.c:116-140 *)
Definition parse_cloud_create (fuel : nat) (l : L) : res (cmd * L) :=
  do (e, l) <- parse_if_not_exists l ;
  do (n, l) <- expect_str l KNAME ;
  do (k, _, l) <- parse_cloud_options fuel l (cloudc_set_name cloudc_new n) ;
  Ok (CmdCatalog (CloudCreate k e), l).
(* parse_cloud.c:142-158 *)
Definition parse_cloud_drop (l : L) : res (cmd * L) :=
  do (e, l) <- parse_if_exists l ;
  do (n, l) <- expect_str l KNAME ;
  Ok (CmdCatalog (CloudDrop n e), l).
(* parse_cloud.c:160-219 *)
Definition parse_cloud_alter (fuel : nat) (l : L) : res (cmd * L) :=
  do (e, l) <- parse_if_exists l ;
  do (n, l) <- expect_str l KNAME ;
  do (b, l) <- is l KRENAME ;
  if b then
    do (_, l) <- is l KTO ;
    do (m, l) <- expect_str l KNAME ;
    Ok (CmdCatalog (CloudRename n m e), l)
  else
    do l <- expect l KSET ;
    do (k, mask, l) <- parse_cloud_options fuel l (cloudc_set_name cloudc_new n) ;
    if has mask CLOUD_TYPE then Err
    else Ok (CmdCatalog (CloudAlter n (calter_of k mask) e), l).

(* parse_storage.c:54-151: an option and its bit *)
Definition storage_option (n : list byte) (l : L) (s : source) : res (source * N * L) :=
  if same_bytes n (chars "uuid") then do (u, l) <- parse_uuid l ; Ok (with_uuid s u, SOURCE_UUID, l)
  else if same_bytes n (chars "path") then do (x, l) <- parse_string l ; Ok (with_path s x, SOURCE_PATH, l)
  else if same_bytes n (chars "cloud") then do (x, l) <- parse_string l ; Ok (with_cloud_name s x, SOURCE_CLOUD, l)
  else if same_bytes n (chars "cloud_drop_local") then do (x, l) <- parse_bool l ; Ok (with_drop_local s x, SOURCE_CLOUD_DROP_LOCAL, l)
  else if same_bytes n (chars "sync") then do (x, l) <- parse_bool l ; Ok (with_sync s x, SOURCE_SYNC, l)
  else if same_bytes n (chars "crc") then do (x, l) <- parse_bool l ; Ok (with_crc s x, SOURCE_CRC, l)
  else if same_bytes n (chars "refresh_wm") then do (x, l) <- parse_int l ; Ok (with_refresh_wm s x, SOURCE_REFRESH_WM, l)
  else if same_bytes n (chars "region_size") then
    do (x, l) <- parse_int l ;
    if (x =? 0)%Z then Err else Ok (with_region_size s x, SOURCE_REGION_SIZE, l)
  else if same_bytes n (chars "compression") then
    do (x, l) <- parse_string l ;
    match compression_mgr_of x with Some _ => Ok (with_compression s x, SOURCE_COMPRESSION, l) | None => Err end
  else if same_bytes n (chars "compression_level") then do (x, l) <- parse_int l ; Ok (with_level s x, SOURCE_COMPRESSION_LEVEL, l)
  else if same_bytes n (chars "encryption") then
    do (x, l) <- parse_string l ;
    match encryption_mgr_of x with Some _ => Ok (with_encryption s x, SOURCE_ENCRYPTION, l) | None => Err end
  else if same_bytes n (chars "encryption_key") then
    do (x, l) <- parse_string l ;
    if negb (same_bytes x []) && negb (List.length x =? 32)%nat then Err
    else Ok (with_key s x, SOURCE_ENCRYPTION_KEY, l)
  else Err.
(* parse_storage.c:37-161 *)
Fixpoint storage_options_loop (fuel : nat) (l : L) (s : source) (mask : N) : res (source * N * L) :=
  match fuel with
  | O => UB
  | S fuel =>
    do (tk, l) <- next l ;
    do n <- (if (t_id tk =? KCLOUD) || (t_id tk =? KNAME) then tok_str tk else Err) ;
    do (s, bit, l) <- storage_option n l s ;
    do (b, l) <- is l COMMA ;
    if b then storage_options_loop fuel l s (N.lor mask bit)
    else do l <- expect l RPAREN ; Ok (s, N.lor mask bit, l)
  end.
(* parse_storage.c:25-164 *)
Definition parse_storage_options (fuel : nat) (l : L) (s : source) : res (source * N * L) :=
  do (b, l) <- is l LPAREN ;
  if negb b then Ok (s, 0, l)
  else do (b, l) <- is l RPAREN ;
       if b then Ok (s, 0, l) else storage_options_loop fuel l s 0.

(* parse_storage.c:182-198 *)
Definition storage_defaults (e : env) (n : list byte) : source :=
  let s := with_uuid (with_name source_new n) (en_uuid e) in
  if same_bytes (en_compression e) [] then s
  else with_level (with_compression s (en_compression e)) (narrow (en_level e)).
(* parse_storage.c:203-214 *)
Definition storage_key (e : env) (s : source) : source :=
  match encryption_mgr_of (so_encryption s) with
  | Some 0 => s
  | _ => if same_bytes (so_key s) [] then with_key s (en_key e) else s
  end.
(* parse_storage.c:166-218 *)
Definition parse_storage_create (e : env) (fuel : nat) (l : L) : res (cmd * L) :=
  do (ine, l) <- parse_if_not_exists l ;
  do (n, l) <- expect_str l KNAME ;
  do (s, _, l) <- parse_storage_options fuel l (storage_defaults e n) ;
  Ok (CmdCatalog (StorageCreate (storage_key e s) ine), l).
(* parse_storage.c:220-236 *)
Definition parse_storage_drop (l : L) : res (cmd * L) :=
  do (ie, l) <- parse_if_exists l ;
  do (n, l) <- expect_str l KNAME ;
  Ok (CmdCatalog (StorageDrop n ie), l).
(* parse_storage.c:238-296 *)
Definition parse_storage_alter (fuel : nat) (l : L) : res (cmd * L) :=
  do (ie, l) <- parse_if_exists l ;
  do (n, l) <- expect_str l KNAME ;
  do (b, l) <- is l KRENAME ;
  if b then
    do (_, l) <- is l KTO ;
    do (m, l) <- expect_str l KNAME ;
    Ok (CmdCatalog (StorageRename n m ie), l)
  else
    do l <- expect l KSET ;
    do (s, mask, l) <- parse_storage_options fuel l (with_name source_new n) ;
    if has mask SOURCE_UUID then Err
    else Ok (CmdCatalog (StorageAlter n (salter_of s mask) ie), l).

(* parse_pipeline.c:88-112 *)
Definition tier_option (n : list byte) (l : L) (t : tierc) : res (tierc * L) :=
  if same_bytes n (chars "partitions") then
    do (x, l) <- parse_int l ; Ok (mk_tierc (tc_name t) x (tc_size t) (tc_events t) (tc_duration t), l)
  else if same_bytes n (chars "size") then
    do (x, l) <- parse_int l ; Ok (mk_tierc (tc_name t) (tc_partitions t) x (tc_events t) (tc_duration t), l)
  else if same_bytes n (chars "events") then
    do (x, l) <- parse_int l ; Ok (mk_tierc (tc_name t) (tc_partitions t) (tc_size t) x (tc_duration t), l)
  else if same_bytes n (chars "duration") then
    do (x, l) <- parse_int l ; Ok (mk_tierc (tc_name t) (tc_partitions t) (tc_size t) (tc_events t) x, l)
  else Err.
(* parse_pipeline.c:71-124 *)
Fixpoint tier_options_loop (fuel : nat) (l : L) (t : tierc) : res (tierc * L) :=
  match fuel with
  | O => UB
  | S fuel =>
    do (tk, l) <- next l ;
    do n <- (if (t_id tk =? KPARTITIONS) || (t_id tk =? KNAME) then tok_str tk else Err) ;
    do (t, l) <- tier_option n l t ;
    do (b, l) <- is l COMMA ;
    if b then tier_options_loop fuel l t
    else do l <- expect l RPAREN ; Ok (t, l)
  end.
(* parse_pipeline.c:25-136 *)
Fixpoint parse_pipeline_set (fuel : nat) (l : L) : res (list tierc * L) :=
  match fuel with
  | O => UB
  | S fuel =>
    do (n, l) <- expect_str l KNAME ;
    let t := tierc_set_name tierc_new n in
    let more (t : tierc) (l : L) := do (r, l) <- parse_pipeline_set fuel l ; Ok (t :: r, l) in
    do (b, l) <- is l COMMA ;
    if b then more t l
    else
      do (b, l) <- is l KEOF ;
      if b then Ok ([t], l)
      else
        do l <- expect l LPAREN ;
        do (b, l) <- is l RPAREN ;
        if b then more t l
        else
          do (t, l) <- tier_options_loop fuel l t ;
          do (b, l) <- is l COMMA ;
          if b then more t l
          else do l <- expect l KEOF ; Ok ([t], l)
  end.
(* parse_pipeline.c:138-160 *)
Definition parse_pipeline_alter (fuel : nat) (l : L) : res (cmd * L) :=
  do (b, l) <- is l KRESET ;
  if b then Ok (CmdCatalog (PipelineAlter []), l)
  else
    do l <- expect l KSET ;
    do (ts, l) <- parse_pipeline_set fuel l ;
    Ok (CmdCatalog (PipelineAlter ts), l).

(* parse_partition.c:25-44 *)
Definition parse_partition_create (e : env) (l : L) : res (cmd * L) :=
  do (min, l) <- expect_int l ;
  do (o, l) <- accept l KINT ;
  match o with
  | Some t => do max <- tok_int t ; Ok (CmdCreate min max, l)
  | None => Ok (CmdCreate min (w64 (min + en_interval e)), l)
  end.
(* parse_partition.c:59-71 *)
Definition parse_on (l : L) : res (N * L) :=
  do (b, l) <- is l KON ;
  if negb b then Ok (N.lor ID ID_CLOUD, l)
  else
    do (b, l) <- is l KSTORAGE ;
    if b then Ok (ID, l)
    else do (b, l) <- is l KCLOUD ; if b then Ok (ID_CLOUD, l) else Err.
(* parse_partition.c:46-77 *)
Definition parse_partition_drop (l : L) : res (cmd * L) :=
  do (e, l) <- parse_if_exists l ;
  do (id, l) <- expect_int l ;
  do (mask, l) <- parse_on l ;
  Ok (CmdDrop id e mask, l).
(* BETWEEN <min> AND <max> *)
Definition parse_between (l : L) : res (N * N * L) :=
  do l <- expect l KBETWEEN ;
  do (min, l) <- expect_int l ;
  do l <- expect l KAND ;
  do (max, l) <- expect_int l ;
  Ok (min, max, l).
(* parse_partition.c:79-119 *)
Definition parse_partition_drop_range (l : L) : res (cmd * L) :=
  do (min, max, l) <- parse_between l ;
  do (mask, l) <- parse_on l ;
  Ok (CmdDropRange min max mask, l).
(* parse_partition.c:121-148 *)
Definition parse_partition_move (l : L) : res (cmd * L) :=
  do (e, l) <- parse_if_exists l ;
  do (id, l) <- expect_int l ;
  do l <- expect l KINTO ;
  do (n, l) <- expect_str l KNAME ;
  Ok (CmdMove id e n, l).
(* parse_partition.c:150-186 *)
Definition parse_partition_move_range (l : L) : res (cmd * L) :=
  do (min, max, l) <- parse_between l ;
  do l <- expect l KINTO ;
  do (n, l) <- expect_str l KNAME ;
  Ok (CmdMoveRange min max n, l).
(* parse_partition.c:188-205 *)
Definition parse_partition_refresh (l : L) : res (cmd * L) :=
  do (e, l) <- parse_if_exists l ;
  do (id, l) <- expect_int l ;
  Ok (CmdRefresh id e, l).
(* parse_partition.c:207-233 *)
Definition parse_partition_refresh_range (l : L) : res (cmd * L) :=
  do (min, max, l) <- parse_between l ;
  Ok (CmdRefreshRange min max, l).
(* parse_partition.c:235-256 *)
Definition parse_partition_download (l : L) : res (cmd * L) :=
  do (e, l) <- parse_if_exists l ;
  do (id, l) <- expect_int l ;
  do (c, l) <- parse_if_cloud l ;
  Ok (CmdDownload id e c, l).
(* parse_partition.c:258-288 *)
Definition parse_partition_download_range (l : L) : res (cmd * L) :=
  do (min, max, l) <- parse_between l ;
  do (c, l) <- parse_if_cloud l ;
  Ok (CmdDownloadRange min max c, l).
(* parse_partition.c:290-311 *)
Definition parse_partition_upload (l : L) : res (cmd * L) :=
  do (e, l) <- parse_if_exists l ;
  do (id, l) <- expect_int l ;
  do (c, l) <- parse_if_cloud l ;
  Ok (CmdUpload id e c, l).
(* parse_partition.c:313-343 *)
Definition parse_partition_upload_range (l : L) : res (cmd * L) :=
  do (min, max, l) <- parse_between l ;
  do (c, l) <- parse_if_cloud l ;
  Ok (CmdUploadRange min max c, l).

(* if (lex_if(...)) ... else if (lex_if(...)) ... else error(...) *)
Fixpoint parse_one_of (l : L) (cases : list (N * (L -> res (cmd * L)))) : res (cmd * L) :=
  match cases with
  | [] => Err
  | (id, p) :: cases => do (b, l) <- is l id ; if b then p l else parse_one_of l cases
  end.

(* parse.c:31-173: the command, none if there is nothing but blanks and comments *)
Definition parse_first (e : env) (fuel : nat) (l : L) : res (option cmd * L) :=
  let some (r : res (cmd * L)) := do (c, l) <- r ; Ok (Some c, l) in
  do (tk, l) <- next l ;
  if t_id tk =? KSET then some (parse_set l)
  else if t_id tk =? KSHOW then some (do (ops, l) <- parse_show fuel l ; Ok (CmdShow ops, l))
  else if t_id tk =? KDEBUG then some (parse_debug l)
  else if t_id tk =? KCHECKPOINT then Ok (Some CmdCheckpoint, l)
  else if t_id tk =? KSERVICE then Ok (Some CmdService, l)
  else if t_id tk =? KREBALANCE then Ok (Some CmdRebalance, l)
  else if t_id tk =? KCREATE then
    some (parse_one_of l [ (KCLOUD, parse_cloud_create fuel); (KSTORAGE, parse_storage_create e fuel); (KPARTITION, parse_partition_create e) ])
  else if t_id tk =? KDROP then
    some (parse_one_of l [ (KCLOUD, parse_cloud_drop); (KSTORAGE, parse_storage_drop); (KPARTITION, parse_partition_drop);
                           (KPARTITIONS, parse_partition_drop_range) ])
  else if t_id tk =? KALTER then
    some (parse_one_of l [ (KCLOUD, parse_cloud_alter fuel); (KSTORAGE, parse_storage_alter fuel); (KPIPELINE, parse_pipeline_alter fuel) ])
  else if t_id tk =? KMOVE then
    some (parse_one_of l [ (KPARTITION, parse_partition_move); (KPARTITIONS, parse_partition_move_range) ])
  else if t_id tk =? KREFRESH then
    some (parse_one_of l [ (KPARTITION, parse_partition_refresh); (KPARTITIONS, parse_partition_refresh_range) ])
  else if t_id tk =? KDOWNLOAD then
    some (parse_one_of l [ (KPARTITION, parse_partition_download); (KPARTITIONS, parse_partition_download_range) ])
  else if t_id tk =? KUPLOAD then
    some (parse_one_of l [ (KPARTITION, parse_partition_upload); (KPARTITIONS, parse_partition_upload_range) ])
  else if t_id tk =? KEOF then Ok (None, l)
  else Err.
(* parse.c:25-182 *)
Definition parse_all (e : env) (fuel : nat) (l : L) : res (option cmd) :=
  do (c, l) <- parse_first e fuel l ;
  do _ <- expect l KEOF ;
  Ok c.
End PARSE.

(* execute.c:538-545: the loops take a token or more in every round *)
Definition parse (strtod : list byte -> option (N * nat)) (e : env) (text : list byte) : res (option cmd) :=
  parse_all lex (lex_next strtod) (lex_if strtod) (lex_if_name strtod) e (S (S (List.length text))) (lex_start text).

(* execute.c:506-533 *)
Inductive lockage := LockNone | LockShared | LockExclusive.
Definition lock_of (c : cmd) : lockage :=
  match c with
  | CmdShow _ => LockShared
  | CmdSet _ _ | CmdCatalog _ => LockExclusive
  | _ => LockNone
  end.

(* execute.c:535-590 and monotone.c:137-151: what is done, and the answer. The function of a command
   is [run]; an error thrown by it is passed on after the lock is released *)
Inductive event := Locks (shared : bool) | Runs (c : cmd) | Unlocks.
Definition main_execute (run : cmd -> res (list byte)) (strtod : list byte -> option (N * nat)) (e : env) (text : list byte)
  : list event * res (list byte) :=
  match parse strtod e text with
  | Ok None => ([], Ok [])
  | Ok (Some c) =>
    let before := match lock_of c with LockNone => [] | LockShared => [Locks true] | LockExclusive => [Locks false] end in
    let after := match lock_of c with LockNone => [] | _ => [Unlocks] end in
    match run c with
    | UB => (before ++ [Runs c], UB)
    | r => (before ++ [Runs c] ++ after, r)
    end
  | Err => ([], Err)
  | UB => ([], UB)
  end.
