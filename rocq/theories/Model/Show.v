(* SHOW of partitions, storages, clouds and the pipeline: /repo/monotone/engine/io/stats.h,
   engine/engine/engine_show.c, engine/storage/{storage.h,storage_mgr.c,pipeline.c},
   cloud/cloud/cloud_mgr.c and main/main/execute.c:26-109. Left out: SHOW MEMORY; the locks (a SHOW
   runs while nothing changes). *)
From Coq Require Import NArith ZArith Arith String List Bool.
Import ListNotations.
From Verif Require Import Model.Base Model.Data Model.Json Model.Lex Model.File Model.Source Model.Config Model.Catalog.
Local Open Scope res_scope.

(* id.h:18-26 *)
Definition ID : N := 1%N.
Definition ID_INCOMPLETE : N := 2%N.
Definition ID_COMPLETE : N := 4%N.
Definition ID_CLOUD : N := 8%N.
Definition ID_CLOUD_INCOMPLETE : N := 16%N.

(* part.h:18-35: the fields that are shown. The counts of the memory tables are uint64_t; heap_used
   (heap.h:49-54) is what their heaps hold. *)
Record spart := mk_spart {
  sp_min : N; sp_max : N; sp_state : N; sp_index : index;
  sp_count_a : N; sp_count_b : N; sp_heap_a : N; sp_heap_b : N;
  sp_created : N; sp_refreshed : N; sp_storage : nat }.
Definition part_has (p : spart) (mask : N) : bool := (0 <? N.land (sp_state p) mask)%N.      (* part.h:60-64 *)
Definition has_index (p : spart) : bool := negb (sp_state p =? 0)%N.                          (* state != ID_NONE *)

(* stats.h:16-31 *)
Record stats := mk_stats {
  s_partitions : N; s_local : N; s_cloud : N; s_regions : N; s_min : N; s_max : N;
  s_events : N; s_events_heap : N; s_size : N; s_origin : N; s_heap : N }.
(* stats.h:33-39 *)
Definition stats_init : stats := mk_stats 0 0 0 0 u64_max 0 0 0 0 0 0.
(* stats.h:41-77 *)
Definition stats_add (s : stats) (p : spart) : stats :=
  let on (b : bool) (n : N) := if b then n else 0%N in
  let heap := add64 (sp_count_a p) (sp_count_b p) in
  mk_stats (add64 (s_partitions s) 1)
           (add64 (s_local s) (on (part_has p ID) 1%N)) (add64 (s_cloud s) (on (part_has p ID_CLOUD) 1%N))
           (add64 (s_regions s) (on (has_index p) (ix_regions (sp_index p))))
           (if sp_min p <? s_min s then sp_min p else s_min s)%N
           (if s_max s <? sp_max p then sp_max p else s_max s)%N
           (add64 (add64 (s_events s) (on (has_index p) (ix_events (sp_index p)))) heap)
           (add64 (s_events_heap s) heap)
           (add64 (s_size s) (on (has_index p) (ix_size_total (sp_index p))))
           (add64 (s_origin s) (on (has_index p) (ix_size_total_origin (sp_index p))))
           (add64 (s_heap s) (add64 (sp_heap_a p) (sp_heap_b p))).

Definition put_n (n : N) : list byte := data_write_integer n.
(* stats.h:79-128 *)
Definition stats_show (s : stats) : list byte :=
  (data_write_len MN_MAPV0 11
   ++ put "min" (put_n (if s_partitions s =? 0 then 0 else s_min s))
   ++ put "max" (put_n (s_max s))
   ++ put "partitions" (put_n (s_partitions s))
   ++ put "partitions_local" (put_n (s_local s))
   ++ put "partitions_cloud" (put_n (s_cloud s))
   ++ put "regions" (put_n (s_regions s))
   ++ put "events" (put_n (s_events s))
   ++ put "events_heap" (put_n (s_events_heap s))
   ++ put "size" (put_n (s_size s))
   ++ put "size_uncompressed" (put_n (s_origin s))
   ++ put "size_heap" (put_n (s_heap s)))%N.
(* stats.h:205-268 *)
Definition index_show (i : index) : list byte :=
  (data_write_len MN_MAPV0 12
   ++ put "size" (put_n (ix_size i))
   ++ put "size_origin" (put_n (ix_size_origin i))
   ++ put "size_regions" (put_n (ix_size_regions i))
   ++ put "size_regions_origin" (put_n (ix_size_regions_origin i))
   ++ put "size_total" (put_n (ix_size_total i))
   ++ put "size_total_origin" (put_n (ix_size_total_origin i))
   ++ put "regions" (put_n (ix_regions i))
   ++ put "events" (put_n (ix_events i))
   ++ put "refreshes" (put_n (ix_refreshes i))
   ++ put "lsn" (put_n (ix_lsn i))
   ++ put "compression" (put_n (ix_compression i))
   ++ put "encryption" (put_n (ix_encryption i)))%N.
(* stats.h:130-270; [name]: the name of the partition's storage *)
Definition stats_show_part (name : nat -> list byte) (debug : bool) (p : spart) : list byte :=
  let s := stats_add stats_init p in
  (data_write_len MN_MAPV0 (if debug then 15 else 14)
   ++ put "min" (put_n (sp_min p))
   ++ put "max" (put_n (sp_max p))
   ++ put "events" (put_n (s_events s))
   ++ put "events_heap" (put_n (s_events_heap s))
   ++ put "regions" (put_n (s_regions s))
   ++ put "size" (put_n (s_size s))
   ++ put "size_uncompressed" (put_n (s_origin s))
   ++ put "size_heap" (put_n (s_heap s))
   ++ (if debug then put "created" (data_write_raw (chars "(filtered)")) ++ put "refreshed" (data_write_raw (chars "(filtered)"))
       else put "created" (put_n (sp_created p)) ++ put "refreshed" (put_n (sp_refreshed p)))
   ++ put "refreshes" (put_n (ix_refreshes (sp_index p)))
   ++ put "on_storage" (data_write_bool (part_has p ID))
   ++ put "on_cloud" (data_write_bool (part_has p ID_CLOUD))
   ++ put "storage" (data_write_raw (name (sp_storage p)))
   ++ (if debug then put "index" (if has_index p then index_show (sp_index p) else data_write_null) else []))%N.

(* a storage with its list of partitions *)
Record sstorage := mk_sstorage { ss_id : nat; ss_source : source; ss_parts : list spart }.
(* storage.h:135-156 *)
Definition storage_show (debug : bool) (s : sstorage) : list byte :=
  (data_write_len MN_MAPV0 2
   ++ put "config" (source_write true debug (ss_source s))
   ++ put "stats" (stats_show (fold_left stats_add (ss_parts s) stats_init)))%N.
(* storage_mgr.c:370-381 *)
Definition storage_mgr_show (debug : bool) (l : list sstorage) : list byte :=
  data_write_len MN_MAPV0 (N.of_nat (length l))
  ++ flat_map (fun s => data_write_raw (so_name (ss_source s)) ++ storage_show debug s) l.
(* cloud_mgr.c:189-213 *)
Definition cloud_mgr_show (l : list cloudc) (name : option (list byte)) : res (list byte) :=
  match name with
  | None => Ok (data_write_len MN_MAPV0 (N.of_nat (length l))
                ++ flat_map (fun c => data_write_raw (cc_name c) ++ cloudc_write true c) l)
  | Some n => match find (fun c => same_bytes (cc_name c) n) l with
              | Some c => Ok (cloudc_write true c)
              | None => Err
              end
  end.
(* pipeline.c:180-191 *)
Definition pipeline_show (l : list tierc) : list byte :=
  data_write_len MN_ARRAYV0 (N.of_nat (length l)) ++ flat_map tierc_write l.
(* wal.c:241-282 with wal_id.h:wal_id_stats: the settings, the last number and the first numbers of
   the files in order *)
Record wshow := mk_wshow {
  ws_active : bool; ws_rotate_wm : N; ws_sync_rotate : bool; ws_sync_write : bool; ws_crc : bool; ws_lsn : N; ws_files : list N }.
Definition wal_show (w : wshow) : list byte :=
  (data_write_len MN_MAPV0 8
   ++ put "active" (data_write_bool (ws_active w))
   ++ put "rotate_wm" (put_n (ws_rotate_wm w))
   ++ put "sync_on_rotate" (data_write_bool (ws_sync_rotate w))
   ++ put "sync_on_write" (data_write_bool (ws_sync_write w))
   ++ put "crc" (data_write_bool (ws_crc w))
   ++ put "lsn" (put_n (ws_lsn w))
   ++ put "lsn_min" (put_n (match ws_files w with f :: _ => f | [] => u64_max end))
   ++ put "files" (put_n (N.of_nat (length (ws_files w)))))%N.

(* what a SHOW reads: storages in their order, the partitions in the order of the mapping *)
Record shown := mk_shown {
  sh_clouds : list cloudc; sh_storages : list sstorage; sh_tiers : list tierc; sh_parts : list spart; sh_wal : wshow; sh_config : config }.
Definition source_name (l : list sstorage) (i : nat) : list byte :=
  match find (fun s => ss_id s =? i) l with Some s => so_name (ss_source s) | None => [] end.
(* storage_mgr.c:384-394 *)
Definition find_storage (l : list sstorage) (n : list byte) : option sstorage :=
  find (fun s => same_bytes (so_name (ss_source s)) n) l.
(* engine_show.c:47-74 *)
Definition show_partitions (e : shown) (debug : bool) (o : option sstorage) : list byte :=
  let l := match o with Some s => filter (fun p => sp_storage p =? ss_id s) (sh_parts e) | None => sh_parts e end in
  data_write_len32 MN_ARRAYV0 (N.of_nat (length l)) ++ flat_map (stats_show_part (source_name (sh_storages e)) debug) l.
(* engine_show.c:37-45 with mapping_match: the partition that contains [id] *)
Definition show_partition (e : shown) (debug : bool) (id : N) : res (list byte) :=
  match find (fun p => (sp_min p <=? id) && (id <=? sp_max p))%N (sh_parts e) with
  | Some p => Ok (stats_show_part (source_name (sh_storages e)) debug p)
  | None => Err
  end.

Inductive show_op :=
| ShowWal
| ShowClouds (name : option (list byte))
| ShowStorages (name : option (list byte)) (debug : bool)
| ShowPartition (id : N) (debug : bool)
| ShowPartitions (name : option (list byte)) (debug : bool)
| ShowPipeline
| ShowConfig
| ShowName (name : list byte).
(* execute.c:26-88, engine_show.c:75-114 *)
Definition execute_show_op (e : shown) (o : show_op) : res (list byte) :=
  match o with
  | ShowWal => Ok (wal_show (sh_wal e))
  | ShowClouds n => cloud_mgr_show (sh_clouds e) n
  | ShowStorages None debug => Ok (storage_mgr_show debug (sh_storages e))
  | ShowStorages (Some n) debug =>
    match find_storage (sh_storages e) n with Some s => Ok (storage_show debug s) | None => Err end
  | ShowPartition id debug => show_partition e debug id
  | ShowPartitions None debug => Ok (show_partitions e debug None)
  | ShowPartitions (Some n) debug =>
    match find_storage (sh_storages e) n with Some s => Ok (show_partitions e debug (Some s)) | None => Err end
  | ShowPipeline => Ok (pipeline_show (sh_tiers e))
  | ShowConfig => Ok (config_show (sh_config e))
  | ShowName n =>
    match config_find (sh_config e) n with
    | None => Err
    | Some v => if var_is v VAR_S then Err else Ok (var_encode v)
    end
  end.
Fixpoint show_ops (e : shown) (l : list show_op) : res (list byte) :=
  match l with
  | [] => Ok []
  | o :: l => do a <- execute_show_op e o ; do b <- show_ops e l ; Ok (a ++ b)
  end.
(* execute.c:90-109 *)
Definition execute_show (fmt_real : N -> list byte) (e : shown) (l : list show_op) : res (list byte) :=
  do b <- show_ops e l ;
  do (t, _) <- json_export fmt_real true
                 ((if (1 <? length l)%nat then data_write_len MN_ARRAYV0 (N.of_nat (length l)) else []) ++ b) ;
  Ok t.
