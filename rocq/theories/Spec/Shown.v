(* What SHOW should say: the values, and sums over the partitions. *)
From Coq Require Import NArith ZArith Arith String List Bool.
Import ListNotations.
From Verif Require Import Model.Base Model.Lex Model.Uuid Model.File Model.Source Model.Config Model.Catalog Model.Show
  Spec.Value Spec.JsonText Spec.Settings Spec.Catalog.

(* a counter of 64 bits is shown as a signed number *)
Definition signed (n : N) : Z := ((Z.of_N n + 2 ^ 63) mod 2 ^ 64 - 2 ^ 63)%Z.
Definition num (n : N) : value := VInt (signed n).
Definition total {A} (f : A -> N) (l : list A) : N := fold_right (fun a n => f a + n)%N 0%N l.

(* a partition has a file here, on the cloud, or at least one *)
Definition local (p : spart) : bool := N.testbit (sp_state p) 0.
Definition cloudy (p : spart) : bool := N.testbit (sp_state p) 3.
Definition filed (p : spart) : bool := negb (sp_state p =? 0)%N.
Definition if_filed (f : index -> N) (p : spart) : N := if filed p then f (sp_index p) else 0%N.
Definition count (b : spart -> bool) (l : list spart) : N := N.of_nat (length (filter b l)).
Definition in_memory (p : spart) : N := (sp_count_a p + sp_count_b p)%N.
Definition heaps (p : spart) : N := (sp_heap_a p + sp_heap_b p)%N.
Definition all_events (p : spart) : N := (if_filed ix_events p + in_memory p)%N.

Definition least (l : list spart) : N :=
  match l with [] => 0 | p :: t => fold_right (fun q m => N.min (sp_min q) m) (sp_min p) t end%N.
Definition greatest (l : list spart) : N := fold_right (fun q m => N.max (sp_max q) m) 0%N l.

Definition stats_value (l : list spart) : value :=
  VMap [ pair "min" (num (least l)); pair "max" (num (greatest l));
         pair "partitions" (num (N.of_nat (length l)));
         pair "partitions_local" (num (count local l)); pair "partitions_cloud" (num (count cloudy l));
         pair "regions" (num (total (if_filed ix_regions) l));
         pair "events" (num (total all_events l)); pair "events_heap" (num (total in_memory l));
         pair "size" (num (total (if_filed ix_size_total) l));
         pair "size_uncompressed" (num (total (if_filed ix_size_total_origin) l));
         pair "size_heap" (num (total heaps l)) ].

Definition index_value (i : index) : value :=
  VMap [ pair "size" (num (ix_size i)); pair "size_origin" (num (ix_size_origin i));
         pair "size_regions" (num (ix_size_regions i)); pair "size_regions_origin" (num (ix_size_regions_origin i));
         pair "size_total" (num (ix_size_total i)); pair "size_total_origin" (num (ix_size_total_origin i));
         pair "regions" (num (ix_regions i)); pair "events" (num (ix_events i)); pair "refreshes" (num (ix_refreshes i));
         pair "lsn" (num (ix_lsn i)); pair "compression" (num (ix_compression i)); pair "encryption" (num (ix_encryption i)) ].
Definition part_value (name : list byte) (debug : bool) (p : spart) : value :=
  VMap ([ pair "min" (num (sp_min p)); pair "max" (num (sp_max p));
          pair "events" (num (all_events p)); pair "events_heap" (num (in_memory p));
          pair "regions" (num (if_filed ix_regions p)); pair "size" (num (if_filed ix_size_total p));
          pair "size_uncompressed" (num (if_filed ix_size_total_origin p)); pair "size_heap" (num (heaps p)) ]
        ++ (if debug then [ pair "created" (VStr (chars "(filtered)")); pair "refreshed" (VStr (chars "(filtered)")) ]
            else [ pair "created" (num (sp_created p)); pair "refreshed" (num (sp_refreshed p)) ])
        ++ [ pair "refreshes" (num (ix_refreshes (sp_index p)));
             pair "on_storage" (VBool (local p)); pair "on_cloud" (VBool (cloudy p)); pair "storage" (VStr name) ]
        ++ (if debug then [ pair "index" (if filed p then index_value (sp_index p) else VNull) ] else [])).

(* settings without what is secret *)
Definition source_public (debug : bool) (s : source) : value :=
  VMap [ pair "uuid" (VStr (if debug then chars "(filtered)" else uuid_to_string (so_uuid s)));
         pair "name" (VStr (so_name s)); pair "path" (VStr (so_path s));
         pair "cloud" (VStr (so_cloud s)); pair "cloud_drop_local" (VBool (so_drop_local s)); pair "sync" (VBool (so_sync s));
         pair "crc" (VBool (so_crc s)); pair "refresh_wm" (VInt (so_refresh_wm s)); pair "region_size" (VInt (so_region_size s));
         pair "compression" (VStr (so_compression s)); pair "compression_level" (VInt (so_level s));
         pair "encryption" (VStr (so_encryption s)) ].
Definition cloud_public (c : cloudc) : value :=
  VMap [ pair "name" (VStr (cc_name c)); pair "type" (VStr (cc_type c)); pair "login" (VStr (cc_login c));
         pair "password" (VStr (chars "(secret)")); pair "url" (VStr (cc_url c)); pair "debug" (VBool (cc_debug c)) ].
Definition storage_value (debug : bool) (s : sstorage) : value :=
  VMap [ pair "config" (source_public debug (ss_source s)); pair "stats" (stats_value (ss_parts s)) ].
Definition wal_value (w : wshow) : value :=
  VMap [ pair "active" (VBool (ws_active w)); pair "rotate_wm" (num (ws_rotate_wm w));
         pair "sync_on_rotate" (VBool (ws_sync_rotate w)); pair "sync_on_write" (VBool (ws_sync_write w));
         pair "crc" (VBool (ws_crc w)); pair "lsn" (num (ws_lsn w));
         pair "lsn_min" (match ws_files w with f :: _ => num f | [] => VInt (-1) end);
         pair "files" (num (N.of_nat (length (ws_files w)))) ].

(* the first with this name *)
Definition named {A} (name : A -> list byte) (n : list byte) (l : list A) : option A := find (fun a => is (name a) n) l.
Definition home_name (e : shown) (p : spart) : list byte :=
  match find (fun s => Nat.eqb (ss_id s) (sp_storage p)) (sh_storages e) with Some s => so_name (ss_source s) | None => [] end.

(* what each SHOW means; None: there is no such thing *)
Definition meaning (e : shown) (o : show_op) : option value :=
  match o with
  | ShowWal => Some (wal_value (sh_wal e))
  | ShowClouds None => Some (VMap (map (fun c => (VStr (cc_name c), cloud_public c)) (sh_clouds e)))
  | ShowClouds (Some n) => option_map cloud_public (named cc_name n (sh_clouds e))
  | ShowStorages None debug => Some (VMap (map (fun s => (VStr (so_name (ss_source s)), storage_value debug s)) (sh_storages e)))
  | ShowStorages (Some n) debug => option_map (storage_value debug) (named (fun s => so_name (ss_source s)) n (sh_storages e))
  | ShowPartition id debug =>
    option_map (fun p => part_value (home_name e p) debug p) (find (fun p => (sp_min p <=? id) && (id <=? sp_max p))%N (sh_parts e))
  | ShowPartitions None debug => Some (VArr (map (fun p => part_value (home_name e p) debug p) (sh_parts e)))
  | ShowPartitions (Some n) debug =>
    option_map (fun s => VArr (map (fun p => part_value (home_name e p) debug p)
                                   (filter (fun p => Nat.eqb (sp_storage p) (ss_id s)) (sh_parts e))))
               (named (fun s => so_name (ss_source s)) n (sh_storages e))
  | ShowPipeline => Some (VArr (map tier_value (sh_tiers e)))
  | ShowConfig => Some (VMap (map (fun p => (VStr (fst p), snd p))
                                  (settings (filter (fun v => negb (hidden v) && negb (secret v)) (sh_config e)))))
  | ShowName n =>
    match named v_name n (sh_config e) with
    | Some v => if secret v then None else Some (setting v)
    | None => None
    end
  end.
Definition answer (l : list value) : value := match l with [v] => v | _ => VArr l end.

Definition field (n : string) (v : value) : option value :=
  match v with
  | VMap l => option_map snd (find (fun p => match fst p with VStr s => is s (chars n) | _ => false end) l)
  | _ => None
  end.

(* numbers are of 64 bits, the variables can be written as text *)
Definition u64 (n : N) : Prop := (n < 2 ^ 64)%N.
Definition index_u64 (i : index) : Prop :=
  Forall u64 [ix_size i; ix_size_origin i; ix_size_regions i; ix_size_regions_origin i; ix_size_total i; ix_size_total_origin i;
              ix_regions i; ix_events i; ix_refreshes i; ix_lsn i; ix_compression i; ix_encryption i].
Definition spart_ok (p : spart) : Prop :=
  Forall u64 [sp_min p; sp_max p; sp_created p; sp_refreshed p] /\ index_u64 (sp_index p).
Definition shown_ok (e : shown) : Prop :=
  Forall spart_ok (sh_parts e) /\ Forall (fun s => Forall spart_ok (ss_parts s) /\ u64 (N.of_nat (length (ss_parts s)))) (sh_storages e) /\
  Forall u64 (ws_rotate_wm (sh_wal e) :: ws_lsn (sh_wal e) :: ws_files (sh_wal e)) /\ u64 (N.of_nat (length (ws_files (sh_wal e)))) /\
  Forall (fun v => secret v = false -> savable v) (sh_config e).

(* the same but for keys and passwords *)
Definition no_key (s : source) : source :=
  mk_source (so_uuid s) (so_name s) (so_path s) (so_cloud s) (so_drop_local s) (so_sync s) (so_crc s)
            (so_refresh_wm s) (so_region_size s) (so_compression s) (so_level s) (so_encryption s) [].
Definition no_password (c : cloudc) : cloudc :=
  mk_cloudc (cc_name c) (cc_type c) (cc_login c) [] (cc_url c) (cc_debug c).
Definition no_storage_key (s : sstorage) : sstorage := mk_sstorage (ss_id s) (no_key (ss_source s)) (ss_parts s).
Definition public (e : shown) :=
  (map no_password (sh_clouds e), map no_storage_key (sh_storages e), sh_tiers e, sh_parts e, sh_wal e,
   filter (fun v => negb (hidden v) && negb (secret v)) (sh_config e)).
(* a request for a variable by its name *)
Definition by_name (o : show_op) : bool := match o with ShowName _ => true | _ => false end.
