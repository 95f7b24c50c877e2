(* The settings of a storage, a cloud and a tier: /repo/monotone/cloud/cloud/{source.h,
   cloud_config.h} and engine/storage/tier_config.h. Integers are int64_t, so they are Z. *)
From Coq Require Import NArith ZArith Arith String List Bool.
Import ListNotations.
From Verif Require Import Model.Base Model.Data Model.Lex Model.Uuid.
Local Open Scope res_scope.

(* source.h:35-50 *)
Record source := mk_source {
  so_uuid : uuid; so_name : list byte; so_path : list byte; so_cloud : list byte;
  so_drop_local : bool; so_sync : bool; so_crc : bool;
  so_refresh_wm : Z; so_region_size : Z;
  so_compression : list byte; so_level : Z; so_encryption : list byte; so_key : list byte }.

(* source.h:52-70 *)
Definition source_new : source :=
  mk_source (mk_uuid 0 0) [] [] [] true true false (40 * 1024 * 1024) (128 * 1024) [] 0 [] [].

(* source.h:130-152: the setters of the three integers take an int *)
Definition narrow (z : Z) : Z := i32_of_z z.

(* source.h:168-186 *)
Definition source_copy (s : source) : source :=
  mk_source (so_uuid s) (so_name s) (so_path s) (so_cloud s) (so_drop_local s) (so_sync s) (so_crc s)
            (narrow (so_refresh_wm s)) (narrow (so_region_size s))
            (so_compression s) (narrow (so_level s)) (so_encryption s) (so_key s).

Definition source_set_name (s : source) (n : list byte) : source :=
  mk_source (so_uuid s) n (so_path s) (so_cloud s) (so_drop_local s) (so_sync s) (so_crc s)
            (so_refresh_wm s) (so_region_size s) (so_compression s) (so_level s) (so_encryption s) (so_key s).
Definition source_set_cloud (s : source) (n : list byte) : source :=
  mk_source (so_uuid s) (so_name s) (so_path s) n (so_drop_local s) (so_sync s) (so_crc s)
            (so_refresh_wm s) (so_region_size s) (so_compression s) (so_level s) (so_encryption s) (so_key s).

(* encode_raw of a key followed by the encoding of its value *)
Definition put (key : string) (v : list byte) : list byte := data_write_raw (chars key) ++ v.
Definition put_int (z : Z) : list byte := data_write_integer (Z.to_N (z mod 2 ^ 64)).

(* source.h:215-286 *)
Definition source_write (safe debug : bool) (s : source) : list byte :=
  (data_write_len MN_MAPV0 (if safe then 12 else 13)
   ++ put "uuid" (data_write_raw (if debug then chars "(filtered)" else uuid_to_string (so_uuid s)))
   ++ put "name" (data_write_raw (so_name s))
   ++ put "path" (data_write_raw (so_path s))
   ++ put "cloud" (data_write_raw (so_cloud s))
   ++ put "cloud_drop_local" (data_write_bool (so_drop_local s))
   ++ put "sync" (data_write_bool (so_sync s))
   ++ put "crc" (data_write_bool (so_crc s))
   ++ put "refresh_wm" (put_int (so_refresh_wm s))
   ++ put "region_size" (put_int (so_region_size s))
   ++ put "compression" (data_write_raw (so_compression s))
   ++ put "compression_level" (put_int (so_level s))
   ++ put "encryption" (data_write_raw (so_encryption s))
   ++ (if safe then [] else put "encryption_key" (data_write_raw (so_key s))))%N.

(* source.h:189-213 *)
Definition source_keys : list (list byte * kind) :=
  [ (chars "uuid", KUuid); (chars "name", KString); (chars "path", KString); (chars "cloud", KString);
    (chars "cloud_drop_local", KBool); (chars "sync", KBool); (chars "crc", KBool);
    (chars "refresh_wm", KInt); (chars "region_size", KInt); (chars "compression", KString);
    (chars "compression_level", KInt); (chars "encryption", KString); (chars "encryption_key", KString) ].
Definition source_read (l : list byte) : res (source * list byte) :=
  do (t, l) <- decode_map source_keys l ;
  match map snd t with
  | [ Some (FString u); Some (FString n); Some (FString p); Some (FString c); Some (FBool d); Some (FBool s); Some (FBool r);
      Some (FInt w); Some (FInt g); Some (FString m); Some (FInt v); Some (FString e); Some (FString k) ] =>
    match uuid_from_string u with
    | Some u => Ok (mk_source u n p c d s r w g m v e k, l)
    | None => Err
    end
  | _ => UB
  end.

(* what ALTER STORAGE SET gives: an option for every bit of the mask. The parser refuses to change
   the uuid, and names are changed by RENAME only (parse_storage.c). *)
Record salter := mk_salter {
  al_path : option (list byte); al_cloud : option (list byte);
  al_drop_local : option bool; al_sync : option bool; al_crc : option bool;
  al_refresh_wm : option Z; al_region_size : option Z;
  al_compression : option (list byte); al_level : option Z;
  al_encryption : option (list byte); al_key : option (list byte) }.
Definition pick {A} (o : option A) (a : A) : A := match o with Some x => x | None => a end.
(* source.h:288-328 *)
Definition source_alter (s : source) (a : salter) : source :=
  mk_source (so_uuid s) (so_name s) (pick (al_path a) (so_path s)) (pick (al_cloud a) (so_cloud s))
            (pick (al_drop_local a) (so_drop_local s)) (pick (al_sync a) (so_sync s)) (pick (al_crc a) (so_crc s))
            (pick (option_map narrow (al_refresh_wm a)) (so_refresh_wm s))
            (pick (option_map narrow (al_region_size a)) (so_region_size s))
            (pick (al_compression a) (so_compression s))
            (pick (option_map narrow (al_level a)) (so_level s))
            (pick (al_encryption a) (so_encryption s)) (pick (al_key a) (so_key s)).

(* cloud_config.h:26-36 *)
Record cloudc := mk_cloudc {
  cc_name : list byte; cc_type : list byte; cc_login : list byte; cc_password : list byte;
  cc_url : list byte; cc_debug : bool }.
Definition cloudc_set_name (c : cloudc) (n : list byte) : cloudc :=
  mk_cloudc n (cc_type c) (cc_login c) (cc_password c) (cc_url c) (cc_debug c).
(* cloud_config.h:136-172 *)
Definition cloudc_write (safe : bool) (c : cloudc) : list byte :=
  (data_write_len MN_MAPV0 6
   ++ put "name" (data_write_raw (cc_name c))
   ++ put "type" (data_write_raw (cc_type c))
   ++ put "login" (data_write_raw (cc_login c))
   ++ put "password" (data_write_raw (if safe then chars "(secret)" else cc_password c))
   ++ put "url" (data_write_raw (cc_url c))
   ++ put "debug" (data_write_bool (cc_debug c)))%N.
(* cloud_config.h:117-134 *)
Definition cloudc_keys : list (list byte * kind) :=
  [ (chars "name", KString); (chars "type", KString); (chars "login", KString); (chars "password", KString);
    (chars "url", KString); (chars "debug", KBool) ].
Definition cloudc_read (l : list byte) : res (cloudc * list byte) :=
  do (t, l) <- decode_map cloudc_keys l ;
  match map snd t with
  | [ Some (FString n); Some (FString t); Some (FString g); Some (FString p); Some (FString u); Some (FBool d) ] =>
    Ok (mk_cloudc n t g p u d, l)
  | _ => UB
  end.
(* ALTER CLOUD SET: neither the name nor the type (parse_cloud.c) *)
Record calter := mk_calter { ac_login : option (list byte); ac_password : option (list byte); ac_url : option (list byte); ac_debug : option bool }.
(* cloud_config.h:174-195 *)
Definition cloudc_alter (c : cloudc) (a : calter) : cloudc :=
  mk_cloudc (cc_name c) (cc_type c) (pick (ac_login a) (cc_login c)) (pick (ac_password a) (cc_password c))
            (pick (ac_url a) (cc_url c)) (pick (ac_debug a) (cc_debug c)).

(* tier_config.h:17-26 *)
Record tierc := mk_tierc { tc_name : list byte; tc_partitions : Z; tc_size : Z; tc_events : Z; tc_duration : Z }.
Definition tierc_set_name (c : tierc) (n : list byte) : tierc :=
  mk_tierc n (tc_partitions c) (tc_size c) (tc_events c) (tc_duration c).
(* tier_config.h:110-135 *)
Definition tierc_write (c : tierc) : list byte :=
  (data_write_len MN_MAPV0 5
   ++ put "name" (data_write_raw (tc_name c))
   ++ put "partitions" (put_int (tc_partitions c))
   ++ put "size" (put_int (tc_size c))
   ++ put "events" (put_int (tc_events c))
   ++ put "duration" (put_int (tc_duration c)))%N.
(* tier_config.h:92-108 *)
Definition tierc_keys : list (list byte * kind) :=
  [ (chars "name", KString); (chars "partitions", KInt); (chars "size", KInt); (chars "events", KInt); (chars "duration", KInt) ].
Definition tierc_read (l : list byte) : res (tierc * list byte) :=
  do (t, l) <- decode_map tierc_keys l ;
  match map snd t with
  | [ Some (FString n); Some (FInt p); Some (FInt s); Some (FInt e); Some (FInt d) ] => Ok (mk_tierc n p s e d, l)
  | _ => UB
  end.
(* tier_config.h:137-144 *)
Definition tierc_terminal (c : tierc) : bool :=
  ((tc_partitions c =? -1) && (tc_size c =? -1) && (tc_events c =? -1) && (tc_duration c =? -1))%Z.
