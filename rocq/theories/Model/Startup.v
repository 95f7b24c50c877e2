(* The catalog at the start of a database: /repo/monotone/main/main/main.c:230-235 with the
   variables of config.json, and the variables after a catalog command (execute.c:251-367, the
   save functions of Catalog.v set them, then config_save). *)
From Coq Require Import NArith ZArith String List.
Import ListNotations.
From Verif Require Import Model.Base Model.Lex Model.Uuid Model.Source Model.Config Model.Catalog.

(* var.h:116-191: var_string_of, var_data_of and var_int_of *)
Definition var_bytes (cfg : config) (name : string) : list byte :=
  match config_find cfg (chars name) with Some v => v_str v | None => [] end.
Definition var_number (cfg : config) (name : string) : N :=
  match config_find cfg (chars name) with Some v => v_int v | None => 0%N end.
Definition catalog_start (w : world) (cfg : config) : res catalog :=
  catalog_open w (var_bytes cfg "uuid") (var_bytes cfg "compression") (Z.of_N (var_number cfg "compression_level"))
    (var_bytes cfg "clouds") (var_bytes cfg "storages") (var_bytes cfg "pipeline").

(* var_data_set_buf on each of the three *)
Definition set_bytes (cfg : config) (name : string) (b : list byte) : config :=
  match config_find cfg (chars name) with Some v => config_put cfg (var_string_set v b) | None => cfg end.
Definition catalog_store (cfg : config) (c : catalog) : config :=
  set_bytes (set_bytes (set_bytes cfg "clouds" (va_clouds c)) "storages" (va_storages c)) "pipeline" (va_pipeline c).
