(* Commands given as texts, the settings in memory and in config.json, and starts.

   Sources: /repo/monotone/main/main/main.c:118-166 (main_deploy) and 213-235 (main_start as far as
   clouds and storages are recovered), execute.c:111-179 (execute_set), 251-367 (commands on clouds,
   storages and the pipeline), 535-590 (main_execute); config.c config_save, config_open.
   Simplifications: other commands change no settings, what they do to the partitions of storages is
   [Parts] of Catalog.v; the uuid and the key a new storage can get are given; the calls on
   config.json succeed (what a stop can leave of them is config_save_states of Config.v). *)
From Coq Require Import NArith ZArith String List Bool.
Import ListNotations.
From Verif Require Import Model.Base Model.Lex Model.Uuid Model.Source Model.Config Model.Catalog Model.Startup Model.Parse.
Local Open Scope res_scope.

Record session := mk_session { se_cfg : config; se_cat : catalog; se_dir : cdir }.

Section SESSION.
Variable strtod : list byte -> option (N * nat).
Variable fmt_real : N -> list byte.

(* what the parser asks of the settings: parse_storage.c:181-215, parse_partition.c *)
Definition env_of (cfg : config) (u : uuid) (key : list byte) : env :=
  mk_env u key (var_bytes cfg "compression") (Z.of_N (var_number cfg "compression_level")) (var_number cfg "interval").

(* main.c:144-146, 230-235: [d] is the table of settings before the file is read *)
Definition deploy (w : world) (d : config) (dir : cdir) : res session :=
  do (cfg, dir) <- config_open strtod fmt_real d dir ;
  do cat <- catalog_start w cfg ;
  Ok (mk_session (catalog_store cfg cat) cat dir).

(* control_save_config *)
Definition save (cfg : config) (cat : catalog) (dir : cdir) : res (session * bool) :=
  match config_save fmt_real cfg dir with
  | Ok dir => Ok (mk_session cfg cat dir, true)
  | Err => Ok (mk_session cfg cat dir, false)
  | UB => UB
  end.
(* one statement, and whether it succeeded *)
Definition say (w : world) (u : uuid) (key : list byte) (s : session) (text : list byte) : res (session * bool) :=
  match parse strtod (env_of (se_cfg s) u key) text with
  | UB => UB
  | Err => Ok (s, false)
  | Ok None => Ok (s, true)
  | Ok (Some (CmdSet n v)) =>
    match execute_set true (se_cfg s) n v with
    | Ok (cfg, true) => save cfg (se_cat s) (se_dir s)
    | Ok (cfg, false) => Ok (mk_session cfg (se_cat s) (se_dir s), true)
    | Err => Ok (s, false)
    | UB => UB
    end
  | Ok (Some (CmdCatalog c)) =>
    let (cat, ok) := execute w (se_cat s) c in
    let cfg := catalog_store (se_cfg s) cat in
    if ok then save cfg cat (se_dir s) else Ok (mk_session cfg cat (se_dir s), false)
  | Ok (Some _) => Ok (s, true)
  end.
(* partitions of a storage come and go *)
Definition parts (s : session) (name : list byte) (l : list part) : session :=
  mk_session (se_cfg s) (fst (execute (mk_world true true true) (se_cat s) (Parts name l))) (se_dir s).
End SESSION.
