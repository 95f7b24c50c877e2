(* Settings: /repo/monotone/runtime/config/{var.h,config.c}, main/main/execute.c execute_set and
   SHOW name / SHOW CONFIG, and the file config.json. Numbers of JSON text that are reals go
   through strtod and "%f" as in Json.v.
   Left out: log output; the directory is synced in the order of the calls. *)
From Coq Require Import NArith ZArith Arith List Bool String.
Import ListNotations.
From Verif Require Import Model.Base Model.Data Model.Json Model.Lex.
Local Open Scope res_scope.

(* var.h:18-32 *)
Definition VAR_C : N := 1.
Definition VAR_R : N := 2.
Definition VAR_H : N := 4.
Definition VAR_S : N := 8.
Definition VAR_E : N := 16.
Definition VAR_Z : N := 32.
(* var.h:34-40 *)
Inductive vtype := VAR_BOOL | VAR_INT | VAR_STRING | VAR_DATA.
(* var.h:42-54; the integer is a uint64_t *)
Record var := mk_var { v_name : list byte; v_type : vtype; v_flags : N; v_int : N; v_str : list byte }.
Definition config := list var.

(* var.h:74-78 *)
Definition var_is (v : var) (f : N) : bool := (0 <? N.land (v_flags v) f)%N.
Definition var_int_set (v : var) (n : N) : var := mk_var (v_name v) (v_type v) (v_flags v) n (v_str v).
Definition var_string_set (v : var) (s : list byte) : var := mk_var (v_name v) (v_type v) (v_flags v) (v_int v) s.

(* config.c:77-133 *)
Definition def (name : string) (t : vtype) (flags : N) (s : string) (n : N) : var := mk_var (chars name) t flags n (chars s).
Definition defaults : config :=
  (let C := VAR_C in let R := (VAR_C + VAR_R)%N in let E := VAR_E in
   let T := (VAR_H + VAR_R + VAR_E)%N in
   [ def "version" VAR_STRING E "1.0.0" 0;
     def "uuid" VAR_STRING C "" 0;
     def "directory" VAR_STRING E "" 0;
     def "sync" VAR_BOOL (VAR_E + VAR_C + VAR_H) "" 1;
     def "log" VAR_BOOL C "" 1;
     def "log_to_file" VAR_BOOL C "" 1;
     def "log_to_stdout" VAR_BOOL C "" 0;
     def "mm_page_size" VAR_INT C "" 2097152;
     def "mm_limit" VAR_BOOL C "" 0;
     def "mm_limit_wm" VAR_INT C "" 8589934592;
     def "mm_limit_behaviour" VAR_STRING C "block" 0;
     def "mm_cache" VAR_INT C "" 8589934592;
     def "wal" VAR_BOOL C "" 1;
     def "wal_rotate_wm" VAR_INT R "" 104857600;
     def "wal_sync_on_rotate" VAR_BOOL C "" 1;
     def "wal_sync_on_write" VAR_BOOL C "" 0;
     def "wal_crc" VAR_BOOL C "" 0;
     def "serial" VAR_BOOL C "" 1;
     def "interval" VAR_INT (R + VAR_Z) "" 3000000;
     def "compression" VAR_STRING R "zstd" 0;
     def "compression_level" VAR_INT R "" 0;
     def "workers" VAR_INT C "" 3;
     def "workers_upload" VAR_INT C "" 1;
     def "ssn" VAR_INT (VAR_E + VAR_R) "" 0;
     def "lsn" VAR_INT E "" 0;
     def "clouds" VAR_DATA (VAR_C + VAR_H) "" 0;
     def "storages" VAR_DATA (VAR_C + VAR_H) "" 0;
     def "pipeline" VAR_DATA (VAR_C + VAR_H) "" 0;
     def "error_refresh_1" VAR_BOOL T "" 0;
     def "error_refresh_2" VAR_BOOL T "" 0;
     def "error_refresh_3" VAR_BOOL T "" 0;
     def "error_download" VAR_BOOL T "" 0;
     def "error_upload" VAR_BOOL T "" 0;
     def "error_wal" VAR_BOOL T "" 0;
     def "test_bool" VAR_BOOL T "" 0;
     def "test_int" VAR_INT T "" 0;
     def "test_string" VAR_STRING T "" 0;
     def "test_data" VAR_DATA T "" 0 ])%string%N.

(* config.c:320-329 *)
Fixpoint config_find (c : config) (name : list byte) : option var :=
  match c with
  | [] => None
  | v :: c => if same_bytes (v_name v) name then Some v else config_find c name
  end.
(* the variable that config_find gives is changed in place *)
Fixpoint config_put (c : config) (v : var) : config :=
  match c with
  | [] => []
  | w :: c => if same_bytes (v_name w) (v_name v) then v :: c else w :: config_put c v
  end.

(* var.h:214-234 *)
Definition var_encode (v : var) : list byte :=
  match v_type v with
  | VAR_STRING => data_write_raw (v_str v)
  | VAR_DATA => match v_str v with [] => data_write_null | s => s end
  | VAR_BOOL => data_write_bool (negb (v_int v =? 0)%N)
  | VAR_INT => data_write_integer (v_int v)
  end.

(* config.c:157-199 *)
Definition var_read (v : var) (l : list byte) : res (var * list byte) :=
  match l with
  | [] => UB
  | t :: _ =>
    match v_type v with
    | VAR_BOOL => if is_bool t then (do (b, l) <- data_read_bool l ; Ok (var_int_set v (if b then 1 else 0)%N, l)) else Err
    | VAR_INT => if is_int t then (do (z, l) <- data_read_integer l ; Ok (var_int_set v (Z.to_N (z mod 2 ^ 64)), l)) else Err
    | VAR_STRING => if is_string t then (do (s, l) <- data_read_raw l ; Ok (var_string_set v s, l)) else Err
    | VAR_DATA => do r <- data_skip l ; Ok (var_string_set v (firstn (List.length l - List.length r) l), r)
    end
  end.
(* config.c:135-201 *)
Fixpoint config_set_loop (n : nat) (c : config) (l : list byte) : res config :=
  match n with
  | O => Ok c
  | S n =>
    do (name, l) <- data_read_raw l ;
    match config_find c name with
    | None => Err
    | Some v =>
      if negb (var_is v VAR_C) then Err
      else do (v, l) <- var_read v l ; config_set_loop n (config_put c v) l
    end
  end.
Definition config_set_data (c : config) (l : list byte) : res config :=
  do (n, l) <- data_read_len MN_MAPV0 l ; config_set_loop (Z.to_nat n) c l.

(* config.c:36-63 and 214-226, 302-313: the counts are those of the variables listed *)
Definition config_list (keep : var -> bool) (c : config) : list byte :=
  let l := filter keep c in
  data_write_len MN_MAPV0 (N.of_nat (List.length l)) ++ flat_map (fun v => data_write_raw (v_name v) ++ var_encode v) l.
Definition persistent (v : var) : bool := negb (var_is v VAR_E).
Definition visible (v : var) : bool := negb (var_is v VAR_H || var_is v VAR_S).
Definition config_list_persistent := config_list persistent.
Definition config_show := config_list visible.

Section CONFIG.
Variable strtod : list byte -> option (N * nat).
Variable fmt_real : N -> list byte.

(* config.c:228-242 *)
Definition config_text (c : config) : res (list byte) :=
  do (t, _) <- json_export fmt_real true (config_list_persistent c) ; Ok t.

(* config.json and config.json.old *)
Record cdir := mk_cdir { cd_file : option (list byte); cd_old : option (list byte) }.

(* config.c:254-273 with 244-252: what a crash can leave, in the order of the calls, and how far
   the call came; a file is written from its start *)
Inductive phase := Before | Gone | Partial | Done.
Definition config_save_states (text : list byte) (d : cdir) : list (phase * cdir) :=
  (Before, d) :: (Before, mk_cdir (cd_file d) None) ::
  match cd_file d with
  | None => []                                   (* rename fails *)
  | Some old =>
    (Gone, mk_cdir None (Some old)) ::
    map (fun k => (if (k =? List.length text)%nat then Done else Partial, mk_cdir (Some (firstn k text)) (Some old)))
        (seq 0 (S (List.length text))) ++
    [(Done, mk_cdir (Some text) None)]
  end.
Definition config_save (c : config) (d : cdir) : res cdir :=
  match cd_file d with
  | None => Err
  | Some _ => do text <- config_text c ; Ok (mk_cdir (Some text) None)
  end.

(* config.c:203-212, 275-293; file.h:267-281: an empty file cannot be read *)
Definition config_open (c : config) (d : cdir) : res (config * cdir) :=
  match cd_file d with
  | Some [] => Err
  | Some l => do b <- json_parse strtod l ; do c <- config_set_data c b ; Ok (c, d)
  | None => do text <- config_text c ; Ok (c, mk_cdir (Some text) (cd_old d))
  end.

(* execute.c:70-84 and 107-108 *)
Definition show_name (c : config) (name : list byte) : res (list byte) :=
  match config_find c name with
  | None => Err
  | Some v => if var_is v VAR_S then Err else do (t, _) <- json_export fmt_real true (var_encode v) ; Ok t
  end.
End CONFIG.

(* execute.c:111-179: the settings, and whether the file is written *)
Definition execute_set (online : bool) (c : config) (name : list byte) (value : token) : res (config * bool) :=
  match config_find c name with
  | None => Err
  | Some v =>
    if var_is v VAR_S then Err
    else if negb (var_is v (if online then VAR_R else VAR_C)) then Err
    else
      do v <- match v_type v with
              | VAR_BOOL =>
                if (t_id value =? KTRUE)%N then Ok (var_int_set v 1)
                else if (t_id value =? KFALSE)%N then Ok (var_int_set v 0) else Err
              | VAR_INT =>
                match t_id value =? KINT, t_val value with
                | true, TInt n => if var_is v VAR_Z && (n =? 0)%N then Err else Ok (var_int_set v n)
                | _, _ => Err
                end%N
              | VAR_STRING =>
                match t_id value =? KSTRING, t_val value with
                | true, TStr s _ => Ok (var_string_set v s)
                | _, _ => Err
                end%N
              | VAR_DATA => Err
              end ;
      Ok (config_put c v, online && negb (var_is v VAR_E))
  end.
