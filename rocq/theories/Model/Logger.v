(* Lines of the log and texts of errors: /repo/monotone/runtime/runtime/logger.c, error.h:52-74, log.h:22-37,
   var.h:193-212 var_print, config.c:294-304 config_print, the errors of SHOW name and SET in main/main/execute.c.
   An array is a list of bytes of its size. The text that a format gives is an argument, without zero bytes and
   shorter than 2^31 - 1024. strftime writes 18 bytes in the C locale. What vfs_write does with a line is left out.
   A pointer beyond the end of its array, and bytes read or written there, are undefined behaviour. *)
From Coq Require Import NArith ZArith Arith List Bool String.
Import ListNotations.
From Verif Require Import Model.Base Model.Json Model.Lex Model.Config Model.Names Model.Catalog Model.Show Model.Parse.
Local Open Scope res_scope.
Local Open Scope N_scope.

Definition size_of (l : list byte) : N := N.of_nat (List.length l).

(* snprintf(m + off, size, ...): what the array is, and the result *)
Definition snprintf (m : list byte) (off size : N) (text : list byte) : res (list byte * N) :=
  if size_of m <? off then UB
  else if size =? 0 then Ok (m, size_of text)
  else
    let w := (if size_of text <? size then text else firstn (N.to_nat (size - 1)) text) ++ [0] in
    if size_of m <? off + size_of w then UB
    else Ok (firstn (N.to_nat off) m ++ w ++ skipn (N.to_nat off + List.length w) m, size_of text).

(* sizeof(buffer) - len with an int len: size_t *)
Definition room (len : N) : N := (1024 + 2 ^ 64 - len) mod 2 ^ 64.

(* "%03d " of tv_usec / 1000 *)
Definition msec_text (usec : N) : list byte := digits 3 (usec / 1000) ++ [32].

(* logger.c:57-97: the bytes that are written; [m] is what the array holds before *)
Definition logger_line (m time : list byte) (usec : N) (prefix : option (list byte)) (message : list byte) : res (list byte) :=
  do (m, n) <- snprintf m 0 1024 time ;                       (* strftime *)
  let len := n in
  do (m, n) <- snprintf m len (room len) (msec_text usec) ;
  let len := len + n in
  do (m, len) <- match prefix with
                 | Some p => do (m, n) <- snprintf m len (room len) p ; Ok (m, len + n)
                 | None => Ok (m, len)
                 end ;
  do (m, n) <- snprintf m len (room len) message ;
  let len := len + n in
  do (m, n) <- snprintf m len (room len) [10] ;
  let len := len + n in
  if size_of m <? len then UB
  else Ok (firstn (N.to_nat len) m).

(* logger.h:17-24; the moment is what the clock shows and what is in the memory of the array *)
Record logger := mk_logger { lg_enable : bool; lg_file : bool; lg_stdout : bool }.
Record moment := mk_moment { mo_memory : list byte; mo_time : list byte; mo_usec : N }.
(* the lines that went to the file and to stdout *)
Record lines := mk_lines { ln_file : list (list byte); ln_stdout : list (list byte) }.

Definition logger_write (lg : logger) (t : moment) (out : lines) (prefix : option (list byte)) (message : list byte) : res lines :=
  if negb (lg_enable lg) then Ok out
  else
    do l <- logger_line (mo_memory t) (mo_time t) (mo_usec t) prefix message ;
    Ok (mk_lines (if lg_file lg then ln_file out ++ [l] else ln_file out)
                 (if lg_stdout lg then ln_stdout out ++ [l] else ln_stdout out)).

(* log.h:22-37 *)
Definition log_at (lg : logger) (t : moment) (out : lines) (message : list byte) : res lines :=
  logger_write lg t out (Some []) message.

(* error.h:52-74: the line, and the text that monotone_error gives afterwards *)
Definition error_throw (lg : logger) (t : moment) (out : lines) (message : list byte) : res (lines * list byte) :=
  do out <- logger_write lg t out (Some (chars "error: ")) message ;
  Ok (out, cut 256 message).

(* "%-32s" *)
Definition pad32 (s : list byte) : list byte := s ++ repeat 32 (32 - List.length s).
(* var.h:193-212 *)
Definition var_text (v : var) : option (list byte) :=
  match v_type v with
  | VAR_BOOL => Some (pad32 (v_name v) ++ (if v_int v =? 0 then chars "false" else chars "true"))
  | VAR_INT => Some (pad32 (v_name v) ++ dec_n 20 (v_int v))
  | VAR_STRING => Some (pad32 (v_name v) ++ v_str v)
  | VAR_DATA => None
  end.
(* config.c:294-304, each line at its moment *)
Fixpoint config_print (lg : logger) (at_ : nat -> moment) (out : lines) (c : config) : res lines :=
  match c with
  | [] => Ok out
  | v :: c =>
    do out <- (if visible v then match var_text v with Some m => log_at lg (at_ (List.length c)) out m | None => Ok out end else Ok out) ;
    config_print lg at_ out c
  end.

(* execute.c:74-84 *)
Definition show_missing (name : list byte) : list byte := chars "SHOW name: '" ++ name ++ chars "' not found".
(* execute.c:110-179: the text of the error with which SET ends *)
Definition set_error (online : bool) (c : config) (name : list byte) (value : token) : option (list byte) :=
  let because (s : string) := Some (chars "SET '" ++ name ++ chars "': " ++ chars s) in
  match config_find c name with
  | None => because "variable not found"%string
  | Some v =>
    if var_is v VAR_S then because "variable not found"%string
    else if negb (var_is v (if online then VAR_R else VAR_C)) then
      (if online then because "variable cannot be changed online"%string else because "variable cannot be changed"%string)
    else
      match v_type v with
      | VAR_BOOL => if (t_id value =? KTRUE) || (t_id value =? KFALSE) then None else because "bool value expected"%string
      | VAR_INT =>
        match t_id value =? KINT, t_val value with
        | true, TInt n => if var_is v VAR_Z && (n =? 0) then because "variable cannot be set to zero"%string else None
        | _, _ => because "integer value expected"%string
        end
      | VAR_STRING =>
        match t_id value =? KSTRING, t_val value with
        | true, TStr s _ => None
        | _, _ => because "string value expected"%string
        end
      | VAR_DATA => because "variable cannot be changed"%string
      end
  end.

(* what SHOW of one name, and SET, do with the log: Err with the text that monotone_error gives *)
Inductive answer := Answer (text : list byte) | Refused (error : list byte).
Definition logged_show (fmt_real : N -> list byte) (lg : logger) (t : moment) (out : lines) (c : config) (name : list byte)
  : res (lines * answer) :=
  match show_name fmt_real c name with
  | Ok a => Ok (out, Answer a)
  | Err => do (out, e) <- error_throw lg t out (show_missing name) ; Ok (out, Refused e)
  | UB => UB
  end.
Definition logged_set (lg : logger) (t : moment) (out : lines) (online : bool) (c : config) (name : list byte) (value : token)
  : res (lines * answer * config) :=
  match execute_set online c name value with
  | Ok (c', _) => Ok (out, Answer [], c')
  | Err =>
    match set_error online c name value with
    | Some m => do (out, e) <- error_throw lg t out m ; Ok (out, Refused e, c)
    | None => UB
    end
  | UB => UB
  end.
(* one of these as a command text *)
Definition logged_command (fmt_real : N -> list byte) (lg : logger) (t : moment) (out : lines) (online : bool) (c : config) (k : cmd)
  : res (list byte) :=
  match k with
  | CmdShow [Op (ShowName name)] =>
    do (_, a) <- logged_show fmt_real lg t out c name ;
    match a with Answer a => Ok a | Refused _ => Err end
  | CmdSet name value =>
    do (_, a, _) <- logged_set lg t out online c name value ;
    match a with Answer a => Ok a | Refused _ => Err end
  | _ => Ok []
  end.

(* main.c:137, 151-162 and 212-225: the settings of a directory, the logger they ask for, and the greeting.
   The directory was made and locked before (Opening.v) *)
Definition put_directory (c : config) (directory : list byte) : config :=
  match config_find c (chars "directory") with
  | Some v => config_put c (var_string_set v directory)
  | None => c
  end.
Definition logger_of (c : config) : logger :=
  let on name := match config_find c (chars name) with Some v => negb (v_int v =? 0) | None => false end in
  mk_logger (on "log"%string) (on "log_to_file"%string) (on "log_to_stdout"%string).
Definition main_greet (strtod : list byte -> option (N * nat)) (fmt_real : N -> list byte) (c : config) (directory : list byte) (d : cdir)
  (at_ : nat -> moment) (out : lines) : res (config * cdir * lines) :=
  do (c, d) <- config_open strtod fmt_real (put_directory c directory) d ;
  let lg := logger_of c in
  let n := List.length c in
  do out <- log_at lg (at_ (3 + n)%nat) out [] ;
  do out <- log_at lg (at_ (2 + n)%nat) out (chars "monotone.") ;
  do out <- log_at lg (at_ (1 + n)%nat) out [] ;
  do out <- config_print lg at_ out c ;
  do out <- log_at lg (at_ n) out [] ;
  Ok (c, d, out).
