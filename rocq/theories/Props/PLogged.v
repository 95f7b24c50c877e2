(* C88: lines of the log and texts of errors. *)
From Coq Require Import NArith ZArith List Bool String.
Import ListNotations.
From Verif Require Import Model.Base Model.Lex Model.Config Model.Show Model.Parse Model.Logger Spec.Logged Proof.LoggerL Proof.LoggerX.
Local Open Scope N_scope.

(* one line *)
Theorem C88_line : forall t prefix message, moment_ok t ->
  let n := (List.length prefix + List.length message)%nat in
  let r := logger_line (mo_memory t) (mo_time t) (mo_usec t) (Some prefix) message in
  ((n <= 1000)%nat -> r = Ok (line t prefix message ++ [10])) /\
  (n = 1001%nat -> r = Ok (line t prefix message ++ [0])) /\
  ((1002 <= n)%nat -> r = UB).
Proof. exact line_cases. Qed.
Print Assumptions C88_line.
Example C88_line_example : moment_ok now.
Proof. exact now_ok. Qed.
Theorem C88_written : forall lg t out prefix message, moment_ok t -> lg_enable lg = true ->
  let n := (List.length prefix + List.length message)%nat in
  let r := logger_write lg t out (Some prefix) message in
  ((n <= 1000)%nat -> r = Ok (noted lg out (line t prefix message ++ [10]))) /\
  (n = 1001%nat -> r = Ok (noted lg out (line t prefix message ++ [0]))) /\
  ((1002 <= n)%nat -> r = UB).
Proof. exact write_cases. Qed.
Print Assumptions C88_written.
Example C88_written_example : moment_ok now /\ lg_enable on = true.
Proof. exact (conj now_ok eq_refl). Qed.
Theorem C88_off : forall lg t out prefix message, lg_enable lg = false -> logger_write lg t out prefix message = Ok out.
Proof. exact write_off. Qed.
Print Assumptions C88_off.

(* errors: the line of the log, and what monotone_error gives *)
Theorem C88_error : forall lg t out message, moment_ok t -> lg_enable lg = true ->
  let r := error_throw lg t out message in
  ((List.length message <= 993)%nat -> r = Ok (noted lg out (line t (chars "error: ") message ++ [10]), firstn 255 message)) /\
  (List.length message = 994%nat -> r = Ok (noted lg out (line t (chars "error: ") message ++ [0]), firstn 255 message)) /\
  ((995 <= List.length message)%nat -> r = UB).
Proof. exact throw_cases. Qed.
Print Assumptions C88_error.
Theorem C88_error_off : forall lg t out message, lg_enable lg = false -> error_throw lg t out message = Ok (out, firstn 255 message).
Proof. exact throw_off. Qed.
Print Assumptions C88_error_off.

(* SHOW and SET *)
Theorem C88_show : forall fmt_real lg t out c name, moment_ok t -> lg_enable lg = true -> config_find c name = None ->
  let r := logged_show fmt_real lg t out c name in
  ((List.length name <= 970)%nat -> r = Ok (noted lg out (line t (chars "error: ") (show_missing name) ++ [10]), Refused (firstn 255 (show_missing name)))) /\
  ((972 <= List.length name)%nat -> r = UB).
Proof. exact show_cases. Qed.
Print Assumptions C88_show.
Example C88_show_example : config_find defaults (chars "nothing") = None /\ (List.length (chars "nothing") <= 970)%nat.
Proof. exact show_short. Qed.
Theorem C88_set : forall lg t out online c name value, moment_ok t -> lg_enable lg = true -> execute_set online c name value = Err ->
  let r := logged_set lg t out online c name value in
  ((List.length name <= 952)%nat -> exists why, r = Ok (noted lg out (line t (chars "error: ") (chars "SET '" ++ name ++ chars "': " ++ why) ++ [10]),
       Refused (firstn 255 (chars "SET '" ++ name ++ chars "': " ++ why)), c)) /\
  ((987 <= List.length name)%nat -> r = UB).
Proof. exact set_cases. Qed.
Print Assumptions C88_set.
Example C88_set_example : execute_set true defaults (chars "nothing") (mk_tok KINT (TInt 5)) = Err /\ (List.length (chars "nothing") <= 952)%nat.
Proof. exact set_short. Qed.
Theorem C88_set_done : forall lg t out online c name value c' saved, execute_set online c name value = Ok (c', saved) ->
  logged_set lg t out online c name value = Ok (out, Answer [], c').
Proof. exact set_done. Qed.
Print Assumptions C88_set_done.
(* the text of a command *)
Theorem C88_show_refuted : forall strtod fmt_real online t out, moment_ok t ->
  snd (main_execute (logged_command fmt_real on t out online defaults) strtod sample_env (chars "SHOW " ++ longname)) = UB.
Proof. exact show_long. Qed.
Print Assumptions C88_show_refuted.

(* the opening of a directory *)
Theorem C88_greeting : forall strtod fmt_real c dir d at_ out c' d', (forall n, moment_ok (at_ n)) ->
  config_open strtod fmt_real (put_directory c dir) d = Ok (c', d') ->
  ((lg_enable (logger_of c') = true -> forall n, widest c' n -> (n <= 1000)%nat) ->
     main_greet strtod fmt_real c dir d at_ out = Ok (c', d', greeting (logger_of c') at_ out c')) /\
  (lg_enable (logger_of c') = true -> (exists n, widest c' n /\ (1002 <= n)%nat) ->
     main_greet strtod fmt_real c dir d at_ out = UB).
Proof. exact greet_cases. Qed.
Print Assumptions C88_greeting.
Example C88_greeting_example : forall strtod fmt_real, exists c d,
  config_open strtod fmt_real (put_directory defaults (chars "db")) (mk_cdir None None) = Ok (c, d) /\
  lg_enable (logger_of c) = true /\ forall n, widest c n -> (n <= 1000)%nat.
Proof. exact defaults_short. Qed.
(* which settings the logger follows *)
Theorem C88_switches : forall c, (lg_enable (logger_of c) = true <-> switched c (chars "log")) /\
  (lg_file (logger_of c) = true <-> switched c (chars "log_to_file")) /\
  (lg_stdout (logger_of c) = true <-> switched c (chars "log_to_stdout")).
Proof. exact logger_asked. Qed.
Print Assumptions C88_switches.
Example C88_switches_example : switched defaults (chars "log") /\ switched defaults (chars "log_to_file").
Proof. exact switched_ex. Qed.
(* a SET that is accepted and saved: the next opening *)
Theorem C88_set_refuted : forall strtod fmt_real at_ out, (forall n, moment_ok (at_ n)) -> exists c d,
  parse strtod sample_env set_text = Ok (Some (CmdSet (chars "compression") set_token)) /\
  execute_set true defaults (chars "compression") set_token = Ok (c, true) /\
  config_save fmt_real c kept = Ok d /\
  main_greet strtod fmt_real defaults (chars "db") d at_ out = UB.
Proof. exact set_long. Qed.
Print Assumptions C88_set_refuted.
Theorem C88_directory_refuted : forall strtod fmt_real at_ out, (forall n, moment_ok (at_ n)) ->
  main_greet strtod fmt_real defaults longdir (mk_cdir None None) at_ out = UB.
Proof. exact directory_long. Qed.
Print Assumptions C88_directory_refuted.
