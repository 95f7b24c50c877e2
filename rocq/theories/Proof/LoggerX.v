From Coq Require Import NArith ZArith Arith List Bool String Lia.
Import ListNotations.
From Verif Require Import Model.Base Model.Data Model.Json Model.Lex Model.Uuid Model.Config Model.Names Model.Catalog Model.Show Model.Parse Model.Logger Spec.Logged Proof.LoggerL.
Local Open Scope N_scope.

Lemma log_short lg t out m : moment_ok t -> (List.length m <= 1000)%nat -> log_at lg t out m = Ok (noted lg out (line t [] m ++ [10])).
Proof.
  intros M H. unfold log_at. destruct (lg_enable lg) eqn:E.
  - destruct (write_cases lg t out [] m M E) as [A _]. apply A. cbn [List.length]. lia.
  - rewrite write_off by exact E. unfold noted. rewrite E. reflexivity.
Qed.
Lemma print_config_any lg at_ c out : (forall n, moment_ok (at_ n)) -> (lg_enable lg = true -> forall n, widest c n -> (n <= 1000)%nat) ->
  config_print lg at_ out c = Ok (print_all lg at_ out c).
Proof.
  intros M W. destruct (lg_enable lg) eqn:E; [apply print_config; auto|]. rewrite print_config_off by exact E. f_equal. clear W.
  revert out. induction c as [|v c IH]; intros out; [reflexivity|]. cbn [print_all]. rewrite <- IH. unfold noted. rewrite E.
  destruct (visible v); [destruct (var_text v)|]; reflexivity.
Qed.
Lemma greet_cases strtod fmt c dir d at_ out c' d' : (forall n, moment_ok (at_ n)) ->
  config_open strtod fmt (put_directory c dir) d = Ok (c', d') ->
  ((lg_enable (logger_of c') = true -> forall n, widest c' n -> (n <= 1000)%nat) ->
     main_greet strtod fmt c dir d at_ out = Ok (c', d', greeting (logger_of c') at_ out c')) /\
  (lg_enable (logger_of c') = true -> (exists n, widest c' n /\ (1002 <= n)%nat) ->
     main_greet strtod fmt c dir d at_ out = UB).
Proof.
  intros M O. unfold main_greet, greeting. rewrite O. cbn [bind]. cbv zeta.
  do 3 (rewrite log_short; [cbn [bind]|apply M|cbn; lia]).
  split.
  - intros W. rewrite print_config_any by (exact M || exact W). cbn [bind]. rewrite log_short; [reflexivity|apply M|cbn; lia].
  - intros E [n [W L]]. rewrite (print_config_wide _ at_ E M c' _ n W L). reflexivity.
Qed.

(* the three switches of the log, each by its name *)
Lemma logger_asked c : (lg_enable (logger_of c) = true <-> switched c (chars "log")) /\
  (lg_file (logger_of c) = true <-> switched c (chars "log_to_file")) /\
  (lg_stdout (logger_of c) = true <-> switched c (chars "log_to_stdout")).
Proof.
  assert (E : forall name, (match config_find c name with Some v => negb (v_int v =? 0) | None => false end = true) <-> switched c name).
  { intros name. unfold switched. destruct (config_find c name) as [v|]; [|split; [discriminate|intros [v [H _]]; discriminate]].
    rewrite negb_true_iff, N.eqb_neq. split; [intros H; exists v; auto|intros [w [H K]]; injection H as <-; exact K]. }
  repeat split; intros H; apply (E (chars _)); exact H.
Qed.

(* SET *)
Lemma set_cases lg t out online c name value : moment_ok t -> lg_enable lg = true -> execute_set online c name value = Err ->
  let r := logged_set lg t out online c name value in
  ((List.length name <= 952)%nat -> exists why, r = Ok (noted lg out (line t (chars "error: ") (chars "SET '" ++ name ++ chars "': " ++ why) ++ [10]),
       Refused (firstn 255 (chars "SET '" ++ name ++ chars "': " ++ why)), c)) /\
  ((987 <= List.length name)%nat -> r = UB).
Proof.
  intros M E H r. subst r. unfold logged_set. rewrite H. destruct (set_says online c name value H) as [why [S1 W]]. rewrite S1.
  destruct (throw_cases lg t out (chars "SET '" ++ name ++ chars "': " ++ why) M E) as [A [_ C]].
  rewrite !app_length in A, C. change (List.length (chars "SET '")) with 5%nat in *. change (List.length (chars "': ")) with 3%nat in *.
  split; intros K; [exists why; rewrite A by lia|rewrite C by lia]; reflexivity.
Qed.
(* nothing is lost when the settings were changed *)
Lemma set_done lg t out online c name value c' saved : execute_set online c name value = Ok (c', saved) ->
  logged_set lg t out online c name value = Ok (out, Answer [], c').
Proof. intros H. unfold logged_set. rewrite H. reflexivity. Qed.

(* witnesses *)
Definition now : moment := mk_moment (repeat 170 1024) (chars "17.11.26 02:00:00.") 5000.
Definition on : logger := mk_logger true true false.
Definition no_lines : lines := mk_lines [] [].
Lemma now_ok : moment_ok now.
Proof. repeat split. Qed.
Definition longname : list byte := repeat 97 1000.
Definition sample_env : env := mk_env (mk_uuid 1 2) [] (chars "zstd") 0%Z 3000000.

Lemma show_long strtod fmt online t out : moment_ok t ->
  snd (main_execute (logged_command fmt on t out online defaults) strtod sample_env (chars "SHOW " ++ longname)) = UB.
Proof.
  intros M. unfold main_execute.
  assert (P : parse strtod sample_env (chars "SHOW " ++ longname) = Ok (Some (CmdShow [Op (ShowName longname)]))) by (vm_compute; reflexivity).
  rewrite P. unfold logged_command.
  destruct (show_cases fmt on t out defaults longname M eq_refl) as [_ C]; [vm_compute; reflexivity|].
  rewrite C by (unfold longname; rewrite repeat_length; lia). reflexivity.
Qed.

(* the settings after SET compression TO '...', as they come back from the file *)
Definition set_text : list byte := chars "SET compression TO '" ++ longname ++ chars "'".
Definition set_token : token := mk_tok KSTRING (TStr longname false).
Definition kept : cdir := mk_cdir (Some (chars "{}")) None.
Lemma greet_wide strtod fmt c dir d at_ out c' d' v m : (forall n, moment_ok (at_ n)) ->
  config_open strtod fmt (put_directory c dir) d = Ok (c', d') -> lg_enable (logger_of c') = true ->
  config_find c' v = Some m -> In m c' -> visible m = true -> (exists t, var_text m = Some t /\ (1002 <= List.length t)%nat) ->
  main_greet strtod fmt c dir d at_ out = UB.
Proof.
  intros M O E F I V [t [T L]]. destruct (greet_cases strtod fmt c dir d at_ out c' d' M O) as [_ C].
  apply C; [exact E|]. exists (List.length t). split; [|exact L]. exists m, t. auto.
Qed.
Lemma found_in c name v : config_find c name = Some v -> In v c.
Proof.
  induction c as [|w c IH]; cbn [config_find]; [discriminate|]. destruct (same_bytes (v_name w) name); [|intros H; right; auto].
  intros H. injection H as ->. left. reflexivity.
Qed.
Lemma set_long strtod fmt at_ out : (forall n, moment_ok (at_ n)) -> exists c d,
  parse strtod sample_env set_text = Ok (Some (CmdSet (chars "compression") set_token)) /\
  execute_set true defaults (chars "compression") set_token = Ok (c, true) /\
  config_save fmt c kept = Ok d /\
  main_greet strtod fmt defaults (chars "db") d at_ out = UB.
Proof.
  intros M. eexists _, _. split; [vm_compute; reflexivity|]. split; [vm_compute; reflexivity|]. split; [vm_compute; reflexivity|].
  match goal with |- main_greet _ _ _ _ ?d _ _ = _ => set (dd := d) end.
  assert (O : exists c', config_open strtod fmt (put_directory defaults (chars "db")) dd = Ok (c', dd) /\ lg_enable (logger_of c') = true /\
    exists v, config_find c' (chars "compression") = Some v /\ visible v = true /\ exists t, var_text v = Some t /\ List.length t = 1032%nat).
  { eexists. split; [vm_compute; reflexivity|]. split; [vm_compute; reflexivity|]. eexists. split; [vm_compute; reflexivity|].
    split; [vm_compute; reflexivity|]. eexists. split; vm_compute; reflexivity. }
  destruct O as [c' [O [E [v [F [V [t [T L]]]]]]]].
  apply (greet_wide strtod fmt defaults (chars "db") dd at_ out c' dd (chars "compression") v M O E F (found_in _ _ _ F) V).
  exists t. split; [exact T|]. rewrite L. lia.
Qed.
Definition longdir : list byte := 47 :: repeat 100 1000.
Lemma directory_long strtod fmt at_ out : (forall n, moment_ok (at_ n)) ->
  main_greet strtod fmt defaults longdir (mk_cdir None None) at_ out = UB.
Proof.
  intros M.
  assert (O : exists c' d', config_open strtod fmt (put_directory defaults longdir) (mk_cdir None None) = Ok (c', d') /\ lg_enable (logger_of c') = true /\
    exists v, config_find c' (chars "directory") = Some v /\ visible v = true /\ exists t, var_text v = Some t /\ List.length t = 1033%nat).
  { eexists _, _. split; [vm_compute; reflexivity|]. split; [vm_compute; reflexivity|]. eexists. split; [vm_compute; reflexivity|].
    split; [vm_compute; reflexivity|]. eexists. split; vm_compute; reflexivity. }
  destruct O as [c' [d' [O [E [v [F [V [t [T L]]]]]]]]].
  apply (greet_wide strtod fmt defaults longdir _ at_ out c' d' (chars "directory") v M O E F (found_in _ _ _ F) V).
  exists t. split; [exact T|]. rewrite L. lia.
Qed.
(* the defaults print *)
Lemma defaults_short strtod fmt : exists c d, config_open strtod fmt (put_directory defaults (chars "db")) (mk_cdir None None) = Ok (c, d) /\
  lg_enable (logger_of c) = true /\ forall n, widest c n -> (n <= 1000)%nat.
Proof.
  eexists _, _. split; [vm_compute; reflexivity|]. split; [vm_compute; reflexivity|].
  intros n [v [m [I [V [T L]]]]].
  assert (Q : forall w, In w (put_directory defaults (chars "db")) -> match var_text w with Some x => (List.length x <= 1000)%nat | None => True end).
  { assert (B : forallb (fun w => match var_text w with Some x => Nat.leb (List.length x) 1000 | None => true end)
                  (put_directory defaults (chars "db")) = true) by (vm_compute; reflexivity).
    rewrite forallb_forall in B. intros w Hw. specialize (B w Hw). destruct (var_text w); [apply Nat.leb_le; exact B|exact Logic.I]. }
  specialize (Q v). rewrite T in Q. rewrite L in Q. apply Q. exact I.
Qed.
Lemma show_short : config_find defaults (chars "nothing") = None /\ (List.length (chars "nothing") <= 970)%nat.
Proof. split; [vm_compute; reflexivity|vm_compute; lia]. Qed.
Lemma set_short : execute_set true defaults (chars "nothing") (mk_tok KINT (TInt 5)) = Err /\ (List.length (chars "nothing") <= 952)%nat.
Proof. split; [vm_compute; reflexivity|vm_compute; lia]. Qed.
Lemma switched_ex : switched defaults (chars "log") /\ switched defaults (chars "log_to_file").
Proof. split; apply logger_asked; vm_compute; reflexivity. Qed.
