From Coq Require Import NArith ZArith Arith List Bool String Lia.
Import ListNotations.
From Verif Require Import Model.Base Model.Json Model.Lex Model.Config Model.Names Model.Catalog Model.Show Model.Parse Model.Logger Spec.Logged.
Local Open Scope N_scope.

Lemma room_of len : len <= 1024 -> room len = 1024 - len.
Proof.
  intros H. unfold room. replace (1024 + 2 ^ 64 - len) with ((1024 - len) + 1 * 2 ^ 64) by lia.
  rewrite N.mod_add by lia. apply N.mod_small. lia.
Qed.

(* m begins with c *)
Definition begins (m c : list byte) : Prop := exists r, m = c ++ r /\ List.length m = 1024%nat.

Lemma print_fits m c text : begins m c -> (List.length c + List.length text <= 1023)%nat ->
  exists m', snprintf m (size_of c) (room (size_of c)) text = Ok (m', size_of text) /\ begins m' (c ++ text).
Proof.
  intros [r [-> L]] H. rewrite app_length in L. unfold snprintf, size_of in *. rewrite room_of by lia.
  rewrite !app_length, L.
  rewrite (proj2 (N.ltb_ge (N.of_nat 1024) (N.of_nat (List.length c)))) by lia. rewrite (proj2 (N.eqb_neq _ _)) by lia.
  rewrite (proj2 (N.ltb_lt (N.of_nat (List.length text)) _)) by lia. cbv zeta. rewrite ?app_length. cbn [List.length].
  rewrite (proj2 (N.ltb_ge _ _)) by lia. rewrite Nat2N.id.
  eexists. split; [reflexivity|]. rewrite firstn_app, Nat.sub_diag, firstn_all, firstn_O, app_nil_r.
  exists (0 :: skipn (List.length c + (List.length text + 1)) (c ++ r)). split.
  - rewrite <- !app_assoc. reflexivity.
  - rewrite !app_length, skipn_length, app_length. cbn [List.length]. lia.
Qed.
(* the array is full *)
Lemma print_cut m c text : begins m c -> (List.length c <= 1023)%nat -> (1024 <= List.length c + List.length text)%nat ->
  exists m', snprintf m (size_of c) (room (size_of c)) text = Ok (m', size_of text) /\
    m' = firstn 1023 (c ++ text) ++ [0] /\ List.length m' = 1024%nat.
Proof.
  intros [r [-> L]] H K. rewrite app_length in L. unfold snprintf, size_of in *. rewrite room_of by lia.
  rewrite !app_length, L.
  rewrite (proj2 (N.ltb_ge (N.of_nat 1024) (N.of_nat (List.length c)))) by lia. rewrite (proj2 (N.eqb_neq _ _)) by lia.
  rewrite (proj2 (N.ltb_ge (N.of_nat (List.length text)) _)) by lia. cbv zeta. rewrite ?app_length, ?firstn_length. cbn [List.length].
  rewrite (proj2 (N.ltb_ge _ _)) by lia. rewrite Nat2N.id.
  eexists. split; [reflexivity|]. rewrite firstn_app, Nat.sub_diag, firstn_all, firstn_O, app_nil_r.
  assert (Q : c ++ (firstn (N.to_nat (1024 - N.of_nat (List.length c) - 1)) text ++ [0]) ++ skipn (List.length c + (Nat.min (N.to_nat (1024 - N.of_nat (List.length c) - 1)) (List.length text) + 1)) (c ++ r)
    = firstn 1023 (c ++ text) ++ [0]).
  { rewrite skipn_all2 by (rewrite app_length; lia). rewrite app_nil_r, app_assoc. f_equal.
    rewrite firstn_app, (firstn_all2 c) by lia. f_equal. f_equal. lia. }
  rewrite Q. split; [reflexivity|]. rewrite app_length, firstn_length, app_length. cbn [List.length]. lia.
Qed.
(* anything behind is not written *)
Lemma print_end m text : List.length m = 1024%nat -> snprintf m 1024 (room 1024) text = Ok (m, size_of text).
Proof. intros L. unfold snprintf, size_of. rewrite L, room_of by lia. reflexivity. Qed.
Lemma print_beyond m off size text : List.length m = 1024%nat -> 1024 < off -> snprintf m off size text = UB.
Proof. intros L H. unfold snprintf, size_of. rewrite L, (proj2 (N.ltb_lt _ _)) by lia. reflexivity. Qed.

(* one more text: short, or too long from here on *)
Inductive after (m : list byte) (len : N) (c : list byte) : Prop :=
| fine : begins m c -> len = size_of c -> (List.length c <= 1023)%nat -> after m len c
| full : List.length m = 1024%nat -> 1024 <= len -> len = size_of c -> after m len c.

Lemma after_step m len c text : after m len c ->
  (snprintf m len (room len) text = UB /\ (1025 <= List.length (c ++ text))%nat) \/
  exists m', snprintf m len (room len) text = Ok (m', size_of text) /\ after m' (len + size_of text) (c ++ text).
Proof.
  intros [B -> L|M K E].
  - destruct (Nat.le_gt_cases (List.length c + List.length text) 1023) as [F|F].
    + destruct (print_fits m c text B F) as [m' [P Q]]. right. exists m'. split; [exact P|]. apply fine; [exact Q| |].
      * unfold size_of. rewrite app_length. lia.
      * rewrite app_length. exact F.
    + destruct (print_cut m c text B L F) as [m' [P [_ Q]]]. right. exists m'. split; [exact P|]. apply full; [exact Q| |].
      * unfold size_of. lia.
      * unfold size_of. rewrite app_length. lia.
  - destruct (N.eq_dec len 1024) as [->|N].
    + right. exists m. split; [exact (print_end m text M)|]. apply full; [exact M| |].
      * unfold size_of. lia.
      * unfold size_of in *. rewrite app_length. lia.
    + left. split; [apply print_beyond; [exact M|lia]|]. rewrite app_length. unfold size_of in E. lia.
Qed.

(* the end of logger_write *)
Lemma after_newline m len c : after m len c ->
  match snprintf m len (room len) [10] with
  | Ok (m', n) => if size_of m' <? len + n then UB else Ok (firstn (N.to_nat (len + n)) m')
  | Err => Err
  | UB => UB
  end = (if (List.length c <=? 1022)%nat then Ok (c ++ [10]) else if (List.length c =? 1023)%nat then Ok (c ++ [0]) else UB).
Proof.
  intros [B -> L|M K E].
  - destruct (Nat.leb_spec (List.length c) 1022) as [F|F].
    + destruct (print_fits m c [10] B) as [m' [P [r [Q R]]]]; [cbn [List.length]; lia|]. rewrite P.
      assert (S1 : size_of m' = 1024) by (unfold size_of; rewrite R; reflexivity).
      rewrite S1, (proj2 (N.ltb_ge _ _)) by (unfold size_of; cbn [List.length]; lia). f_equal.
      rewrite Q. replace (N.to_nat (size_of c + size_of [10])) with (List.length (c ++ [10])) by (unfold size_of; rewrite app_length; cbn [List.length]; lia).
      rewrite firstn_app, Nat.sub_diag, firstn_all, firstn_O, app_nil_r. reflexivity.
    + assert (E : List.length c = 1023%nat) by lia. rewrite E, Nat.eqb_refl.
      destruct (print_cut m c [10] B L) as [m' [P [Q R]]]; [cbn [List.length]; lia|]. rewrite P.
      assert (S1 : size_of m' = 1024) by (unfold size_of; rewrite R; reflexivity).
      rewrite S1, (proj2 (N.ltb_ge _ _)) by (unfold size_of; cbn [List.length]; lia). f_equal.
      rewrite firstn_all2 by (rewrite R; unfold size_of; cbn [List.length]; lia). rewrite Q. f_equal.
      rewrite firstn_app, E. rewrite firstn_all2 by lia. rewrite Nat.sub_diag, firstn_O, app_nil_r. reflexivity.
  - assert (X : (List.length c <=? 1022)%nat = false) by (apply Nat.leb_gt; unfold size_of in E; lia).
    assert (Y : Nat.eqb (List.length c) 1023 = false) by (apply Nat.eqb_neq; unfold size_of in E; lia).
    rewrite X, Y. destruct (N.eq_dec len 1024) as [->|N].
    + rewrite print_end by exact M. unfold size_of. rewrite M. cbn [List.length]. reflexivity.
    + rewrite print_beyond; [reflexivity|exact M|lia].
Qed.

Lemma thousandths_same usec : usec < 1000000 -> msec_text usec = thousandths usec.
Proof.
  intros H. unfold msec_text, thousandths. cbn [digits app]. rewrite !N.div_div by lia.
  replace (1000 * 10) with 10000 by lia. replace (10000 * 10) with 100000 by lia.
  rewrite (N.mod_small (usec / 100000)) by (apply N.div_lt_upper_bound; lia). reflexivity.
Qed.
Definition fitted (c : list byte) : res (list byte) :=
  if (List.length c <=? 1022)%nat then Ok (c ++ [10]) else if (List.length c =? 1023)%nat then Ok (c ++ [0]) else UB.
Lemma fitted_long c : (1024 <= List.length c)%nat -> fitted c = UB.
Proof.
  intros H. unfold fitted. rewrite (proj2 (Nat.leb_gt _ _)) by lia.
  rewrite (proj2 (Nat.eqb_neq _ _)) by lia. reflexivity.
Qed.
Lemma line_written t prefix message : moment_ok t ->
  logger_line (mo_memory t) (mo_time t) (mo_usec t) (Some prefix) message = fitted (line t prefix message).
Proof.
  intros [M [T U]]. unfold logger_line. rewrite (thousandths_same _ U).
  assert (B0 : begins (mo_memory t) []) by (exists (mo_memory t); split; [reflexivity|exact M]).
  destruct (print_fits (mo_memory t) [] (mo_time t) B0) as [m1 [P1 B1]]; [rewrite T; cbn; lia|].
  change (snprintf (mo_memory t) 0 1024 (mo_time t)) with (snprintf (mo_memory t) (size_of []) (room (size_of [])) (mo_time t)).
  rewrite P1. cbn [bind]. cbv zeta. cbn [app] in B1.
  destruct (print_fits m1 (mo_time t) (thousandths (mo_usec t)) B1) as [m2 [P2 B2]]; [rewrite T; cbn; lia|].
  rewrite P2. cbn [bind].
  assert (A2 : after m2 (size_of (mo_time t) + size_of (thousandths (mo_usec t))) (mo_time t ++ thousandths (mo_usec t))).
  { apply fine; [exact B2| |]; unfold size_of; rewrite app_length; [lia|rewrite T; cbn; lia]. }
  set (len2 := size_of (mo_time t) + size_of (thousandths (mo_usec t))) in *. clearbody len2.
  destruct (after_step m2 len2 _ prefix A2) as [[E L]|[m3 [E A3]]]; rewrite E; cbn [bind].
  { symmetry. apply fitted_long. unfold line. rewrite !app_length in *. lia. }
  set (len3 := len2 + size_of prefix) in *. clearbody len3.
  destruct (after_step m3 len3 _ message A3) as [[E3 L3]|[m4 [E4 A4]]]; [rewrite E3|rewrite E4]; cbn [bind].
  { symmetry. apply fitted_long. unfold line. rewrite !app_length in *. lia. }
  set (len4 := len3 + size_of message) in *. clearbody len4.
  assert (W := after_newline m4 len4 _ A4). unfold line, fitted. rewrite !(app_assoc (mo_time t)), !(app_assoc (mo_time t ++ thousandths (mo_usec t))). rewrite <- W.
  destruct (snprintf m4 len4 (room len4) [10]) as [[m5 n5]| |]; reflexivity.
Qed.
Lemma line_length t p m : moment_ok t -> List.length (line t p m) = (22 + List.length p + List.length m)%nat.
Proof. intros [_ [T _]]. unfold line. rewrite !app_length, T. cbn [thousandths List.length]. lia. Qed.
Lemma line_cases t prefix message : moment_ok t ->
  let n := (List.length prefix + List.length message)%nat in
  let r := logger_line (mo_memory t) (mo_time t) (mo_usec t) (Some prefix) message in
  ((n <= 1000)%nat -> r = Ok (line t prefix message ++ [10])) /\
  (n = 1001%nat -> r = Ok (line t prefix message ++ [0])) /\
  ((1002 <= n)%nat -> r = UB).
Proof.
  intros H n r. subst r. rewrite (line_written t prefix message H). unfold fitted. rewrite (line_length t prefix message H). fold n.
  replace (22 + List.length prefix + List.length message)%nat with (22 + n)%nat by (unfold n; lia).
  repeat split; intros K.
  - rewrite (proj2 (Nat.leb_le _ _)) by lia. reflexivity.
  - rewrite K. reflexivity.
  - rewrite (proj2 (Nat.leb_gt _ _)) by lia. rewrite (proj2 (Nat.eqb_neq _ _)) by lia. reflexivity.
Qed.

(* the logger *)
Lemma write_cases lg t out prefix message : moment_ok t -> lg_enable lg = true ->
  let n := (List.length prefix + List.length message)%nat in
  let r := logger_write lg t out (Some prefix) message in
  ((n <= 1000)%nat -> r = Ok (noted lg out (line t prefix message ++ [10]))) /\
  (n = 1001%nat -> r = Ok (noted lg out (line t prefix message ++ [0]))) /\
  ((1002 <= n)%nat -> r = UB).
Proof.
  intros H E n r. subst r. unfold logger_write, noted. rewrite E. cbn [negb].
  destruct (line_cases t prefix message H) as [A [B C]]. fold n in A, B, C.
  repeat split; intros K; [rewrite (A K)|rewrite (B K)|rewrite (C K)]; reflexivity.
Qed.
Lemma write_off lg t out prefix message : lg_enable lg = false -> logger_write lg t out prefix message = Ok out.
Proof. intros E. unfold logger_write. rewrite E. reflexivity. Qed.

Lemma throw_cases lg t out message : moment_ok t -> lg_enable lg = true ->
  let r := error_throw lg t out message in
  ((List.length message <= 993)%nat -> r = Ok (noted lg out (line t (chars "error: ") message ++ [10]), firstn 255 message)) /\
  (List.length message = 994%nat -> r = Ok (noted lg out (line t (chars "error: ") message ++ [0]), firstn 255 message)) /\
  ((995 <= List.length message)%nat -> r = UB).
Proof.
  intros H E r. subst r. unfold error_throw. destruct (write_cases lg t out (chars "error: ") message H E) as [A [B C]].
  cbn [chars List.length map] in A, B, C. change (List.length (chars "error: ")) with 7%nat in *.
  repeat split; intros K; [rewrite A by lia|rewrite B by lia|rewrite C by lia]; reflexivity.
Qed.
Lemma throw_off lg t out message : lg_enable lg = false -> error_throw lg t out message = Ok (out, firstn 255 message).
Proof. intros E. unfold error_throw. rewrite write_off by exact E. reflexivity. Qed.

(* settings at the opening *)
Lemma print_config lg at_ : lg_enable lg = true -> (forall n, moment_ok (at_ n)) -> forall c out,
  (forall n, widest c n -> (n <= 1000)%nat) -> config_print lg at_ out c = Ok (print_all lg at_ out c).
Proof.
  intros E M. induction c as [|v c IH]; intros out W; [reflexivity|]. cbn [config_print print_all].
  assert (W' : forall n, widest c n -> (n <= 1000)%nat) by (intros n [v' [m [I [V [T L]]]]]; apply W; exists v', m; split; [right; exact I|auto]).
  destruct (visible v) eqn:V; cbn [bind]; [|apply IH; exact W'].
  destruct (var_text v) as [m|] eqn:T; cbn [bind]; [|apply IH; exact W'].
  unfold log_at. destruct (write_cases lg (at_ (List.length c)) out [] m (M _) E) as [A _].
  rewrite A; [cbn [bind]; apply IH; exact W'|]. cbn [List.length Nat.add]. apply W. exists v, m. split; [left; reflexivity|auto].
Qed.
Lemma print_config_wide lg at_ : lg_enable lg = true -> (forall n, moment_ok (at_ n)) -> forall c out n,
  widest c n -> (1002 <= n)%nat -> config_print lg at_ out c = UB.
Proof.
  intros E M. induction c as [|v c IH]; intros out n [v' [m [I [V [T L]]]]] H; [destruct I|]. cbn [config_print].
  destruct (visible v) eqn:V1.
  - destruct (var_text v) as [m1|] eqn:T1.
    + unfold log_at. destruct (write_cases lg (at_ (List.length c)) out [] m1 (M _) E) as [A [B C]]. cbn [List.length Nat.add] in A, B, C.
      destruct (Nat.lt_trichotomy (List.length m1) 1001) as [K|[K|K]]; [rewrite A by lia|rewrite B by lia|rewrite C by lia; reflexivity]; cbn [bind].
      all: destruct I as [<-|I]; [rewrite T in T1; injection T1 as <-; lia|].
      all: apply IH with n; [exists v', m; auto|exact H].
    + cbn [bind]. destruct I as [<-|I]; [congruence|]. apply IH with n; [exists v', m; auto|exact H].
  - cbn [bind]. destruct I as [<-|I]; [congruence|]. apply IH with n; [exists v', m; auto|exact H].
Qed.
Lemma print_config_off lg at_ : lg_enable lg = false -> forall c out, config_print lg at_ out c = Ok out.
Proof.
  intros E. induction c as [|v c IH]; intros out; [reflexivity|]. cbn [config_print].
  destruct (visible v); [destruct (var_text v); [unfold log_at; rewrite write_off by exact E|]|]; cbn [bind]; apply IH.
Qed.

(* SHOW and SET *)
Lemma show_missing_length name : List.length (show_missing name) = (23 + List.length name)%nat.
Proof. unfold show_missing. rewrite !app_length. change (List.length (chars "SHOW name: '")) with 12%nat. change (List.length (chars "' not found")) with 11%nat. lia. Qed.
Lemma show_cases fmt lg t out c name : moment_ok t -> lg_enable lg = true -> config_find c name = None ->
  let r := logged_show fmt lg t out c name in
  ((List.length name <= 970)%nat -> r = Ok (noted lg out (line t (chars "error: ") (show_missing name) ++ [10]), Refused (firstn 255 (show_missing name)))) /\
  ((972 <= List.length name)%nat -> r = UB).
Proof.
  intros H E F r. subst r. unfold logged_show, show_name. rewrite F.
  destruct (throw_cases lg t out (show_missing name) H E) as [A [_ C]]. rewrite show_missing_length in A, C.
  split; intros K; [rewrite A by lia|rewrite C by lia]; reflexivity.
Qed.
Lemma set_says online c name value : execute_set online c name value = Err -> exists why, set_error online c name value = Some (chars "SET '" ++ name ++ chars "': " ++ why) /\ (List.length why <= 33)%nat.
Proof.
  unfold execute_set, set_error. destruct (config_find c name) as [v|]; [|intros _; eexists; split; [reflexivity|vm_compute; lia]].
  destruct (var_is v VAR_S); [intros _; eexists; split; [reflexivity|vm_compute; lia]|].
  destruct (negb (var_is v (if online then VAR_R else VAR_C))).
  { intros _. destruct online; eexists; (split; [reflexivity|vm_compute; lia]). }
  destruct (v_type v).
  - destruct (t_id value =? KTRUE); cbn [orb]; [discriminate|]. destruct (t_id value =? KFALSE); [discriminate|].
    intros _; eexists; split; [reflexivity|vm_compute; lia].
  - destruct (t_id value =? KINT); destruct (t_val value); try (intros _; eexists; split; [reflexivity|vm_compute; lia]).
    destruct (var_is v VAR_Z && (n =? 0)); [|discriminate]. intros _; eexists; split; [reflexivity|vm_compute; lia].
  - destruct (t_id value =? KSTRING); destruct (t_val value); try (intros _; eexists; split; [reflexivity|vm_compute; lia]). discriminate.
  - intros _; eexists; split; [reflexivity|vm_compute; lia].
Qed.
