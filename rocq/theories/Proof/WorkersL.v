From Coq Require Import NArith ZArith Arith List Bool Lia.
Import ListNotations.
From Verif Require Import Model.Base Model.Service Model.Workers Spec.Threads.

Lemma to_int_small n : (n < 2 ^ 31)%N -> to_int n = Z.of_N n.
Proof.
  intros H. unfold to_int. rewrite N.mod_small by (apply N.lt_trans with (2 ^ 31)%N; [exact H|reflexivity]).
  rewrite (proj2 (Z.ltb_lt _ _)); [reflexivity|]. change (2 ^ 31)%Z with (Z.of_N (2 ^ 31)). lia.
Qed.
Lemma set_nth_mid {A} (p : list A) x r y : set_nth (p ++ x :: r) (length p) y = p ++ y :: r.
Proof.
  unfold set_nth. rewrite app_length. cbn [length]. rewrite (proj2 (Nat.ltb_lt _ _)) by lia.
  rewrite firstn_app, Nat.sub_diag, firstn_all, firstn_O, app_nil_r. f_equal. f_equal.
  replace (S (length p)) with (length (p ++ [x])) by (rewrite app_length; cbn; lia).
  change (p ++ x :: r) with (p ++ [x] ++ r). rewrite app_assoc, skipn_app, skipn_all, Nat.sub_diag. reflexivity.
Qed.
Lemma nth_mid {A} (p : list A) x r : nth_error (p ++ x :: r) (length p) = Some x.
Proof. rewrite nth_error_app2, Nat.sub_diag by lia. reflexivity. Qed.
Lemma set_nth_length {A} (l : list A) i x : length (set_nth l i x) = length l.
Proof.
  unfold set_nth. destruct (Nat.ltb_spec i (length l)); [|reflexivity]. rewrite app_length, firstn_length. cbn [length]. rewrite skipn_length. lia.
Qed.
Lemma nth_set {A} (l : list A) i x j : nth_error (set_nth l i x) j = if Nat.eqb i j then (if (j <? length l)%nat then Some x else None) else nth_error l j.
Proof.
  revert i j. induction l as [|y l IH]; intros i j.
  { unfold set_nth. cbn. destruct (Nat.eqb i j), j; reflexivity. }
  unfold set_nth in *. destruct i as [|i].
  - cbn. destruct j; reflexivity.
  - destruct j as [|j].
    + cbn [length]. destruct (S i <? S (length l))%nat; reflexivity.
    + specialize (IH i j). cbn [length]. change (S i <? S (length l))%nat with (i <? length l)%nat. change (S j <? S (length l))%nat with (j <? length l)%nat.
      change (Nat.eqb (S i) (S j)) with (Nat.eqb i j). cbn [nth_error]. rewrite <- IH. destruct (i <? length l)%nat; reflexivity.
Qed.

Lemma number_length t fs : length (number t fs) = length fs.
Proof. revert t. induction fs as [|f fs IH]; intros t; cbn; [reflexivity|]. rewrite IH. reflexivity. Qed.

Lemma start_all arr : forall fs answers pre ts, Forall (eq true) answers ->
  start_loop arr (length fs) (length pre) answers (pre ++ blank fs) ts =
  Ok (pre ++ number (length ts) fs, ts ++ running arr (length pre) (length fs), true).
Proof.
  induction fs as [|f fs IH]; intros answers pre ts H.
  { cbn. rewrite !app_nil_r. reflexivity. }
  cbn [length blank map start_loop]. rewrite nth_mid.
  assert (T : hd true answers = true /\ Forall (eq true) (tl answers)).
  { destruct H as [|b l <- H]; [split; [reflexivity|constructor]|split; [reflexivity|exact H]]. }
  destruct T as [-> T]. cbn [w_filter]. rewrite set_nth_mid.
  specialize (IH (tl answers) (pre ++ [Some (mk_worker f (Some (length ts)))]) (ts ++ [mk_thread arr (length pre) TRuns]) T).
  rewrite <- !app_assoc in IH. cbn [app] in IH. rewrite !app_length in IH. cbn [length] in IH. rewrite !Nat.add_1_r in IH.
  unfold blank in IH. rewrite IH. reflexivity.
Qed.
(* a thread that cannot be made *)
Lemma start_some arr : forall fs before pre ts after, Forall (eq true) before -> (length before < length fs)%nat ->
  start_loop arr (length fs) (length pre) (before ++ false :: after) (pre ++ blank fs) ts =
  Ok (pre ++ number (length ts) (firstn (length before) fs) ++ blank (skipn (length before) fs),
      ts ++ running arr (length pre) (length before), false).
Proof.
  induction fs as [|f fs IH]; intros before pre ts after H L; [cbn in L; lia|].
  destruct before as [|b before].
  { cbn [length blank map start_loop app hd firstn skipn number running seq]. rewrite nth_mid, !app_nil_r. reflexivity. }
  apply Forall_cons_iff in H. destruct H as [<- H].
  cbn [length blank map start_loop app hd tl firstn skipn number]. rewrite nth_mid. cbn [w_filter]. rewrite set_nth_mid.
  specialize (IH before (pre ++ [Some (mk_worker f (Some (length ts)))]) (ts ++ [mk_thread arr (length pre) TRuns]) after H).
  rewrite <- !app_assoc in IH. cbn [app] in IH. rewrite !app_length in IH. cbn [length] in IH. rewrite !Nat.add_1_r in IH.
  unfold blank in IH. rewrite IH by (cbn in L; lia). reflexivity.
Qed.

Lemma repeat_map {A B} (f : A -> B) x n : repeat (f x) n = map f (repeat x n).
Proof. induction n; cbn; congruence. Qed.
Lemma asked_length k u : length (asked k u) = N.to_nat (k + u).
Proof. unfold asked. rewrite app_length, !repeat_length. lia. Qed.
Lemma fill_all (a : array) n f : length a = n -> firstn 0 a ++ repeat (Some (mk_worker f None)) n ++ skipn n a = repeat (Some (mk_worker f None)) n.
Proof. intros L. rewrite skipn_all2 by lia. rewrite app_nil_r. reflexivity. Qed.

(* worker_init of each *)
Lemma init_done k u : (k + u < 2 ^ 31)%N -> let a := repeat None (N.to_nat (k + u)) in
  (if (Z.of_N u =? 0)%Z then match init_loop a 0 (Z.of_N k) Any with Ok (a, _) => Ok a | Err => Err | UB => UB end
   else match init_loop a 0 (Z.of_N k) WithoutUpload with
        | Ok (a, i) => match init_loop a i (Z.of_N (k + u)) OnlyUpload with Ok (a, _) => Ok a | Err => Err | UB => UB end
        | Err => Err | UB => UB end) = Ok (blank (asked k u)).
Proof.
  intros H a. unfold asked, blank. rewrite map_app, <- !repeat_map.
  destruct (N.eqb_spec u 0) as [->|N].
  - cbn [Z.of_N Z.eqb]. subst a. rewrite N.add_0_r in *. unfold init_loop. cbn [repeat]. rewrite app_nil_r.
    destruct (Z.leb_spec (Z.of_N k) 0) as [Q|Q].
    + assert (k = 0%N) by lia. subst k. reflexivity.
    + rewrite repeat_length. rewrite (proj2 (Z.ltb_ge _ _)) by lia. f_equal.
      change (Z.to_nat 0) with 0%nat. rewrite Z.sub_0_r. replace (Z.to_nat (Z.of_N k)) with (N.to_nat k) by lia.
      apply fill_all. apply repeat_length.
  - rewrite (proj2 (Z.eqb_neq _ _)) by lia.
    assert (E : init_loop a 0 (Z.of_N k) WithoutUpload = Ok (repeat (Some (mk_worker WithoutUpload None)) (N.to_nat k) ++ repeat None (N.to_nat u), Z.of_N k)).
    { unfold init_loop, a. destruct (Z.leb_spec (Z.of_N k) 0) as [Q|Q].
      - assert (k = 0%N) by lia. subst k. cbn [N.to_nat repeat app Z.of_N]. rewrite N.add_0_l. reflexivity.
      - rewrite repeat_length. rewrite (proj2 (Z.ltb_ge _ _)) by lia. f_equal. f_equal.
        change (Z.to_nat 0) with 0%nat. rewrite Z.sub_0_r. replace (Z.to_nat (Z.of_N k)) with (N.to_nat k) by lia. cbn [firstn app]. f_equal.
        replace (N.to_nat (k + u)) with (N.to_nat k + N.to_nat u)%nat by lia. rewrite repeat_app, skipn_app, repeat_length, Nat.sub_diag.
        rewrite skipn_all2 by (rewrite repeat_length; lia). reflexivity. }
    rewrite E. unfold init_loop. rewrite (proj2 (Z.leb_gt _ _)) by lia. rewrite app_length, !repeat_length.
    rewrite (proj2 (Z.ltb_ge _ _)) by lia. f_equal.
    replace (Z.to_nat (Z.of_N k)) with (N.to_nat k) by lia. replace (Z.to_nat (Z.of_N (k + u) - Z.of_N k)) with (N.to_nat u) by lia.
    replace (Z.to_nat (Z.of_N (k + u))) with (N.to_nat (k + u)) by lia.
    rewrite skipn_all2 by (rewrite app_length, !repeat_length; lia). rewrite app_nil_r.
    rewrite firstn_app, repeat_length, Nat.sub_diag, firstn_O, app_nil_r. rewrite firstn_all2 by (rewrite repeat_length; lia). reflexivity.
Qed.

Lemma start_eq w k u answers : (k + u < 2 ^ 31)%N ->
  worker_mgr_start w k u (Threads answers) =
  match start_loop (length (wd_arrays w)) (length (asked k u)) 0 answers (blank (asked k u)) (wd_threads w) with
  | Ok (a, ts, ok) => Ok (mk_world (wd_handle w) (wd_shutdown w) (Z.of_nat (length (asked k u))) (Some (length (wd_arrays w)))
      (wd_arrays w ++ [Some a]) ts (wd_cursors w) (wd_caller w), ok)
  | Err => Err | UB => UB end.
Proof.
  intros H. assert (H2 : (Z.of_N (k + u) < 2 ^ 31)%Z) by (change (2 ^ 31)%Z with (Z.of_N (2 ^ 31)); lia).
  unfold worker_mgr_start. rewrite !to_int_small by lia. rewrite <- N2Z.inj_add.
  rewrite (proj2 (Z.ltb_ge _ _)) by lia. rewrite (proj2 (Z.leb_gt _ _)) by lia. cbn [orb]. rewrite (proj2 (Z.ltb_ge _ _)) by lia.
  assert (I := init_done k u H). cbv zeta in I |- *. replace (Z.to_nat (Z.of_N (k + u))) with (N.to_nat (k + u)) by lia.
  unfold bind at 1. unfold bind in I |- *. rewrite asked_length. replace (Z.of_nat (N.to_nat (k + u))) with (Z.of_N (k + u)) by lia.
  match goal with |- match ?m with Ok _ => _ | Err => _ | UB => _ end = _ => replace m with (@Ok array (blank (asked k u))) end.
  destruct (start_loop _ _ _ _ _ _) as [[[a ts] ok]| |]; reflexivity.
Qed.
Lemma start_granted w k u answers : (k + u < 2 ^ 31)%N -> Forall (eq true) answers ->
  worker_mgr_start w k u (Threads answers) = Ok (opened_with w (asked k u) (length (asked k u)), true).
Proof.
  intros H F. rewrite start_eq by exact H. assert (S1 := start_all (length (wd_arrays w)) (asked k u) answers [] (wd_threads w) F).
  cbn [app length] in S1. rewrite S1. unfold opened_with. rewrite firstn_all, skipn_all. cbn [blank map]. rewrite app_nil_r. reflexivity.
Qed.
Lemma start_refused w k u before after : (k + u < 2 ^ 31)%N -> Forall (eq true) before -> (length before < length (asked k u))%nat ->
  worker_mgr_start w k u (Threads (before ++ false :: after)) = Ok (opened_with w (asked k u) (length before), false).
Proof.
  intros H F L. rewrite start_eq by exact H. assert (S1 := start_some (length (wd_arrays w)) (asked k u) before [] (wd_threads w) after F L).
  cbn [app length] in S1. rewrite S1. reflexivity.
Qed.
