(* Background work that is lost, doubled or never done. *)
From Coq Require Import NArith ZArith Arith List Bool Lia Permutation.
Import ListNotations.
From Verif Require Import Model.Base Model.Service Spec.Service Proof.ServiceL Proof.ServiceT.
Local Open Scope res_scope.

Lemma mgr_ready a b : all_ready (worker_mgr a b).
Proof.
  assert (R : forall f n, all_ready (repeat (mk_worker f true Ready) n)) by (intros f n; induction n; constructor; [reflexivity|assumption]).
  unfold worker_mgr. destruct b; [apply R|]. apply Forall_app. split; apply R.
Qed.
Lemma mgr_manned a b : 0 < a -> manned (worker_mgr a b).
Proof.
  intro H. destruct a as [|a]; [lia|]. destruct b as [|b].
  - left. eexists. split; [left; reflexivity|reflexivity].
  - right. split.
    + exists (mk_worker WithoutUpload true Ready). split; [left; reflexivity|reflexivity].
    + exists (mk_worker OnlyUpload true Ready). split; [|reflexivity]. unfold worker_mgr. apply in_or_app. right. left. reflexivity.
Qed.
(* the refresh of a partition fails once *)
Definition failing : outcome := mk_outcome false false [].
Definition lost : list move := [Want 7%N false; Work 0 fine; Work 0 fine; Work 0 failing; Work 0 fine].
Definition at_end (ws : list worker) (l : list move) : system := match moves (start ws) l with Ok y => y | _ => start ws end.
Lemma at_end_reached ws l y : moves (start ws) l = Ok y -> reached ws (at_end ws l).
Proof. intro H. exists l. unfold at_end. rewrite H. reflexivity. Qed.
Lemma lost_forgotten : let y := at_end (worker_mgr 3 1) lost in
  reached (worker_mgr 3 1) y /\ forgotten y 7%N /\ idle y /\ sv_shutdown (y_service y) = false /\ about 7%N (y_log y) = [true] /\ ~ In Refresh (done 0 (y_log y)).
Proof.
  split; [eapply at_end_reached; vm_compute; reflexivity|]. split; [split; [vm_compute; reflexivity|constructor]|]. split; [split; vm_compute; reflexivity|]. split; [vm_compute; reflexivity|]. split; [vm_compute; reflexivity|]. vm_compute. intros [H|[]]. discriminate.
Qed.
(* the same work twice in the queue: a full partition that was the head *)
Definition doubled : list move := [Want 7%N false; Add 7%N Rebalance [Refresh; Gc]].
Lemma doubled_twice : let y := at_end (worker_mgr 3 1) doubled in
  reached (worker_mgr 3 1) y /\ exists a b, sv_list (y_service y) = [a; b] /\ rq_id a = rq_id b /\ rq_actions a = rq_actions b /\ rq_current a = rq_current b.
Proof.
  split; [eapply at_end_reached; vm_compute; reflexivity|]. eexists _, _. split; [vm_compute; reflexivity|]. repeat split.
Qed.
(* with workers for uploads only, other requests stay where they are *)
Definition only_uploads (y : system) : Prop := Forall (fun f => f = OnlyUpload) (map wk_filter (y_workers y)).
Lemma stays_queued y m z r : inv y -> only_uploads y -> is_upload r = false -> In r (sv_list (y_service y)) -> moved y m = Ok z -> only_uploads z /\ In r (sv_list (y_service z)).
Proof.
  intros (IQ & _) O U I M. split; [unfold only_uploads; rewrite (filters_kept y m z M); exact O|]. destruct m as [id a l|p cloud|w o|w|p| ]; cbn [moved] in M.
  - injection M as <-. cbn. apply in_or_app. left. exact I.
  - injection M as <-. unfold want_refresh. destruct (y_marks y p); [exact I|]. cbn. apply in_or_app. left. exact I.
  - unfold work in M. destruct (nth_error (y_workers y) w) as [k|] eqn:Hw; [|injection M as <-; exact I]. destruct (wk_state k) as [| |q|]; try (injection M as <-; exact I).
    + destruct (sv_shutdown (y_service y)); [injection M as <-; exact I|]. assert (F : wk_filter k = OnlyUpload) by (unfold only_uploads in O; rewrite Forall_forall in O; apply O, in_map; eapply nth_error_In, Hw).
      destruct (fetch_queue (y_service y) (wk_filter k) IQ) as [[E _]|(q & s' & E & (a & b & L & L' & Fq & _) & _)]; rewrite E in M; injection M as <-; [exact I|]. cbn [y_service]. rewrite L'. rewrite L in I. apply in_app_or in I. apply in_or_app. destruct I as [I|[I|I]]; [left; exact I| |right; exact I]. subst q. rewrite F in Fq. cbn in Fq. congruence.
    + destruct (current_action q) as [b|]; [|injection M as <-; exact I]. destruct (negb (service_filter q (wk_filter k))); [injection M as <-; cbn; apply in_or_app; left; exact I|]. destruct (action_marks (y_marks y) q b o). injection M as <-. exact I.
  - injection M as <-. destruct (nth_error (y_workers y) w); exact I.
  - injection M as <-. exact I.
  - injection M as <-. exact I.
Qed.
Theorem unmanned b l y : moves (start (worker_mgr 0 (S b))) (Want 7%N false :: l) = Ok y -> ~ idle y.
Proof.
  intro M. cbn [moves moved bind] in M. set (y0 := want_refresh (start (worker_mgr 0 (S b))) 7%N false) in M. set (r := mk_req 0 7%N (refresh_actions false) 0).
  assert (I0 : inv y0) by (apply (moved_inv (start (worker_mgr 0 (S b))) (Want 7%N false)); [apply start_inv, mgr_ready|reflexivity]).
  assert (O0 : only_uploads y0). { unfold only_uploads. rewrite (filters_kept (start (worker_mgr 0 (S b))) (Want 7%N false) y0 eq_refl). cbn [start y_workers worker_mgr repeat app map]. constructor; [reflexivity|]. clear. induction b; [constructor|]. constructor; [reflexivity|assumption]. }
  destruct (moves_keep (fun y => inv y /\ only_uploads y /\ In r (sv_list (y_service y)))) with (l := l) (y := y0) (z := y) as (_ & _ & H); try exact M.
  - intros a m z (X & Y & Z) E. split; [apply (moved_inv a m z X E)|]. apply (stays_queued a m z r X Y eq_refl Z E).
  - split; [exact I0|]. split; [exact O0|]. left. reflexivity.
  - intros [E _]. rewrite E in H. destruct H.
Qed.
