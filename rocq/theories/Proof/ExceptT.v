(* A call of the API; guards once each; what goes wrong otherwise. *)
From Coq Require Import Arith List Bool Lia.
Import ListNotations.
From Verif Require Import Model.Except Spec.Except Proof.ExceptL Proof.ExceptM.

Theorem runs : forall p o t, close (sem p [[]]) = Some (o, [], t) -> o <> Returned ->
  exists m, run p = (Norm, m) /\ m_seen m = t /\ m_last m = None.
Proof.
  intros p o t H N. unfold run. cbn [exec]. unfold exception_mgr_enter. cbn [machine_init m_excs m_guards m_last m_seen length app]. set (m1 := mk_machine _ _ _ _).
  assert (K1 : ctx m1 0 None false 0 [] []) by (split; [reflexivity|exists None; split; reflexivity|constructor|constructor|constructor]).
  unfold close in H. destruct (sem p [[]]) as [[[o2 fr2] t2]|] eqn:Q; [|discriminate]. destruct fr2 as [|f fr2]; [discriminate|]. injection H as -> -> <-.
  destruct (exec_all p m1 0 None false 0 [] [] [[]] o [f] t2 (ctx_push _ _ _ _ _ _ _ K1) (Nat.le_refl _) Q) as (own & m2 & E2 & P2 & R2). rewrite E2.
  destruct (block_all own m1 m2 0 None false 0 [] o f [] t2 P2 R2) as (m3 & E3 & P3). rewrite E3. destruct P3 as (Kp & P3). destruct o; [|contradiction|]; cbn [out_of].
  - destruct P3 as (X & S). destruct (c_stack _ _ _ _ _ _ _ X) as (st & B & _). unfold exception_mgr_leave, live_exc. rewrite B. cbn [e_alive e_triggered e_prev].
    assert (L := some_lt _ _ _ B). destruct (kill_exc_get 0 (set_last None m3) L) as (_ & Y & Z & _). eexists. split; [reflexivity|]. rewrite Y, Z. cbn. split; [exact S|reflexivity].
  - destruct P3 as (X & B & S). cbn [Nat.eqb]. unfold exception_mgr_leave, live_exc. rewrite B. cbn [e_alive e_triggered e_prev block_end cleanup].
    assert (L := some_lt _ _ _ B). destruct (kill_exc_get 0 (kill_guards [] (set_last None m3)) L) as (_ & Y & Z & _). eexists. split; [reflexivity|]. rewrite Y, Z. cbn. rewrite S. cbn. rewrite app_nil_r. split; reflexivity.
Qed.

Lemma nested_ran : forall fs stack t, nested stack t -> nested (fs ++ stack) (ran fs ++ t).
Proof. induction fs as [|f fs IH]; intros stack t H; [exact H|]. cbn. split; [reflexivity|]. apply IH, H. Qed.
Lemma take_off_concat : forall frames f frames', take_off frames = Some (f, frames') -> concat frames = f :: concat frames'.
Proof.
  induction frames as [|[|f0 fs] frames IH]; intros f frames' H; cbn in H; [discriminate| |].
  - fold (take_off frames) in H. destruct (take_off frames) as [[g r]|] eqn:E; [|discriminate]. injection H as <- <-. cbn. apply IH. reflexivity.
  - injection H as <- <-. reflexivity.
Qed.
Lemma sem_nested : forall p frames o frames' t, sem p frames = Some (o, frames', t) ->
  forall stack u, nested (concat frames' ++ stack) u -> nested (concat frames ++ stack) (t ++ u).
Proof.
  assert (C : forall p frames o frames' t, (forall frames o frames' t, sem p frames = Some (o, frames', t) -> forall stack u, nested (concat frames' ++ stack) u -> nested (concat frames ++ stack) (t ++ u)) ->
    close (sem p ([] :: frames)) = Some (o, frames', t) -> forall stack u, nested (concat frames' ++ stack) u -> nested (concat frames ++ stack) (t ++ u)).
  { intros p frames o frames' t IH H stack u Hu. unfold close in H. destruct (sem p ([] :: frames)) as [[[o1 fr] t1]|] eqn:S; [|discriminate]. destruct fr as [|f fr]; [discriminate|]. injection H as <- <- <-.
    apply (IH _ _ _ _ S stack (ran f ++ u)) || (rewrite <- app_assoc; apply (IH _ _ _ _ S stack (ran f ++ u))). cbn [concat]. rewrite <- app_assoc. apply nested_ran, Hu. }
  induction p; intros frames o frames' t H stack u' Hu; cbn [sem] in H; try (injection H as <- <- <-; exact Hu).
  - destruct (sem p1 frames) as [[[o1 fr] t1]|] eqn:S1; [|discriminate]. destruct o1; try (injection H as <- <- <-; eapply IHp1; [exact S1|exact Hu]).
    destruct (sem p2 fr) as [[[o2 fr2] t2]|] eqn:S2; [|discriminate]. injection H as <- <- <-. rewrite <- app_assoc. eapply IHp1; [exact S1|]. eapply IHp2; [exact S2|exact Hu].
  - destruct fails; [|discriminate]. destruct frames as [|fs frames]; [discriminate|]. injection H as <- <- <-. exact Hu.
  - destruct (take_off frames) as [[f fr]|] eqn:E; [|discriminate]. injection H as <- <- <-. rewrite (take_off_concat _ _ _ E). cbn. split; [reflexivity|exact Hu].
  - eapply C; eauto.
  - destruct (close (sem p ([] :: frames))) as [[[o1 fr] t1]|] eqn:E; [|discriminate]. assert (Q := C p frames o1 fr t1 IHp E). destruct o1; injection H as <- <- <-; apply Q, Hu.
  - destruct (close (sem p1 [[]])) as [[[o1 fr] t1]|] eqn:E1; [|discriminate].
    assert (Q1 : forall v, nested (concat frames ++ stack) v -> nested (concat frames ++ stack) (t1 ++ v)).
    { intros v Hv. change (nested (concat [] ++ (concat frames ++ stack)) (t1 ++ v)). eapply (C p1 []); [exact IHp1|exact E1|].
      assert (F : fr = []). { unfold close in E1. destruct (sem p1 [[]]) as [[[o2 fr2] t2]|] eqn:Q; [|discriminate]. apply sem_length in Q. destruct fr2 as [|? fr2]; [discriminate|]. injection E1 as _ <- _. cbn in Q. destruct fr2; [reflexivity|cbn in Q; lia]. }
      subst fr. exact Hv. }
    destruct o1; [|discriminate|]; (destruct (sem p2 [[]]) as [[[o2 fr2] t2]|] eqn:E2; [|discriminate]; destruct o2; try discriminate; destruct fr2 as [|[|? ?] [|? ?]]; try discriminate).
    + injection H as <- <- <-. rewrite <- app_assoc. apply Q1. exact (IHp2 _ _ _ _ E2 (concat frames ++ stack) u' Hu).
    + destruct (close (sem p3 ([] :: frames))) as [[[o3 fr3] t3]|] eqn:E3; [|discriminate]. injection H as <- <- <-. rewrite <- !app_assoc. apply Q1.
      apply (IHp2 _ _ _ _ E2 (concat frames ++ stack) (t3 ++ u')). cbn. eapply C; [exact IHp3|exact E3|exact Hu].
Qed.
Theorem once : forall p o t, close (sem p [[]]) = Some (o, [], t) -> o <> Returned -> exists m, run p = (Norm, m) /\ nested [] (m_seen m).
Proof.
  intros p o t H N. destruct (runs p o t H N) as (m & E & S & _). exists m. split; [exact E|]. rewrite S.
  unfold close in H. destruct (sem p [[]]) as [[[o2 fr2] t2]|] eqn:Q; [|discriminate]. destruct fr2 as [|f fr2]; [discriminate|]. injection H as -> -> <-.
  rewrite <- (app_nil_r (ran f)). apply (sem_nested _ _ _ _ _ Q []). cbn [concat]. rewrite app_nil_r. apply nested_ran. reflexivity.
Qed.

(* a guard that throws while guards are run is run again *)
Lemma again f : forall k fuel s e l, S k <= fuel ->
  execute_guards fuel (Some 0) (Some 0) (mk_machine [mk_gcell f true k None true] e l s) = Some (mk_machine [mk_gcell f false 0 None true] e l (s ++ repeat (Ran f) (S k))).
Proof.
  induction k as [|k IH]; intros fuel s e l H; (destruct fuel as [|fuel]; [lia|]); cbn [execute_guards live_guard m_guards nth_error g_alive g_function negb g_fails g_prev g_name say].
  - destruct fuel; reflexivity.
  - unfold put_guard, say. cbn [m_guards m_excs m_last m_seen set_nth firstn skipn app]. rewrite IH by lia. rewrite <- app_assoc. reflexivity.
Qed.
Theorem run_again : forall f k, exists m, run (Seq (Guard f k) Throw) = (Norm, m) /\ m_seen m = Set_ f :: repeat (Ran f) (S k).
Proof.
  intros f k. unfold run. cbn [exec exception_mgr_enter machine_init m_excs m_guards m_last m_seen length app guard_as current live_exc nth_error e_alive e_prev e_triggered e_stack].
  unfold say, put_exc. cbn [m_excs m_guards m_last m_seen set_nth firstn skipn app]. unfold exception_mgr_throw, current, live_exc. cbn [m_excs m_guards m_last m_seen nth_error e_alive e_stack e_prev].
  rewrite again by (unfold guards_fuel; cbn; lia). unfold put_exc. cbn [m_excs m_guards m_last m_seen set_nth firstn skipn app block_end kill_guards fold_left nth_error Nat.eqb exception_mgr_leave live_exc e_alive e_triggered e_prev exec cleanup].
  unfold put_guard. cbn. eexists. split; [reflexivity|]. reflexivity.
Qed.
Lemma return_out : fst (run (Seq (Call (Try Return Skip Skip)) Throw)) = Bad.
Proof. vm_compute. reflexivity. Qed.
Lemma throw_between : fst (run (Try Skip Throw Skip)) = Bad.
Proof. vm_compute. reflexivity. Qed.
Lemma unguard_outer : fst (run (Seq (Guard 1 0) (Try Unguard Skip Skip))) = Bad.
Proof. vm_compute. reflexivity. Qed.
Lemma guard_between : exists m, run (Call (Try Skip (Guard 1 0) Skip)) = (Bad, m).
Proof. eexists. vm_compute. reflexivity. Qed.

(* engine.c:108-165 engine_lock: a partition is created and creating fails; one is found *)
Definition lock_fails : prog :=
  Call (Seq (Do 1) (Seq (Guard 1 0) (Seq (Do 2) (Seq (Guard 2 0) (Call (Seq (Guard 3 0) (Seq (Do 3) Throw))))))).
Definition lock_found : prog :=
  Call (Seq (Do 1) (Seq (Guard 1 0) (Seq (Do 2) (Seq (Guard 2 0) (Seq Unguard (Seq Unguard (Seq (Do 4) Return))))))).
(* write.c:73-139: the lock fails inside the enter of engine_write, and the changes are taken back *)
Definition write_fails : prog := Call (Try (Seq lock_found lock_fails) Skip (Seq (Do 5) Throw)).
Lemma write_fails_seen : close (sem write_fails [[]]) =
  Some (Thrown, [], [Did 1; Set_ 1; Did 2; Set_ 2; Off 2; Off 1; Did 4; Did 1; Set_ 1; Did 2; Set_ 2; Set_ 3; Did 3; Ran 3; Ran 2; Ran 1; Did 5]).
Proof. vm_compute. reflexivity. Qed.
