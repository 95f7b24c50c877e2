(* The machine and the meaning of programs. *)
From Coq Require Import Arith List Bool Lia.
Import ListNotations.
From Verif Require Import Model.Except Spec.Except Proof.ExceptL.

Lemma exec_ids : forall p ids m, exec p ids m = (let '(o, own, m') := exec p [] m in (o, own ++ ids, m')).
Proof.
  induction p; intros ids m; cbn [exec]; try reflexivity.
  - rewrite IHp1. destruct (exec p1 [] m) as [[o own] m1]. destruct o; try reflexivity. rewrite IHp2, (IHp2 own). destruct (exec p2 [] m1) as [[o own2] m2]. now rewrite app_assoc.
  - destruct (guard_as f fails m) as [[j m1]|]; reflexivity.
  - destruct (unguard m); reflexivity.
  - destruct (exec p [] m) as [[o own] m1]. destruct (block_end o own m1). reflexivity.
  - destruct (exec p [] m) as [[o own] m1]. destruct (block_end o own m1). reflexivity.
  - destruct (exception_mgr_throw m). reflexivity.
  - destruct (exception_mgr_enter m) as [e m1]. destruct (exec p1 [] m1) as [[o own] m2]. destruct (block_end o own m2) as [o' m3].
    assert (R : forall m3, (let '(o, ids, m) := exec p2 ids m3 in match o with
      | Norm => match exception_mgr_leave e m with None => (Bad, ids, m) | Some (triggered, m) => if triggered then let '(o, own, m) := exec p3 [] m in let (o, m) := block_end o own m in (o, ids, kill_exc e m) else (Norm, ids, kill_exc e m) end
      | Jump i => (if i =? e then Bad else Jump i, ids, kill_exc e m) | o => (o, ids, kill_exc e m) end) =
      (let '(o, own, m') := (let '(o, ids, m) := exec p2 [] m3 in match o with
      | Norm => match exception_mgr_leave e m with None => (Bad, ids, m) | Some (triggered, m) => if triggered then let '(o, own, m) := exec p3 [] m in let (o, m) := block_end o own m in (o, ids, kill_exc e m) else (Norm, ids, kill_exc e m) end
      | Jump i => (if i =? e then Bad else Jump i, ids, kill_exc e m) | o => (o, ids, kill_exc e m) end) in (o, own ++ ids, m'))).
    { clear - IHp2. intro m3. rewrite IHp2. destruct (exec p2 [] m3) as [[o own] m4]. destruct o; try reflexivity. destruct (exception_mgr_leave e m4) as [[tr m5]|]; [|reflexivity].
      destruct tr; [|reflexivity]. destruct (exec p3 [] m5) as [[o own'] m6]. destruct (block_end o own' m6). reflexivity. }
    destruct o'; try reflexivity; [apply R|]. destruct (e0 =? e); [apply R|reflexivity].
Qed.

Lemma take_off_length : forall frames f frames', take_off frames = Some (f, frames') -> length frames' = length frames.
Proof.
  induction frames as [|[|f0 fs] frames IH]; intros f frames' H; cbn in H; [discriminate| |].
  - fold (take_off frames) in H. destruct (take_off frames) as [[g r]|] eqn:E; [|discriminate]. injection H as <- <-. cbn. now rewrite (IH _ _ eq_refl).
  - injection H as <- <-. reflexivity.
Qed.
Lemma sem_length : forall p frames o frames' t, sem p frames = Some (o, frames', t) -> length frames' = length frames.
Proof.
  assert (C : forall p frames o frames' t, (forall frames o frames' t, sem p frames = Some (o, frames', t) -> length frames' = length frames) ->
    close (sem p ([] :: frames)) = Some (o, frames', t) -> length frames' = length frames).
  { intros p frames o frames' t H E. unfold close in E. destruct (sem p ([] :: frames)) as [[[o1 fr] t1]|] eqn:S; [|discriminate]. apply H in S. destruct fr as [|f fr]; [discriminate|]. injection E as <- <- <-. cbn in S. lia. }
  induction p; intros frames o frames' t H; cbn [sem] in H; try (injection H as <- <- <-; reflexivity).
  - destruct (sem p1 frames) as [[[o1 fr] t1]|] eqn:S1; [|discriminate]. destruct o1; try (injection H as <- <- <-; eapply IHp1, S1).
    destruct (sem p2 fr) as [[[o2 fr2] t2]|] eqn:S2; [|discriminate]. injection H as <- <- <-. rewrite (IHp2 _ _ _ _ S2). eapply IHp1, S1.
  - destruct fails; [|discriminate]. destruct frames; [discriminate|]. injection H as <- <- <-. reflexivity.
  - destruct (take_off frames) as [[f fr]|] eqn:E; [|discriminate]. injection H as <- <- <-. eapply take_off_length, E.
  - eapply C; eauto.
  - destruct (close (sem p ([] :: frames))) as [[[o1 fr] t1]|] eqn:E; [|discriminate]. apply C in E; [|exact IHp]. destruct o1; injection H as <- <- <-; exact E.
  - destruct (close (sem p1 [[]])) as [[[o1 fr] t1]|]; [|discriminate]. destruct o1; [|discriminate|];
    (destruct (sem p2 [[]]) as [[[o2 fr2] t2]|]; [|discriminate]; destruct o2; try discriminate; destruct fr2 as [|[|? ?] [|? ?]]; try discriminate).
    + injection H as <- <- <-. reflexivity.
    + destruct (close (sem p3 ([] :: frames))) as [[[o3 fr3] t3]|] eqn:E; [|discriminate]. apply C in E; [|exact IHp3]. injection H as <- <- <-. exact E.
Qed.

Lemma filter_drop (a a' : nat -> bool) : forall d i l, NoDup d -> filter a d = i :: l -> (forall j, j <> i -> a' j = a j) -> a' i = false -> filter a' d = l.
Proof.
  induction d as [|k d IH]; intros i l N H J F; cbn in H; [discriminate|]. inversion N as [|? ? Nk Nd]; subst. cbn. destruct (a k) eqn:Ak.
  - injection H as -> <-. rewrite F. apply filter_ext_in. intros j Hj. apply J. intros ->. contradiction.
  - assert (I : a i = true) by (assert (Q : In i (filter a d)) by (rewrite H; now left); apply filter_In in Q; tauto).
    rewrite (J k) by (intros ->; congruence). rewrite Ak. eapply IH; eauto.
Qed.
Lemma nodup_split {A} (l1 l2 : list A) : NoDup (l1 ++ l2) -> NoDup l1 /\ NoDup l2 /\ forall x, In x l1 -> ~ In x l2.
Proof.
  induction l1 as [|a l1 IH]; cbn; intro H; [repeat split; auto; constructor|]. inversion H as [|? ? N Q]; subst. destruct (IH Q) as (A1 & B & C).
  rewrite in_app_iff in N. split; [constructor; tauto|]. split; [exact B|]. intros j [->|Hj]; [tauto|auto].
Qed.
Definition sizes gs := Forall2 (fun d f : list nat => length (own_list gs d) = length f).
Lemma sizes_other gs gs' : forall ds frames, (forall i, In i (concat ds) -> nth_error gs' i = nth_error gs i) -> sizes gs ds frames -> sizes gs' ds frames.
Proof.
  intros ds frames H S. induction S as [|d f ds fs E S IH]; [constructor|]. cbn [concat] in H. constructor.
  - rewrite (own_other gs gs'); [exact E|]. intros; apply H, in_app_iff; auto.
  - apply IH. intros; apply H, in_app_iff; auto.
Qed.
Lemma take_off_owns gs : forall frames ds f frames', sizes gs ds frames -> NoDup (concat ds) -> take_off frames = Some (f, frames') ->
  exists i l, concat (map (own_list gs) ds) = i :: l /\ concat frames = f :: concat frames' /\ In i (concat ds) /\
    forall gs', (forall j, j <> i -> nth_error gs' j = nth_error gs j) -> active gs' i = false ->
      concat (map (own_list gs') ds) = l /\ sizes gs' ds frames'.
Proof.
  induction frames as [|[|f0 fs] frames IH]; intros ds f frames' S N H; cbn in H; [discriminate| |].
  - fold (take_off frames) in H. destruct (take_off frames) as [[g r]|] eqn:E; [|discriminate]. injection H as <- <-. inversion S as [|d ? ds' ? S1 S2]; subst.
    cbn [concat] in N. apply nodup_split in N as (Nd & Nds & X). destruct (IH ds' g r S2 Nds eq_refl) as (i & l & A & B & C & D).
    exists i, l. cbn [map concat]. destruct (own_list gs d) as [|? ?] eqn:Ed; [|discriminate S1]. split; [exact A|]. split; [exact B|]. split; [apply in_app_iff; auto|].
    intros gs' J F. destruct (D gs' J F) as (D1 & D2). assert (Q : own_list gs' d = []).
    { rewrite (own_other gs gs'); [exact Ed|]. intros j Hj. apply J. intros ->. apply (X i Hj C). }
    rewrite Q. split; [exact D1|]. constructor; [now rewrite Q|exact D2].
  - injection H as <- <-. inversion S as [|d ? ds' ? S1 S2]; subst. cbn [map concat]. cbn [concat] in N. apply nodup_split in N as (Nd & Nds & X).
    destruct (own_list gs d) as [|i l] eqn:Ed; [discriminate S1|]. exists i, (l ++ concat (map (own_list gs) ds')). split; [reflexivity|]. split; [reflexivity|].
    assert (Id : In i d) by (eapply own_in; rewrite Ed; now left). split; [apply in_app_iff; now left|].
    intros gs' J F. assert (Q : own_list gs' d = l).
    { eapply (filter_drop (active gs) (active gs') d i l Nd Ed); [|exact F]. intros j Hj. unfold active. now rewrite J. }
    assert (O : forall j, In j (concat ds') -> nth_error gs' j = nth_error gs j) by (intros j Hj; apply J; intros ->; apply (X i Id Hj)).
    rewrite Q, (owns_other gs gs' ds' O). split; [reflexivity|]. constructor; [rewrite Q; cbn in S1; lia|]. eapply sizes_other; [exact O|exact S2].
Qed.

Lemma ctx_push m e prev trg base ds frames : ctx m e prev trg base ds frames -> ctx m e prev trg base ([] :: ds) ([] :: frames).
Proof. intros [A B C D E]. split; auto. Qed.
Lemma post_compose m m1 m2 e prev trg base ds1 ds2 fr1 fr2 o t u : post m m1 e prev trg base ds1 Done fr1 t -> post m1 m2 e prev trg base ds2 o fr2 u ->
  post m m2 e prev trg base ds2 o fr2 (t ++ u).
Proof.
  intros (K1 & _ & S1) (K2 & P). split; [eapply kept_trans; eauto|]. destruct o; (destruct P as (A & B); split; [exact A|]) || idtac.
  - now rewrite B, S1, app_assoc.
  - now rewrite B, S1, app_assoc.
  - destruct B as (B & C). split; [exact B|]. now rewrite C, S1, !app_assoc.
Qed.
Lemma kill_exc_get e1 m : e1 < length (m_excs m) -> m_guards (kill_exc e1 m) = m_guards m /\ m_last (kill_exc e1 m) = m_last m /\ m_seen (kill_exc e1 m) = m_seen m /\
  length (m_excs (kill_exc e1 m)) = length (m_excs m) /\ forall j, j <> e1 -> nth_error (m_excs (kill_exc e1 m)) j = nth_error (m_excs m) j.
Proof.
  intro H. unfold kill_exc. destruct (nth_error (m_excs m) e1) eqn:E; [|apply nth_error_None in E; lia]. cbn. rewrite set_nth_length by exact H. repeat split.
  intros j D. rewrite set_nth_get by exact H. destruct (Nat.eqb_spec j e1); [contradiction|reflexivity].
Qed.
Lemma post_kill m m' e prev trg base ds o frames t e1 : post m m' e prev trg base ds o frames t -> e <> e1 -> length (m_excs m) <= e1 < length (m_excs m') ->
  post m (kill_exc e1 m') e prev trg base ds o frames t.
Proof.
  intros (K & P) D L. destruct (kill_exc_get e1 m' ltac:(lia)) as (A & B & C & N & G). destruct K as [K1 K2 K3 K4]. split.
  - split; rewrite ?A, ?N; auto; try lia. intros j Hj Hl. rewrite G by lia. auto.
  - destruct o; rewrite ?B, ?C, ?G by exact D; try exact P; destruct P as (X & S); (split; [|exact S]); apply (ctx_other m'); auto; rewrite ?A, ?B; auto; apply X.
Qed.
Lemma range_of m e prev trg base d ds frames m' : ctx m e prev trg base (d :: ds) frames -> kept base e m m' -> Forall (fun i => base <= i < length (m_guards m')) d.
Proof.
  intros K1 K2. pose proof (c_range _ _ _ _ _ _ _ K1) as R. cbn [concat] in R. apply Forall_app in R as [R _]. eapply Forall_impl; [|exact R]. cbn. intros i H. pose proof (k_glen _ _ _ _ K2). lia.
Qed.

Lemma range_len m e prev trg base d ds frames m' : ctx m e prev trg base (d :: ds) frames -> length (m_guards m) <= length (m_guards m') -> Forall (fun i => base <= i < length (m_guards m')) d.
Proof.
  intros K1 K2. pose proof (c_range _ _ _ _ _ _ _ K1) as R. cbn [concat] in R. apply Forall_app in R as [R _]. eapply Forall_impl; [|exact R]. cbn. intros i H. lia.
Qed.

Lemma exec_all : forall p m e prev trg base ids ds frames o frames' t, ctx m e prev trg base (ids :: ds) frames -> base <= length (m_guards m) -> sem p frames = Some (o, frames', t) ->
  exists own m', exec p ids m = (out_of e o, own, m') /\ post m m' e prev trg base (own :: ds) o frames' t /\ Forall (fun i => base <= i < length (m_guards m')) own.
Proof.
  assert (BLOCK : forall p m e prev trg base ids ds frames o frames' t,
    (forall m e prev trg base ids ds frames o frames' t, ctx m e prev trg base (ids :: ds) frames -> base <= length (m_guards m) -> sem p frames = Some (o, frames', t) ->
      exists own m', exec p ids m = (out_of e o, own, m') /\ post m m' e prev trg base (own :: ds) o frames' t /\ Forall (fun i => base <= i < length (m_guards m')) own) ->
    ctx m e prev trg base (ids :: ds) frames -> base <= length (m_guards m) -> close (sem p ([] :: frames)) = Some (o, frames', t) ->
    exists m', (let '(o, own, m) := exec p [] m in block_end o own m) = (out_of e o, m') /\ post m m' e prev trg base (ids :: ds) o frames' t).
  { intros p m e prev trg base ids ds frames o frames' t IH K Hb H. unfold close in H. destruct (sem p ([] :: frames)) as [[[o1 fr] t1]|] eqn:S; [|discriminate].
    destruct fr as [|f fr]; [discriminate|]. injection H as <- <- <-.
    destruct (IH m e prev trg base [] (ids :: ds) ([] :: frames) o1 (f :: fr) t1 (ctx_push _ _ _ _ _ _ _ K) Hb S) as (own & m1 & E & P & R). rewrite E.
    apply (block_all own m m1 e prev trg base (ids :: ds) o1 f fr t1 P R). }
  induction p; intros m e prev trg base ids ds frames o frames' t K Hb H; cbn [sem] in H; cbn [exec].
  - injection H as <- <- <-. exists ids, m. split; [reflexivity|]. split; [split; [apply kept_refl|rewrite app_nil_r; auto]|]. eapply range_of; [exact K|apply kept_refl].
  - destruct (sem p1 frames) as [[[o1 fr1] t1]|] eqn:S1; [|discriminate]. destruct (IHp1 _ _ _ _ _ _ _ _ _ _ _ K Hb S1) as (own1 & m1 & E1 & P1 & R1). rewrite E1.
    destruct o1; try (injection H as <- <- <-; exists own1, m1; split; [reflexivity|]; split; [exact P1|exact R1]).
    destruct (sem p2 fr1) as [[[o2 fr2] t2]|] eqn:S2; [|discriminate]. injection H as <- <- <-. cbn [out_of].
    destruct P1 as (K1 & X1 & T1). destruct (IHp2 _ _ _ _ _ _ _ _ _ _ _ X1 ltac:(pose proof (k_glen _ _ _ _ K1); lia) S2) as (own2 & m2 & E2 & P2 & R2). rewrite E2.
    exists own2, m2. split; [reflexivity|]. split; [|exact R2]. eapply post_compose; [|exact P2]. split; [exact K1|]. split; [exact X1|exact T1].
  - injection H as <- <- <-. exists ids, (say (Did a) m). split; [reflexivity|]. split; [|eapply range_len; [exact K|cbn; lia]]. split; [split; auto|]. split; [|reflexivity]. apply (ctx_other m); auto. apply K.
  - destruct fails; [|discriminate]. destruct frames as [|fs frames]; [discriminate|]. injection H as <- <- <-.
    pose proof K as [A (stack & B & L) C D E]. unfold guard_as, current, live_exc. rewrite A, B. cbn [e_alive e_prev e_triggered e_stack].
    assert (Le := some_lt _ _ _ B). set (j := length (m_guards m)).
    eexists _, _. split; [reflexivity|]. assert (G : forall i, i < j -> nth_error (m_guards m ++ [mk_gcell f true 0 stack true]) i = nth_error (m_guards m) i) by (intros i Hi; apply nth_error_app1, Hi).
    assert (Gj : nth_error (m_guards m ++ [mk_gcell f true 0 stack true]) j = Some (mk_gcell f true 0 stack true)) by (unfold j; rewrite nth_error_app2, Nat.sub_diag by lia; reflexivity).
    assert (O : forall i, In i (concat (ids :: ds)) -> nth_error (m_guards m ++ [mk_gcell f true 0 stack true]) i = nth_error (m_guards m) i) by (intros i Hi; apply G; apply (proj1 (Forall_forall _ _) D i Hi)).
    assert (Act : active (m_guards m ++ [mk_gcell f true 0 stack true]) j = true) by (unfold active; now rewrite Gj).
    split.
    + split.
      * split; cbn.
        -- intros i Hi. apply G. unfold j. lia.
        -- rewrite app_length. lia.
        -- intros k Hk Hl. rewrite set_nth_get by exact Le. destruct (Nat.eqb_spec k e); [contradiction|reflexivity].
        -- rewrite set_nth_length by exact Le. lia.
      * split; [|reflexivity]. split; cbn [m_last say put_exc m_excs m_guards].
        -- first [exact A|reflexivity].
        -- exists (Some j). split; [rewrite set_nth_get by exact Le; now rewrite Nat.eqb_refl|].
           cbn [map concat]. unfold own_list at 1. cbn [filter]. rewrite Act. fold (own_list (m_guards m ++ [mk_gcell f true 0 stack true]) ids).
           cbn [app linked concat]. split; [reflexivity|]. exists stack. split; [exact Gj|].
           change (own_list (m_guards m ++ [mk_gcell f true 0 stack true]) ids ++ concat (map (own_list (m_guards m ++ [mk_gcell f true 0 stack true])) ds)) with (concat (map (own_list (m_guards m ++ [mk_gcell f true 0 stack true])) (ids :: ds))).
           rewrite (owns_other (m_guards m) _ (ids :: ds) O). eapply linked_other; [|exact L]. intros i Hi. apply O. eapply owns_in, Hi.
        -- inversion C as [|? ? ? ? C1 C2]; subst. constructor.
           ++ unfold own_list. cbn [filter]. rewrite Act. cbn [length]. fold (own_list (m_guards m ++ [mk_gcell f true 0 stack true]) ids). rewrite (own_other (m_guards m)); [now rewrite C1|]. intros; apply O. cbn [concat]. apply in_app_iff; auto.
           ++ apply (sizes_other (m_guards m)); [|exact C2]. intros; apply O. cbn [concat]. apply in_app_iff; auto.
        -- cbn [concat app]. rewrite app_length. cbn [length]. fold j. constructor; [split; [lia|]; eexists; split; [exact Gj|reflexivity]|].
           eapply Forall_forall. intros i Hi. pose proof (proj1 (Forall_forall _ _) D i Hi) as ((P1 & P2) & (g & P3 & P4)). split; [lia|]. exists g. now rewrite O.
        -- cbn [concat app]. constructor; [|exact E]. intro Hi. apply (proj1 (Forall_forall _ _) D) in Hi. unfold j in Hi. lia.
    + cbn [m_guards say put_exc]. rewrite app_length. cbn [length]. fold j. constructor; [lia|]. eapply Forall_impl; [|eapply range_of; [exact K|apply kept_refl]]. cbn. unfold j. intros; lia.
  - destruct (take_off frames) as [[f fr]|] eqn:T; [|discriminate]. injection H as <- <- <-.
    pose proof K as [A (stack & B & L) C D E]. destruct (take_off_owns _ _ _ _ _ C E T) as (i & l & O1 & O2 & O3 & O4). rewrite O1, O2 in L. cbn [linked] in L. destruct L as (-> & pr & Hi & L).
    unfold unguard, guard_pop, current, live_exc. rewrite A, B. cbn [e_alive e_stack]. unfold live_guard. rewrite Hi. cbn [g_alive g_prev e_prev e_triggered g_name g_fails].
    assert (Le := some_lt _ _ _ B). assert (Li := some_lt _ _ _ Hi). eexists _, _. split; [reflexivity|].
    set (gs' := set_nth i (mk_gcell f false 0 pr true) (m_guards m)).
    assert (G : forall j, nth_error gs' j = if j =? i then Some (mk_gcell f false 0 pr true) else nth_error (m_guards m) j) by (intro j; unfold gs'; now rewrite set_nth_get).
    assert (N : length gs' = length (m_guards m)) by (unfold gs'; now rewrite set_nth_length).
    assert (Gn : forall j, j <> i -> nth_error gs' j = nth_error (m_guards m) j) by (intros j Hj; rewrite G; destruct (Nat.eqb_spec j i); [contradiction|reflexivity]).
    destruct (O4 gs' Gn) as (O5 & O6); [unfold active; rewrite G, Nat.eqb_refl; reflexivity|].
    pose proof (proj1 (Forall_forall _ _) D i O3) as ((Q1 & Q2) & _).
    split.
    + split.
      * split; cbn; fold gs'.
        -- intros j Hj. apply Gn. lia.
        -- lia.
        -- intros k Hk Hl. rewrite set_nth_get by exact Le. destruct (Nat.eqb_spec k e); [contradiction|reflexivity].
        -- rewrite set_nth_length by exact Le. lia.
      * split; [|reflexivity]. split; cbn [m_last say put_exc put_guard m_excs m_guards]; fold gs'.
        -- first [exact A|reflexivity].
        -- exists pr. split; [rewrite set_nth_get by exact Le; now rewrite Nat.eqb_refl|]. rewrite O5. eapply linked_other; [|exact L]. intros j Hj. apply Gn. intros ->.
           pose proof (owns_nodup (m_guards m) _ E) as Nd. rewrite O1 in Nd. inversion Nd; contradiction.
        -- exact O6.
        -- rewrite N. eapply Forall_forall. intros j Hj. pose proof (proj1 (Forall_forall _ _) D j Hj) as ((P1 & P2) & (g & P3 & P4)). split; [lia|].
           destruct (Nat.eq_dec j i) as [->|Dj]; [eexists; rewrite G, Nat.eqb_refl; split; reflexivity|]. exists g. now rewrite Gn.
        -- exact E.
    + cbn [m_guards say put_exc put_guard]. fold gs'. rewrite N. eapply range_of; [exact K|apply kept_refl].
  - destruct (BLOCK p m e prev trg base ids ds frames o frames' t IHp K Hb H) as (m1 & E1 & P1). destruct (exec p [] m) as [[o1 own] m0]. rewrite E1.
    exists ids, m1. split; [reflexivity|]. split; [exact P1|]. eapply range_of; [exact K|apply P1].
  - destruct (close (sem p ([] :: frames))) as [[[o1 fr] t1]|] eqn:S; [|discriminate].
    destruct (BLOCK p m e prev trg base ids ds frames o1 fr t1 IHp K Hb S) as (m1 & E1 & P1). destruct (exec p [] m) as [[o2 own] m0]. rewrite E1.
    exists ids, m1. destruct o1; injection H as <- <- <-; (split; [reflexivity|]); (split; [exact P1|]); eapply range_of; [exact K|apply P1|exact K|apply P1|exact K|apply P1].
  - injection H as <- <- <-. exists ids, m. split; [reflexivity|]. split; [split; [apply kept_refl|rewrite app_nil_r; auto]|]. eapply range_of; [exact K|apply kept_refl].
  - injection H as <- <- <-. destruct (throw_all _ _ _ _ _ _ _ K) as (m1 & E1 & K1 & L1 & X1 & S1 & N1). rewrite E1. exists ids, m1. split; [reflexivity|]. split; [split; [exact K1|]; auto|]. eapply range_of; eauto.
  - destruct (close (sem p1 [[]])) as [[[o1 fr1] t1]|] eqn:S1; [|discriminate]. assert (N1 : o1 <> Returned) by (destruct o1; [discriminate|discriminate H|discriminate]).
    assert (S2 : exists u, sem p2 [[]] = Some (Done, [[]], u) /\ match o1 with Thrown => match close (sem p3 ([] :: frames)) with Some (o, fr, v) => Some (o, fr, t1 ++ u ++ v) | None => None end | _ => Some (Done, frames, t1 ++ u) end = Some (o, frames', t)).
    { destruct o1; [|contradiction|]; (destruct (sem p2 [[]]) as [[[o2 fr2] t2]|]; [|discriminate]; destruct o2; try discriminate; destruct fr2 as [|[|? ?] [|? ?]]; try discriminate; exists t2; split; [reflexivity|exact H]). }
    clear H. destruct S2 as (u & S2 & H). assert (F1 : fr1 = []).
    { unfold close in S1. destruct (sem p1 [[]]) as [[[o2 fr2] t2]|] eqn:Q; [|discriminate]. apply sem_length in Q. destruct fr2 as [|? fr2]; [discriminate|]. injection S1 as _ <- _. cbn in Q. destruct fr2; [reflexivity|cbn in Q; lia]. }
    subst fr1. unfold exception_mgr_enter. pose proof (c_last _ _ _ _ _ _ _ K) as La. rewrite La. set (e1 := length (m_excs m)). set (m1 := mk_machine _ _ _ _). set (b1 := length (m_guards m)).
    destruct (c_stack _ _ _ _ _ _ _ K) as (stack & B & L). assert (Le := some_lt _ _ _ B). assert (De : e <> e1) by (unfold e1; lia).
    assert (X1 : nth_error (m_excs m1) e1 = Some (mk_ecell (Some e) false None true)) by (unfold m1, e1; cbn; rewrite nth_error_app2, Nat.sub_diag by lia; reflexivity).
    assert (K1 : ctx m1 e1 (Some e) false b1 [] []) by (split; [reflexivity|exists None; split; [exact X1|reflexivity]|constructor|constructor|constructor]).
    assert (EN : forall j, j < length (m_excs m) -> nth_error (m_excs m1) j = nth_error (m_excs m) j) by (intros j Hj; unfold m1; cbn; now rewrite nth_error_app1).
    assert (EL : length (m_excs m1) = S e1) by (unfold m1, e1; cbn; rewrite app_length; cbn; lia).
    assert (P1 : exists m3, (let '(o, own, m) := exec p1 [] m1 in block_end o own m) = (out_of e1 o1, m3) /\ post m1 m3 e1 (Some e) false b1 [] o1 [] t1).
    { unfold close in S1. destruct (sem p1 [[]]) as [[[o2 fr2] t2]|] eqn:Q; [|discriminate]. destruct fr2 as [|f fr2]; [discriminate|]. injection S1 as -> -> <-.
      destruct (IHp1 m1 e1 (Some e) false b1 [] [] [[]] o1 [f] t2 (ctx_push _ _ _ _ _ _ _ K1) (Nat.le_refl _) Q) as (own & m2 & E2 & P2 & R2). rewrite E2. apply (block_all own m1 m2); assumption. }
    destruct P1 as (m3 & E3 & P3). destruct (exec p1 [] m1) as [[oo own1] m2]. rewrite E3. clear E3 oo own1 m2.
    set (trg1 := match o1 with Thrown => true | _ => false end).
    assert (K3 : ctx m3 e1 (Some e) trg1 b1 [[]] [[]] /\ kept b1 e1 m1 m3 /\ m_seen m3 = m_seen m ++ t1).
    { destruct P3 as (Kp & P3). destruct o1; [|contradiction|].
      - destruct P3 as (X & S). split; [apply ctx_push, X|]. split; [exact Kp|exact S].
      - destruct P3 as (X & Y & S). split; [|split; [exact Kp|cbn in S; rewrite app_nil_r in S; exact S]]. split; [exact X|exists None; split; [exact Y|reflexivity]|constructor; [reflexivity|constructor]|constructor|constructor]. }
    destruct K3 as (K3 & Kp3 & Sn3).
    destruct (IHp2 m3 e1 (Some e) trg1 b1 [] [] [[]] Done [[]] u K3 (k_glen _ _ _ _ Kp3) S2) as (own2 & m4 & E4 & P4 & R4).
    assert (E4' : exec p2 ids m3 = (Norm, own2 ++ ids, m4)) by (rewrite exec_ids, E4; reflexivity).
    destruct P4 as (Kp4 & K4 & Sn4). pose proof (kept_trans _ _ _ _ _ Kp3 Kp4) as Kp14.
    destruct (c_stack _ _ _ _ _ _ _ K4) as (st4 & B4 & _).
    set (m5 := set_last (Some e) m4).
    assert (L5 : exception_mgr_leave e1 m4 = Some (trg1, m5)) by (unfold exception_mgr_leave, live_exc; rewrite B4; reflexivity).
    assert (G5 : forall i, In i (concat (ids :: ds)) -> nth_error (m_guards m5) i = nth_error (m_guards m) i).
    { intros i Hi. cbn. rewrite (k_guards _ _ _ _ Kp14); [reflexivity|]. apply (proj1 (Forall_forall _ _) (c_range _ _ _ _ _ _ _ K) i Hi). }
    assert (N5 : b1 <= length (m_guards m5)) by (apply (k_glen _ _ _ _ Kp14)).
    assert (Kp5 : kept base e m m5).
    { split; cbn.
      - intros i Hi. rewrite (k_guards _ _ _ _ Kp14); [reflexivity|unfold b1; lia].
      - exact N5.
      - intros j Dj Hj. rewrite (k_excs _ _ _ _ Kp14); [apply EN, Hj|unfold e1; lia|lia].
      - pose proof (k_elen _ _ _ _ Kp14). lia. }
    assert (K5a : ctx m5 e prev trg base (ids :: ds) frames).
    { apply (ctx_other m); auto. cbn. rewrite (k_excs _ _ _ _ Kp14); [apply EN, Le|exact De|lia]. }
    assert (K5 : ctx m5 e prev trg base ((own2 ++ ids) :: ds) frames).
    { pose proof (c_frames _ _ _ _ _ _ _ K4) as Fr. inversion Fr as [|? ? ? ? F1 F2]; subst. pose proof (c_range _ _ _ _ _ _ _ K4) as Rg. cbn [concat] in Rg. rewrite app_nil_r in Rg.
      pose proof (c_nodup _ _ _ _ _ _ _ K4) as Nd. cbn [concat] in Nd. rewrite app_nil_r in Nd.
      assert (Z : own_list (m_guards m5) own2 = []) by (destruct (own_list (m_guards m4) own2) eqn:Eo; [exact Eo|discriminate F1]).
      assert (Z' : own_list (m_guards m5) (own2 ++ ids) = own_list (m_guards m5) ids) by (unfold own_list in *; rewrite filter_app, Z; reflexivity).
      destruct K5a as [A5 B5 C5 D5 E5]. split.
      - exact A5.
      - cbn [map concat]. rewrite Z'. exact B5.
      - inversion C5; subst. constructor; [rewrite Z'; assumption|assumption].
      - cbn [concat]. rewrite <- app_assoc. apply Forall_app. split; [|exact D5]. eapply Forall_impl; [|exact Rg]. cbn. unfold b1. intros i ((Q1 & Q2) & Q3). split; [lia|exact Q3].
      - cbn [concat]. rewrite <- app_assoc. assert (Old : forall i, In i (ids ++ concat ds) -> i < b1) by (intros i Hi; apply (proj1 (Forall_forall _ _) (c_range _ _ _ _ _ _ _ K) i Hi)).
        assert (New : forall i, In i own2 -> b1 <= i) by (intros i Hi; apply (proj1 (Forall_forall _ _) Rg i Hi)). clear -Nd E5 Old New. cbn [concat] in E5.
        induction own2 as [|i own2 IH]; [exact E5|]. inversion Nd; subst. cbn. constructor; [|apply IH; auto; intros; apply New; now right]. rewrite in_app_iff. intros [Q|Q]; [contradiction|]. apply Old in Q. assert (b1 <= i) by (apply New; now left). lia. }
    assert (P5 : post m m5 e prev trg base ((own2 ++ ids) :: ds) Done frames (t1 ++ u)).
    { split; [exact Kp5|]. split; [exact K5|]. cbn. rewrite Sn4, Sn3. now rewrite app_assoc. }
    assert (E1b : e1 < length (m_excs m5)) by (cbn; apply (some_lt _ _ _ B4)).
    assert (FIN : exists own m', (if trg1 then let '(o, own, m) := exec p3 [] m5 in let (o, m) := block_end o own m in (o, own2 ++ ids, kill_exc e1 m) else (Norm, own2 ++ ids, kill_exc e1 m5)) = (out_of e o, own, m') /\
      post m m' e prev trg base (own :: ds) o frames' t /\ Forall (fun i => base <= i < length (m_guards m')) own).
    { unfold trg1. destruct o1; [|contradiction|].
      - injection H as <- <- <-. eexists _, _. split; [reflexivity|]. assert (PK := post_kill _ _ _ _ _ _ _ _ _ _ e1 P5 De ltac:(unfold e1 in *; lia)). split; [exact PK|]. destruct PK as (_ & Q & _). eapply range_of; [exact Q|apply kept_refl].
      - destruct (close (sem p3 ([] :: frames))) as [[[o3 fr3] t3]|] eqn:S3; [|discriminate]. injection H as <- <- <-.
        destruct (BLOCK p3 m5 e prev trg base (own2 ++ ids) ds frames o3 fr3 t3 IHp3 K5 ltac:(unfold b1 in N5; lia) S3) as (m6 & E6 & P6). destruct (exec p3 [] m5) as [[oo own3] m6a]. rewrite E6.
        eexists _, _. split; [reflexivity|]. assert (P := post_compose _ _ _ _ _ _ _ _ _ _ _ _ _ _ P5 P6). rewrite <- app_assoc in P.
        assert (PK := post_kill _ _ _ _ _ _ _ _ _ _ e1 P De ltac:(destruct P6 as (Q & _); pose proof (k_elen _ _ _ _ Q); unfold e1 in *; lia)). split; [exact PK|].
        eapply range_len; [exact K5|]. destruct P6 as (Q & _). pose proof (k_elen _ _ _ _ Q). destruct (kill_exc_get e1 m6 ltac:(lia)) as (Z1 & _). rewrite Z1. apply (k_glen _ _ _ _ Q). }
    destruct o1; [|contradiction|]; cbn [out_of]; [|rewrite Nat.eqb_refl]; rewrite E4', L5; exact FIN.
Qed.
