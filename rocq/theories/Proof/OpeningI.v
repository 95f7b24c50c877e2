(* What holds of the descriptors and handles after any calls. *)
From Coq Require Import List NArith Bool Lia.
From Verif Require Import Model.Base Model.Wal Model.Opening Spec.Opening Proof.OpeningL.
Import ListNotations.
Local Open Scope N_scope.

Definition held (w : world) (e : env) (p d : N) : Prop :=
  exists fd, e_lock e = Some fd /\ In (mk_ofd fd p d true) (w_ofds w) /\ e_dir e = Some d /\
             e_online e = true /\ get d (w_dirs w) <> None.

Definition fits (w : world) (e : env) (p : N) (l : list (N * ret)) : Prop :=
  e_proc e = p /\ match l with (d, Done) :: _ => held w e p d | _ => True end.

Record inv (w : world) (m : past) : Prop := mk_inv {
  i_keys : NoDup (map fst (w_envs w));
  i_env : forall h, match m h with
                    | None => get h (w_envs w) = None
                    | Some (p, l) => exists e, get h (w_envs w) = Some e /\ fits w e p l
                    end;
  i_lt : forall o, In o (w_ofds w) -> o_id o < w_next w;
  i_uni : forall a b, In a (w_ofds w) -> In b (w_ofds w) -> o_id a = o_id b -> a = b;
  i_one : forall a b, In a (w_ofds w) -> In b (w_ofds w) -> o_lock a = true -> o_lock b = true ->
                      o_dir a = o_dir b -> a = b;
  i_fdlt : forall h e fd, get h (w_envs w) = Some e -> e_lock e = Some fd -> fd < w_next w;
  i_fd : forall h k e f fd, get h (w_envs w) = Some e -> get k (w_envs w) = Some f ->
                            e_lock e = Some fd -> e_lock f = Some fd -> h = k
}.

Section Keys.
Context {A : Type}.
Lemma keys_del : forall k (l : list (N * A)), NoDup (map fst l) -> NoDup (map fst (del k l)) /\ ~ In k (map fst (del k l)).
Proof.
  intros k l H. unfold del. split.
  - induction l as [|[i x] l IH]; cbn; [constructor|]. cbn in H. apply NoDup_cons_iff in H as [H1 H2].
    destruct (i =? k); cbn; [auto|]. constructor; [|auto].
    intro C. apply H1. apply in_map_iff in C as [y [Y1 Y2]]. apply filter_In in Y2 as [Y2 _].
    apply in_map_iff. eauto.
  - intro C. apply in_map_iff in C as [y [Y1 Y2]]. apply filter_In in Y2 as [_ Y2].
    rewrite Y1, N.eqb_refl in Y2. discriminate.
Qed.
Lemma keys_put : forall k (x : A) l, NoDup (map fst l) -> NoDup (map fst (put k x l)).
Proof. intros k x l H. unfold put. cbn. destruct (keys_del k l H). constructor; assumption. Qed.
Lemma keys_filter : forall g (l : list (N * A)), NoDup (map fst l) -> NoDup (map fst (filter g l)).
Proof.
  intros g l H. induction l as [|[i x] l IH]; cbn; [constructor|]. cbn in H. apply NoDup_cons_iff in H as [H1 H2].
  destruct (g (i, x)); cbn; [|auto]. constructor; [|auto].
  intro C. apply H1. apply in_map_iff in C as [y [Y1 Y2]]. apply filter_In in Y2 as [Y2 _]. apply in_map_iff. eauto.
Qed.
Lemma get_none : forall k (l : list (N * A)), ~ In k (map fst l) -> get k l = None.
Proof.
  intros k l H. induction l as [|[i x] l IH]; cbn; [reflexivity|]. cbn in H.
  destruct (N.eqb_spec i k); [exfalso; auto|auto].
Qed.
Lemma get_filter : forall g k (l : list (N * A)), NoDup (map fst l) ->
  get k (filter (fun x => g (snd x)) l) = match get k l with Some x => if g x then Some x else None | None => None end.
Proof.
  intros g k l H. induction l as [|[i x] l IH]; cbn; [reflexivity|]. cbn in H. apply NoDup_cons_iff in H as [H1 H2].
  destruct (g x) eqn:G; cbn.
  - destruct (i =? k); [now rewrite G|auto].
  - destruct (N.eqb_spec i k); [|auto]. subst. rewrite G. rewrite IH by assumption.
    rewrite get_none by assumption. reflexivity.
Qed.
End Keys.

Lemma inv_start : forall dirs, inv (start dirs) (fun _ => None).
Proof. intros dirs. constructor; cbn; try discriminate; try contradiction; auto. constructor. Qed.

Lemma set_past_same : forall m h x, set_past m h x h = x.
Proof. intros. unfold set_past. destruct (N.eq_dec h h); congruence. Qed.
Lemma set_past_other : forall m h x k, k <> h -> set_past m h x k = m k.
Proof. intros. unfold set_past. destruct (N.eq_dec k h); congruence. Qed.

Lemma locked_none : forall w d o, locked w d = false -> In o (w_ofds w) -> o_lock o = true -> o_dir o <> d.
Proof.
  intros w d o H I L E. unfold locked in H. rewrite <- not_true_iff_false in H. apply H.
  apply existsb_exists. exists o. split; [exact I|]. rewrite L, E, N.eqb_refl. reflexivity.
Qed.

Lemma held_grow : forall w w' e p d, held w e p d ->
  (forall o, In o (w_ofds w) -> In o (w_ofds w')) -> (get d (w_dirs w) <> None -> get d (w_dirs w') <> None) ->
  held w' e p d.
Proof. intros w w' e p d (fd & A & B & C & D & E) F G. exists fd. auto 8. Qed.
Lemma fits_grow : forall w w' e p l, fits w e p l ->
  (forall o, In o (w_ofds w) -> In o (w_ofds w')) -> (forall d, get d (w_dirs w) <> None -> get d (w_dirs w') <> None) ->
  fits w' e p l.
Proof.
  intros w w' e p l [A B] F G. split; [exact A|]. destruct l as [|[d []] l]; auto. eapply held_grow; eauto.
Qed.
Lemma only_grow : forall d a b k, only d a b -> get k a <> None -> get k b <> None.
Proof.
  intros d a b k [H1 H2] H. destruct (N.eq_dec k d) as [->|n]; [auto|]. now rewrite H1.
Qed.

Lemma inv_init : forall w m p h, inv w m -> get h (w_envs w) = None ->
  inv (with_env w h (env_init p)) (note m (Init p h, Done)).
Proof.
  intros w m p h I N. destruct I as [I1 I2 I3 I4 I5 I6 I7]. constructor; cbn [with_env w_ofds w_next w_envs w_dirs].
  - now apply keys_put.
  - intro k. cbn [note]. destruct (N.eq_dec k h) as [->|n].
    + rewrite set_past_same, get_put_same. eexists. split; [reflexivity|]. split; reflexivity.
    + rewrite set_past_other, get_put_other by exact n. apply I2.
  - exact I3.
  - exact I4.
  - exact I5.
  - intros k e fd G L. rewrite get_put in G. destruct (N.eq_dec k h); [injection G as <-; discriminate L|eauto].
  - intros k j e f fd G1 G2 L1 L2. rewrite get_put in G1, G2.
    destruct (N.eq_dec k h); [injection G1 as <-; discriminate L1|].
    destruct (N.eq_dec j h); [injection G2 as <-; discriminate L2|eauto].
Qed.

Lemma inv_open : forall w m h e d u f w' e' r, inv w m -> get h (w_envs w) = Some e ->
  open_start w e d u f = (w', e', r) -> inv (with_env w' h e') (note m (Open h d u f, r)).
Proof.
  intros w m h e d u f w' e' r I G H.
  destruct (open_shape _ _ _ _ _ _ _ _ H) as (Ev & Ep & Ed & On & Op & Ol).
  destruct I as [I1 I2 I3 I4 I5 I6 I7].
  pose proof (I2 h) as Ih. destruct (m h) as [[p l]|] eqn:Mh; [|congruence].
  destruct Ih as (e0 & G0 & F0). rewrite G in G0. injection G0 as <-.
  assert (Inc : forall o, In o (w_ofds w) -> In o (w_ofds w')).
  { destruct Op as [A|A|A]; rewrite A; cbn; auto. }
  assert (OT : forall k, k <> h -> match m k with
                    | None => get k (w_envs w') = None
                    | Some (p, l) => exists e, get k (w_envs w') = Some e /\ fits w' e p l
                    end).
  { intros k n. pose proof (I2 k) as Ik. rewrite Ev. destruct (m k) as [[q j]|]; [|exact Ik].
    destruct Ik as (x & Gx & Fx). exists x. split; [exact Gx|].
    apply fits_grow with w; auto. intros z. apply (only_grow d); exact On. }
  assert (EN : forall k, match note m (Open h d u f, r) k with
                    | None => get k (w_envs (with_env w' h e')) = None
                    | Some (p, l) => exists e, get k (w_envs (with_env w' h e')) = Some e /\ fits (with_env w' h e') e p l
                    end).
  { intro k. cbn [note with_env w_envs]. rewrite Mh. destruct (N.eq_dec k h) as [->|n].
    - rewrite set_past_same, get_put_same. exists e'. split; [reflexivity|].
      split; [destruct F0; congruence|]. destruct r; [|exact Logic.I|exact Logic.I].
      exists (w_next w). destruct F0 as [F0 _].
      destruct Op as [B1 B2 B3|B1 B2 B3 B4|B1 B2 B3 B4 B5 B6]; try congruence.
      split; [exact B3|]. cbn [with_env w_ofds w_dirs]. rewrite B1, F0. split; [now left|]. auto.
    - rewrite set_past_other, get_put_other by exact n. exact (OT k n). }
  assert (FD : forall k e1 fd, get k (put h e' (w_envs w')) = Some e1 -> e_lock e1 = Some fd ->
      fd < w_next w' /\ (k <> h -> fd < w_next w /\ get k (w_envs w) = Some e1) /\
      (k = h -> fd = w_next w \/ (e_lock e = Some fd /\ w_next w' = w_next w))).
  { intros k e1 fd G1 L1. rewrite get_put, Ev in G1. destruct (N.eq_dec k h) as [->|n].
    - injection G1 as <-. split; [|split; [congruence|intros _]].
      + destruct Op as [B1 B2 B3 [B4|B4] B5|B1 B2 B3|B1 B2 B3].
        * rewrite B2. apply (I6 h e); congruence.
        * congruence.
        * rewrite B2. rewrite B3 in L1. injection L1 as <-. lia.
        * rewrite B2. rewrite B3 in L1. injection L1 as <-. lia.
      + destruct Op as [B1 B2 B3 [B4|B4] B5|B1 B2 B3|B1 B2 B3]; try (left; congruence); try congruence.
        right. split; congruence.
    - pose proof (I6 k e1 fd G1 L1) as X. split; [|split; [auto|congruence]].
      destruct Op as [B1 B2|B1 B2|B1 B2]; rewrite B2; lia. }
  constructor; cbn [with_env w_ofds w_next w_envs w_dirs].
  - rewrite Ev. now apply keys_put.
  - exact EN.
  - destruct Op as [B1 B2|B1 B2|B1 B2]; rewrite B1, B2; [exact I3| |]; intros o [<-|Ho]; cbn; try lia;
      specialize (I3 o Ho); lia.
  - destruct Op as [B1 B2|B1 B2|B1 B2]; rewrite B1; [exact I4| |];
      intros a b [<-|A] [<-|B] Q; auto; cbn in Q;
      try (specialize (I3 _ A)); try (specialize (I3 _ B)); try lia.
  - destruct Op as [B1 B2|B1 B2|B1 B2 B3 B4 B5]; rewrite B1; [exact I5| |].
    + intros a b [<-|A] [<-|B] La Lb Q; auto; try discriminate.
    + intros a b [<-|A] [<-|B] La Lb Q; auto; cbn in Q.
      * exfalso. apply (locked_none _ _ _ B5 B Lb). congruence.
      * exfalso. apply (locked_none _ _ _ B5 A La). congruence.
  - intros k e1 fd G1 L1. now apply (FD k e1).
  - intros k j e1 f1 fd G1 G2 L1 L2.
    destruct (FD k e1 fd G1 L1) as (_ & K1 & K2). destruct (FD j f1 fd G2 L2) as (_ & J1 & J2).
    destruct (N.eq_dec k h) as [->|nk]; destruct (N.eq_dec j h) as [->|nj]; auto.
    + destruct (J1 nj) as [X1 X2]. destruct (K2 eq_refl) as [X3|[X3 _]]; [lia|eauto].
    + destruct (K1 nk) as [X1 X2]. destruct (J2 eq_refl) as [X3|[X3 _]]; [lia|eauto].
    + destruct (J1 nj) as [_ X2]. destruct (K1 nk) as [_ X3]. eauto.
Qed.

Definition acting (c : call) (h : N) : Prop :=
  match c with
  | Cloud k _ | Storage k _ | Write k | Rotate k | Gc k _ => k = h
  | _ => False
  end.

Lemma inv_act : forall w m h e c w' e' r, inv w m -> get h (w_envs w) = Some e -> acting c h ->
  act w e c = Ok (w', e', r) -> inv (with_env w' h e') (note m (c, r)).
Proof.
  intros w m h e c w' e' r I G A H.
  destruct (act_shape _ _ _ _ _ _ H) as ((S1 & S2 & S3) & P & N & D).
  assert (M : note m (c, r) = m) by (destruct c; cbn in A; try contradiction; reflexivity). rewrite M.
  unfold place in P. injection P as P1 P2 P3 P4 P5.
  assert (GR : forall d, get d (w_dirs w) <> None -> get d (w_dirs w') <> None).
  { destruct D as [-> | (d0 & x & _ & _ & ->)]; [auto|]. intros d. apply (only_grow d0). apply only_put. }
  destruct I as [I1 I2 I3 I4 I5 I6 I7].
  constructor; cbn [with_env w_ofds w_next w_envs w_dirs]; rewrite ?S1, ?S2, ?S3; auto.
  - now apply keys_put.
  - intro k. pose proof (I2 k) as Ik. destruct (m k) as [[p l]|] eqn:Mk.
    + destruct Ik as (x & Gx & Fx). rewrite get_put. destruct (N.eq_dec k h) as [->|n].
      * rewrite G in Gx. injection Gx as <-. exists e'. split; [reflexivity|].
        apply fits_grow with w; [|cbn; now rewrite S1|exact GR].
        destruct Fx as [F1 F2]. split; [congruence|]. destruct l as [|[d []] l]; auto.
        destruct F2 as (fd & X1 & X2 & X3 & X4 & X5). exists fd. repeat split; auto; congruence.
      * exists x. split; [exact Gx|]. apply fits_grow with w; auto. cbn; now rewrite S1.
    + rewrite get_put_other; [exact Ik|]. intros ->. congruence.
  - intros k e1 fd G1 L1. rewrite get_put in G1. destruct (N.eq_dec k h) as [->|n].
    + injection G1 as <-. apply (I6 h e); congruence.
    + eauto.
  - assert (Y : forall k e1 fd, get k (put h e' (w_envs w)) = Some e1 -> e_lock e1 = Some fd ->
       exists e2, get k (w_envs w) = Some e2 /\ e_lock e2 = Some fd).
    { intros k e1 fd G1 L1. rewrite get_put in G1. destruct (N.eq_dec k h) as [->|n]; [|eauto].
      injection G1 as <-. exists e. split; congruence. }
    intros k j e1 f1 fd G1 G2 L1 L2.
    destruct (Y _ _ _ G1 L1) as (? & ? & ?). destruct (Y _ _ _ G2 L2) as (? & ? & ?). eauto.
Qed.

Lemma inv_free : forall w m h e, inv w m -> get h (w_envs w) = Some e -> inv (release w h e) (note m (Free h, Done)).
Proof.
  intros w m h e I G. destruct I as [I1 I2 I3 I4 I5 I6 I7].
  assert (SUB : forall o, In o (w_ofds (release w h e)) -> In o (w_ofds w)).
  { intros o. cbn. destruct (e_lock e); [|auto]. intro X. now apply filter_In in X. }
  assert (GD : forall k x, get k (del h (w_envs w)) = Some x -> k <> h /\ get k (w_envs w) = Some x).
  { intros k x. rewrite get_del. destruct (N.eq_dec k h); [discriminate|auto]. }
  constructor; try (cbn [release w_next]; eauto; fail).
  - cbn. now apply keys_del.
  - intro k. cbn [note release w_envs]. rewrite get_del. destruct (N.eq_dec k h) as [->|n].
    + now rewrite set_past_same.
    + rewrite set_past_other by exact n. pose proof (I2 k) as Ik. destruct (m k) as [[p l]|]; [|exact Ik].
      destruct Ik as (x & Gx & Fx). exists x. split; [exact Gx|].
      destruct Fx as [F1 F2]. split; [exact F1|]. destruct l as [|[d []] l]; auto.
      destruct F2 as (fd & X1 & X2 & X3). exists fd. split; [exact X1|]. split; [|exact X3].
      cbn. destruct (e_lock e) as [fe|] eqn:Le; [|exact X2]. apply filter_In. split; [exact X2|].
      cbn. apply negb_true_iff, N.eqb_neq. intros ->. apply n. eapply I7; eauto.
  - intros k e1 fd G1 L1. cbn in G1. apply GD in G1 as [_ G1]. cbn. eauto.
  - intros k j e1 f1 fd G1 G2 L1 L2. cbn in G1, G2. apply GD in G1 as [_ G1]. apply GD in G2 as [_ G2]. eauto.
Qed.

Lemma inv_exit : forall w m p w', inv w m -> step w (Exit p) = Ok (w', Done) -> inv w' (note m (Exit p, Done)).
Proof.
  intros w m p w' I H. cbn in H. injection H as <-. destruct I as [I1 I2 I3 I4 I5 I6 I7].
  assert (SUB : forall o, In o (filter (fun o => negb (o_proc o =? p)) (w_ofds w)) -> In o (w_ofds w))
    by (intros o X; now apply filter_In in X).
  assert (GD : forall k x, get k (filter (fun x => negb (e_proc (snd x) =? p)) (w_envs w)) = Some x -> get k (w_envs w) = Some x).
  { intros k x. rewrite (get_filter (fun x => negb (e_proc x =? p))) by exact I1.
    destruct (get k (w_envs w)); [|discriminate]. destruct (negb _); [auto|discriminate]. }
  constructor; cbn [w_ofds w_next w_envs w_dirs]; eauto.
  - now apply keys_filter.
  - intro k. cbn [note]. rewrite (get_filter (fun x => negb (e_proc x =? p))) by exact I1.
    pose proof (I2 k) as Ik. destruct (m k) as [[q l]|]; [|now rewrite Ik].
    destruct Ik as (x & Gx & Fx). rewrite Gx. destruct Fx as [F1 F2]. subst q.
    destruct (N.eq_dec (e_proc x) p) as [Q|Q].
    + rewrite Q, N.eqb_refl. reflexivity.
    + replace (negb (e_proc x =? p)) with true by (symmetry; apply negb_true_iff, N.eqb_neq, Q).
      exists x. split; [reflexivity|]. split; [reflexivity|]. destruct l as [|[d []] l]; auto.
      destruct F2 as (fd & X1 & X2 & X3). exists fd. split; [exact X1|]. split; [|exact X3].
      cbn. apply filter_In. split; [exact X2|]. cbn. apply negb_true_iff, N.eqb_neq, Q.
Qed.

(* one call *)
Lemma by_handle_ok : forall w h k w' r, by_handle w h k = Ok (w', r) ->
  exists e w1 e1, get h (w_envs w) = Some e /\ k e = Ok (w1, e1, r) /\ w' = with_env w1 h e1.
Proof.
  intros w h k w' r H. unfold by_handle in H. destruct (get h (w_envs w)) as [e|]; [|discriminate].
  destruct (k e) as [[[w1 e1] r1]| |] eqn:K; try discriminate. injection H as <- <-. eauto 6.
Qed.

Inductive stepped (w : world) (c : call) (w' : world) (r : ret) : Prop :=
| St_init : forall p h, c = Init p h -> get h (w_envs w) = None -> w' = with_env w h (env_init p) -> r = Done ->
    stepped w c w' r
| St_open : forall h d u f e w1 e1, c = Open h d u f -> get h (w_envs w) = Some e ->
    open_start w e d u f = (w1, e1, r) -> w' = with_env w1 h e1 -> stepped w c w' r
| St_act : forall h e w1 e1, acting c h -> get h (w_envs w) = Some e -> act w e c = Ok (w1, e1, r) ->
    w' = with_env w1 h e1 -> stepped w c w' r
| St_free : forall h e, c = Free h -> get h (w_envs w) = Some e -> w' = release w h e -> r = Done -> stepped w c w' r
| St_exit : forall p, c = Exit p -> step w (Exit p) = Ok (w', Done) -> r = Done -> stepped w c w' r.

Lemma step_cases : forall w c w' r, step w c = Ok (w', r) -> stepped w c w' r.
Proof.
  intros w c w' r H. destruct c; cbn in H.
  - destruct (get h (w_envs w)) eqn:G; [discriminate|]. injection H as <- <-. eapply St_init; eauto.
  - apply by_handle_ok in H as (e & w1 & e1 & G & K & ->). injection K as K. eapply St_open; eauto.
  - apply by_handle_ok in H as (e & w1 & e1 & G & K & ->). eapply St_act; eauto; reflexivity.
  - apply by_handle_ok in H as (e & w1 & e1 & G & K & ->). eapply St_act; eauto; reflexivity.
  - apply by_handle_ok in H as (e & w1 & e1 & G & K & ->). eapply St_act; eauto; reflexivity.
  - apply by_handle_ok in H as (e & w1 & e1 & G & K & ->). eapply St_act; eauto; reflexivity.
  - apply by_handle_ok in H as (e & w1 & e1 & G & K & ->). eapply St_act; eauto; reflexivity.
  - destruct (get h (w_envs w)) eqn:G; [|discriminate]. injection H as <- <-. eapply St_free; eauto.
  - injection H as <- <-. eapply St_exit; reflexivity.
Qed.

Lemma inv_step : forall w m c w' r, inv w m -> step w c = Ok (w', r) -> inv w' (note m (c, r)).
Proof.
  intros w m c w' r I H. destruct (step_cases _ _ _ _ H) as [p h -> G -> ->|h d u f e w1 e1 -> G O ->|h e w1 e1 A G O ->|h e -> G -> ->|p -> S ->].
  - now apply inv_init.
  - eapply inv_open; eauto.
  - eapply inv_act; eauto.
  - now apply inv_free.
  - now apply inv_exit with w.
Qed.

Lemma inv_run : forall l w m w' t, inv w m -> run w l = Ok (w', t) -> inv w' (fold_left note t m).
Proof.
  induction l as [|c l IH]; cbn; intros w m w' t I H.
  - injection H as <- <-. exact I.
  - destruct (step w c) as [[w1 a]| |] eqn:S; try discriminate.
    destruct (run w1 l) as [[w2 t2]| |] eqn:R; try discriminate. injection H as <- <-.
    cbn. apply (IH w1); [|exact R]. eapply inv_step; eauto.
Qed.

Lemma run_inv : forall dirs l w t, run (start dirs) l = Ok (w, t) -> inv w (history t).
Proof. intros dirs l w t H. apply (inv_run l (start dirs)); [apply inv_start|exact H]. Qed.

(* one directory, one handle *)
Lemma exclusive : forall dirs l w t h k d, run (start dirs) l = Ok (w, t) ->
  open_in t h d -> open_in t k d -> h = k.
Proof.
  intros dirs l w t h k d R (p & j & H) (q & i & K). pose proof (run_inv _ _ _ _ R) as [I1 I2 I3 I4 I5 I6 I7].
  pose proof (I2 h) as X. pose proof (I2 k) as Y. rewrite H in X. rewrite K in Y.
  destruct X as (e & G & _ & fd & A1 & A2 & _). destruct Y as (f & G' & _ & fd' & B1 & B2 & _).
  assert (Q := I5 _ _ A2 B2 eq_refl eq_refl eq_refl). injection Q as Q _. subst fd'. eauto.
Qed.

Lemma open_locked : forall w m h p d l, inv w m -> m h = Some (p, (d, Done) :: l) ->
  locked w d = true /\ get d (w_dirs w) <> None.
Proof.
  intros w m h p d l I H. pose proof (i_env _ _ I h) as X. rewrite H in X.
  destruct X as (e & G & _ & fd & A1 & A2 & _ & _ & A3). split; [|exact A3].
  unfold locked. apply existsb_exists. eexists. split; [exact A2|]. cbn. now rewrite N.eqb_refl.
Qed.

(* a second opening of the directory answers -1 and leaves the directories as they are *)
Lemma refused_open : forall w e d u f w' e' r, locked w d = true -> get d (w_dirs w) <> None ->
  open_start w e d u f = (w', e', r) ->
  r <> Done /\ w_dirs w' = w_dirs w /\ (f = None -> r = Refused).
Proof.
  intros w e d u f w' e' r L G H. unfold open_start in H.
  destruct (get d (w_dirs w)) as [x|] eqn:E; [|congruence]. cbn [negb andb] in H.
  destruct (hits f F_stat) eqn:H1.
  { injection H as <- <- <-. repeat split; try discriminate. intros ->; discriminate. }
  destruct (hits f F_open) eqn:H2.
  { injection H as <- <- <-. repeat split; try discriminate. intros ->; discriminate. }
  rewrite L in H. injection H as <- <- <-. repeat split; discriminate.
Qed.

Lemma refused : forall dirs l w t h d k u f w' r, run (start dirs) l = Ok (w, t) -> open_in t h d ->
  step w (Open k d u f) = Ok (w', r) ->
  r <> Done /\ w_dirs w' = w_dirs w /\ (f = None -> r = Refused).
Proof.
  intros dirs l w t h d k u f w' r R (p & j & H) S. pose proof (run_inv _ _ _ _ R) as I.
  destruct (open_locked _ _ _ _ _ _ I H) as [L G].
  cbn in S. apply by_handle_ok in S as (e & w1 & e1 & Ge & K & ->). injection K as K.
  cbn [with_env w_dirs]. eapply refused_open; eauto.
Qed.
