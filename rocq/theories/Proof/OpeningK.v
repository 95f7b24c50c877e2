(* Runs with care. *)
From Coq Require Import List NArith Bool Lia.
From Verif Require Import Model.Base Model.Wal Model.Opening Spec.Opening Proof.OpeningL Proof.OpeningI Proof.OpeningC.
Import ListNotations.
Local Open Scope N_scope.

Record cinv (w : world) (m : past) : Prop := mk_cinv {
  k_env : forall h p l, m h = Some (p, l) ->
    (l = [] /\ get h (w_envs w) = Some (env_init p)) \/
    (exists d r, l = [(d, r)] /\ (r = Done -> exists e, get h (w_envs w) = Some e /\ settled w e d));
  k_lock : forall o, In o (w_ofds w) -> o_lock o = true ->
    exists h p r e, m h = Some (p, [(o_dir o, r)]) /\ r <> Refused /\
                    get h (w_envs w) = Some e /\ e_lock e = Some (o_id o) /\ o_proc o = p
}.

Definition all_tidy (w : world) : Prop := forall d f, get d (w_dirs w) = Some f -> tidy f.
Definition same_uuid (w w' : world) : Prop :=
  forall d c, conf_at w d = Some c -> exists c', conf_at w' d = Some c' /\ c_uuid c' = c_uuid c.

Lemma same_uuid_refl : forall w w', w_dirs w' = w_dirs w -> same_uuid w w'.
Proof. intros w w' E d c H. exists c. split; [|reflexivity]. unfold conf_at in *. now rewrite E. Qed.
Lemma same_uuid_trans : forall a b c, same_uuid a b -> same_uuid b c -> same_uuid a c.
Proof. intros a b c H K d x X. destruct (H d x X) as (y & Y & E). destruct (K d y Y) as (z & Z & F). exists z. split; congruence. Qed.

Lemma settled_same : forall w w' e d, settled w e d -> get d (w_dirs w') = get d (w_dirs w) -> settled w' e d.
Proof. intros w w' e d (A & B & C & f & c & D) E. repeat split; auto; try exact A. exists f, c. now rewrite E. Qed.

Lemma settled_lists : forall w e d, settled w e d -> all_tidy w -> NoDup (e_clouds e) /\ NoDup (e_storages e).
Proof.
  intros w e d (_ & _ & _ & f & c & G & F & (A1 & A2 & A3) & _) T. specialize (T d f G). unfold tidy in T. rewrite F in T.
  destruct T as [T1 T2]. rewrite A2. split; [exact T1|]. destruct A3 as [-> | [A3 ->]]; [exact T2|].
  clear - T2 A3. induction (c_storages c) as [|x l IH]; cbn; [constructor; [auto|constructor]|].
  apply NoDup_cons_iff in T2 as [N1 N2]. cbn in A3. constructor; [|auto].
  rewrite in_app_iff. cbn. intros [X|[X|[]]]; [auto|]. subst. auto.
Qed.

(* what a careful call does *)
Record cstep (w : world) (m : past) (c : call) (w' : world) (r : ret) : Prop := mk_cstep {
  s_inv : cinv w' (note m (c, r));
  s_uuid : same_uuid w w';
  s_tidy : all_tidy w -> all_tidy w';
  s_kept : forall h p d l, m h = Some (p, (d, Done) :: l) -> caller c <> Some h -> get d (w_dirs w') = get d (w_dirs w)
}.

Lemma careful_step : forall w m c w' r, inv w m -> cinv w m -> careful_call m c -> step w c = Ok (w', r) ->
  cstep w m c w' r.
Proof.
  intros w m c w' r I K Ca H.
  pose proof (inv_step _ _ _ _ _ I H) as I'.
  destruct (step_cases _ _ _ _ H) as [p h -> G -> ->|h d u f e w1 e1 -> G O ->|h e w1 e1 A G O ->|h e -> G -> ->|p -> S ->].
  - (* Init *)
    assert (Mh : m h = None).
    { pose proof (i_env _ _ I h) as X. destruct (m h) as [[q l]|]; [|reflexivity]. destruct X as (e & X & _). congruence. }
    constructor; [|now apply same_uuid_refl|auto|auto].
    destruct K as [K1 K2]. constructor; cbn [note with_env w_envs w_ofds w_dirs].
    + intros k q l M. rewrite get_put. unfold set_past in M. destruct (N.eq_dec k h) as [->|n].
      * injection M as <- <-. left. auto.
      * exact (K1 k q l M).
    + intros o Io L. destruct (K2 o Io L) as (k & q & r & e & X1 & X2 & X3 & X4 & X5).
      exists k, q, r, e. assert (n : k <> h) by congruence.
      rewrite set_past_other, get_put_other by exact n. auto.
  - (* Open *)
    destruct Ca as (p & Mh). destruct K as [K1 K2].
    destruct (K1 h p [] Mh) as [[_ G0]|(d0 & r0 & X & _)]; [|discriminate X].
    rewrite G in G0. injection G0 as ->.
    destruct (open_shape _ _ _ _ _ _ _ _ O) as (Ev & Ep & Ed & On & Op & Ol).
    destruct (open_fresh _ _ _ _ _ _ _ _ O) as (F1 & F2 & F3).
    assert (KEPT : forall k q j d', m k = Some (q, (d', Done) :: j) -> k <> h -> get d' (w_dirs w1) = get d' (w_dirs w)).
    { intros k q j d' Mk n. destruct (N.eq_dec d' d) as [->|nd]; [|now apply On].
      destruct (open_locked _ _ _ _ _ _ I Mk) as [L Ge].
      destruct (refused_open _ _ _ _ _ _ _ _ L Ge O) as (_ & E & _). now rewrite E. }
    constructor.
    + constructor; cbn [note with_env w_envs w_ofds w_dirs]; rewrite Mh.
      * intros k q l M. rewrite get_put. unfold set_past in M. destruct (N.eq_dec k h) as [->|n].
        -- injection M as <- <-. right. exists d, r. split; [reflexivity|]. intro Hr. exists e1. split; [reflexivity|].
           destruct (F3 Hr) as (A & B & C & D). split; [exact A|]. split; [exact B|]. split; [exact C|exact D].
        -- rewrite Ev. destruct (K1 k q l M) as [X|(d0 & r0 & -> & X)]; [now left|]. right. exists d0, r0.
           split; [reflexivity|]. intro Hr. destruct (X Hr) as (e2 & G2 & S2). exists e2. split; [exact G2|].
           apply settled_same with w; [exact S2|]. cbn [with_env w_dirs]. apply (KEPT k q []); [congruence|exact n].
      * intros o Io L.
        assert (OLD : In o (w_ofds w) -> exists h0 p0 r0 e,
            set_past m h (Some (p, [(d, r)])) h0 = Some (p0, [(o_dir o, r0)]) /\ r0 <> Refused /\
            get h0 (put h e1 (w_envs w1)) = Some e /\ e_lock e = Some (o_id o) /\ o_proc o = p0).
        { intro Iw. destruct (K2 o Iw L) as (k & q & r0 & e & X1 & X2 & X3 & X4 & X5).
          exists k, q, r0, e. assert (n : k <> h) by congruence.
          rewrite set_past_other, get_put_other by exact n. rewrite Ev. auto. }
        destruct Op as [B1|B1|B1 B2 B3 B4]; rewrite B1 in Io; [auto| |].
        -- destruct Io as [<-|Io]; [discriminate L|auto].
        -- destruct Io as [<-|Io]; [|auto]. exists h, p, r, e1. rewrite set_past_same, get_put_same. auto.
    + intros d' c C. cbn [with_env w_dirs conf_at]. unfold conf_at in *. cbn [with_env w_dirs].
      destruct (N.eq_dec d' d) as [->|nd].
      * destruct (get d (w_dirs w)) as [f0|] eqn:Gd; [|discriminate].
        destruct (F1 f0 c eq_refl C) as (f1 & G1 & C1). rewrite G1. eauto.
      * destruct On as [On _]. rewrite On by exact nd. eauto.
    + intros T d' f' Gd. cbn [with_env w_dirs] in Gd. destruct (N.eq_dec d' d) as [->|nd].
      * unfold tidy. destruct (f_conf f') as [c|] eqn:C; [|exact Logic.I].
        destruct (conf_at w d) as [c0|] eqn:C0.
        -- unfold conf_at in C0. destruct (get d (w_dirs w)) as [f0|] eqn:G0; [|discriminate].
           destruct (F1 f0 c0 eq_refl C0) as (f1 & G1 & C1). rewrite G1 in Gd. injection Gd as <-.
           rewrite C1 in C. injection C as <-. specialize (T d f0 G0). unfold tidy in T. now rewrite C0 in T.
        -- rewrite (F2 c f'); [split; constructor| |exact Gd|exact C]. intros f0 G0. unfold conf_at in C0. now rewrite G0 in C0.
      * destruct On as [On _]. rewrite On in Gd by exact nd. eauto.
    + intros k q d' l Mk n. cbn in n. cbn [with_env w_dirs]. apply (KEPT k q l); [exact Mk|congruence].
  - (* the other calls *)
    assert (CC : exists p d, m h = Some (p, [(d, Done)])).
    { destruct c; cbn in A, Ca; try contradiction; subst; exact Ca. }
    destruct CC as (p & d & Mh). destruct K as [K1 K2].
    destruct (K1 _ _ _ Mh) as [[X _]|(d0 & r0 & X & Y)]; [discriminate|]. injection X as <- <-.
    destruct (Y eq_refl) as (e' & G' & Se). rewrite G in G'. injection G' as <-.
    assert (De : e_dir e = Some d).
    { pose proof (i_env _ _ I h) as Z. rewrite Mh in Z. destruct Z as (e2 & G2 & _ & fd & _ & _ & Z & _). congruence. }
    destruct (act_settled _ _ _ _ _ _ _ O De Se) as (Se' & (a & b & Ca0 & Cb & Cu & Nd & Lb) & Oth).
    destruct (act_shape _ _ _ _ _ _ O) as ((S1 & S2 & S3) & P & Nr & _).
    assert (M : note m (c, r) = m) by (destruct c; cbn in A; try contradiction; reflexivity).
    assert (KEPT : forall k q j d', m k = Some (q, (d', Done) :: j) -> k <> h -> get d' (w_dirs w1) = get d' (w_dirs w)).
    { intros k q j d' Mk n. apply Oth. intros ->.
      pose proof (i_env _ _ I k) as X1. pose proof (i_env _ _ I h) as X2. rewrite Mk in X1. rewrite Mh in X2.
      destruct X1 as (e2 & G2 & _ & fd & Y1 & Y2 & _). destruct X2 as (e3 & G3 & _ & fd' & Z1 & Z2 & _).
      assert (Q := i_one _ _ I _ _ Y2 Z2 eq_refl eq_refl eq_refl). injection Q as Q _. subst fd'.
      apply n. apply (i_fd _ _ I _ _ _ _ _ G2 G3 Y1 Z1). }
    constructor.
    + rewrite M. constructor; cbn [with_env w_envs w_ofds w_dirs].
      * intros k q l Mk. rewrite get_put, S3. destruct (N.eq_dec k h) as [->|n].
        -- rewrite Mh in Mk. injection Mk as <- <-. right. exists d, Done. split; [reflexivity|]. intros _.
           exists e1. split; [reflexivity|]. now apply settled_same with w1.
        -- destruct (K1 k q l Mk) as [X|(d0 & r1 & -> & X)]; [now left|]. right. exists d0, r1. split; [reflexivity|].
           intro Hr. destruct (X Hr) as (e2 & G2 & S4). exists e2. split; [exact G2|].
           apply settled_same with w; [exact S4|]. cbn [with_env w_dirs]. apply (KEPT k q []); [congruence|exact n].
      * rewrite S1. intros o Io L. destruct (K2 o Io L) as (k & q & r1 & e2 & X1 & X2 & X3 & X4 & X5).
        destruct (N.eq_dec k h) as [->|n].
        -- exists h, q, r1, e1. rewrite get_put_same. rewrite G in X3. injection X3 as <-.
           unfold place in P. injection P as P1 P2 P3 P4 P5. split; [exact X1|]. split; [exact X2|]. split; [reflexivity|]. split; [congruence|exact X5].
        -- exists k, q, r1, e2. rewrite get_put_other, S3 by exact n. auto.
    + intros d' c0 C. destruct (N.eq_dec d' d) as [->|nd].
      * exists b. split; [exact Cb|]. congruence.
      * exists c0. split; [|reflexivity]. unfold conf_at in *. cbn [with_env w_dirs]. now rewrite Oth.
    + intros T d' f' Gd. cbn [with_env w_dirs] in Gd. destruct (N.eq_dec d' d) as [->|nd].
      * unfold tidy. unfold conf_at in Cb. rewrite Gd in Cb. rewrite Cb.
        destruct (settled_lists _ _ _ Se T) as [N1 N2]. destruct (Nd N1 N2) as [N3 N4].
        destruct Lb as [->|[-> ->]]; [|split; assumption].
        unfold conf_at in Ca0. destruct (get d (w_dirs w)) as [f0|] eqn:G0; [|discriminate].
        specialize (T d f0 G0). unfold tidy in T. now rewrite Ca0 in T.
      * rewrite Oth in Gd by exact nd. eauto.
    + intros k q d' l Mk n. cbn [with_env w_dirs]. apply (KEPT k q l); [exact Mk|].
      intros ->. apply n. destruct c; cbn in A; try contradiction; subst; reflexivity.
  - (* Free *)
    constructor; [|now apply same_uuid_refl|auto|auto].
    pose proof K as K0. destruct K as [K1 K2]. constructor; cbn [note release w_envs w_dirs].
    + intros k q l M. rewrite get_del. unfold set_past in M. destruct (N.eq_dec k h); [discriminate|].
      exact (K1 k q l M).
    + intros o Io L. assert (Iw : In o (w_ofds w)).
      { cbn in Io. destruct (e_lock e); [now apply filter_In in Io|exact Io]. }
      destruct (K2 o Iw L) as (k & q & r1 & e2 & X1 & X2 & X3 & X4 & X5).
      assert (n : k <> h).
      { intros ->. rewrite G in X3. injection X3 as <-. cbn in Io. rewrite X4 in Io. apply filter_In in Io as [_ Io].
        rewrite N.eqb_refl in Io. discriminate. }
      exists k, q, r1, e2. rewrite set_past_other, get_del by exact n. destruct (N.eq_dec k h); [congruence|]. auto.
  - (* Exit *)
    pose proof S as S0. cbn in S0. injection S0 as <-.
    constructor; [|now apply same_uuid_refl|auto|auto].
    destruct K as [K1 K2]. pose proof (i_env _ _ I) as IE. pose proof (i_keys _ _ I) as Keys. constructor; cbn [note w_envs w_dirs w_ofds].
    + intros k q l M. destruct (m k) as [[q' l']|] eqn:Mk; [|discriminate].
      destruct (N.eq_dec q' p) as [Q|Q]; [discriminate|]. injection M as <- <-.
      pose proof (IE k) as Ik. rewrite Mk in Ik. destruct Ik as (x & Gx & Fx & _).
      rewrite (get_filter (fun x => negb (e_proc x =? p))) by exact Keys. rewrite Gx, Fx.
      replace (negb (q' =? p)) with true by (symmetry; apply negb_true_iff, N.eqb_neq, Q).
      rewrite <- Gx. exact (K1 k q' l' Mk).
    + intros o Io L. apply filter_In in Io as [Iw Np].
      destruct (K2 o Iw L) as (k & q & r1 & e2 & X1 & X2 & X3 & X4 & X5).
      exists k, q, r1, e2. rewrite X1. pose proof (IE k) as Ik. rewrite X1 in Ik. destruct Ik as (x & Gx & Fx & Hx).
      assert (x = e2) by congruence. subst x.
      destruct (N.eq_dec q p) as [Q|Q].
      * exfalso. rewrite X5, Q, N.eqb_refl in Np. discriminate.
      * split; [reflexivity|]. split; [exact X2|]. split; [|split; [exact X4|exact X5]].
        rewrite (get_filter (fun x => negb (e_proc x =? p))) by exact Keys. rewrite X3, Fx.
        replace (negb (q =? p)) with true by (symmetry; apply negb_true_iff, N.eqb_neq, Q). reflexivity.
Qed.

Lemma cinv_start : forall dirs, cinv (start dirs) (fun _ => None).
Proof. intro dirs. constructor; cbn; [discriminate|contradiction]. Qed.

Lemma careful_run : forall l w m w' t, inv w m -> cinv w m -> run w l = Ok (w', t) -> careful_from m t ->
  cinv w' (fold_left note t m) /\ same_uuid w w' /\ (all_tidy w -> all_tidy w').
Proof.
  induction l as [|c l IH]; cbn; intros w m w' t I K H C.
  - injection H as <- <-. split; [exact K|]. split; [now apply same_uuid_refl|auto].
  - destruct (step w c) as [[w1 a]| |] eqn:S; try discriminate.
    destruct (run w1 l) as [[w2 t2]| |] eqn:R; try discriminate. injection H as <- <-.
    destruct C as [C1 C2]. destruct (careful_step _ _ _ _ _ I K C1 S) as [A1 A2 A3 _].
    destruct (IH w1 (note m (c, a)) w2 t2) as (B1 & B2 & B3); auto. { eapply inv_step; eauto. }
    split; [exact B1|]. split; [eapply same_uuid_trans; eauto|auto].
Qed.

Lemma careful_app : forall t m c r, careful_from m (t ++ [(c, r)]) <-> careful_from m t /\ careful_call (fold_left note t m) c.
Proof.
  induction t as [|[c0 r0] t IH]; cbn; intros m c r.
  - tauto.
  - rewrite IH. tauto.
Qed.

(* what is in a directory that a handle has open is changed through that handle only *)
Lemma kept : forall dirs l w t c w' r h d, run (start dirs) l = Ok (w, t) -> step w c = Ok (w', r) ->
  careful (t ++ [(c, r)]) -> open_in t h d -> caller c <> Some h -> get d (w_dirs w') = get d (w_dirs w).
Proof.
  intros dirs l w t c w' r h d R S C (p & j & Op) N. apply careful_app in C as [C1 C2].
  destruct (careful_run _ _ _ _ _ (inv_start dirs) (cinv_start dirs) R C1) as (K & _).
  destruct (careful_step _ _ _ _ _ (run_inv _ _ _ _ R) K C2 S) as [_ _ _ A]. eapply A; eauto.
Qed.

(* whoever is refused is refused by a handle in use *)
Lemma released : forall dirs l w t h d u f w', run (start dirs) l = Ok (w, t) -> careful t ->
  step w (Open h d u f) = Ok (w', Refused) ->
  exists k p r, history t k = Some (p, [(d, r)]) /\ r <> Refused.
Proof.
  intros dirs l w t h d u f w' R C S.
  destruct (careful_run _ _ _ _ _ (inv_start dirs) (cinv_start dirs) R C) as (K & _).
  cbn in S. apply by_handle_ok in S as (e & w1 & e1 & G & O & ->). injection O as O.
  destruct (locked w d) eqn:L.
  - unfold locked in L. apply existsb_exists in L as (o & Io & Lo). apply andb_true_iff in Lo as [L1 L2].
    apply N.eqb_eq in L2. destruct (k_lock _ _ K o Io L1) as (k & p & r & _ & X1 & X2 & _).
    exists k, p, r. rewrite <- L2. auto.
  - exfalso. unfold open_start in O.
    set (e0 := set_place e d u) in *. 
    destruct (negb _ && hits f F_mkdir); [discriminate|].
    set (w0 := if match get d (w_dirs w) with Some _ => true | None => false end then w else _) in *.
    assert (L0 : locked w0 d = false) by (unfold w0; destruct (get d (w_dirs w)); exact L).
    clearbody w0. destruct (hits f F_stat); [discriminate|]. destruct (hits f F_open); [discriminate|].
    rewrite L0 in O. destruct (hits f F_flock); [discriminate|]. destruct (hits f F_conf); [discriminate|].
    destruct (match get d _ with Some _ => _ | None => _ end) as [w3 e3] eqn:Q.
    destruct (hits f F_recover); [discriminate|]. destruct (hits f F_wal); [discriminate|].
    destruct (start_wal w3 (set_catalog e3) d) as [[w5 e5] r5] eqn:S.
    destruct r5; [destruct (hits f F_late); discriminate| |discriminate].
    assert (De : e_dir (set_catalog e3) = Some d).
    { cbn in Q. destruct (get d (w_dirs w0)) as [[[c|] fl]|]; injection Q as <- <-; reflexivity. }
    destruct (start_wal_shape _ _ _ _ _ _ S De) as (_ & _ & _ & X & _). congruence.
Qed.

(* what a handle shows is what config.json says *)
Lemma shown : forall dirs l w t h d, run (start dirs) l = Ok (w, t) -> careful t -> open_in t h d ->
  (forall k f, get k dirs = Some f -> tidy f) ->
  exists e f c, get h (w_envs w) = Some e /\ get d (w_dirs w) = Some f /\ f_conf f = Some c /\ agrees e c /\
    NoDup (e_clouds e) /\ NoDup (e_storages e).
Proof.
  intros dirs l w t h d R C (p & j & Op) T.
  destruct (careful_run _ _ _ _ _ (inv_start dirs) (cinv_start dirs) R C) as (K & _ & T').
  assert (A : all_tidy w) by (apply T'; exact T).
  destruct (k_env _ _ K h _ _ Op) as [[X _]|(d0 & r & X & Y)]; [discriminate|]. injection X as <- <- ->.
  destruct (Y eq_refl) as (e & G & S). destruct (settled_lists _ _ _ S A) as [N1 N2].
  destruct S as (_ & _ & _ & f & c & G1 & F1 & Ag & _). exists e, f, c. auto 8.
Qed.

(* a database keeps its uuid *)
Lemma uuid_kept : forall dirs l w t d f c, run (start dirs) l = Ok (w, t) -> careful t ->
  get d dirs = Some f -> f_conf f = Some c ->
  exists f' c', get d (w_dirs w) = Some f' /\ f_conf f' = Some c' /\ c_uuid c' = c_uuid c.
Proof.
  intros dirs l w t d f c R C G F.
  destruct (careful_run _ _ _ _ _ (inv_start dirs) (cinv_start dirs) R C) as (_ & U & _).
  destruct (U d c) as (c' & X & Y). { unfold conf_at, start; cbn. now rewrite G. }
  unfold conf_at in X. destruct (get d (w_dirs w)) as [f'|]; [|discriminate]. eauto.
Qed.

(* a descriptor that no handle knows any more *)
Definition lost (w : world) (p d : N) : Prop :=
  get d (w_dirs w) <> None /\
  exists o, In o (w_ofds w) /\ o_lock o = true /\ o_dir o = d /\ o_proc o = p /\ o_id o < w_next w /\
    forall h e, get h (w_envs w) = Some e -> e_lock e <> Some (o_id o).

Lemma lost_step : forall w m c w' r p d, inv w m -> lost w p d -> step w c = Ok (w', r) -> c <> Exit p -> lost w' p d.
Proof.
  intros w m c w' r p d I (D & o & O1 & O2 & O3 & O4 & O5 & O6) H Np.
  destruct (step_cases _ _ _ _ H) as [q h -> G -> ->|h d1 u f e w1 e1 -> G O ->|h e w1 e1 A G O ->|h e -> G -> ->|q -> S ->].
  - split; [exact D|]. exists o. repeat split; auto. cbn [with_env w_envs]. intros k e K. rewrite get_put in K.
    destruct (N.eq_dec k h); [injection K as <-; discriminate|eauto].
  - destruct (open_shape _ _ _ _ _ _ _ _ O) as (Ev & Ep & Ed & On & Op & Ol).
    split; [cbn [with_env w_dirs]; now apply (only_grow d1 (w_dirs w))|].
    exists o. cbn [with_env w_ofds w_next w_envs]. split.
    { destruct Op as [B|B|B]; rewrite B; cbn; auto. }
    repeat split; auto.
    + destruct Op as [_ B|_ B|_ B]; rewrite B; lia.
    + intros k e2 K. rewrite get_put, Ev in K. destruct (N.eq_dec k h) as [->|n]; [|eauto]. injection K as <-.
      destruct Op as [_ _ _ [B|B]|_ _ B|_ _ B]; rewrite B; try (eapply O6; eauto; fail); try discriminate;
        intro X; injection X as X; lia.
  - destruct (act_shape _ _ _ _ _ _ O) as ((S1 & S2 & S3) & P & _ & DD).
    split. { cbn [with_env w_dirs]. destruct DD as [-> | (d0 & x & _ & _ & ->)]; [exact D|]. apply (only_grow d0 (w_dirs w)); [apply only_put|exact D]. }
    exists o. cbn [with_env w_ofds w_next w_envs]. rewrite S1, S2, S3. repeat split; auto.
    intros k e2 K. rewrite get_put in K. destruct (N.eq_dec k h) as [->|n]; [|eauto]. injection K as <-.
    unfold place in P. injection P as _ _ _ P _. rewrite P. eauto.
  - split; [exact D|]. exists o. cbn [release w_ofds w_next w_envs]. split.
    { destruct (e_lock e) as [fd|] eqn:L; [|exact O1]. apply filter_In. split; [exact O1|].
      apply negb_true_iff, N.eqb_neq. intro X. apply (O6 h e G). congruence. }
    repeat split; auto. intros k e2 K. rewrite get_del in K. destruct (N.eq_dec k h); [discriminate|eauto].
  - cbn in S. injection S as <-. split; [exact D|]. exists o. cbn [w_ofds w_next w_envs]. split.
    { apply filter_In. split; [exact O1|]. apply negb_true_iff, N.eqb_neq. congruence. }
    repeat split; auto. intros k e2 K. rewrite (get_filter (fun x => negb (e_proc x =? q))) in K by apply (i_keys _ _ I).
    destruct (get k (w_envs w)) as [x|] eqn:Gx; [|discriminate]. destruct (negb _); [|discriminate]. injection K as <-. eauto.
Qed.

Lemma lost_run : forall l w m w' t p d, inv w m -> lost w p d -> run w l = Ok (w', t) -> ~ In (Exit p) l -> lost w' p d.
Proof.
  induction l as [|c l IH]; cbn; intros w m w' t p d I L H N.
  - injection H as <- <-. exact L.
  - destruct (step w c) as [[w1 a]| |] eqn:S; try discriminate.
    destruct (run w1 l) as [[w2 t2]| |] eqn:R; try discriminate. injection H as <- <-.
    eapply IH; [eapply inv_step; eauto|eapply lost_step; eauto|exact R|]; auto.
Qed.

Lemma lost_locked : forall w p d, lost w p d -> locked w d = true /\ get d (w_dirs w) <> None.
Proof.
  intros w p d (D & o & O1 & O2 & O3 & _). split; [|exact D]. unfold locked. apply existsb_exists. exists o.
  split; [exact O1|]. rewrite O2, O3, N.eqb_refl. reflexivity.
Qed.

(* opening a second time loses the directory until the process ends *)
Lemma lost_open : forall dirs l w t h p d j d2 u w1 r, run (start dirs) l = Ok (w, t) ->
  history t h = Some (p, (d, Done) :: j) -> step w (Open h d2 u None) = Ok (w1, r) -> lost w1 p d.
Proof.
  intros dirs l w t h p d j d2 u w1 r R Hh S. pose proof (run_inv _ _ _ _ R) as I.
  pose proof (i_env _ _ I h) as X. rewrite Hh in X. destruct X as (e & G & Fp & fd & A1 & A2 & A3 & A4 & A5).
  cbn in S. apply by_handle_ok in S as (e' & w2 & e2 & G' & O & ->). rewrite G in G'. injection G' as <-. injection O as O.
  destruct (open_shape _ _ _ _ _ _ _ _ O) as (Ev & Ep & Ed & On & Op & Ol).
  assert (LT := i_lt _ _ I _ A2). cbn in LT.
  assert (NF : e_lock e2 = Some (w_next w) /\ w_next w2 = w_next w + 1 /\ (forall o, In o (w_ofds w) -> In o (w_ofds w2))).
  { destruct Op as [B1 B2 B3 B4|B1 B2 B3|B1 B2 B3]; [|rewrite B1; cbn; auto|rewrite B1; cbn; auto].
    exfalso. assert (Z : w_next w2 = w_next w + 1); [|lia].
    clear - O. unfold open_start in O.
    set (b := match get d2 (w_dirs w) with Some _ => true | None => false end) in *.
    replace (negb b && hits None F_mkdir) with false in O by (now rewrite andb_false_r).
    set (w0 := if b then w else _) in *. assert (E : w_next w0 = w_next w) by (unfold w0; destruct b; reflexivity).
    clearbody w0 b. cbn [hits] in O.
    destruct (locked w0 d2). { injection O as <- _ _. cbn. now rewrite E. }
    destruct (match get d2 _ with Some _ => _ | None => _ end) as [w3 e3] eqn:Q.
    assert (E3 : w_next w3 = w_next w + 1 /\ e_dir e3 = Some d2).
    { cbn in Q. destruct (get d2 (w_dirs w0)) as [[[c|] fl]|]; injection Q as <- <-; cbn; rewrite E; auto. }
    destruct E3 as [E3 De].
    destruct (start_wal w3 (set_catalog e3) d2) as [[w5 e5] r5] eqn:S.
    destruct (start_wal_shape _ _ _ _ _ _ S De) as ((_ & X & _) & _).
    destruct r5; injection O as <- _ _; congruence. }
  destruct NF as (NF1 & NF2 & NF3).
  split; [cbn [with_env w_dirs]; now apply (only_grow d2 (w_dirs w))|].
  exists (mk_ofd fd p d true). cbn [with_env w_ofds w_next w_envs o_id o_lock o_dir o_proc].
  split; [apply NF3; exact A2|]. repeat split; try lia.
  intros k e3 K. rewrite get_put, Ev in K. destruct (N.eq_dec k h) as [->|n].
  - injection K as <-. rewrite NF1. intro X. injection X as X. lia.
  - intro X. apply n. apply (i_fd _ _ I _ _ _ _ _ K G X A1).
Qed.

Lemma leak : forall dirs l w t h p d j d2 u w1 r l2 w2 t2 k v w3 r3, run (start dirs) l = Ok (w, t) ->
  history t h = Some (p, (d, Done) :: j) -> step w (Open h d2 u None) = Ok (w1, r) ->
  run w1 l2 = Ok (w2, t2) -> ~ In (Exit p) l2 ->
  step w2 (Open k d v None) = Ok (w3, r3) -> r3 = Refused.
Proof.
  intros dirs l w t h p d j d2 u w1 r l2 w2 t2 k v w3 r3 R Hh S R2 N S3.
  pose proof (lost_open _ _ _ _ _ _ _ _ _ _ _ _ R Hh S) as L.
  pose proof (inv_step _ _ _ _ _ (run_inv _ _ _ _ R) S) as I1.
  pose proof (lost_run _ _ _ _ _ _ _ I1 L R2 N) as L2.
  destruct (lost_locked _ _ _ L2) as [X Y].
  cbn in S3. apply by_handle_ok in S3 as (e & wx & ex & G & O & ->). injection O as O.
  destruct (refused_open _ _ _ _ _ _ _ _ X Y O) as (_ & _ & Z). auto.
Qed.

(* an opening that failed after the lock was taken is not to be repeated through any handle *)
Lemma retry : forall dirs l w t h d u f w1 k v w2 r, run (start dirs) l = Ok (w, t) ->
  f = F_conf \/ f = F_recover \/ f = F_wal \/ f = F_late ->
  step w (Open h d u (Some f)) = Ok (w1, Failed) -> step w1 (Open k d v None) = Ok (w2, r) -> r = Refused.
Proof.
  intros dirs l w t h d u f w1 k v w2 r R Ff S S2.
  cbn in S. apply by_handle_ok in S as (e & wx & e1 & G & O & ->). injection O as O.
  assert (Op : locked wx d = true /\ get d (w_dirs wx) <> None).
  { destruct (open_shape _ _ _ _ _ _ _ _ O) as (_ & _ & _ & _ & Op & _).
    assert (NL : w_ofds wx <> w_ofds w /\ w_ofds wx <> mk_ofd (w_next w) (e_proc e) d false :: w_ofds w).
    { assert (Q : w_ofds wx = mk_ofd (w_next w) (e_proc e) d true :: w_ofds w).
      2:{ rewrite Q. split; intro E; [|discriminate E].
          apply (f_equal (@List.length ofd)) in E. cbn in E. lia. }
      clear - O Ff. unfold open_start in O.
      set (b := match get d (w_dirs w) with Some _ => true | None => false end) in *.
      assert (H0 : hits (Some f) F_mkdir = false /\ hits (Some f) F_stat = false /\ hits (Some f) F_open = false /\ hits (Some f) F_flock = false)
        by (destruct Ff as [Ff|[Ff|[Ff|Ff]]]; subst f; auto).
      destruct H0 as (H1 & H2 & H3 & H4). rewrite H1, H2, H3, H4, andb_false_r in O.
      set (w0 := if b then w else _) in *.
      assert (E : w_next w0 = w_next w /\ w_ofds w0 = w_ofds w) by (unfold w0; destruct b; auto). destruct E as [E1 E2].
      clearbody w0 b.
      destruct (locked w0 d); [discriminate O|].
      destruct (hits (Some f) F_conf). { injection O as <- _. cbn. now rewrite E1, E2. }
      destruct (match get d _ with Some _ => _ | None => _ end) as [w3 e3] eqn:Q.
      assert (E3 : w_ofds w3 = mk_ofd (w_next w) (e_proc e) d true :: w_ofds w /\ e_dir e3 = Some d).
      { cbn in Q. destruct (get d (w_dirs w0)) as [[[c|] fl]|]; injection Q as <- <-; cbn; rewrite E1, E2; auto. }
      destruct E3 as [E3 De].
      destruct (hits (Some f) F_recover). { injection O as <- _. exact E3. }
      destruct (hits (Some f) F_wal). { injection O as <- _. exact E3. }
      destruct (start_wal w3 (set_catalog e3) d) as [[w5 e5] r5] eqn:S.
      destruct (start_wal_shape _ _ _ _ _ _ S De) as ((X & _ & _) & _).
      destruct r5; [destruct (hits (Some f) F_late)| |]; injection O as <- _; congruence. }
    destruct NL as [N1 N2]. destruct Op as [B|B|B1 B2 B3 B4 B5 B6]; [congruence|congruence|].
    split; [|exact B6]. unfold locked. rewrite B1. cbn. now rewrite N.eqb_refl. }
  destruct Op as [L D].
  cbn in S2. apply by_handle_ok in S2 as (e2 & wy & ey & G2 & O2 & ->). injection O2 as O2.
  assert (Z := refused_open (with_env wx h e1) e2 d v None wy ey r L D O2). apply Z. reflexivity.
Qed.

(* a careful call through a handle in use has its memory and its objects *)
Lemma safe : forall dirs l w t c, run (start dirs) l = Ok (w, t) -> careful t -> careful_call (history t) c ->
  match c with
  | Init _ h => history t h = None
  | Free h => history t h <> None
  | _ => True
  end -> exists w' r, step w c = Ok (w', r).
Proof.
  intros dirs l w t c R C Cc Hc.
  destruct (careful_run _ _ _ _ _ (inv_start dirs) (cinv_start dirs) R C) as (K & _ & _).
  pose proof (run_inv _ _ _ _ R) as I. pose proof (i_env _ _ I) as IE.
  assert (U : forall h p j, history t h = Some (p, j) -> exists e, get h (w_envs w) = Some e).
  { intros h p j Hh. pose proof (IE h) as X. rewrite Hh in X. destruct X as (e & G & _). eauto. }
  assert (BH : forall h k e w1 e1 r, get h (w_envs w) = Some e -> k e = Ok (w1, e1, r) ->
     exists w' r, by_handle w h k = Ok (w', r)).
  { intros h k e w1 e1 r G E. unfold by_handle. rewrite G, E. eauto. }
  destruct c; cbn in Cc; cbn [step].
  - pose proof (IE h) as X. rewrite Hc in X. rewrite X. eauto.
  - destruct Cc as (p & Mh). destruct (U _ _ _ Mh) as (e & G). destruct (open_start w e d u f) as [[w1 e1] r] eqn:E.
    eapply BH; [exact G|]. now rewrite E.
  - destruct Cc as (p & d & Mh). destruct (U _ _ _ Mh) as (e & G). destruct (create_cloud w e n) as [[w1 e1] r] eqn:E.
    eapply BH; [exact G|]. now rewrite E.
  - destruct Cc as (p & d & Mh). destruct (U _ _ _ Mh) as (e & G). destruct (create_storage w e n) as [[w1 e1] r] eqn:E.
    eapply BH; [exact G|]. now rewrite E.
  - destruct Cc as (p & d & Mh). destruct (k_env _ _ K h _ _ Mh) as [[X _]|(d0 & r & X & Y)]; [discriminate|].
    injection X as <- <-. destruct (Y eq_refl) as (e & G & S).
    destruct S as ((i & n & Cur) & _ & _ & f & c0 & _ & _ & _ & M0).
    unfold by_handle, write. rewrite G, Cur. destruct (e_storages e); [contradiction|]. eauto.
  - destruct Cc as (p & d & Mh). destruct (U _ _ _ Mh) as (e & G). destruct (rotate w e) as [[w1 e1] r] eqn:E.
    eapply BH; [exact G|]. now rewrite E.
  - destruct Cc as (p & d & Mh). destruct (U _ _ _ Mh) as (e & G). destruct (gc w e min) as [[w1 e1] r] eqn:E.
    eapply BH; [exact G|]. now rewrite E.
  - destruct (history t h) as [[p j]|] eqn:Mh; [|congruence]. destruct (U _ _ _ Mh) as (e & G). rewrite G. eauto.
  - eauto.
Qed.
