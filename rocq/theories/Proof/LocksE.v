(* Exclusion and progress. *)
From Coq Require Import NArith ZArith Arith List Bool Lia.
Import ListNotations.
From Verif Require Import Model.Locks Spec.Locks Proof.LocksL.
Local Arguments Nat.eqb : simpl never.

Definition after (a : act) (h : list nat) (n : nat) (e : bool) : list nat * nat * bool :=
  match a with
  | Lock l => (l :: h, n, e) | Unlock l => (remove_one l h, n, e)
  | Share => (h, S n, e) | Unshare => (h, pred n, e) | Exclude => (h, n, true) | Unexclude => (h, n, false)
  end.
Definition same (x y : thread) : Prop := th_code y = th_code x /\ th_held y = th_held x /\ th_shares y = th_shares x /\ th_excl y = th_excl x.
Definition advanced (x y : thread) : Prop :=
  exists a, th_code x = a :: th_code y /\ (th_held y, th_shares y, th_excl y) = after a (th_held x) (th_shares x) (th_excl x).
Lemma same_refl x : same x x.
Proof. repeat split. Qed.
Lemma same_wake x : same x (wake x).
Proof. destruct (wake_same x) as (A & B & C & D & _). repeat split; assumption. Qed.
Lemma same_trans x y z : same x y -> same y z -> same x z.
Proof. intros (A & B & C & D) (A' & B' & C' & D'). repeat split; congruence. Qed.
Lemma set_others l t x y u z : nth_error l t = Some x -> u <> t -> nth_error (set_nth l t y) u = Some z -> exists w, nth_error l u = Some w /\ same w z.
Proof. intros H N Hz. rewrite nth_set in Hz. destruct (Nat.eqb_spec u t); [congruence|]. exists z. split; [exact Hz|apply same_refl]. Qed.
Lemma set_at l t (x y : thread) : nth_error l t = Some x -> nth_error (set_nth l t y) t = Some y.
Proof. intro H. rewrite nth_set, Nat.eqb_refl, H. reflexivity. Qed.
Lemma step_thread s t s' : step s t = Some s' -> exists x y, nth_error (s_threads s) t = Some x /\ nth_error (s_threads s') t = Some y /\ (same x y \/ advanced x y) /\
  forall u z, u <> t -> nth_error (s_threads s') u = Some z -> exists w, nth_error (s_threads s) u = Some w /\ same w z.
Proof.
  unfold step. destruct (nth_error (s_threads s) t) as [x|] eqn:Hx; [|discriminate]. intro H. exists x.
  destruct (th_code x) as [|a r] eqn:Cx; [destruct (th_mode x); discriminate|].
  assert (D : forall y, nth_error (set_nth (s_threads s) t y) t = Some y) by (intro y; apply (set_at _ t x y Hx)).
  assert (O : forall y u z, u <> t -> nth_error (set_nth (s_threads s) t y) u = Some z -> exists w, nth_error (s_threads s) u = Some w /\ same w z) by (intros y u z N Hz; apply (set_others _ t x y u z Hx N Hz)).
  assert (G : forall (k : lock * bool) l, Some (mk_sys (set_lock (s_locks s) l (fst k)) (set_nth (s_threads s) t (if snd k then mk_thread r Run (l :: th_held x) (th_shares x) (th_excl x) else mk_thread (Lock l :: r) Sleep (th_held x) (th_shares x) (th_excl x)))) = Some s' -> a = Lock l ->
     exists y, Some x = Some x /\ nth_error (s_threads s') t = Some y /\ (same x y \/ advanced x y) /\ forall u z, u <> t -> nth_error (s_threads s') u = Some z -> exists w, nth_error (s_threads s) u = Some w /\ same w z).
  { intros [k [|]] l E Ea; injection E as <-; cbn [s_threads snd]; eexists; (split; [reflexivity|]); (split; [apply D|]); (split; [|apply O]).
    - right. exists a. split; [exact Cx|]. subst a. reflexivity.
    - left. subst a. repeat split. symmetry. exact Cx. }
  destruct (th_mode x); try discriminate.
  - destruct a as [l|l| | | |].
    + apply (G (lockage_lock (s_locks s l) t) l); [|reflexivity]. destruct (lockage_lock (s_locks s l) t). exact H.
    + destruct (lockage_unlock (s_locks s l)) as [k' bc]. injection H as <-. set (y := mk_thread r Run _ _ _). exists (if bc then wake y else y). cbn [s_threads]. split; [reflexivity|]. split; [destruct bc; [rewrite nth_wake, D|rewrite D]; reflexivity|]. split.
      * right. exists (Unlock l). split; [destruct bc; exact Cx|destruct bc; reflexivity].
      * intros u z N Hz. destruct bc; [|apply (O y u z N Hz)]. rewrite nth_wake in Hz. destruct (nth_error (set_nth (s_threads s) t y) u) as [w|] eqn:Hw; [|discriminate]. injection Hz as <-. destruct (O y u w N Hw) as (v & Hv & Sv). exists v. split; [exact Hv|]. eapply same_trans; [exact Sv|apply same_wake].
    + destruct (no_writer (s_threads s)); [|discriminate]. injection H as <-. eexists. split; [reflexivity|]. split; [apply D|]. split; [right; exists Share; split; [exact Cx|reflexivity]|apply O].
    + injection H as <-. eexists. split; [reflexivity|]. split; [apply D|]. split; [right; exists Unshare; split; [exact Cx|reflexivity]|apply O].
    + destruct (no_writer (s_threads s) && no_reader (s_threads s)); [|discriminate]. injection H as <-. eexists. split; [reflexivity|]. split; [apply D|]. split; [right; exists Exclude; split; [exact Cx|reflexivity]|apply O].
    + injection H as <-. eexists. split; [reflexivity|]. split; [apply D|]. split; [right; exists Unexclude; split; [exact Cx|reflexivity]|apply O].
  - destruct a as [l|l| | | |].
    + apply (G (lockage_again (s_locks s l) t) l); [|reflexivity]. destruct (lockage_again (s_locks s l) t). exact H.
    + destruct (lockage_unlock (s_locks s l)) as [k' bc]. injection H as <-. set (y := mk_thread r Run _ _ _). exists (if bc then wake y else y). cbn [s_threads]. split; [reflexivity|]. split; [destruct bc; [rewrite nth_wake, D|rewrite D]; reflexivity|]. split.
      * right. exists (Unlock l). split; [destruct bc; exact Cx|destruct bc; reflexivity].
      * intros u z N Hz. destruct bc; [|apply (O y u z N Hz)]. rewrite nth_wake in Hz. destruct (nth_error (set_nth (s_threads s) t y) u) as [w|] eqn:Hw; [|discriminate]. injection Hz as <-. destruct (O y u w N Hw) as (v & Hv & Sv). exists v. split; [exact Hv|]. eapply same_trans; [exact Sv|apply same_wake].
    + destruct (no_writer (s_threads s)); [|discriminate]. injection H as <-. eexists. split; [reflexivity|]. split; [apply D|]. split; [right; exists Share; split; [exact Cx|reflexivity]|apply O].
    + injection H as <-. eexists. split; [reflexivity|]. split; [apply D|]. split; [right; exists Unshare; split; [exact Cx|reflexivity]|apply O].
    + destruct (no_writer (s_threads s) && no_reader (s_threads s)); [|discriminate]. injection H as <-. eexists. split; [reflexivity|]. split; [apply D|]. split; [right; exists Exclude; split; [exact Cx|reflexivity]|apply O].
    + injection H as <-. eexists. split; [reflexivity|]. split; [apply D|]. split; [right; exists Unexclude; split; [exact Cx|reflexivity]|apply O].
Qed.
(* what holds of every thread *)
Lemma threads_move (P : thread -> Prop) s m s' : (forall x y, P x -> same x y \/ advanced x y -> P y) ->
  (forall t x, nth_error (s_threads s) t = Some x -> P x) -> moved s m = Some s' -> forall t x, nth_error (s_threads s') t = Some x -> P x.
Proof.
  intros C H M u z Hz. destruct m as [t|t]; cbn [moved] in M.
  - destruct (step_thread s t s' M) as (x & y & Hx & Hy & S & O). destruct (Nat.eq_dec u t) as [->|N].
    + rewrite Hy in Hz. injection Hz as <-. apply (C x y (H t x Hx) S).
    + destruct (O u z N Hz) as (w & Hw & Sw). apply (C w z (H u w Hw)). left. exact Sw.
  - destruct (nth_error (s_threads s) t) as [x|] eqn:Hx; [|discriminate]. injection M as <-. cbn [s_threads] in Hz. rewrite nth_set, Hx in Hz. destruct (Nat.eqb_spec u t) as [->|N]; [injection Hz as <-|apply (H u z Hz)].
    apply (C x _ (H t x Hx)). left. apply same_wake.
Qed.
Lemma in_remove l h m : NoDup h -> In m (remove_one l h) <-> In m h /\ m <> l.
Proof.
  induction h as [|a h IH]; intro N; [cbn; tauto|]. inversion N as [|b c N1 N2]; subst. cbn [remove_one]. fold (remove_one l h). destruct (Nat.eqb_spec a l) as [->|NE].
  - split; [intro I; split; [right; exact I|intros ->; contradiction]|intros [[E|I] X]; [congruence|exact I]].
  - cbn [In]. rewrite (IH N2). split; [intros [->|[I X]]; tauto|]. intros [[->|I] X]; tauto.
Qed.
Lemma nodup_remove l h : NoDup h -> NoDup (remove_one l h).
Proof.
  induction h as [|a h IH]; intro N; [constructor|]. inversion N as [|b c N1 N2]; subst. cbn [remove_one]. fold (remove_one l h). destruct (a =? l); [exact N2|]. constructor; [|apply IH, N2]. rewrite in_remove by exact N2. tauto.
Qed.
Definition calm_thread (x : thread) : Prop := unnested (th_held x) (th_code x) /\ NoDup (th_held x).
Lemma calm_next x y : calm_thread x -> same x y \/ advanced x y -> calm_thread y.
Proof.
  intros [U N] [(A & B & _)|(a & C & D)]; unfold calm_thread; [rewrite A, B; split; assumption|]. rewrite C in U. destruct a as [l|l| | | |]; cbn [unnested after] in *; injection D as D1 D2 D3; rewrite D1.
  - destruct U as [U1 U2]. split; [exact U2|constructor; assumption].
  - destruct U as [U1 U2]. split; [exact U2|apply nodup_remove, N].
  - split; assumption.
  - split; assumption.
  - split; assumption.
  - split; assumption.
Qed.
Definition inv_own (s : sys) : Prop :=
  (forall t x, nth_error (s_threads s) t = Some x -> calm_thread x) /\ (forall l, lk_refs (s_locks s l) = 0%Z) /\
  (forall l t, lk_owner (s_locks s l) = Some t <-> holds s t l).
Lemma holds_set s t x y f u m : nth_error (s_threads s) t = Some x -> holds (mk_sys f (set_nth (s_threads s) t y)) u m <-> (u = t /\ In m (th_held y)) \/ (u <> t /\ holds s u m).
Proof.
  intro Hx. unfold holds. cbn [s_threads]. rewrite nth_set, Hx. destruct (Nat.eqb_spec u t) as [->|N].
  - split; [intros (z & E & I); injection E as <-; left; tauto|]. intros [[_ I]|[X _]]; [exists y; tauto|congruence].
  - split; [intro E; right; tauto|]. intros [[X _]|[_ E]]; [congruence|exact E].
Qed.
Lemma holds_wake f l u m : holds (mk_sys f (map wake l)) u m <-> holds (mk_sys f l) u m.
Proof.
  unfold holds. cbn [s_threads]. rewrite nth_wake. destruct (nth_error l u) as [x|]; cbn [option_map]; [|split; intros (z & E & _); discriminate].
  destruct (wake_same x) as (_ & E & _). split; intros (z & Z & I); injection Z as <-; eexists; (split; [reflexivity|]); congruence.
Qed.
(* the locks, for the thread which acts *)
Lemma own_taken s t x y l k' : inv_own s -> nth_error (s_threads s) t = Some x -> lk_owner (s_locks s l) = None -> lk_owner k' = Some t -> lk_refs k' = 0%Z -> th_held y = l :: th_held x ->
  (forall l0, lk_refs (set_lock (s_locks s) l k' l0) = 0%Z) /\ (forall l0 u, lk_owner (set_lock (s_locks s) l k' l0) = Some u <-> holds (mk_sys (set_lock (s_locks s) l k') (set_nth (s_threads s) t y)) u l0).
Proof.
  intros (A & B & C) Hx F O R E. split; [intro l0; rewrite set_lock_at; destruct (l0 =? l); auto|]. intros l0 u. rewrite (holds_set s t x y _ u l0 Hx), E, set_lock_at. cbn [In]. destruct (Nat.eqb_spec l0 l) as [->|N].
  - rewrite O. split; [intro X; injection X as <-; left; tauto|]. intros [[-> _]|[_ H]]; [reflexivity|]. apply C in H. congruence.
  - rewrite C. split; [intro H; destruct (Nat.eq_dec u t) as [->|]; [left|right; tauto]; split; [reflexivity|]; right; destruct H as (z & Hz & I); congruence|].
    intros [[-> [X|I]]|[_ H]]; [congruence| |exact H]. exists x. tauto.
Qed.
Lemma own_same s t x y l k' : inv_own s -> nth_error (s_threads s) t = Some x -> lk_owner k' = lk_owner (s_locks s l) -> lk_refs k' = 0%Z -> th_held y = th_held x ->
  (forall l0, lk_refs (set_lock (s_locks s) l k' l0) = 0%Z) /\ (forall l0 u, lk_owner (set_lock (s_locks s) l k' l0) = Some u <-> holds (mk_sys (set_lock (s_locks s) l k') (set_nth (s_threads s) t y)) u l0).
Proof.
  intros (A & B & C) Hx O R E. split; [intro l0; rewrite set_lock_at; destruct (l0 =? l); auto|]. intros l0 u. rewrite (holds_set s t x y _ u l0 Hx), E, set_lock_at.
  assert (Z : lk_owner (if l0 =? l then k' else s_locks s l0) = lk_owner (s_locks s l0)) by (destruct (Nat.eqb_spec l0 l) as [->|]; auto). rewrite Z, C.
  split; [intro H; destruct (Nat.eq_dec u t) as [->|]; [left|right; tauto]; split; [reflexivity|]; destruct H as (z & Hz & I); congruence|]. intros [[-> I]|[_ H]]; [exists x; tauto|exact H].
Qed.
Lemma own_plain s t x y : inv_own s -> nth_error (s_threads s) t = Some x -> th_held y = th_held x ->
  (forall l0 u, lk_owner (s_locks s l0) = Some u <-> holds (mk_sys (s_locks s) (set_nth (s_threads s) t y)) u l0).
Proof.
  intros (A & B & C) Hx E l0 u. rewrite (holds_set s t x y _ u l0 Hx), E, C. split; [intro H; destruct (Nat.eq_dec u t) as [->|]; [left|right; tauto]; split; [reflexivity|]; destruct H as (z & Hz & I); congruence|]. intros [[-> I]|[_ H]]; [exists x; tauto|exact H].
Qed.
Lemma own_move s m s' : inv_wait s -> inv_own s -> moved s m = Some s' -> inv_own s'.
Proof.
  intros IW I M. split; [apply (threads_move calm_thread s m s' calm_next); [apply I|exact M]|]. pose proof I as (A & B & C). destruct m as [t|t]; cbn [moved] in M.
  2:{ destruct (nth_error (s_threads s) t) as [x|] eqn:Hx; [|discriminate]. injection M as <-. cbn [s_locks]. split; [exact B|]. apply (own_plain s t x); [exact I|exact Hx|apply wake_same]. }
  unfold step in M. destruct (nth_error (s_threads s) t) as [x|] eqn:Hx; [|discriminate]. destruct (A t x Hx) as [U N]. pose proof (proj1 IW t x Hx) as Wx.
  destruct (th_code x) as [|a r] eqn:Cx; [destruct (th_mode x); discriminate|]. destruct (th_mode x) eqn:Mx; try discriminate.
  - destruct a as [l|l| | | |]; cbn [unnested] in U.
    + assert (NO : owned_by (s_locks s l) t = false).
      { unfold owned_by. destruct (lk_owner (s_locks s l)) as [u|] eqn:Ow; [|reflexivity]. destruct (Nat.eqb_spec u t) as [->|]; [|reflexivity]. apply C in Ow. destruct Ow as (z & Hz & Iz). rewrite Hx in Hz. injection Hz as <-. tauto. }
      unfold lockage_lock in M. rewrite NO in M. unfold lockage_turn in M. destruct (lk_owner (s_locks s l)) as [u|] eqn:Ow; injection M as <-; cbn [s_locks].
      * apply (own_same s t x); try assumption; [symmetry; exact Ow|apply B|reflexivity].
      * apply (own_taken s t x); try assumption; reflexivity.
    + unfold lockage_unlock in M. rewrite B in M. change (0 <? 0 - 1)%Z with false in M. cbv iota in M. set (y := mk_thread r Run _ _ _) in M. set (k' := mk_lock None 0 _) in M. injection M as <-. cbn [s_locks]. split; [intro l0; rewrite set_lock_at; destruct (l0 =? l); [reflexivity|apply B]|].
      intros l0 u. set (ts := set_nth (s_threads s) t y). assert (Z : holds (mk_sys (set_lock (s_locks s) l k') (if (0 <? lk_pending (s_locks s l))%Z then map wake ts else ts)) u l0 <-> holds (mk_sys (set_lock (s_locks s) l k') ts) u l0) by (destruct (0 <? lk_pending (s_locks s l))%Z; [apply holds_wake|reflexivity]).
      rewrite Z. unfold ts. rewrite (holds_set s t x y _ u l0 Hx). cbn [th_held y]. rewrite (in_remove l (th_held x) l0 N), set_lock_at. destruct U as [U1 _]. assert (Ot : lk_owner (s_locks s l) = Some t) by (apply C; exists x; tauto).
      destruct (Nat.eqb_spec l0 l) as [->|NE].
      * cbn [lk_owner k']. split; [discriminate|]. intros [[_ [_ X]]|[X H]]; [congruence|]. apply C in H. congruence.
      * rewrite C. split; [intro H; destruct (Nat.eq_dec u t) as [->|]; [left; destruct H as (z & Hz & Iz); rewrite Hx in Hz; injection Hz as <-; tauto|right; tauto]|]. intros [[-> [H _]]|[_ H]]; [exists x; tauto|exact H].
    + destruct (no_writer (s_threads s)); [|discriminate]. injection M as <-. split; [exact B|]. apply (own_plain s t x); [exact I|exact Hx|reflexivity].
    + injection M as <-. split; [exact B|]. apply (own_plain s t x); [exact I|exact Hx|reflexivity].
    + destruct (no_writer (s_threads s) && no_reader (s_threads s)); [|discriminate]. injection M as <-. split; [exact B|]. apply (own_plain s t x); [exact I|exact Hx|reflexivity].
    + injection M as <-. split; [exact B|]. apply (own_plain s t x); [exact I|exact Hx|reflexivity].
  - destruct (Wx ltac:(discriminate)) as (l & r0 & E0). injection E0 as -> <-. unfold lockage_again, lockage_turn in M. cbn [lk_owner lk_refs lk_pending] in M. destruct (lk_owner (s_locks s l)) as [u|] eqn:Ow; injection M as <-; cbn [s_locks].
    + apply (own_same s t x); try assumption; [symmetry; exact Ow|apply B|reflexivity].
    + apply (own_taken s t x); try assumption; reflexivity.
Qed.
Definition inv (s : sys) : Prop := inv_wait s /\ inv_own s.
Lemma inv_move s m s' : inv s -> moved s m = Some s' -> inv s'.
Proof. intros [A B] M. split; [apply (wait_move s m s' A M)|apply (own_move s m s' A B M)]. Qed.
Lemma start_thread progs t x : nth_error (s_threads (start progs)) t = Some x -> exists c, In c progs /\ x = mk_thread c Run [] 0 false.
Proof. intro H. apply nth_error_In in H. cbn [start s_threads] in H. apply in_map_iff in H. destruct H as (c & <- & I). exists c. tauto. Qed.
Lemma inv_start progs : Forall (unnested []) progs -> inv (start progs).
Proof.
  intro F. split; [apply wait_start|]. rewrite Forall_forall in F. split; [|split].
  - intros t x H. destruct (start_thread progs t x H) as (c & I & ->). split; [apply F, I|constructor].
  - reflexivity.
  - intros l t. cbn [start s_locks lockage_init lk_owner]. split; [discriminate|]. intros (x & H & I). destruct (start_thread progs t x H) as (c & _ & ->). destruct I.
Qed.
Theorem exclusion progs s t u l : Forall (unnested []) progs -> reached progs s -> holds s t l -> holds s u l -> t = u.
Proof.
  intros F (h & H) A B. destruct (moves_inv inv inv_move h _ s (inv_start progs F) H) as [_ (_ & _ & C)]. apply C in A. apply C in B. congruence.
Qed.

(* progress *)
Lemma orderly_unnested : forall c h n e, NoDup h -> orderly h n e c -> unnested h c.
Proof.
  induction c as [|a c IH]; intros h n e N O; [exact Logic.I|]. destruct a as [l|l| | | |]; cbn [orderly unnested] in *.
  - destruct O as (_ & F & O). assert (NI : ~ In l h) by (intro I; rewrite Forall_forall in F; specialize (F l I); lia). split; [exact NI|]. eapply IH; [constructor; eassumption|exact O].
  - destruct O as (I & O). split; [exact I|]. eapply IH; [apply nodup_remove, N|exact O].
  - destruct O as (_ & O). eapply IH; eassumption.
  - destruct O as (_ & O). eapply IH; eassumption.
  - destruct O as (_ & _ & _ & O). eapply IH; eassumption.
  - destruct O as (_ & O). eapply IH; eassumption.
Qed.
Definition orderly_thread (x : thread) : Prop := orderly (th_held x) (th_shares x) (th_excl x) (th_code x).
Lemma orderly_next x y : orderly_thread x -> same x y \/ advanced x y -> orderly_thread y.
Proof.
  unfold orderly_thread. intros O [(A & B & C & D)|(a & C & D)]; [rewrite A, B, C, D; exact O|]. rewrite C in O. destruct a as [l|l| | | |]; cbn [orderly after] in *; injection D as D1 D2 D3; rewrite D1, D2, D3; try tauto.
Qed.
Definition all_orderly (s : sys) : Prop := forall t x, nth_error (s_threads s) t = Some x -> orderly_thread x.
(* the thread gets on *)
Definition gets_on (s : sys) (t : nat) : Prop := exists s' x y, step s t = Some s' /\ nth_error (s_threads s) t = Some x /\ nth_error (s_threads s') t = Some y /\ advanced x y.
Lemma gets_on_if s t s' x : step s t = Some s' -> nth_error (s_threads s) t = Some x -> (forall y, nth_error (s_threads s') t = Some y -> ~ same x y) -> gets_on s t.
Proof.
  intros H Hx N. destruct (step_thread s t s' H) as (x' & y & Hx' & Hy & S & _). rewrite Hx in Hx'. injection Hx' as <-. exists s', x, y. split; [exact H|]. split; [exact Hx|]. split; [exact Hy|]. destruct S as [S|S]; [destruct (N y Hy S)|exact S].
Qed.
Lemma shorter {A} (a : A) l : a :: l <> l.
Proof. intro E. apply (f_equal (@length A)) in E. cbn in E. lia. Qed.
Lemma free_goes s t x l r : inv_wait s -> nth_error (s_threads s) t = Some x -> th_code x = Lock l :: r -> lk_owner (s_locks s l) = None -> gets_on s t.
Proof.
  intros (A & B & C) Hx Cx F. assert (M : th_mode x <> Sleep) by (intro M; apply (C t l); [exists x, r; repeat split; assumption|exact F]).
  assert (E : exists k', step s t = Some (mk_sys (set_lock (s_locks s) l k') (set_nth (s_threads s) t (mk_thread r Run (l :: th_held x) (th_shares x) (th_excl x))))).
  { unfold step. rewrite Hx, Cx. destruct (th_mode x); [|congruence|].
    - unfold lockage_lock, owned_by, lockage_turn. rewrite F. eexists. reflexivity.
    - unfold lockage_again, lockage_turn. cbn [lk_owner]. rewrite F. eexists. reflexivity. }
  destruct E as (k' & E). apply (gets_on_if s t _ x E Hx). intros y Hy (S & _). cbn [s_threads] in Hy. rewrite (set_at _ t x _ Hx) in Hy. injection Hy as <-. cbn [th_code] in S. rewrite Cx in S. symmetry in S. exact (shorter _ _ S).
Qed.
Lemma other_goes s t x a r : inv_wait s -> nth_error (s_threads s) t = Some x -> th_code x = a :: r -> (forall l, a <> Lock l) ->
  (a = Share -> no_writer (s_threads s) = true) -> (a = Exclude -> no_writer (s_threads s) = true /\ no_reader (s_threads s) = true) -> gets_on s t.
Proof.
  intros (A & B & C) Hx Cx N1 N2 N3. assert (M : th_mode x = Run).
  { destruct (mode_cases x) as [M|M]; [|exact M]. exfalso. destruct (A t x Hx M) as (l & r' & E). apply (N1 l). congruence. }
  assert (E : exists s' y, step s t = Some s' /\ nth_error (s_threads s') t = Some y /\ th_code y = r).
  { unfold step. rewrite Hx, Cx, M. destruct a as [l|l| | | |].
    - destruct (N1 l eq_refl).
    - destruct (lockage_unlock (s_locks s l)) as [k' bc]. eexists _, _. split; [reflexivity|]. cbn [s_threads]. split; [destruct bc; [rewrite nth_wake, (set_at _ t x _ Hx); reflexivity|apply (set_at _ t x _ Hx)]|]. destruct bc; reflexivity.
    - rewrite (N2 eq_refl). eexists _, _. split; [reflexivity|]. split; [apply (set_at _ t x _ Hx)|reflexivity].
    - eexists _, _. split; [reflexivity|]. split; [apply (set_at _ t x _ Hx)|reflexivity].
    - destruct (N3 eq_refl) as [-> ->]. cbn [andb]. eexists _, _. split; [reflexivity|]. split; [apply (set_at _ t x _ Hx)|reflexivity].
    - eexists _, _. split; [reflexivity|]. split; [apply (set_at _ t x _ Hx)|reflexivity]. }
  destruct E as (s' & y & E & Hy & Cy). apply (gets_on_if s t s' x E Hx). intros z Hz (S & _). rewrite Hy in Hz. injection Hz as <-. rewrite Cx, Cy in S. symmetry in S. exact (shorter _ _ S).
Qed.
(* the greatest lock someone waits for *)
Definition wanted (s : sys) (x : thread) : list nat :=
  match th_code x with Lock l :: _ => match lk_owner (s_locks s l) with Some _ => [l] | None => [] end | _ => [] end.
Lemma greatest : forall l : list nat, l <> [] -> exists m, In m l /\ forall n, In n l -> n <= m.
Proof.
  induction l as [|a l IH]; intro H; [congruence|]. destruct l as [|b l].
  - exists a. split; [left; reflexivity|]. intros n [->|[]]. lia.
  - destruct IH as (m & I & G); [discriminate|]. destruct (le_lt_dec m a).
    + exists a. split; [left; reflexivity|]. intros n [->|X]; [lia|]. specialize (G n X). lia.
    + exists m. split; [right; exact I|]. intros n [->|X]; [lia|apply G, X].
Qed.
Lemma progress s : inv s -> all_orderly s -> ~ finished s -> exists t, gets_on s t.
Proof.
  intros [IW (A & B & C)] O NF.
  assert (Ex : exists t x, nth_error (s_threads s) t = Some x /\ th_code x <> []).
  { unfold finished in NF. clear - NF. induction (s_threads s) as [|x l IH]; [destruct NF; constructor|]. destruct (th_code x) eqn:E.
    - destruct IH as (t & y & H); [intro F; apply NF; constructor; assumption|]. exists (S t), y. exact H.
    - exists 0, x. split; [reflexivity|congruence]. }
  (* somebody has the control lock exclusively *)
  destruct (no_writer (s_threads s)) eqn:NW.
  2:{ assert (X : exists t x, nth_error (s_threads s) t = Some x /\ th_excl x = true).
      { clear - NW. induction (s_threads s) as [|x l IH]; [discriminate|]. cbn [no_writer forallb] in NW. destruct (th_excl x) eqn:E; [exists 0, x; split; [reflexivity|exact E]|]. destruct (IH NW) as (t & y & H). exists (S t), y. exact H. }
      destruct X as (t & x & Hx & Ex'). exists t. specialize (O t x Hx). unfold orderly_thread in O. rewrite Ex' in O. destruct (th_code x) as [|a r] eqn:Cx; [destruct O as (_ & _ & X); discriminate|].
      destruct a as [l|l| | | |]; cbn [orderly] in O; try (destruct O as (X & _); discriminate); try (apply (other_goes s t x _ r IW Hx Cx); discriminate). destruct O as (_ & _ & X & _). discriminate. }
  assert (NX : forall t x, nth_error (s_threads s) t = Some x -> th_excl x = false).
  { intros t x Hx. unfold no_writer in NW. rewrite forallb_forall in NW. specialize (NW x (nth_error_In _ _ Hx)). destruct (th_excl x); [discriminate|reflexivity]. }
  (* a thread with something in its hands and no lock to wait for *)
  assert (G : forall t x, nth_error (s_threads s) t = Some x -> (th_held x <> [] \/ 0 < th_shares x) -> wanted s x = [] -> gets_on s t).
  { intros t x Hx Hh W. pose proof (O t x Hx) as Ox. unfold orderly_thread in Ox. destruct (th_code x) as [|a r] eqn:Cx; [destruct Ox as (X & Y & _); destruct Hh as [Hh|Hh]; [congruence|lia]|].
    destruct a as [l|l| | | |].
    - unfold wanted in W. rewrite Cx in W. apply (free_goes s t x l r IW Hx Cx). destruct (lk_owner (s_locks s l)); [discriminate|reflexivity].
    - apply (other_goes s t x _ r IW Hx Cx); discriminate.
    - apply (other_goes s t x _ r IW Hx Cx); [discriminate|intros _; exact NW|discriminate].
    - apply (other_goes s t x _ r IW Hx Cx); discriminate.
    - exfalso. cbn [orderly] in Ox. destruct Ox as (X & Y & _). destruct Hh as [Hh|Hh]; [congruence|lia].
    - apply (other_goes s t x _ r IW Hx Cx); discriminate. }
  destruct (flat_map (wanted s) (s_threads s)) as [|m0 ms] eqn:FW.
  - (* nobody waits for a lock *)
    assert (W : forall t x, nth_error (s_threads s) t = Some x -> wanted s x = []).
    { intros t x Hx. destruct (wanted s x) as [|n ns] eqn:E; [reflexivity|]. exfalso. assert (X : In n (flat_map (wanted s) (s_threads s))) by (apply in_flat_map; exists x; split; [eapply nth_error_In, Hx|rewrite E; left; reflexivity]). rewrite FW in X. destruct X. }
    destruct Ex as (t & x & Hx & NC). destruct (th_code x) as [|a r] eqn:Cx; [congruence|]. destruct a as [l|l| | | |].
    + exists t. pose proof (W t x Hx) as E. unfold wanted in E. rewrite Cx in E. apply (free_goes s t x l r IW Hx Cx). destruct (lk_owner (s_locks s l)); [discriminate|reflexivity].
    + exists t. apply (other_goes s t x _ r IW Hx Cx); discriminate.
    + exists t. apply (other_goes s t x _ r IW Hx Cx); [discriminate|intros _; exact NW|discriminate].
    + exists t. apply (other_goes s t x _ r IW Hx Cx); discriminate.
    + destruct (no_reader (s_threads s)) eqn:NR; [exists t; apply (other_goes s t x _ r IW Hx Cx); [discriminate|discriminate|intros _; split; assumption]|].
      assert (X : exists u y, nth_error (s_threads s) u = Some y /\ 0 < th_shares y).
      { clear - NR. induction (s_threads s) as [|x l IH]; [discriminate|]. cbn [no_reader forallb] in NR. destruct (Nat.eqb_spec (th_shares x) 0) as [E|E]; [destruct (IH NR) as (u & y & H); exists (S u), y; exact H|]. exists 0, x. split; [reflexivity|lia]. }
      destruct X as (u & y & Hy & P). exists u. apply (G u y Hy (or_intror P) (W u y Hy)).
    + exists t. apply (other_goes s t x _ r IW Hx Cx); discriminate.
  - (* the holder of the greatest lock waited for *)
    destruct (greatest (flat_map (wanted s) (s_threads s))) as (m & Im & Gm); [rewrite FW; discriminate|].
    apply in_flat_map in Im. destruct Im as (x & Ix & Iw). unfold wanted in Iw. destruct (th_code x) as [|[l|l| | | |] r]; try (destruct Iw; fail). destruct (lk_owner (s_locks s l)) as [u|] eqn:Ow; [|destruct Iw]. destruct Iw as [->|[]].
    apply C in Ow. destruct Ow as (y & Hy & Iy). exists u. apply (G u y Hy); [left; intro E; rewrite E in Iy; destruct Iy|].
    destruct (wanted s y) as [|n ns] eqn:E; [reflexivity|]. exfalso. assert (In n (flat_map (wanted s) (s_threads s))) as X by (apply in_flat_map; exists y; split; [eapply nth_error_In, Hy|rewrite E; left; reflexivity]). specialize (Gm n X).
    specialize (O u y Hy). unfold orderly_thread in O. unfold wanted in E. destruct (th_code y) as [|[k|k| | | |] r']; try discriminate. destruct (lk_owner (s_locks s k)); [|discriminate]. injection E as -> _. cbn [orderly] in O. destruct O as (_ & F & _). rewrite Forall_forall in F. specialize (F m Iy). lia.
Qed.
Definition work (s : sys) : nat := list_sum (map (fun x => length (th_code x)) (s_threads s)).
Lemma moves_app : forall a b s s1, moves s a = Some s1 -> moves s (a ++ b) = moves s1 b.
Proof. induction a as [|m a IH]; intros b s s1 H; cbn [app moves] in *; [injection H as <-; reflexivity|]. destruct (moved s m) as [s2|]; [|discriminate]. apply IH, H. Qed.
Lemma set_length : forall l t (x : thread), length (set_nth l t x) = length l.
Proof. induction l as [|a l IH]; intros [|t] x; cbn; try reflexivity. rewrite IH. reflexivity. Qed.
Lemma step_length s t s' : step s t = Some s' -> length (s_threads s') = length (s_threads s).
Proof.
  unfold step. destruct (nth_error (s_threads s) t) as [x|]; [|discriminate]. destruct (th_code x) as [|a r]; [destruct (th_mode x); discriminate|].
  destruct (th_mode x); try discriminate; destruct a as [l|l| | | |]; try (destruct (lockage_lock (s_locks s l) t)); try (destruct (lockage_again (s_locks s l) t)); try (destruct (lockage_unlock (s_locks s l)) as [k' [|]]);
  try (destruct (no_writer (s_threads s)); cbn [andb]; [|discriminate]); try (destruct (no_reader (s_threads s)); [|discriminate]); intro H; injection H as <-; cbn [s_threads]; rewrite ?map_length; apply set_length.
Qed.
Lemma sum_less : forall (a b : list nat) t, length a = length b -> (forall u, u <> t -> nth u a 0 <= nth u b 0) -> t < length b -> nth t a 0 < nth t b 0 -> list_sum a < list_sum b.
Proof.
  assert (G : forall a b, length a = length b -> (forall u, nth u a 0 <= nth u b 0) -> list_sum a <= list_sum b).
  { induction a as [|x a IH]; intros [|y b] L H; cbn [length] in L; try discriminate; [cbn; lia|]. cbn [list_sum fold_right]. pose proof (H 0) as H0. cbn in H0. specialize (IH b ltac:(lia) (fun u => H (S u))). unfold list_sum in IH. lia. }
  induction a as [|x a IH]; intros [|y b] t L H T N; cbn [length] in L, T; try lia. destruct t as [|t].
  - cbn in N. specialize (G a b ltac:(lia) (fun u => H (S u) ltac:(lia))). cbn [list_sum fold_right]. unfold list_sum in G. lia.
  - cbn in N. pose proof (H 0 ltac:(lia)) as H0. cbn in H0. specialize (IH b t ltac:(lia) (fun u E => H (S u) ltac:(lia)) ltac:(lia) N). cbn [list_sum fold_right]. unfold list_sum in IH. lia.
Qed.
Lemma gets_on_less s t : gets_on s t -> exists s', moved s (Go t) = Some s' /\ work s' < work s.
Proof.
  intros (s' & x & y & H & Hx & Hy & (a & C & _)). exists s'. split; [exact H|]. unfold work. pose proof (step_length s t s' H) as L. destruct (step_thread s t s' H) as (x' & y' & _ & _ & _ & Ot).
  assert (T : t < length (s_threads s)) by (apply nth_error_Some; congruence).
  assert (Nt : forall l u z, nth_error l u = Some z -> nth u (map (fun x : thread => length (th_code x)) l) 0 = length (th_code z)) by (intros l u z E; apply nth_error_nth; rewrite nth_error_map, E; reflexivity).
  apply (sum_less _ _ t); rewrite ?map_length; try assumption.
  - intros u N. destruct (nth_error (s_threads s') u) as [z|] eqn:Hz.
    + destruct (Ot u z N Hz) as (w & Hw & S & _). rewrite (Nt _ u z Hz), (Nt _ u w Hw), S. lia.
    + apply nth_error_None in Hz. rewrite (nth_overflow (map _ (s_threads s'))) by (rewrite map_length; exact Hz). lia.
  - rewrite (Nt _ t y Hy), (Nt _ t x Hx), C. cbn [length]. lia.
Qed.
Lemma can_finish : forall n s, work s <= n -> inv s -> all_orderly s -> exists l s', moves s l = Some s' /\ finished s'.
Proof.
  assert (D : forall s, finished s \/ ~ finished s).
  { intro s. unfold finished. destruct (forallb (fun x => match th_code x with [] => true | _ => false end) (s_threads s)) eqn:E.
    - left. rewrite forallb_forall in E. apply Forall_forall. intros x I. specialize (E x I). destruct (th_code x); [reflexivity|discriminate].
    - right. intro F. rewrite Forall_forall in F. assert (X : forallb (fun x => match th_code x with [] => true | _ => false end) (s_threads s) = true) by (apply forallb_forall; intros x I; rewrite (F x I); reflexivity). congruence. }
  induction n as [|n IH]; intros s W I O; destruct (D s) as [F|F]; try (exists [], s; split; [reflexivity|exact F]); destruct (progress s I O F) as (t & Gt); destruct (gets_on_less s t Gt) as (s' & M & L); [lia|].
  destruct (IH s' ltac:(lia) (inv_move s (Go t) s' I M)) as (l & s2 & M2 & F2).
  - intros u z. apply (threads_move orderly_thread s (Go t) s' orderly_next O M).
  - exists (Go t :: l), s2. split; [cbn [moves]; rewrite M; exact M2|exact F2].
Qed.
Lemma reached_inv progs s : Forall (orderly [] 0 false) progs -> reached progs s -> inv s /\ all_orderly s.
Proof.
  intros F (h & H). assert (U : Forall (unnested []) progs) by (eapply Forall_impl; [|exact F]; intros c O; apply (orderly_unnested c [] 0 false); [constructor|exact O]).
  split; [apply (moves_inv inv inv_move h _ s (inv_start progs U) H)|]. refine (moves_inv all_orderly _ h (start progs) s _ H); [|intros t x Hx].
  - intros s1 m s2 I M t x. apply (threads_move orderly_thread s1 m s2 orderly_next I M).
  - destruct (start_thread progs t x Hx) as (c & I & ->). rewrite Forall_forall in F. apply (F c I).
Qed.
Theorem no_deadlock progs s : Forall (orderly [] 0 false) progs -> reached progs s -> (finished s \/ exists t, gets_on s t) /\ exists l s', moves s l = Some s' /\ finished s'.
Proof.
  intros F R. destruct (reached_inv progs s F R) as [I O]. split; [|apply (can_finish (work s) s (le_n _) I O)].
  destruct (can_finish (work s) s (le_n _) I O) as (l & s' & M & Fi). destruct (forallb (fun x => match th_code x with [] => true | _ => false end) (s_threads s)) eqn:E.
  - left. rewrite forallb_forall in E. apply Forall_forall. intros x Ix. specialize (E x Ix). destruct (th_code x); [reflexivity|discriminate].
  - right. apply progress; [exact I|exact O|]. intro X. unfold finished in X. rewrite Forall_forall in X. assert (Y : forallb (fun x => match th_code x with [] => true | _ => false end) (s_threads s) = true) by (apply forallb_forall; intros x Ix; rewrite (X x Ix); reflexivity). congruence.
Qed.
