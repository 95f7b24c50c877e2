(* Invariants of the locks over all schedules. *)
From Coq Require Import NArith ZArith Arith List Bool Lia.
Import ListNotations.
From Verif Require Import Model.Locks Spec.Locks.
Local Arguments Nat.eqb : simpl never.

Lemma nth_set : forall l t (x : thread) u, nth_error (set_nth l t x) u = if u =? t then (match nth_error l t with Some _ => Some x | None => None end) else nth_error l u.
Proof.
  induction l as [|a l IH]; intros t x u.
  - cbn [set_nth]. destruct t, u; cbn [nth_error]; destruct (_ =? _); reflexivity.
  - destruct t as [|t], u as [|u]; cbn [set_nth nth_error]; try reflexivity. rewrite IH. reflexivity.
Qed.
Lemma nth_wake l u : nth_error (map wake l) u = option_map wake (nth_error l u).
Proof. revert u. induction l as [|a l IH]; intros [|u]; cbn; try reflexivity. apply IH. Qed.
Lemma wake_same x : th_code (wake x) = th_code x /\ th_held (wake x) = th_held x /\ th_shares (wake x) = th_shares x /\ th_excl (wake x) = th_excl x /\ th_mode (wake x) <> Sleep.
Proof. unfold wake. destruct (th_mode x) eqn:E; cbn; repeat split; congruence. Qed.

(* waiting: who waits for a lock is counted, and the lock is taken while someone sleeps *)
Definition waiting_for (l : nat) (x : thread) : bool :=
  match th_mode x, th_code x with Run, _ => false | _, Lock m :: _ => m =? l | _, _ => false end.
Definition waiters (s : sys) (l : nat) : nat := length (filter (waiting_for l) (s_threads s)).
Definition inv_wait (s : sys) : Prop :=
  (forall t x, nth_error (s_threads s) t = Some x -> th_mode x <> Run -> exists l r, th_code x = Lock l :: r) /\
  (forall l, lk_pending (s_locks s l) = Z.of_nat (waiters s l)) /\
  (forall t l, sleeps s t l -> lk_owner (s_locks s l) <> None).
Lemma waiters_set : forall l t x y n, nth_error l t = Some x ->
  length (filter (waiting_for n) (set_nth l t y)) + (if waiting_for n x then 1 else 0) = length (filter (waiting_for n) l) + (if waiting_for n y then 1 else 0).
Proof.
  induction l as [|a l IH]; intros t x y n H; [destruct t; discriminate|]. destruct t as [|t]; cbn [nth_error set_nth filter] in *.
  - injection H as ->. destruct (waiting_for n x), (waiting_for n y); cbn [length]; lia.
  - specialize (IH t x y n H). destruct (waiting_for n a); cbn [length]; lia.
Qed.
Lemma waiting_wake n x : waiting_for n (wake x) = waiting_for n x.
Proof. unfold waiting_for, wake. destruct (th_mode x) eqn:E; cbn [th_mode th_code]; rewrite ?E; reflexivity. Qed.
Lemma waiters_wake n l : length (filter (waiting_for n) (map wake l)) = length (filter (waiting_for n) l).
Proof. induction l as [|a l IH]; [reflexivity|]. cbn [map filter]. rewrite waiting_wake. destruct (waiting_for n a); cbn [length]; lia. Qed.
Lemma waiters_some n l t x : nth_error l t = Some x -> waiting_for n x = true -> 0 < length (filter (waiting_for n) l).
Proof.
  intros H W. assert (I : In x (filter (waiting_for n) l)) by (apply filter_In; split; [eapply nth_error_In, H|exact W]). destruct (filter (waiting_for n) l); [destruct I|cbn; lia].
Qed.
Lemma run_waits n c h a b : waiting_for n (mk_thread c Run h a b) = false.
Proof. reflexivity. Qed.
Definition run_mode (x : thread) : Prop := th_mode x = Run.

(* steps that only change the thread, which runs before and after *)
Lemma wait_plain s t x y : inv_wait s -> nth_error (s_threads s) t = Some x -> th_mode x = Run -> th_mode y = Run -> inv_wait (mk_sys (s_locks s) (set_nth (s_threads s) t y)).
Proof.
  intros (A & B & C) H Rx Ry. assert (Wx : forall n, waiting_for n x = false) by (intro n; unfold waiting_for; rewrite Rx; reflexivity). assert (Wy : forall n, waiting_for n y = false) by (intro n; unfold waiting_for; rewrite Ry; reflexivity).
  split; [|split]; cbn [s_threads s_locks].
  - intros u z Hz M. rewrite nth_set, H in Hz. destruct (u =? t); [injection Hz as <-; congruence|]. apply (A u z Hz M).
  - intro l. rewrite B. unfold waiters. cbn [s_threads]. pose proof (waiters_set _ t x y l H) as E. rewrite Wx, Wy in E. f_equal. lia.
  - intros u l (z & r & Hz & M & Cz). cbn [s_threads] in Hz. rewrite nth_set, H in Hz. destruct (u =? t); [injection Hz as <-; congruence|]. apply (C u l). exists z, r. repeat split; assumption.
Qed.
Lemma set_lock_at f l k i : set_lock f l k i = if i =? l then k else f i.
Proof. reflexivity. Qed.
Lemma mode_cases x : th_mode x <> Run \/ th_mode x = Run.
Proof. destruct (th_mode x); [right|left|left]; congruence. Qed.
Lemma wait_step s t s' : inv_wait s -> step s t = Some s' -> inv_wait s'.
Proof.
  intros I H. pose proof I as (A & B & C). unfold step in H. destruct (nth_error (s_threads s) t) as [x|] eqn:Hx; [|discriminate]. specialize (A t x Hx) as Ax.
  destruct (th_code x) as [|a r] eqn:Cx; [destruct (th_mode x); discriminate|]. destruct (th_mode x) eqn:Mx; try discriminate.
  - (* running *) destruct a as [l|l| | | |].
    + destruct (lockage_lock (s_locks s l) t) as [k' taken] eqn:E. injection H as <-.
      assert (Wx : forall n, waiting_for n x = false) by (intro n; unfold waiting_for; rewrite Mx; reflexivity).
      assert (O : (taken = true /\ lk_pending k' = lk_pending (s_locks s l) /\ (lk_owner (s_locks s l) <> None -> lk_owner k' <> None)) \/ (taken = false /\ lk_pending k' = (lk_pending (s_locks s l) + 1)%Z /\ lk_owner k' <> None)).
      { unfold lockage_lock, lockage_turn in E. destruct (owned_by (s_locks s l) t); [injection E as <- <-; left; cbn; auto|]. destruct (lk_owner (s_locks s l)) eqn:Ow; injection E as <- <-; [right|left]; cbn; repeat split; congruence. }
      set (y := if taken then _ else _). assert (Wy : forall n, waiting_for n y = if taken then false else l =? n) by (intro n; unfold y; destruct taken; unfold waiting_for; cbn [th_mode th_code]; rewrite ?Cx; reflexivity).
      split; [|split]; cbn [s_threads s_locks].
      * intros u z Hz M. rewrite nth_set, Hx in Hz. destruct (u =? t); [injection Hz as <-|apply (A u z Hz M)]. unfold y in *. destruct taken; [cbn in M; congruence|]. cbn [th_code]. exists l, r. reflexivity.
      * intro n. unfold waiters. cbn [s_threads]. pose proof (waiters_set _ t x y n Hx) as W. rewrite Wx, Wy in W. rewrite set_lock_at. specialize (B n). unfold waiters in B. rewrite (Nat.eqb_sym l n) in W. destruct (Nat.eqb_spec n l) as [->|NE].
        -- destruct O as [(-> & -> & _)|(-> & -> & _)]; lia.
        -- destruct taken; lia.
      * intros u n (z & r' & Hz & M & Cz). cbn [s_threads] in Hz. rewrite nth_set, Hx in Hz. rewrite set_lock_at. destruct (u =? t).
        -- injection Hz as <-. unfold y in *. destruct taken; [cbn in M; congruence|]. cbn [th_code] in Cz. injection Cz as <- _. rewrite Nat.eqb_refl. destruct O as [(X & _)|(_ & _ & O)]; [discriminate|exact O].
        -- assert (S : lk_owner (s_locks s n) <> None) by (apply (C u n); exists z, r'; repeat split; assumption). destruct (Nat.eqb_spec n l) as [->|NE]; [|exact S]. destruct O as [(_ & _ & O)|(_ & _ & O)]; auto.
    + destruct (lockage_unlock (s_locks s l)) as [k' bc] eqn:E. injection H as <-. assert (Wx : forall n, waiting_for n x = false) by (intro n; unfold waiting_for; rewrite Mx; reflexivity).
      set (y := mk_thread r Run _ _ _). assert (P : lk_pending k' = lk_pending (s_locks s l)) by (unfold lockage_unlock in E; destruct (0 <? lk_refs (s_locks s l) - 1)%Z; injection E as <- <-; reflexivity).
      assert (O : lk_owner k' = lk_owner (s_locks s l) \/ bc = true \/ lk_pending k' = 0%Z \/ (lk_pending k' < 0)%Z).
      { unfold lockage_unlock in E. destruct (0 <? lk_refs (s_locks s l) - 1)%Z; injection E as <- <-; [left; reflexivity|]. cbn. destruct (Z.ltb_spec 0 (lk_pending (s_locks s l))); [right; left; reflexivity|right; right; lia]. }
      split; [|split]; cbn [s_threads s_locks].
      * intros u z Hz M. assert (exists w, nth_error (set_nth (s_threads s) t y) u = Some w /\ th_code w = th_code z /\ (th_mode w = Run -> th_mode z = Run)) as (w & Hw & Cw & Mw).
        { destruct bc; [|exists z; auto]. rewrite nth_wake in Hz. destruct (nth_error (set_nth (s_threads s) t y) u) as [w|] eqn:Hw; [|discriminate]. injection Hz as <-. exists w. split; [reflexivity|]. split; [symmetry; apply wake_same|]. intro R. unfold wake. rewrite R. exact R. }
        rewrite nth_set, Hx in Hw. destruct (u =? t); [injection Hw as <-; cbn in Mw; exfalso; apply M, Mw; reflexivity|]. rewrite <- Cw. apply (A u w Hw). intro X. apply M, Mw, X.
      * intro n. unfold waiters. cbn [s_threads]. rewrite set_lock_at. assert (L : length (filter (waiting_for n) (if bc then map wake (set_nth (s_threads s) t y) else set_nth (s_threads s) t y)) = length (filter (waiting_for n) (set_nth (s_threads s) t y))) by (destruct bc; [apply waiters_wake|reflexivity]).
        rewrite L. pose proof (waiters_set _ t x y n Hx) as W. rewrite Wx in W. change (waiting_for n y) with false in W. specialize (B n). unfold waiters in B. rewrite !Nat.add_0_r in W. rewrite W, <- B. destruct (Nat.eqb_spec n l) as [->|NE]; [exact P|reflexivity].
      * intros u n (z & r' & Hz & M & Cz). cbn [s_threads] in Hz. destruct bc.
        { exfalso. rewrite nth_wake in Hz. destruct (nth_error (set_nth (s_threads s) t y) u) as [w|]; [|discriminate]. injection Hz as <-. apply (proj2 (proj2 (proj2 (proj2 (wake_same w)))) M). }
        rewrite nth_set, Hx in Hz. destruct (u =? t); [injection Hz as <-; discriminate|]. assert (S : lk_owner (s_locks s n) <> None) by (apply (C u n); exists z, r'; repeat split; assumption). rewrite set_lock_at. destruct (Nat.eqb_spec n l) as [->|NE]; [|exact S].
        destruct O as [->|[O|O]]; [exact S|discriminate|]. exfalso. assert (Wz : waiting_for l z = true) by (unfold waiting_for; rewrite M, Cz; apply Nat.eqb_refl). pose proof (waiters_some l _ u z Hz Wz). specialize (B l). unfold waiters in B. lia.
    + destruct (no_writer (s_threads s)); [|discriminate]. injection H as <-. apply (wait_plain s t x _ I Hx Mx). reflexivity.
    + injection H as <-. apply (wait_plain s t x _ I Hx Mx). reflexivity.
    + destruct (no_writer (s_threads s) && no_reader (s_threads s)); [|discriminate]. injection H as <-. apply (wait_plain s t x _ I Hx Mx). reflexivity.
    + injection H as <-. apply (wait_plain s t x _ I Hx Mx). reflexivity.
  - (* woken *) destruct (Ax ltac:(discriminate)) as (l & r0 & E0). injection E0 as -> <-.
    destruct (lockage_again (s_locks s l) t) as [k' taken] eqn:E. injection H as <-.
    assert (Wx : forall n, waiting_for n x = (l =? n)) by (intro n; unfold waiting_for; rewrite Mx, Cx; reflexivity).
    assert (O : (taken = true /\ lk_pending k' = (lk_pending (s_locks s l) - 1)%Z /\ lk_owner k' <> None) \/ (taken = false /\ lk_pending k' = lk_pending (s_locks s l) /\ lk_owner k' <> None)).
    { unfold lockage_again, lockage_turn in E. cbn [lk_owner lk_pending lk_refs] in E. destruct (lk_owner (s_locks s l)) eqn:Ow; injection E as <- <-; [right|left]; cbn; repeat split; try congruence; lia. }
    set (y := if taken then _ else _). assert (Wy : forall n, waiting_for n y = if taken then false else l =? n) by (intro n; unfold y; destruct taken; unfold waiting_for; cbn [th_mode th_code]; rewrite ?Cx; reflexivity).
    split; [|split]; cbn [s_threads s_locks].
    + intros u z Hz M. rewrite nth_set, Hx in Hz. destruct (u =? t); [injection Hz as <-|apply (A u z Hz M)]. unfold y in *. destruct taken; [cbn in M; congruence|]. cbn [th_code]. exists l, r. reflexivity.
    + intro n. unfold waiters. cbn [s_threads]. pose proof (waiters_set _ t x y n Hx) as W. rewrite Wx, Wy in W. rewrite set_lock_at. specialize (B n). unfold waiters in B. rewrite (Nat.eqb_sym l n) in W. destruct (Nat.eqb_spec n l) as [->|NE].
      * destruct O as [(-> & -> & _)|(-> & -> & _)]; lia.
      * destruct taken; lia.
    + intros u n (z & r' & Hz & M & Cz). cbn [s_threads] in Hz. rewrite nth_set, Hx in Hz. rewrite set_lock_at. destruct (u =? t).
      * injection Hz as <-. unfold y in *. destruct taken; [cbn in M; congruence|]. cbn [th_code] in Cz. injection Cz as <- _. rewrite Nat.eqb_refl. destruct O as [(X & _)|(_ & _ & O)]; [discriminate|exact O].
      * assert (S : lk_owner (s_locks s n) <> None) by (apply (C u n); exists z, r'; repeat split; assumption). destruct (Nat.eqb_spec n l) as [->|NE]; [|exact S]. destruct O as [(_ & _ & O)|(_ & _ & O)]; auto.
Qed.
Lemma wait_move s m s' : inv_wait s -> moved s m = Some s' -> inv_wait s'.
Proof.
  destruct m as [t|t]; [apply wait_step|]. cbn [moved]. destruct (nth_error (s_threads s) t) as [x|] eqn:Hx; [|discriminate]. intros (A & B & C) H. injection H as <-. destruct (wake_same x) as (W1 & _ & _ & _ & W5). split; [|split]; cbn [s_threads s_locks].
  - intros u z Hz M. rewrite nth_set, Hx in Hz. destruct (u =? t) eqn:E; [|apply (A u z Hz M)]. injection Hz as <-. rewrite W1. apply (A t x Hx). intro R. apply M. unfold wake. rewrite R. exact R.
  - intro n. rewrite B. unfold waiters. cbn [s_threads]. pose proof (waiters_set _ t x (wake x) n Hx) as W. rewrite waiting_wake in W. f_equal. lia.
  - intros u n (z & r & Hz & M & Cz). cbn [s_threads] in Hz. rewrite nth_set, Hx in Hz. destruct (u =? t); [injection Hz as <-; congruence|]. apply (C u n). exists z, r. repeat split; assumption.
Qed.
Lemma wait_start progs : inv_wait (start progs).
Proof.
  assert (R : forall t x, nth_error (s_threads (start progs)) t = Some x -> th_mode x = Run).
  { intros t x H. apply nth_error_In in H. cbn [start s_threads] in H. apply in_map_iff in H. destruct H as (c & <- & _). reflexivity. }
  split; [|split].
  - intros t x H M. exfalso. apply M, (R t x H).
  - intro l. cbn [start s_locks lockage_init lk_pending]. unfold waiters. cbn [start s_threads]. induction progs as [|c p IH]; [reflexivity|]. cbn [map filter]. change (waiting_for l (mk_thread c Run [] 0 false)) with false. apply IH. intros t x. apply (R (S t) x).
  - intros t l (x & r & H & M & _). specialize (R t x H). congruence.
Qed.
Lemma moves_inv (P : sys -> Prop) : (forall s m s', P s -> moved s m = Some s' -> P s') -> forall l s s', P s -> moves s l = Some s' -> P s'.
Proof.
  intro H. induction l as [|m l IH]; intros s s' I M; cbn [moves] in M; [injection M as <-; exact I|]. destruct (moved s m) as [s1|] eqn:E; [|discriminate]. apply (IH s1 s' (H s m s1 I E) M).
Qed.
Theorem sleeper_has_owner progs s t l : reached progs s -> sleeps s t l -> lk_owner (s_locks s l) <> None.
Proof. intros (h & H). apply (moves_inv inv_wait wait_move h _ s (wait_start progs) H). Qed.
