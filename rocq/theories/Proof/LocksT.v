(* The programs of the engine. *)
From Coq Require Import NArith ZArith Arith List Bool Lia Permutation.
Import ListNotations.
From Verif Require Import Model.Locks Spec.Locks Proof.LocksL Proof.LocksE.
Local Arguments Nat.eqb : simpl never.

Lemma remove_perm a l h : Permutation (a :: l) h -> Permutation l (remove_one a h).
Proof.
  revert l. induction h as [|b h IH]; intros l P; [symmetry in P; apply Permutation_nil in P; discriminate|]. cbn [remove_one]. fold (remove_one a h). destruct (Nat.eqb_spec b a) as [->|N].
  - apply Permutation_cons_inv in P. exact P.
  - assert (I : In b l) by (assert (X : In b (a :: l)) by (eapply Permutation_in; [symmetry; exact P|left; reflexivity]); destruct X as [->|X]; [congruence|exact X]).
    apply in_split in I. destruct I as (l1 & l2 & ->). assert (Q : Permutation (a :: l1 ++ l2) h).
    { apply (Permutation_cons_inv (a := b)). rewrite <- P. rewrite perm_swap. constructor. apply Permutation_middle. }
    rewrite <- (IH _ Q). symmetry. apply Permutation_middle.
Qed.
Definition locks_of (ps : list nat) : list act := flat_map (fun p => engine_lock (access p)) ps.
Definition unlocks_of (ps : list nat) : list act := flat_map (fun p => engine_unlock (access p)) ps.
(* giving back *)
Lemma unlocks_unnested : forall ps h c, Permutation (map access ps) h -> unnested [] c -> unnested h (unlocks_of ps ++ c).
Proof.
  induction ps as [|p ps IH]; intros h c P U; cbn [unlocks_of flat_map app engine_unlock unnested map] in *; [apply Permutation_nil in P; subst h; exact U|]. split; [eapply Permutation_in; [exact P|left; reflexivity]|]. apply IH; [apply remove_perm, P|exact U].
Qed.
Lemma unlocks_orderly : forall ps h n c, Permutation (map access ps) h -> n = length ps -> orderly [] 0 false c -> orderly h n false (unlocks_of ps ++ c).
Proof.
  induction ps as [|p ps IH]; intros h n c P L U; cbn [unlocks_of flat_map app engine_unlock orderly map length] in *; [apply Permutation_nil in P; subst h n; exact U|]. split; [eapply Permutation_in; [exact P|left; reflexivity]|]. split; [lia|]. apply IH; [apply remove_perm, P|lia|exact U].
Qed.
Lemma unlocks_covered : forall ps h n c, Permutation (map access ps) h -> n = length ps -> covered [] 0 c -> covered h n (unlocks_of ps ++ c).
Proof.
  induction ps as [|p ps IH]; intros h n c P L U; cbn [unlocks_of flat_map app engine_unlock map length] in *; [apply Permutation_nil in P; subst h n; exact U|].
  assert (Q : Permutation (map access ps) (remove_one (access p) h)) by (apply remove_perm, P). cbn [covered]. split; [right; lia|]. split; [right; lia|]. apply IH; [exact Q|lia|exact U].
Qed.
(* taking *)
Lemma locks_unnested : forall ps h c, NoDup ps -> (forall p, In p ps -> ~ In (access p) h) -> unnested (rev (map access ps) ++ h) c -> unnested h (locks_of ps ++ c).
Proof.
  induction ps as [|p ps IH]; intros h c N D U; cbn [locks_of flat_map app engine_lock unnested map rev] in *; [exact U|]. inversion N as [|a b N1 N2]; subst. split; [apply D; left; reflexivity|]. apply IH; [exact N2| |rewrite <- app_assoc in U; exact U].
  intros q I [E|X]; [|apply (D q (or_intror I) X)]. unfold access in E. assert (p = q) by lia. congruence.
Qed.
Lemma locks_orderly : forall ps h n c, increasing ps -> (forall p, In p ps -> Forall (fun x => x < access p) h) -> orderly (rev (map access ps) ++ h) (n + length ps) false c -> orderly h n false (locks_of ps ++ c).
Proof.
  induction ps as [|p ps IH]; intros h n c N D U; cbn [locks_of flat_map app engine_lock orderly map rev length increasing] in *; [rewrite Nat.add_0_r in U; exact U|]. destruct N as [N1 N2]. split; [reflexivity|]. split; [reflexivity|]. split; [apply D; left; reflexivity|]. apply IH; [exact N2| |rewrite <- app_assoc in U; rewrite Nat.add_succ_r in U; exact U].
  intros q I. constructor; [|apply D; right; exact I]. rewrite Forall_forall in N1. specialize (N1 q I). unfold access. lia.
Qed.
Lemma locks_covered : forall ps h n c, (h = [] \/ 0 < n) -> covered (rev (map access ps) ++ h) (n + length ps) c -> covered h n (locks_of ps ++ c).
Proof.
  induction ps as [|p ps IH]; intros h n c N U; cbn [locks_of flat_map app engine_lock map rev length] in *; [rewrite Nat.add_0_r in U; exact U|]. cbn [covered]. split; [exact N|]. split; [right; lia|]. apply IH; [right; lia|rewrite <- app_assoc in U; rewrite Nat.add_succ_r in U; exact U].
Qed.
Lemma back (ps : list nat) : Permutation (map access ps) (rev (map access ps) ++ []).
Proof. rewrite app_nil_r. apply Permutation_rev. Qed.
Lemma does_unnested c r : apart c -> unnested [] r -> unnested [] (does c ++ r).
Proof.
  destruct c as [ps|ps|p|p|p|]; intros A U; cbn [does].
  - unfold engine_write. fold (locks_of ps) (unlocks_of ps). rewrite <- app_assoc. apply locks_unnested; [exact A|intros p _ []|]. apply unlocks_unnested; [apply back|exact U].
  - clear A. induction ps as [|p ps IH]; [exact U|]. cbn [engine_cursor flat_map cursor_on engine_lock engine_unlock app unnested]. split; [tauto|]. split; [left; reflexivity|]. cbn [remove_one]. rewrite Nat.eqb_refl. exact IH.
  - unfold refresh_run, engine_lock, engine_unlock. cbn [app unnested remove_one]. unfold service, access. cbn [In]. repeat (rewrite Nat.eqb_refl; cbn [remove_one In]). destruct (Nat.eqb_spec (2 * p + 1) (2 * p)); [lia|]. intuition lia.
  - unfold engine_drop_file, engine_lock, engine_unlock. cbn [app unnested remove_one]. unfold service, access. cbn [In]. repeat (rewrite Nat.eqb_refl; cbn [remove_one In]). destruct (Nat.eqb_spec (2 * p + 1) (2 * p)); [lia|]. intuition lia.
  - unfold engine_drop, engine_drop_file, engine_lock, engine_unlock. cbn [app unnested remove_one]. unfold service, access. cbn [In]. repeat (rewrite Nat.eqb_refl; cbn [remove_one In]). destruct (Nat.eqb_spec (2 * p + 1) (2 * p)); [lia|]. intuition lia.
  - exact U.
Qed.
Lemma does_orderly c r : in_order c -> orderly [] 0 false r -> orderly [] 0 false (does c ++ r).
Proof.
  destruct c as [ps|ps|p|p|p|]; intros A U; cbn [does].
  - unfold engine_write. fold (locks_of ps) (unlocks_of ps). rewrite <- app_assoc. apply locks_orderly; [exact A|intros p _; constructor|]. apply unlocks_orderly; [apply back|reflexivity|exact U].
  - clear A. induction ps as [|p ps IH]; [exact U|]. cbn [engine_cursor flat_map cursor_on engine_lock engine_unlock app orderly pred]. split; [reflexivity|]. split; [reflexivity|]. split; [constructor|]. split; [left; reflexivity|]. cbn [remove_one]. rewrite Nat.eqb_refl. split; [lia|exact IH].
  - unfold refresh_run, engine_lock, engine_unlock. cbn [app orderly remove_one pred]. repeat (rewrite Nat.eqb_refl; cbn [remove_one In]). intuition; repeat constructor; unfold service, access; lia.
  - unfold engine_drop_file, engine_lock, engine_unlock. cbn [app orderly remove_one pred]. repeat (rewrite Nat.eqb_refl; cbn [remove_one In]). intuition; repeat constructor; unfold service, access; lia.
  - unfold engine_drop, engine_drop_file, engine_lock, engine_unlock. cbn [app orderly remove_one pred]. repeat (rewrite Nat.eqb_refl; cbn [remove_one In]). intuition; repeat constructor; unfold service, access; lia.
  - cbn [exclusive app orderly]. tauto.
Qed.
Lemma does_covered c r : covered [] 0 r -> covered [] 0 (does c ++ r).
Proof.
  intro U. destruct c as [ps|ps|p|p|p|]; cbn [does].
  - unfold engine_write. fold (locks_of ps) (unlocks_of ps). rewrite <- app_assoc. apply locks_covered; [left; reflexivity|]. apply unlocks_covered; [apply back|reflexivity|exact U].
  - induction ps as [|p ps IH]; [exact U|]. cbn [engine_cursor flat_map cursor_on engine_lock engine_unlock app covered pred]. cbn [remove_one]. rewrite Nat.eqb_refl. split; [left; reflexivity|]. split; [right; lia|]. split; [right; lia|]. split; [right; lia|exact IH].
  - unfold refresh_run, engine_lock, engine_unlock. cbn [app covered remove_one pred]. repeat (rewrite Nat.eqb_refl; cbn [remove_one In]). intuition.
  - unfold engine_drop_file, engine_lock, engine_unlock. cbn [app covered remove_one pred]. repeat (rewrite Nat.eqb_refl; cbn [remove_one In]). intuition.
  - unfold engine_drop, engine_drop_file, engine_lock, engine_unlock. cbn [app covered remove_one pred]. repeat (rewrite Nat.eqb_refl; cbn [remove_one In]). intuition.
  - cbn [exclusive app covered]. tauto.
Qed.
Lemma program_unnested l : Forall apart l -> unnested [] (program l).
Proof. induction 1 as [|c l A F IH]; [exact I|]. cbn [program flat_map]. apply does_unnested; assumption. Qed.
Lemma program_orderly l : Forall in_order l -> orderly [] 0 false (program l).
Proof. induction 1 as [|c l A F IH]; [repeat split|]. cbn [program flat_map]. apply does_orderly; assumption. Qed.
Lemma program_covered l : covered [] 0 (program l).
Proof. induction l as [|c l IH]; [split; [left; reflexivity|exact I]|]. cbn [program flat_map]. apply does_covered, IH. Qed.

(* the control lock, for any programs *)
Definition covered_thread (x : thread) : Prop := covered (th_held x) (th_shares x) (th_code x).
Lemma covered_next x y : covered_thread x -> same x y \/ advanced x y -> covered_thread y.
Proof.
  unfold covered_thread. intros O [(A & B & C & D)|(a & C & D)]; [rewrite A, B, C; exact O|]. rewrite C in O. destruct a as [l|l| | | |]; cbn [covered after] in *; injection D as D1 D2 D3; rewrite D1, D2; tauto.
Qed.
Definition inv_control (s : sys) : Prop := forall t u x y, nth_error (s_threads s) t = Some x -> nth_error (s_threads s) u = Some y -> t <> u -> th_excl x = true -> th_shares y = 0 /\ th_excl y = false.
Lemma no_writer_all l t x : no_writer l = true -> nth_error l t = Some x -> th_excl x = false.
Proof. intros H Hx. unfold no_writer in H. rewrite forallb_forall in H. specialize (H x (nth_error_In _ _ Hx)). destruct (th_excl x); [discriminate|reflexivity]. Qed.
Lemma no_reader_all l t x : no_reader l = true -> nth_error l t = Some x -> th_shares x = 0.
Proof. intros H Hx. unfold no_reader in H. rewrite forallb_forall in H. specialize (H x (nth_error_In _ _ Hx)). apply Nat.eqb_eq, H. Qed.
Lemma step_control s t s' x y : step s t = Some s' -> nth_error (s_threads s) t = Some x -> nth_error (s_threads s') t = Some y ->
  (th_shares y <= th_shares x \/ no_writer (s_threads s) = true) /\ (th_excl y = true -> th_excl x = true \/ no_writer (s_threads s) = true /\ no_reader (s_threads s) = true).
Proof.
  intros H Hx Hy. destruct (step_thread s t s' H) as (x1 & y1 & Hx1 & Hy1 & S & _). rewrite Hx in Hx1. injection Hx1 as <-. rewrite Hy in Hy1. injection Hy1 as <-.
  destruct S as [(A & B & C & D)|(a & C & D)]; [rewrite C, D; split; [left; lia|tauto]|]. destruct a as [l|l| | | |]; cbn [after] in D; injection D as D1 D2 D3; rewrite D2, D3; try (split; [left; lia|tauto]).
  - split; [|tauto]. right. unfold step in H. rewrite Hx, C in H. destruct (th_mode x); [|discriminate|]; destruct (no_writer (s_threads s)); congruence.
  - split; [left; lia|]. intros _. right. unfold step in H. rewrite Hx, C in H. destruct (th_mode x); [|discriminate|]; destruct (no_writer (s_threads s)); try discriminate; destruct (no_reader (s_threads s)); try discriminate; tauto.
  - split; [left; lia|discriminate].
Qed.
Lemma control_move s m s' : inv_control s -> moved s m = Some s' -> inv_control s'.
Proof.
  intros I M. destruct m as [t|t]; cbn [moved] in M.
  - destruct (step_thread s t s' M) as (x & y & Hx & Hy & _ & O). destruct (step_control s t s' x y M Hx Hy) as [P1 P2]. intros a b xa xb Ha Hb N E. destruct (Nat.eq_dec a t) as [->|Na].
    + rewrite Hy in Ha. injection Ha as <-. destruct (O b xb (not_eq_sym N) Hb) as (w & Hw & (_ & _ & W1 & W2)). rewrite W1, W2. destruct (P2 E) as [Ex|[NW NR]]; [apply (I t b x w Hx Hw N Ex)|]. split; [apply (no_reader_all _ _ _ NR Hw)|apply (no_writer_all _ _ _ NW Hw)].
    + destruct (O a xa Na Ha) as (w & Hw & (_ & _ & W1 & W2)). rewrite W2 in E. destruct (Nat.eq_dec b t) as [->|Nb].
      * rewrite Hy in Hb. injection Hb as <-. destruct (I a t w x Hw Hx N E) as [Q1 Q2]. assert (NN : no_writer (s_threads s) = true -> False) by (intro NW; rewrite (no_writer_all _ _ _ NW Hw) in E; discriminate).
        split; [destruct P1 as [P1|P1]; [lia|tauto]|]. destruct (th_excl y); [|reflexivity]. destruct (P2 eq_refl) as [X|[X _]]; [congruence|tauto].
      * destruct (O b xb Nb Hb) as (v & Hv & (_ & _ & V1 & V2)). rewrite V1, V2. apply (I a b w v Hw Hv N E).
  - destruct (nth_error (s_threads s) t) as [x|] eqn:Hx; [|discriminate]. injection M as <-. intros a b xa xb Ha Hb N E. cbn [s_threads] in Ha, Hb. rewrite nth_set in Ha, Hb. rewrite Hx in *.
    destruct (wake_same x) as (_ & _ & W1 & W2 & _). destruct (Nat.eqb_spec a t) as [->|Na], (Nat.eqb_spec b t) as [->|Nb]; try congruence.
    + injection Ha as <-. rewrite W2 in E. apply (I t b x xb Hx Hb N E).
    + injection Hb as <-. rewrite W1, W2. apply (I a t xa x Ha Hx N E).
    + apply (I a b xa xb Ha Hb N E).
Qed.
Theorem control_alone progs s t u : reached progs s -> excludes s t -> shares s u \/ excludes s u -> t = u.
Proof.
  intros (h & H) (x & Hx & Ex) D. assert (I : inv_control s).
  { refine (moves_inv inv_control control_move h (start progs) s _ H). intros a b xa xb Ha _ _ E. destruct (start_thread progs a xa Ha) as (c & _ & ->). discriminate. }
  destruct (Nat.eq_dec t u) as [E|N]; [exact E|]. exfalso. destruct D as [(y & Hy & P)|(y & Hy & P)]; destruct (I t u x y Hx Hy N Ex) as [Q1 Q2]; [lia|congruence].
Qed.
(* a command which excludes everybody finds no lock of a partition taken by anybody else *)
Theorem command_alone ls s t u l : reached (map program ls) s -> excludes s t -> holds s u l -> t = u.
Proof.
  intros R E (y & Hy & Il). apply (control_alone _ s t u R E). left. exists y. split; [exact Hy|]. destruct R as (h & H).
  assert (C : forall t x, nth_error (s_threads s) t = Some x -> covered_thread x).
  { refine (moves_inv (fun s => forall t x, nth_error (s_threads s) t = Some x -> covered_thread x) _ h _ s _ H).
    - intros s1 m s2 I M. apply (threads_move covered_thread s1 m s2 covered_next I M).
    - intros a x Ha. destruct (start_thread _ a x Ha) as (c & I & ->). apply in_map_iff in I. destruct I as (k & <- & _). apply program_covered. }
  pose proof (C u y Hy) as K. unfold covered_thread in K. destruct (th_code y); destruct K as [[E0|P] _]; try exact P; rewrite E0 in Il; destruct Il.
Qed.
Lemma programs_unnested ls : Forall (Forall apart) ls -> Forall (unnested []) (map program ls).
Proof. intro F. apply Forall_map. eapply Forall_impl; [|exact F]. exact program_unnested. Qed.
Lemma programs_orderly ls : Forall (Forall in_order) ls -> Forall (orderly [] 0 false) (map program ls).
Proof. intro F. apply Forall_map. eapply Forall_impl; [|exact F]. exact program_orderly. Qed.
Theorem engine_exclusion ls s t u l : Forall (Forall apart) ls -> reached (map program ls) s -> holds s t l -> holds s u l -> t = u.
Proof. intro F. apply exclusion, programs_unnested, F. Qed.
Theorem engine_goes_on ls s : Forall (Forall in_order) ls -> reached (map program ls) s -> (finished s \/ exists t, goes_on s t) /\ exists l s', moves s l = Some s' /\ finished s'.
Proof.
  intros F R. destruct (no_deadlock _ s (programs_orderly ls F) R) as [[A|(t & s' & x & y & B & C & D & a & E & _)] G]; (split; [|exact G]); [left; exact A|]. right. exists t, s', x, y, a. tauto.
Qed.

(* nested locks: [n+1] times taken by one thread, given back [n] times *)
Fixpoint times {A} (n : nat) (f : A -> A) (a : A) : A := match n with 0 => a | S n => times n f (f a) end.
Lemma nest_locks : forall n k t, lk_owner k = Some t -> times n (fun k => fst (lockage_lock k t)) k = mk_lock (Some t) (lk_refs k + Z.of_nat n) (lk_pending k).
Proof.
  induction n as [|n IH]; intros k t O; cbn [times]; [destruct k; cbn in *; subst; f_equal; lia|]. unfold lockage_lock at 2. unfold owned_by. rewrite O, Nat.eqb_refl. cbn [fst]. rewrite IH by reflexivity. cbn [lk_refs lk_pending]. f_equal. lia.
Qed.
Lemma nest_unlocks : forall n k t, lk_owner k = Some t -> (Z.of_nat n < lk_refs k)%Z -> times n (fun k => fst (lockage_unlock k)) k = mk_lock (Some t) (lk_refs k - Z.of_nat n) (lk_pending k).
Proof.
  induction n as [|n IH]; intros k t O L; cbn [times]; [destruct k; cbn in *; subst; f_equal; lia|]. unfold lockage_unlock at 2. destruct (Z.ltb_spec 0 (lk_refs k - 1)); [|lia]. cbn [fst]. rewrite (IH _ t) by (try exact O; cbn; lia). cbn [lk_refs lk_pending]. f_equal. lia.
Qed.
Theorem nested_early k t n : lk_owner k = None -> let taken := times (S (S n)) (fun k => fst (lockage_lock k t)) k in
  lk_owner (times n (fun k => fst (lockage_unlock k)) taken) = Some t /\ lk_owner (times (S n) (fun k => fst (lockage_unlock k)) taken) = None.
Proof.
  intros O taken. assert (E : taken = mk_lock (Some t) (Z.of_nat (S n)) (lk_pending k)).
  { unfold taken. cbn [times]. unfold lockage_lock at 3, owned_by, lockage_turn. rewrite O. cbn [fst]. change (fst (lockage_lock (mk_lock (Some t) 0 (lk_pending k)) t)) with (times 1 (fun k => fst (lockage_lock k t)) (mk_lock (Some t) 0 (lk_pending k))). rewrite (nest_locks 1) by reflexivity. rewrite nest_locks by reflexivity. cbn [lk_refs lk_pending]. f_equal. lia. }
  rewrite E. assert (T : forall (A : Type) (f : A -> A) m a, times (S m) f a = f (times m f a)) by (intros A f m; induction m as [|m IH]; intro a; [reflexivity|]; cbn [times] in *; rewrite IH; reflexivity).
  split; [|rewrite T]; rewrite (nest_unlocks n _ t) by (try reflexivity; cbn [lk_refs]; lia); [reflexivity|]. unfold lockage_unlock. cbn [lk_refs]. destruct (Z.ltb_spec 0 (Z.of_nat (S n) - Z.of_nat n - 1)); [lia|reflexivity].
Qed.
