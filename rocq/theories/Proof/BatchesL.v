(* Batches of several threads: the invariant. *)
From Coq Require Import NArith ZArith Arith List Bool Lia Sorted.
Import ListNotations.
From Verif Require Import Model.Base Model.Event Model.Batches Spec.Batches.

Lemma key_eqb_spec a b : reflect (a = b) (key_eqb a b).
Proof.
  unfold key_eqb. destruct a as [i k], b as [j l]; cbn [fst snd]. destruct (N.eqb_spec i j) as [->|N].
  - destruct (list_eq_dec N.eq_dec k l) as [->|M]; constructor; congruence.
  - constructor. congruence.
Qed.
Lemma put_eq {A} (f : N -> A) p x : put f p x p = x.
Proof. unfold put. rewrite N.eqb_refl. reflexivity. Qed.
Lemma put_ne {A} (f : N -> A) p x q : q <> p -> put f p x q = f q.
Proof. intros H. unfold put. apply N.eqb_neq in H. rewrite H. reflexivity. Qed.
Lemma tset_eq m k v : tset m k v k = v.
Proof. unfold tset. destruct (key_eqb_spec k k); congruence. Qed.
Lemma tset_ne m k v j : j <> k -> tset m k v j = m j.
Proof. intros H. unfold tset. destruct (key_eqb_spec j k); congruence. Qed.

Section Batches.
Variable refs0 : Z.
Variable part : N -> N.
Hypothesis R01 : refs0 = 0%Z \/ refs0 = 1%Z.
Notation at_ e := (part (ev_id e)).
Notation newest := (newest part).
Notation serial := (serial part).
Notation busy := (busy part).
Notation holds := (holds part).
Notation moved := (moved refs0 part).
Notation reached := (reached refs0 part).
Definition over (a b : option event) : option event := match a with Some x => Some x | None => b end.
Notation cnt p l := (count_occ N.eq_dec l p).

Lemma newest_app p k a b : newest p k (a ++ b) = over (newest p k b) (newest p k a).
Proof.
  induction a as [|e a IH]; cbn [newest app]; [destruct (newest p k b); reflexivity|]. rewrite IH.
  destruct (newest p k b); cbn [over]; [reflexivity|]. destruct (newest p k a); reflexivity.
Qed.
Lemma newest_off p k l : Forall (fun e => at_ e <> p) l -> newest p k l = None.
Proof.
  induction l as [|e l IH]; intros F; [reflexivity|]. apply Forall_cons_iff in F. destruct F as [A B].
  cbn [newest]. rewrite (IH B). apply N.eqb_neq in A. rewrite A. reflexivity.
Qed.
Lemma over_none a : over a None = a.
Proof. destruct a; reflexivity. Qed.
Lemma over_assoc a b c : over a (over b c) = over (over a b) c.
Proof. destruct a; reflexivity. Qed.

(* entries of a thread whose effects are in memory and not in the log, newest first *)
Definition undo (s : thread) : list entry :=
  match s with Adding log _ | Holding log _ _ => rev log | Undoing todo => todo | _ => [] end.
Lemma pending_undo s : pending s = map en_event (rev (undo s)).
Proof. destruct s; cbn; rewrite ?rev_involutive; reflexivity. Qed.
Fixpoint chain (p : N) (b : table) (l : list entry) (m : table) : Prop :=
  match l with
  | [] => forall k, m k = b k
  | x :: r => if (at_ (en_event x) =? p)%N
              then exists m', chain p b r m' /\ en_prev x = m' (key_of (en_event x)) /\
                     forall k, m k = tset m' (key_of (en_event x)) (Some (en_event x)) k
              else chain p b r m
  end.
Lemma chain_eq p b l m m' : chain p b l m -> (forall k, m' k = m k) -> chain p b l m'.
Proof.
  revert m m'. induction l as [|x r IH]; intros m m' C E; cbn [chain] in *; [intros k; rewrite E; apply C|].
  destruct (at_ (en_event x) =? p)%N; [|apply (IH m); assumption]. destruct C as [n [C [P Q]]]. exists n. split; [exact C|].
  split; [exact P|]. intros k. rewrite E. apply Q.
Qed.
Lemma chain_off p b l m : Forall (fun x => at_ (en_event x) <> p) l -> chain p b l m <-> (forall k, m k = b k).
Proof.
  induction l as [|x r IH]; intros F; [reflexivity|]. apply Forall_cons_iff in F. destruct F as [A B]. cbn [chain].
  apply N.eqb_neq in A. rewrite A. apply IH, B.
Qed.
Lemma chain_view p b l m k : chain p b l m -> m k = over (newest p k (map en_event (rev l))) (b k).
Proof.
  revert m. induction l as [|x r IH]; intros m C; cbn [chain] in C; [apply C|]. cbn [rev]. rewrite map_app, newest_app. cbn [map newest].
  destruct (at_ (en_event x) =? p)%N eqn:E; cbn [andb].
  - destruct C as [m' [C [P Q]]]. rewrite Q. unfold tset. destruct (key_eqb_spec k (key_of (en_event x))) as [->|N].
    + destruct (key_eqb_spec (key_of (en_event x)) (key_of (en_event x))); [reflexivity|congruence].
    + destruct (key_eqb_spec (key_of (en_event x)) k); [congruence|]. cbn [over]. apply IH, C.
  - cbn [over]. apply IH, C.
Qed.

Definition nobody (y : system) (p : N) : Prop := forall t, ~ In p (holds y t).
Definition lock_ok (y : system) (p : N) : Prop :=
  (lk_owner (y_locks y p) = None /\ nobody y p) \/
  exists t, lk_owner (y_locks y p) = Some t /\ In p (holds y t) /\
    lk_refs (y_locks y p) = (Z.of_nat (cnt p (holds y t)) - 1 + refs0)%Z /\ forall u, u <> t -> ~ In p (holds y u).
Definition inv_locks (y : system) : Prop :=
  (forall p, lock_ok y p) /\ (refs0 = 1%Z \/ forall t, NoDup (holds y t)).
Definition rest_ok (y : system) (p : N) (b : table) : Prop := forall k, over (b k) (below_table y p k) = serial y p k.
Definition inv_data (y : system) : Prop := forall p,
  exists b, rest_ok y p b /\
    (nobody y p -> forall k, y_mem y p k = b k) /\
    forall t, In p (holds y t) -> chain p b (undo (y_threads y t)) (y_mem y p).
Definition touches (p : N) (r : N * list event) : Prop := exists e, In e (snd r) /\ at_ e = p.
Definition smark (y : system) (p : N) : N := match y_side y p with Some (_, n) => n | None => 0%N end.
Definition old (l : list (N * list event)) (n : N) : list (N * list event) := filter (fun r => (fst r <=? n)%N) l.
Definition upto (y : system) (t : table) (n p : N) : Prop := forall k, t k = newest p k (concat (map snd (old (y_log y) n))).
Definition inv_log (y : system) : Prop :=
  StronglySorted N.lt (map fst (y_log y)) /\
  (forall r, In r (y_log y) -> (fst r <= y_lsn y)%N) /\
  (forall p, y_flsn y p <= y_lsn y /\ y_mark y p <= y_lsn y /\ smark y p <= y_lsn y /\ snd (y_disk y p) <= y_lsn y)%N /\
  (forall t n todo, y_threads y t = Committing n todo -> (n <= y_lsn y)%N /\ In n (map fst (y_log y))) /\
  (forall p r, In r (y_log y) -> touches p r -> (fst r <= N.max (N.max (y_flsn y p) (smark y p)) (y_mark y p))%N \/
     exists t todo, y_threads y t = Committing (fst r) todo /\ In p (busy (Committing (fst r) todo))) /\
  (forall p, upto y (y_file y p) (y_flsn y p) p /\ upto y (below_table y p) (N.max (y_flsn y p) (smark y p)) p /\
     upto y (fst (y_disk y p)) (snd (y_disk y p)) p) /\
  (forall r, In r (y_log y) -> In (fst r) (y_acks y) \/ exists t todo, y_threads y t = Committing (fst r) todo) /\
  (forall n, In n (y_acks y) -> In n (map fst (y_log y))).
Definition inv (y : system) : Prop := inv_locks y /\ inv_data y /\ inv_log y.

(* changes of one thread *)
Lemma turn_threads y t s u : y_threads (turn y t s) u = if u =? t then s else y_threads y u.
Proof. reflexivity. Qed.
Lemma holds_turn y t s u : holds (turn y t s) u = y_cursors y u ++ busy (if u =? t then s else y_threads y u).
Proof. reflexivity. Qed.
Lemma cnt_app p a b : cnt p (a ++ b) = (cnt p a + cnt p b)%nat.
Proof. induction a as [|x a IH]; cbn [app count_occ]; [reflexivity|]. destruct (N.eq_dec x p); rewrite IH; reflexivity. Qed.

(* locks: thread t asks for p *)
Lemma lock_step y z t p k :
  inv_locks y -> lock_by refs0 (y_locks y p) t = Some k -> y_locks z = put (y_locks y) p k ->
  (forall u, u <> t -> holds z u = holds y u) ->
  (forall q, cnt q (holds z t) = (cnt q (holds y t) + if N.eq_dec p q then 1 else 0)%nat) ->
  (refs0 = 1%Z \/ ~ In p (holds y t)) -> inv_locks z.
Proof.
  intros [L S] K E Hu Ht A.
  assert (Iq : forall q, In q (holds z t) <-> q = p \/ In q (holds y t)).
  { intros q. rewrite !(count_occ_In N.eq_dec), Ht. destruct (N.eq_dec p q); intuition (try congruence; try lia). }
  assert (Iu : forall q u, u <> t -> In q (holds z u) <-> In q (holds y u)) by (intros; rewrite Hu by assumption; reflexivity).
  split.
  - intros q. unfold lock_ok, nobody. rewrite E. destruct (N.eq_dec q p) as [->|NQ].
    + rewrite put_eq. right. exists t. unfold lock_by in K. destruct (L p) as [[O F]|[o [O [I [R U]]]]]; rewrite O in K.
      * injection K as <-. cbn [lk_owner lk_refs]. split; [reflexivity|]. split; [apply Iq; left; reflexivity|].
        specialize (Ht p). destruct (N.eq_dec p p); [|congruence]. pose proof (F t) as Ft. apply (count_occ_not_In N.eq_dec) in Ft.
        split; [rewrite Ht, Ft; lia|]. intros u NU. rewrite Iu by exact NU. apply F.
      * destruct (Nat.eqb_spec o t) as [EO|]; [|discriminate]. subst t. injection K as <-. cbn [lk_owner lk_refs].
        split; [reflexivity|]. split; [apply Iq; left; reflexivity|]. specialize (Ht p). destruct (N.eq_dec p p); [|congruence].
        split; [rewrite Ht; lia|]. intros u NU. rewrite Iu by exact NU. apply U, NU.
    + rewrite put_ne by exact NQ. destruct (L q) as [[O F]|[o [O [I [R U]]]]].
      * left. split; [exact O|]. intros u. destruct (Nat.eq_dec u t) as [->|NU]; [rewrite Iq; intros [X|X]; [congruence|exact (F t X)]|].
        rewrite Iu by exact NU. apply F.
      * right. exists o. split; [exact O|]. destruct (Nat.eq_dec o t) as [->|NO].
        -- split; [apply Iq; right; exact I|]. specialize (Ht q). destruct (N.eq_dec p q); [congruence|]. split; [rewrite Ht; lia|].
           intros u NU. rewrite Iu by exact NU. apply U, NU.
        -- split; [apply Iu; assumption|]. split; [rewrite Hu by exact NO; exact R|]. intros u NU. destruct (Nat.eq_dec u t) as [->|NT].
           ++ rewrite Iq. intros [X|X]; [congruence|exact (U t NU X)].
           ++ rewrite Iu by exact NT. apply U, NU.
  - destruct S as [S|S]; [left; exact S|]. destruct A as [A|A]; [left; exact A|]. right. intros u.
    destruct (Nat.eq_dec u t) as [->|NU]; [|rewrite Hu by exact NU; apply S]. apply (NoDup_count_occ N.eq_dec). intros q.
    rewrite Ht. pose proof (proj1 (NoDup_count_occ N.eq_dec (holds y t)) (S t) q) as C. destruct (N.eq_dec p q) as [<-|]; [|lia].
    apply (count_occ_not_In N.eq_dec) in A. lia.
Qed.
(* ... and gives it back *)
Lemma unlock_step y z t p :
  inv_locks y -> In p (holds y t) -> y_locks z = put (y_locks y) p (unlock (y_locks y p)) ->
  (forall u, u <> t -> holds z u = holds y u) ->
  (forall q, cnt q (holds y t) = (cnt q (holds z t) + if N.eq_dec p q then 1 else 0)%nat) -> inv_locks z.
Proof.
  intros [L S] Hp E Hu Ht.
  assert (Iu : forall q u, u <> t -> In q (holds z u) <-> In q (holds y u)) by (intros; rewrite Hu by assumption; reflexivity).
  assert (Iq : forall q, q <> p -> In q (holds z t) <-> In q (holds y t)).
  { intros q NQ. rewrite !(count_occ_In N.eq_dec), Ht. destruct (N.eq_dec p q); [congruence|]. rewrite Nat.add_0_r. reflexivity. }
  split.
  - intros q. unfold lock_ok, nobody. rewrite E. destruct (N.eq_dec q p) as [->|NQ].
    + rewrite put_eq. destruct (L p) as [[O F]|[o [O [I [R U]]]]]; [exfalso; exact (F t Hp)|].
      destruct (Nat.eq_dec o t) as [->|NO]; [|exfalso; exact (U t (not_eq_sym NO) Hp)]. specialize (Ht p). destruct (N.eq_dec p p); [|congruence].
      unfold unlock. rewrite R, Ht.
      destruct (Z.ltb_spec 0 (Z.of_nat (cnt p (holds z t) + 1) - 1 + refs0 - 1)) as [G|G].
      * right. exists t. cbn [lk_owner lk_refs]. split; [exact O|]. split; [apply (count_occ_In N.eq_dec); lia|]. split; [lia|].
        intros u NU. rewrite Iu by exact NU. apply U, NU.
      * left. split; [reflexivity|]. assert (Z0 : cnt p (holds z t) = 0%nat).
        { destruct S as [S|S]; [lia|]. pose proof (proj1 (NoDup_count_occ N.eq_dec (holds y t)) (S t) p). lia. }
        intros u. destruct (Nat.eq_dec u t) as [->|NU]; [apply (count_occ_not_In N.eq_dec), Z0|]. rewrite Iu by exact NU. apply U, NU.
    + rewrite put_ne by exact NQ. destruct (L q) as [[O F]|[o [O [I [R U]]]]].
      * left. split; [exact O|]. intros u. destruct (Nat.eq_dec u t) as [->|NU]; [rewrite Iq by exact NQ; apply F|].
        rewrite Iu by exact NU. apply F.
      * right. exists o. split; [exact O|]. destruct (Nat.eq_dec o t) as [->|NO].
        -- split; [apply Iq; assumption|]. specialize (Ht q). destruct (N.eq_dec p q); [congruence|]. split; [rewrite R; lia|].
           intros u NU. rewrite Iu by exact NU. apply U, NU.
        -- split; [apply Iu; assumption|]. split; [rewrite Hu by exact NO; exact R|]. intros u NU. destruct (Nat.eq_dec u t) as [->|NT].
           ++ rewrite Iq by exact NQ. apply U, NU.
           ++ rewrite Iu by exact NT. apply U, NU.
  - destruct S as [S|S]; [left; exact S|]. right. intros u. destruct (Nat.eq_dec u t) as [->|NU]; [|rewrite Hu by exact NU; apply S].
    apply (NoDup_count_occ N.eq_dec). intros q. pose proof (proj1 (NoDup_count_occ N.eq_dec (holds y t)) (S t) q). rewrite Ht in H. lia.
Qed.
Lemma same_locks y z : inv_locks y -> y_locks z = y_locks y -> (forall u q, cnt q (holds z u) = cnt q (holds y u)) -> inv_locks z.
Proof.
  intros [L S] E H. assert (I : forall u q, In q (holds z u) <-> In q (holds y u)) by (intros; rewrite !(count_occ_In N.eq_dec), H; reflexivity).
  split.
  - intros p. unfold lock_ok, nobody. rewrite E. destruct (L p) as [[O F]|[o [O [J [R U]]]]].
    + left. split; [exact O|]. intros t. rewrite I. apply F.
    + right. exists o. rewrite H, I. repeat (split; [assumption|]). intros u NU. rewrite I. apply U, NU.
  - destruct S as [S|S]; [left; exact S|]. right. intros t. apply (NoDup_count_occ N.eq_dec). intros q. rewrite H.
    apply (NoDup_count_occ N.eq_dec), S.
Qed.
Lemma one_holder y t u p : inv_locks y -> In p (holds y t) -> In p (holds y u) -> t = u.
Proof.
  intros [L _] A B. destruct (L p) as [[_ F]|[o [_ [_ [_ U]]]]]; [exfalso; exact (F t A)|].
  destruct (Nat.eq_dec t o) as [->|N]; [|exfalso; exact (U t N A)]. destruct (Nat.eq_dec u o) as [->|N]; [reflexivity|exfalso; exact (U u N B)].
Qed.
Lemma held_or_nobody y p : inv_locks y -> nobody y p \/ exists t, In p (holds y t).
Proof. intros [L _]. destruct (L p) as [[_ F]|[o [_ [I _]]]]; [left; exact F|right; exists o; exact I]. Qed.
Lemma undo_busy s x : In x (undo s) -> In (at_ (en_event x)) (busy s).
Proof.
  destruct s; cbn [undo busy Spec.Batches.busy]; intros H; try contradiction.
  - apply in_rev in H. apply (in_map (fun x => at_ (en_event x))) in H. exact H.
  - apply in_rev in H. apply in_or_app. left. apply (in_map (fun x => at_ (en_event x))) in H. exact H.
  - apply (in_map (fun x => at_ (en_event x))) in H. exact H.
Qed.
Lemma undo_off y t p : ~ In p (holds y t) -> Forall (fun x => at_ (en_event x) <> p) (undo (y_threads y t)).
Proof. intros H. apply Forall_forall. intros x I E. apply H. apply in_or_app. right. rewrite <- E. apply undo_busy, I. Qed.
End Batches.
