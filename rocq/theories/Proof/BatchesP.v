(* Batches of several threads: every move keeps the invariant. *)
From Coq Require Import NArith ZArith Arith List Bool Lia Sorted Permutation.
Import ListNotations.
From Verif Require Import Model.Base Model.Event Model.Batches Spec.Batches Proof.BatchesL.

Section Batches.
Variable refs0 : Z.
Variable part : N -> N.
Hypothesis R01 : refs0 = 0%Z \/ refs0 = 1%Z.
Notation at_ e := (part (ev_id e)).
Notation newest := (newest part).
Notation serial := (serial part).
Notation busy := (busy part).
Notation holds := (holds part).
Notation moved := (moved refs0 part).
Notation chain := (chain part).
Notation nobody := (nobody part).
Notation inv_locks := (inv_locks refs0 part).
Notation inv_data := (inv_data part).
Notation inv_log := (inv_log part).
Notation inv := (inv refs0 part).
Notation touches := (touches part).
Notation upto := (upto part).
Notation cnt p l := (count_occ N.eq_dec l p).

Lemma data_keep y z : inv_data y -> y_mem z = y_mem y -> y_file z = y_file y -> y_side z = y_side y -> y_log z = y_log y ->
  (forall u, undo (y_threads z u) = undo (y_threads y u)) ->
  (forall p t, In p (holds z t) -> In p (holds y t) \/ nobody y p) ->
  (forall p, nobody z p -> nobody y p \/ exists t, In p (holds y t) /\ Forall (fun x => at_ (en_event x) <> p) (undo (y_threads y t))) ->
  inv_data z.
Proof.
  intros D M F SD L U H N p. destruct (D p) as [b [R [B C]]]. exists b. unfold rest_ok, below_table, Spec.Batches.serial in *. rewrite M, F, SD, L.
  split; [exact R|]. split.
  - intros X. destruct (N p X) as [Y|[t [Y Z]]]; [apply B, Y|]. apply (chain_off part p b _ _ Z), C, Y.
  - intros t X. rewrite U. destruct (H p t X) as [Y|Y]; [apply C, Y|]. apply (chain_off part); [|apply B, Y].
    apply (undo_off part y), Y.
Qed.
Lemma log_keep y z : inv_log y -> y_log z = y_log y -> y_lsn z = y_lsn y -> y_file z = y_file y -> y_flsn z = y_flsn y ->
  y_mark z = y_mark y -> y_side z = y_side y -> y_disk z = y_disk y -> y_acks z = y_acks y ->
  (forall u n todo, y_threads z u = Committing n todo <-> y_threads y u = Committing n todo) -> inv_log z.
Proof.
  intros (A & B & C & D & E & F & G & H) L1 L2 L3 L4 L5 L7 L8 L6 T. unfold BatchesL.inv_log, BatchesL.upto, below_table, smark in *.
  rewrite L1, L2, L3, L4, L5, L6, L7, L8. repeat split.
  - exact A.
  - exact B.
  - apply C.
  - apply C.
  - apply C.
  - apply C.
  - apply T in H0. apply (D t n todo H0).
  - apply T in H0. apply (D t n todo H0).
  - intros p r I J. destruct (E p r I J) as [X|[t [todo [X Y]]]]; [left; exact X|right; exists t, todo; split; [apply T, X|exact Y]].
  - apply F.
  - apply F.
  - apply F.
  - intros r I. destruct (G r I) as [X|[t [todo X]]]; [left; exact X|right; exists t, todo; apply T, X].
  - exact H.
Qed.
Lemma cnt1 p q : cnt q [p] = if N.eq_dec p q then 1 else 0.
Proof. cbn [count_occ]. destruct (N.eq_dec p q); reflexivity. Qed.
Lemma other y z t : (forall u, u <> t -> y_threads z u = y_threads y u /\ y_cursors z u = y_cursors y u) ->
  forall u, u <> t -> holds z u = holds y u.
Proof. intros H u N. unfold Spec.Batches.holds. destruct (H u N) as [-> ->]. reflexivity. Qed.
Lemma ne_eqb u t : u <> t -> (u =? t) = false.
Proof. apply Nat.eqb_neq. Qed.
Ltac others := let u := fresh "u" in let NU := fresh "NU" in
  try match goal with z := _ : system |- _ => subst z end; intros u NU; unfold Spec.Batches.holds; cbn [turn with_lock with_mem with_mark with_ack with_log with_cursors y_threads y_cursors];
  rewrite ?(ne_eqb _ _ NU); reflexivity.

(* Begin *)
Lemma begin_inv y t l : inv y -> y_threads y t = Idle -> inv (turn y t (Adding [] l)).
Proof.
  intros (L & D & G) T.
  assert (Hh : forall u, holds (turn y t (Adding [] l)) u = holds y u).
  { intros u. rewrite holds_turn. unfold Spec.Batches.holds. destruct (Nat.eqb_spec u t) as [->|]; [rewrite T; reflexivity|reflexivity]. }
  split; [|split].
  - apply (same_locks refs0 part y); [exact L|reflexivity|]. intros. rewrite Hh. reflexivity.
  - apply (data_keep y); try reflexivity; [exact D| | |].
    + intros u. cbn [turn y_threads]. destruct (Nat.eqb_spec u t) as [->|]; [rewrite T; reflexivity|reflexivity].
    + intros p u. rewrite Hh. tauto.
    + intros p X. left. intros u. rewrite <- Hh. apply X.
  - apply (log_keep y); try reflexivity; [exact G|]. intros u n todo. cbn [turn y_threads].
    destruct (Nat.eqb_spec u t) as [->|]; [rewrite T; split; discriminate|reflexivity].
Qed.
(* Fail *)
Lemma fail_inv y t log l : inv y -> y_threads y t = Adding log l -> inv (turn y t (Undoing (rev log))).
Proof.
  intros (L & D & G) T.
  assert (Hh : forall u q, cnt q (holds (turn y t (Undoing (rev log))) u) = cnt q (holds y u)).
  { intros u q. rewrite holds_turn. unfold Spec.Batches.holds. rewrite !cnt_app. destruct (Nat.eqb_spec u t) as [->|]; [|reflexivity].
    rewrite T. cbn [Spec.Batches.busy]. rewrite map_rev. f_equal. apply (Permutation_count_occ N.eq_dec). symmetry. apply Permutation_rev. }
  assert (Hi : forall u q, In q (holds (turn y t (Undoing (rev log))) u) <-> In q (holds y u)) by (intros; rewrite !(count_occ_In N.eq_dec), Hh; reflexivity).
  split; [|split].
  - apply (same_locks refs0 part y); [exact L|reflexivity|exact Hh].
  - apply (data_keep y); try reflexivity; [exact D| | |].
    + intros u. cbn [turn y_threads]. destruct (Nat.eqb_spec u t) as [->|]; [rewrite T; reflexivity|reflexivity].
    + intros p u. rewrite Hi. tauto.
    + intros p X. left. intros u. rewrite <- Hi. apply X.
  - apply (log_keep y); try reflexivity; [exact G|]. intros u n todo. cbn [turn y_threads].
    destruct (Nat.eqb_spec u t) as [->|]; [rewrite T; split; discriminate|reflexivity].
Qed.
(* a lock is taken: by a writer, by a cursor *)
Lemma taken_inv y z t p k : inv y -> lock_by refs0 (y_locks y p) t = Some k -> y_locks z = put (y_locks y) p k ->
  (forall u, u <> t -> y_threads z u = y_threads y u /\ y_cursors z u = y_cursors y u) ->
  (forall q, cnt q (holds z t) = (cnt q (holds y t) + if N.eq_dec p q then 1 else 0)%nat) ->
  (refs0 = 1%Z \/ ~ In p (holds y t)) -> undo (y_threads z t) = undo (y_threads y t) ->
  (forall n todo, y_threads z t = Committing n todo <-> y_threads y t = Committing n todo) ->
  y_mem z = y_mem y -> y_file z = y_file y -> y_log z = y_log y -> y_lsn z = y_lsn y -> y_flsn z = y_flsn y ->
  y_mark z = y_mark y -> y_side z = y_side y -> y_disk z = y_disk y -> y_acks z = y_acks y -> inv z.
Proof.
  intros (L & D & G) K E O H A U C. intros M1 M2 M3 M4 M5 M6 M8 M9 M7.
  pose proof (other y z t O) as Hu.
  assert (Iq : forall q, In q (holds z t) <-> q = p \/ In q (holds y t)).
  { intros q. rewrite !(count_occ_In N.eq_dec), H. destruct (N.eq_dec p q); intuition (try congruence; try lia). }
  split; [|split].
  - apply (lock_step refs0 part R01 y z t p k); assumption.
  - apply (data_keep y); try assumption.
    + intros u. destruct (Nat.eq_dec u t) as [->|N]; [exact U|]. rewrite (proj1 (O u N)). reflexivity.
    + intros q u X. destruct (Nat.eq_dec u t) as [->|N]; [|left; rewrite Hu in X by exact N; exact X].
      apply Iq in X. destruct X as [->|X]; [|left; exact X]. unfold lock_by in K. destruct (proj1 L p) as [[W F]|[o [W [I [R Uo]]]]]; [right; exact F|].
      rewrite W in K. destruct (Nat.eqb_spec o t) as [EO|]; [|discriminate]. subst o. left. exact I.
    + intros q X. left. intros u Y. apply (X u). destruct (Nat.eq_dec u t) as [->|N]; [apply Iq; right; exact Y|]. rewrite Hu by exact N. exact Y.
  - apply (log_keep y); try assumption. intros u n todo. destruct (Nat.eq_dec u t) as [->|N]; [apply C|]. rewrite (proj1 (O u N)). reflexivity.
Qed.
(* a cursor is closed *)
Lemma remove1_cnt p l q : In p l -> cnt q l = (cnt q (remove1 p l) + if N.eq_dec p q then 1 else 0)%nat.
Proof.
  induction l as [|x l IH]; intros I; [contradiction|]. cbn [remove1 count_occ]. destruct (N.eqb_spec x p) as [->|N].
  - destruct (N.eq_dec p q); lia.
  - destruct I as [I|I]; [congruence|]. specialize (IH I). cbn [count_occ]. destruct (N.eq_dec x q); lia.
Qed.
Lemma close_inv y t p : inv y -> y_threads y t = Idle -> In p (y_cursors y t) ->
  inv (with_cursors (with_lock y p (unlock (y_locks y p))) t (remove1 p (y_cursors y t))).
Proof.
  intros (L & D & G) T I. set (z := with_cursors _ _ _).
  assert (Hp : In p (holds y t)) by (apply in_or_app; left; exact I).
  assert (Hu : forall u, u <> t -> holds z u = holds y u) by others.
  assert (Ht : forall q, cnt q (holds y t) = (cnt q (holds z t) + if N.eq_dec p q then 1 else 0)%nat).
  { intros q. unfold Spec.Batches.holds. cbn [z with_cursors with_lock y_threads y_cursors]. rewrite Nat.eqb_refl, T. cbn [Spec.Batches.busy].
    rewrite !app_nil_r. apply remove1_cnt, I. }
  split; [|split].
  - apply (unlock_step refs0 part R01 y z t p); auto.
  - apply (data_keep y); try reflexivity; [exact D| |].
    + intros q u X. left. destruct (Nat.eq_dec u t) as [->|N]; [|rewrite Hu in X by exact N; exact X].
      apply (count_occ_In N.eq_dec). apply (count_occ_In N.eq_dec) in X. rewrite Ht. lia.
    + intros q X. destruct (held_or_nobody refs0 part y q L) as [Y|[u Y]]; [left; exact Y|right]. exists u. split; [exact Y|].
      destruct (Nat.eq_dec u t) as [->|N]; [rewrite T; constructor|]. exfalso. apply (X u). rewrite Hu by exact N. exact Y.
  - apply (log_keep y); try reflexivity. exact G.
Qed.
(* an event is put into memory *)
Lemma set_inv y t log e rest : inv y -> y_threads y t = Holding log e rest ->
  inv (turn (with_mem y (at_ e) (tset (y_mem y (at_ e)) (key_of e) (Some e))) t
         (Adding (log ++ [mk_entry e (y_mem y (at_ e) (key_of e))]) rest)).
Proof.
  intros (L & D & G) T. set (p := at_ e). set (z := turn _ _ _).
  assert (Hh : forall u, holds z u = holds y u).
  { intros u. unfold z. rewrite holds_turn. unfold Spec.Batches.holds. destruct (Nat.eqb_spec u t) as [->|]; [|reflexivity].
    rewrite T. cbn [Spec.Batches.busy]. rewrite map_app. reflexivity. }
  assert (Hp : In p (holds y t)) by (apply in_or_app; right; rewrite T; cbn [Spec.Batches.busy]; apply in_or_app; right; left; reflexivity).
  split; [|split].
  - apply (same_locks refs0 part y); [exact L|reflexivity|]. intros. rewrite Hh. reflexivity.
  - intros q. destruct (D q) as [b [R [B C]]]. exists b. split; [exact R|]. split.
    + intros X k. cbn [z turn with_mem y_mem]. destruct (N.eq_dec q p) as [->|NQ]; [exfalso; apply (X t); rewrite Hh; exact Hp|].
      rewrite put_ne by exact NQ. apply B. intros u. rewrite <- Hh. apply X.
    + intros u. rewrite Hh. intros X. cbn [z turn with_mem y_mem y_threads]. destruct (Nat.eqb_spec u t) as [->|NU].
      * cbn [undo]. rewrite rev_app_distr. cbn [rev app BatchesL.chain en_event en_prev]. specialize (C t X). rewrite T in C. cbn [undo] in C.
        fold p. destruct (N.eqb_spec p q) as [<-|NP].
        -- rewrite put_eq. exists (y_mem y p). split; [exact C|]. split; [reflexivity|]. reflexivity.
        -- rewrite put_ne by congruence. exact C.
      * destruct (N.eq_dec q p) as [->|NQ]; [exfalso; apply NU; apply (one_holder refs0 part y u t p L X Hp)|].
        rewrite put_ne by exact NQ. apply C, X.
  - apply (log_keep y); try reflexivity; [exact G|]. intros u n todo. cbn [z turn with_mem y_threads].
    destruct (Nat.eqb_spec u t) as [->|]; [rewrite T; split; discriminate|reflexivity].
Qed.
(* an entry is undone *)
Lemma undo_inv y t x todo : inv y -> y_threads y t = Undoing (x :: todo) ->
  inv (turn (with_lock (with_mem y (at_ (en_event x)) (tset (y_mem y (at_ (en_event x))) (key_of (en_event x)) (en_prev x)))
               (at_ (en_event x)) (unlock (y_locks y (at_ (en_event x))))) t (Undoing todo)).
Proof.
  intros (L & D & G) T. set (p := at_ (en_event x)). set (z := turn _ _ _).
  assert (Hu : forall u, u <> t -> holds z u = holds y u) by others.
  assert (Ht : forall q, cnt q (holds y t) = (cnt q (holds z t) + if N.eq_dec p q then 1 else 0)%nat).
  { intros q. unfold z. rewrite holds_turn, Nat.eqb_refl. unfold Spec.Batches.holds. rewrite T. cbn [Spec.Batches.busy map with_lock with_mem y_cursors].
    rewrite !cnt_app. cbn [count_occ]. fold p. destruct (N.eq_dec p q); lia. }
  assert (Hp : In p (holds y t)) by (apply in_or_app; right; rewrite T; left; reflexivity).
  split; [|split].
  - apply (unlock_step refs0 part R01 y z t p); auto.
  - intros q. destruct (D q) as [b [R [B C]]]. exists b. split; [exact R|].
    assert (CT : chain q b todo (y_mem z q) \/ ~ In q (holds y t)).
    { destruct (in_dec N.eq_dec q (holds y t)) as [X|X]; [left|right; exact X]. specialize (C t X). rewrite T in C. cbn [undo BatchesL.chain] in C.
      fold p in C. cbn [z turn with_lock with_mem y_mem]. destruct (N.eqb_spec p q) as [<-|NP].
      - rewrite put_eq. destruct C as [m' [C [P Q]]]. apply (chain_eq part p b todo m'); [exact C|]. intros k.
        destruct (key_eqb_spec k (key_of (en_event x))) as [->|NK]; [rewrite tset_eq; exact P|]. rewrite tset_ne, Q, tset_ne by exact NK. reflexivity.
      - rewrite put_ne by congruence. exact C. }
    assert (MQ : ~ In q (holds y t) -> y_mem z q = y_mem y q).
    { intros X. cbn [z turn with_lock with_mem y_mem]. apply put_ne. intros ->. exact (X Hp). }
    split.
    + intros X k. destruct (held_or_nobody refs0 part y q L) as [Y|[u Y]].
      * rewrite MQ by apply Y. apply B, Y.
      * destruct (Nat.eq_dec u t) as [->|NU]; [|exfalso; apply (X u); rewrite Hu by exact NU; exact Y].
        destruct CT as [CT|CT]; [|exfalso; exact (CT Y)]. revert k. apply (chain_off part q b todo); [|exact CT].
        apply Forall_forall. intros w I EW. apply (X t). unfold z. rewrite holds_turn, Nat.eqb_refl. apply in_or_app. right.
        cbn [Spec.Batches.busy]. rewrite <- EW. apply (in_map (fun x => at_ (en_event x))), I.
    + intros u X. cbn [z turn with_lock with_mem y_threads]. destruct (Nat.eqb_spec u t) as [->|NU].
      * cbn [undo]. destruct CT as [CT|CT]; [exact CT|]. exfalso. apply CT. apply (count_occ_In N.eq_dec). apply (count_occ_In N.eq_dec) in X. rewrite Ht. lia.
      * rewrite Hu in X by exact NU. assert (NQ : ~ In q (holds y t)) by (intros Y; apply NU; apply (one_holder refs0 part y u t q L X Y)).
        fold z. rewrite (MQ NQ). apply C, X.
  - apply (log_keep y); try reflexivity; [exact G|]. intros u n td. cbn [z turn with_lock with_mem y_threads].
    destruct (Nat.eqb_spec u t) as [->|]; [rewrite T; split; discriminate|reflexivity].
Qed.
Lemma undone_inv y t : inv y -> y_threads y t = Undoing [] -> inv (turn y t Idle).
Proof.
  intros (L & D & G) T.
  assert (Hh : forall u, holds (turn y t Idle) u = holds y u).
  { intros u. rewrite holds_turn. unfold Spec.Batches.holds. destruct (Nat.eqb_spec u t) as [->|]; [rewrite T; reflexivity|reflexivity]. }
  split; [|split].
  - apply (same_locks refs0 part y); [exact L|reflexivity|]. intros. rewrite Hh. reflexivity.
  - apply (data_keep y); try reflexivity; [exact D| | |].
    + intros u. cbn [turn y_threads]. destruct (Nat.eqb_spec u t) as [->|]; [rewrite T; reflexivity|reflexivity].
    + intros p u. rewrite Hh. tauto.
    + intros p X. left. intros u. rewrite <- Hh. apply X.
  - apply (log_keep y); try reflexivity; [exact G|]. intros u n todo. cbn [turn y_threads].
    destruct (Nat.eqb_spec u t) as [->|]; [rewrite T; split; discriminate|reflexivity].
Qed.
(* the record is written *)
Lemma filter_app_off {A} (f : A -> bool) l x : f x = false -> filter f (l ++ [x]) = filter f l.
Proof. intros H. rewrite filter_app. cbn [filter]. rewrite H. apply app_nil_r. Qed.
Lemma sorted_snoc l n : StronglySorted N.lt l -> Forall (fun x => x < n)%N l -> StronglySorted N.lt (l ++ [n]).
Proof.
  induction l as [|a l IH]; intros S F; cbn [app]; [constructor; constructor|]. inversion S; subst. apply Forall_cons_iff in F. destruct F as [A B].
  constructor; [apply IH; assumption|]. apply Forall_app. split; [assumption|]. constructor; [exact A|constructor].
Qed.
Lemma logged_inv y t log : inv y -> y_threads y t = Adding log [] ->
  inv (turn (with_log y ((y_lsn y + 1)%N, map en_event log)) t (Committing (y_lsn y + 1) log)).
Proof.
  intros (L & D & G) T. set (n := (y_lsn y + 1)%N). set (z := turn _ _ _).
  assert (Hh : forall u, holds z u = holds y u).
  { intros u. unfold z. rewrite holds_turn. unfold Spec.Batches.holds. destruct (Nat.eqb_spec u t) as [->|]; [|reflexivity]. rewrite T. reflexivity. }
  assert (SE : forall p k, serial z p k = over (newest p k (map en_event log)) (serial y p k)).
  { intros p k. unfold Spec.Batches.serial. cbn [z turn with_log y_log]. rewrite map_app, concat_app, newest_app. cbn [map concat snd].
    rewrite app_nil_r. reflexivity. }
  assert (OFF : forall p, ~ In p (holds y t) -> forall k, newest p k (map en_event log) = None).
  { intros p X k. apply newest_off. apply Forall_forall. intros e I E. apply in_map_iff in I. destruct I as [x [<- I]]. apply X. apply in_or_app. right.
    rewrite T. cbn [Spec.Batches.busy]. rewrite <- E. apply (in_map (fun x => at_ (en_event x))), I. }
  split; [|split].
  - apply (same_locks refs0 part y); [exact L|reflexivity|]. intros. rewrite Hh. reflexivity.
  - intros p. destruct (D p) as [b [R [B C]]]. destruct (in_dec N.eq_dec p (holds y t)) as [X|X].
    + exists (y_mem y p). pose proof (C t X) as CT. rewrite T in CT. cbn [undo] in CT. split; [|split].
      * intros k. rewrite SE, <- (R k). pose proof (chain_view part p b _ _ k CT) as V. rewrite rev_involutive in V. rewrite V.
        destruct (newest p k (map en_event log)); reflexivity.
      * intros Y k. reflexivity.
      * intros u. rewrite Hh. intros Y. assert (u = t) as -> by (apply (one_holder refs0 part y u t p L Y X)).
        cbn [z turn with_log y_threads y_mem]. rewrite Nat.eqb_refl. cbn [undo BatchesL.chain]. reflexivity.
    + exists b. split; [intros k; rewrite SE, (OFF p X k); apply R|]. split.
      * intros Y. apply B. intros u. rewrite <- Hh. apply Y.
      * intros u. rewrite Hh. intros Y. cbn [z turn with_log y_threads y_mem]. destruct (Nat.eqb_spec u t) as [->|]; [contradiction|apply C, Y].
  - destruct G as (A & B & C & D' & E & F & H & J). unfold BatchesL.inv_log. cbn [z turn with_log y_log y_lsn y_flsn y_mark y_disk y_file y_acks y_threads fst].
    assert (OE : forall m q t0, (m <= y_lsn y)%N -> upto y t0 m q -> upto z t0 m q).
    { intros m q t0 M U k. rewrite (U k). cbn [z turn with_log y_log]. unfold old. rewrite filter_app_off; [reflexivity|]. cbn [fst]. apply N.leb_gt. lia. }
    split; [rewrite map_app; cbn [map fst]; apply sorted_snoc; [exact A|]; apply Forall_forall; intros i I; apply in_map_iff in I; destruct I as [r [<- I]]; specialize (B r I); lia|].
    split; [intros r I; apply in_app_or in I; destruct I as [I|[<-|[]]]; [specialize (B r I); lia|cbn [fst]; lia]|].
    split; [intros p; specialize (C p); change (smark z p) with (smark y p); lia|].
    split.
    { intros u m todo. rewrite map_app. destruct (Nat.eqb_spec u t) as [->|NU].
      - intros X. injection X as <- <-. split; [lia|]. apply in_or_app. right. left. reflexivity.
      - intros X. destruct (D' u m todo X) as [X1 X2]. split; [lia|]. apply in_or_app. left. exact X2. }
    split.
    { intros p r I J'. apply in_app_or in I. destruct I as [I|[<-|[]]].
      - destruct (E p r I J') as [X|[u [todo [X Y]]]]; [left; exact X|right]. exists u, todo. split; [|exact Y].
        destruct (Nat.eqb_spec u t) as [->|]; [congruence|exact X].
      - right. exists t, log. rewrite Nat.eqb_refl. split; [reflexivity|]. destruct J' as [e [I Q]]. cbn [snd] in I. apply in_map_iff in I.
        destruct I as [x [<- I]]. cbn [Spec.Batches.busy fst]. rewrite <- Q. apply (in_map (fun x => at_ (en_event x))), I. }
    split; [intros p; specialize (C p); destruct (F p) as (F1 & F2 & F3); split; [|split]; apply OE; try assumption; change (smark z p) with (smark y p); lia|].
    split.
    { intros r I. apply in_app_or in I. destruct I as [I|[<-|[]]].
      - destruct (H r I) as [X|[u [todo X]]]; [left; exact X|right]. exists u, todo. destruct (Nat.eqb_spec u t) as [->|]; [congruence|exact X].
      - right. exists t, log. rewrite Nat.eqb_refl. reflexivity. }
    intros m I. rewrite map_app. apply in_or_app. left. apply J, I.
Qed.
(* engine_commit *)
Lemma commit_inv y t n x todo : inv y -> y_threads y t = Committing n (x :: todo) ->
  inv (turn (with_lock (with_mark y (at_ (en_event x)) (N.max (y_mark y (at_ (en_event x))) n)) (at_ (en_event x))
               (unlock (y_locks y (at_ (en_event x))))) t (Committing n todo)).
Proof.
  intros (L & D & G) T. set (p := at_ (en_event x)). set (z := turn _ _ _).
  assert (Hu : forall u, u <> t -> holds z u = holds y u) by others.
  assert (Ht : forall q, cnt q (holds y t) = (cnt q (holds z t) + if N.eq_dec p q then 1 else 0)%nat).
  { intros q. unfold z. rewrite holds_turn, Nat.eqb_refl. unfold Spec.Batches.holds. rewrite T. cbn [Spec.Batches.busy map with_lock with_mark y_cursors].
    rewrite !cnt_app. cbn [count_occ]. fold p. destruct (N.eq_dec p q); lia. }
  assert (Hp : In p (holds y t)) by (apply in_or_app; right; rewrite T; left; reflexivity).
  split; [|split].
  - apply (unlock_step refs0 part R01 y z t p); auto.
  - apply (data_keep y); try reflexivity; [exact D| | |].
    + intros u. cbn [z turn with_lock with_mark y_threads]. destruct (Nat.eqb_spec u t) as [->|]; [rewrite T; reflexivity|reflexivity].
    + intros q u X. left. destruct (Nat.eq_dec u t) as [->|N]; [|rewrite Hu in X by exact N; exact X].
      apply (count_occ_In N.eq_dec). apply (count_occ_In N.eq_dec) in X. rewrite Ht. lia.
    + intros q X. destruct (held_or_nobody refs0 part y q L) as [Y|[u Y]]; [left; exact Y|right]. exists u. split; [exact Y|].
      destruct (Nat.eq_dec u t) as [->|N]; [rewrite T; constructor|]. exfalso. apply (X u). rewrite Hu by exact N. exact Y.
  - destruct G as (A & B & C & D' & E & F & H & J). unfold BatchesL.inv_log.
    cbn [z turn with_lock with_mark y_log y_lsn y_flsn y_mark y_disk y_file y_acks y_threads].
    destruct (D' t n _ T) as [N1 N2].
    split; [exact A|]. split; [exact B|].
    split; [intros q; specialize (C q); change (smark z q) with (smark y q); destruct (N.eq_dec q p) as [->|NQ]; [rewrite put_eq|rewrite put_ne by exact NQ]; lia|].
    split.
    { intros u m td. destruct (Nat.eqb_spec u t) as [->|NU]; [intros X; injection X as <- <-; split; assumption|apply D']. }
    split.
    { intros q r I K. change (smark z q) with (smark y q). destruct (E q r I K) as [X|[u [td [X Y]]]].
      - left. destruct (N.eq_dec q p) as [->|NQ]; [rewrite put_eq; lia|rewrite put_ne by exact NQ; exact X].
      - destruct (Nat.eq_dec u t) as [->|NU].
        + rewrite T in X. injection X as EN ET. rewrite <- ET in Y. cbn [Spec.Batches.busy map] in Y. destruct Y as [Y|Y].
          * left. fold p in Y. rewrite <- Y, put_eq. lia.
          * right. exists t, todo. rewrite Nat.eqb_refl. split; [rewrite EN; reflexivity|]. cbn [Spec.Batches.busy]. exact Y.
        + right. exists u, td. apply Nat.eqb_neq in NU. rewrite NU. split; assumption. }
    split; [exact F|].
    split; [|exact J].
    intros r I. destruct (H r I) as [X|[u [td X]]]; [left; exact X|right]. destruct (Nat.eq_dec u t) as [->|NU].
    + exists t, todo. rewrite Nat.eqb_refl. rewrite T in X. injection X as EN _. rewrite EN. reflexivity.
    + exists u, td. apply Nat.eqb_neq in NU. rewrite NU. exact X.
Qed.
Lemma acked_inv y t n : inv y -> y_threads y t = Committing n [] -> inv (turn (with_ack y n) t Idle).
Proof.
  intros (L & D & G) T. set (z := turn _ _ _).
  assert (Hh : forall u, holds z u = holds y u).
  { intros u. unfold z. rewrite holds_turn. unfold Spec.Batches.holds. destruct (Nat.eqb_spec u t) as [->|]; [rewrite T; reflexivity|reflexivity]. }
  split; [|split].
  - apply (same_locks refs0 part y); [exact L|reflexivity|]. intros. rewrite Hh. reflexivity.
  - apply (data_keep y); try reflexivity; [exact D| | |].
    + intros u. cbn [z turn with_ack y_threads]. destruct (Nat.eqb_spec u t) as [->|]; [rewrite T; reflexivity|reflexivity].
    + intros p u. rewrite Hh. tauto.
    + intros p X. left. intros u. rewrite <- Hh. apply X.
  - destruct G as (A & B & C & D' & E & F & H & J). unfold BatchesL.inv_log.
    cbn [z turn with_ack y_log y_lsn y_flsn y_mark y_file y_acks y_threads]. destruct (D' t n _ T) as [N1 N2].
    split; [exact A|]. split; [exact B|]. split; [exact C|].
    split; [intros u m td; destruct (Nat.eqb_spec u t); [discriminate|apply D']|].
    split.
    { intros q r I K. destruct (E q r I K) as [X|[u [td [X Y]]]]; [left; exact X|]. destruct (Nat.eq_dec u t) as [->|NU].
      - rewrite T in X. injection X as EN ET. rewrite <- ET in Y. destruct Y.
      - right. exists u, td. apply Nat.eqb_neq in NU. rewrite NU. split; assumption. }
    split; [exact F|].
    split.
    { intros r I. destruct (H r I) as [X|[u [td X]]]; [left; apply in_or_app; left; exact X|]. destruct (Nat.eq_dec u t) as [->|NU].
      - left. apply in_or_app. right. left. rewrite T in X. injection X as EN _. exact EN.
      - right. exists u, td. apply Nat.eqb_neq in NU. rewrite NU. exact X. }
    intros m I. apply in_app_or in I. destruct I as [I|[<-|[]]]; [apply J, I|exact N2].
Qed.
(* a refresh *)
Lemma newest_filter p k (f : N * list event -> bool) l : (forall r, In r l -> f r = false -> ~ touches p r) ->
  newest p k (concat (map snd (filter f l))) = newest p k (concat (map snd l)).
Proof.
  induction l as [|r l IH]; intros H; [reflexivity|]. cbn [filter map concat]. rewrite newest_app, <- IH by (intros; apply H; [right|]; assumption).
  destruct (f r) eqn:E.
  - cbn [map concat]. rewrite newest_app. reflexivity.
  - rewrite (newest_off part p k (snd r)); [|apply Forall_forall; intros e I Q; apply (H r (or_introl eq_refl) E); exists e; split; assumption].
    destruct (newest p k (concat (map snd (filter f l)))); reflexivity.
Qed.
Lemma below_over y p k : below_table y p k = over (match y_side y p with Some (m, _) => m k | None => None end) (y_file y p k).
Proof. unfold below_table. destruct (y_side y p) as [[m n]|]; [destruct (m k)|]; reflexivity. Qed.
Lemma unlocked_nobody y p : inv y -> lk_owner (y_locks y p) = None -> nobody y p.
Proof. intros (L & _) O. destruct (proj1 L p) as [[_ F]|[o [W _]]]; [exact F|congruence]. Qed.
Lemma rotate_inv y p : inv y -> lk_owner (y_locks y p) = None -> y_side y p = None -> inv (moved y (Rotate p)).
Proof.
  intros IV O SD. pose proof (unlocked_nobody y p IV O) as NB. destruct IV as (L & D & G). cbn [Model.Batches.moved]. rewrite O, SD.
  set (z := mk_system _ _ _ _ _ _ _ _ _ _ _ _).
  assert (BE : forall q k, q <> p -> below_table z q k = below_table y q k).
  { intros q k N. unfold below_table. cbn [z y_side y_file]. rewrite put_ne by exact N. reflexivity. }
  assert (SE : forall q, q <> p -> smark z q = smark y q).
  { intros q N. unfold smark. cbn [z y_side]. rewrite put_ne by exact N. reflexivity. }
  assert (V : forall k, below_table z p k = serial y p k).
  { intros k. destruct (D p) as [b [R [B _]]]. rewrite <- (R k), (below_over y), SD, (below_over z). cbn [z y_side y_file]. rewrite put_eq, (B NB k). reflexivity. }
  assert (SP : smark z p = y_mark y p) by (unfold smark; cbn [z y_side]; rewrite put_eq; reflexivity).
  assert (S0 : smark y p = 0%N) by (unfold smark; rewrite SD; reflexivity).
  split; [|split].
  - apply (same_locks refs0 part y); [exact L|reflexivity|reflexivity].
  - intros q. destruct (N.eq_dec q p) as [->|NQ].
    + exists (fun _ => None). split; [|split].
      * intros k. cbn [over]. apply V.
      * intros _ k. cbn [z y_mem]. rewrite put_eq. reflexivity.
      * intros u X. exfalso. exact (NB u X).
    + destruct (D q) as [b [R [B C]]]. exists b. split; [intros k; rewrite BE by exact NQ; apply R|]. cbn [z y_mem y_threads]. rewrite !put_ne by exact NQ.
      split; [exact B|exact C].
  - destruct G as (A & B & C & D' & E & F & H & J). unfold BatchesL.inv_log. cbn [z y_log y_lsn y_flsn y_mark y_disk y_file y_acks y_threads].
    assert (Q : forall r, In r (y_log y) -> touches p r -> (fst r <= N.max (y_flsn y p) (y_mark y p))%N).
    { intros r I K. destruct (E p r I K) as [X|[u [td [X Y]]]]; [lia|]. exfalso. apply (NB u). apply in_or_app. right. rewrite X. exact Y. }
    split; [exact A|]. split; [exact B|].
    split; [intros q; specialize (C q); destruct (N.eq_dec q p) as [->|NQ]; [rewrite !put_eq, SP|rewrite !put_ne, SE by exact NQ]; lia|].
    split; [exact D'|].
    split.
    { intros q r I K. destruct (N.eq_dec q p) as [->|NQ]; [left; rewrite !put_eq, SP; specialize (Q r I K); lia|]. rewrite !put_ne, SE by exact NQ. apply E; assumption. }
    split; [|split; [exact H|exact J]].
    intros q. destruct (F q) as (F1 & F2 & F3). split; [exact F1|]. split; [|exact F3]. destruct (N.eq_dec q p) as [->|NQ].
    + intros k. rewrite SP, V. unfold Spec.Batches.serial. symmetry. apply newest_filter. intros r I X K. apply N.leb_gt in X. specialize (Q r I K). lia.
    + intros k. rewrite BE, SE by exact NQ. apply F2.
Qed.
Lemma apply_inv y p m n : inv y -> lk_owner (y_locks y p) = None -> y_side y p = Some (m, n) -> inv (moved y (Apply p)).
Proof.
  intros IV O SD. destruct IV as (L & D & G). cbn [Model.Batches.moved]. rewrite O, SD.
  set (z := mk_system _ _ _ _ _ _ _ _ _ _ _ _).
  assert (BE : forall q k, below_table z q k = below_table y q k).
  { intros q k. unfold below_table at 1. cbn [z y_side y_file]. destruct (N.eq_dec q p) as [->|N]; [rewrite !put_eq; reflexivity|rewrite !put_ne by exact N; reflexivity]. }
  assert (SE : forall q, N.max (y_flsn z q) (smark z q) = N.max (y_flsn y q) (smark y q) /\ (smark z q <= smark y q)%N).
  { intros q. unfold smark. cbn [z y_side y_flsn]. destruct (N.eq_dec q p) as [->|N]; [rewrite !put_eq, SD; lia|rewrite !put_ne by exact N; lia]. }
  split; [|split].
  - apply (same_locks refs0 part y); [exact L|reflexivity|reflexivity].
  - intros q. destruct (D q) as [b [R [B C]]]. exists b. split; [intros k; rewrite BE; apply R|]. split; [exact B|exact C].
  - destruct G as (A & B & C & D' & E & F & H & J). unfold BatchesL.inv_log. split; [exact A|]. split; [exact B|].
    split; [intros q; specialize (C q); specialize (SE q); change (y_mark z) with (y_mark y); change (y_lsn z) with (y_lsn y); change (y_disk z) with (y_disk y); lia|].
    split; [exact D'|].
    split; [intros q r I K; rewrite (proj1 (SE q)); exact (E q r I K)|].
    split; [|split; [exact H|exact J]].
    intros q. destruct (F q) as (F1 & F2 & F3). split; [|split; [intros k; rewrite BE, (proj1 (SE q)); apply F2|exact F3]].
    intros k. cbn [z y_file y_flsn]. destruct (N.eq_dec q p) as [->|NQ]; [rewrite !put_eq|rewrite !put_ne by exact NQ; apply F1].
    unfold smark in F2. rewrite SD in F2. apply F2.
Qed.
Lemma finish_inv y p : inv y -> inv (moved y (Finish p)).
Proof.
  intros (L & D & G). cbn [Model.Batches.moved]. set (z := mk_system _ _ _ _ _ _ _ _ _ _ _ _). split; [|split].
  - apply (same_locks refs0 part y); [exact L|reflexivity|reflexivity].
  - exact D.
  - destruct G as (A & B & C & D' & E & F & H & J). unfold BatchesL.inv_log. split; [exact A|]. split; [exact B|].
    split; [intros q; specialize (C q); change (smark z q) with (smark y q); cbn [z y_mark y_lsn y_flsn y_disk];
            destruct (N.eq_dec q p) as [->|NQ]; [rewrite put_eq; cbn [snd]|rewrite put_ne by exact NQ]; lia|].
    split; [exact D'|]. split; [exact E|]. split; [|split; [exact H|exact J]].
    intros q. destruct (F q) as (F1 & F2 & F3). split; [exact F1|]. split; [exact F2|]. cbn [z y_disk].
    destruct (N.eq_dec q p) as [->|NQ]; [rewrite put_eq; exact F1|rewrite put_ne by exact NQ; exact F3].
Qed.

Lemma moved_inv y m : inv y -> (refs0 = 1%Z \/ ~ again part y m) -> inv (moved y m).
Proof.
  intros I A. destruct m as [t l|t|t|t p|t p|p|p|p]; cbn [Model.Batches.moved].
  - destruct (y_threads y t) eqn:T; try exact I. apply begin_inv; assumption.
  - unfold go, where_. cbn [again] in A. destruct (y_threads y t) as [|log [|e rest]|log e rest|n [|x todo]|[|x todo]] eqn:T; try exact I.
    + apply logged_inv; assumption.
    + destruct (lock_by refs0 (y_locks y (at_ e)) t) as [k|] eqn:K; [|exact I].
      apply (taken_inv y _ t (at_ e) k); try reflexivity; try assumption.
      * intros u NU. cbn [turn with_lock y_threads y_cursors]. rewrite (ne_eqb u t NU). split; reflexivity.
      * intros q. rewrite holds_turn, Nat.eqb_refl. unfold Spec.Batches.holds. rewrite T. cbn [with_lock y_cursors Spec.Batches.busy].
        rewrite !cnt_app, cnt1. lia.
      * cbn [turn y_threads]. rewrite Nat.eqb_refl, T. reflexivity.
      * intros n todo. cbn [turn y_threads]. rewrite Nat.eqb_refl, T. split; discriminate.
    + apply set_inv; assumption.
    + apply acked_inv; assumption.
    + apply commit_inv; assumption.
    + apply undone_inv; assumption.
    + apply undo_inv; assumption.
  - destruct (y_threads y t) eqn:T; try exact I. apply (fail_inv y t _ _ I T).
  - destruct (y_threads y t) eqn:T; try exact I. destruct (lock_by refs0 (y_locks y p) t) as [k|] eqn:K; [|exact I].
    apply (taken_inv y _ t p k); try reflexivity; try assumption.
    + intros u NU. cbn [with_cursors with_lock y_threads y_cursors]. rewrite (ne_eqb u t NU). split; reflexivity.
    + intros q. unfold Spec.Batches.holds. cbn [with_cursors with_lock y_threads y_cursors]. rewrite Nat.eqb_refl. cbn [app].
      cbn [count_occ]. destruct (N.eq_dec p q); lia.
  - destruct (y_threads y t) eqn:T; try exact I. destruct (existsb (N.eqb p) (y_cursors y t)) eqn:X; [|exact I].
    apply existsb_exists in X. destruct X as [q [X Y]]. apply N.eqb_eq in Y. subst q. apply close_inv; assumption.
  - destruct (lk_owner (y_locks y p)) eqn:O; [exact I|]. destruct (y_side y p) as [[m n]|] eqn:SD; [exact I|].
    pose proof (rotate_inv y p I O SD) as R. cbn [Model.Batches.moved] in R. rewrite O, SD in R. exact R.
  - destruct (lk_owner (y_locks y p)) eqn:O; [exact I|]. destruct (y_side y p) as [[m n]|] eqn:SD; [|exact I].
    pose proof (apply_inv y p m n I O SD) as R. cbn [Model.Batches.moved] in R. rewrite O, SD in R. exact R.
  - exact (finish_inv y p I).
Qed.
End Batches.
