(* The queue, and where every request is. *)
From Coq Require Import NArith ZArith Arith List Bool Lia Permutation.
Import ListNotations.
From Verif Require Import Model.Base Model.Service Spec.Service.
Local Arguments Nat.eqb : simpl never.

(* the queue *)
Lemma take_some f : forall l r l', take_first f l = Some (r, l') -> exists a b, l = a ++ r :: b /\ l' = a ++ b /\ f r = true /\ Forall (fun x => f x = false) a.
Proof.
  induction l as [|x l IH]; intros r l' H; [discriminate|]. cbn [take_first] in H. destruct (f x) eqn:E.
  - injection H as -> ->. exists [], l'. repeat split; [exact E|constructor].
  - destruct (take_first f l) as [[z l1]|]; [|discriminate]. injection H as -> <-. destruct (IH r l1 eq_refl) as (a & b & -> & -> & F & A). exists (x :: a), b. repeat split; [exact F|constructor; assumption].
Qed.
Lemma take_none f : forall l, take_first f l = None -> Forall (fun x => f x = false) l.
Proof. induction l as [|x l IH]; intro H; [constructor|]. cbn [take_first] in H. destruct (f x) eqn:E; [discriminate|]. destruct (take_first f l) as [[z l1]|]; [discriminate|]. constructor; [exact E|apply IH, eq_refl]. Qed.
Lemma uploads_app a b : uploads (a ++ b) = uploads a + uploads b.
Proof. unfold uploads. rewrite filter_app, app_length. reflexivity. Qed.
Lemma uploads_cons r l : uploads (r :: l) = (if is_upload r then 1 else 0) + uploads l.
Proof. unfold uploads. cbn [List.filter]. destruct (is_upload r); reflexivity. Qed.
Lemma uploads_none l : Forall (fun x => is_upload x = false) l -> uploads l = 0.
Proof. induction 1 as [|x l E F IH]; [reflexivity|]. rewrite uploads_cons, E. exact IH. Qed.
Lemma uploads_le l : uploads l <= length l.
Proof. induction l as [|x l IH]; [cbn; lia|]. rewrite uploads_cons. cbn [length]. destruct (is_upload x); lia. Qed.
Lemma uploads_all l : uploads l = length l -> Forall (fun x => negb (is_upload x) = false) l.
Proof. induction l as [|x l IH]; intro H; [constructor|]. rewrite uploads_cons in H. cbn [length] in H. pose proof (uploads_le l). destruct (is_upload x) eqn:E; [constructor; [rewrite E; reflexivity|apply IH; lia]|lia]. Qed.
Definition in_bounds (r : req) : Prop := rq_current r < length (rq_actions r).
Definition inv_queue (s : service) : Prop := sv_count s = Z.of_nat (length (sv_list s)) /\ sv_count_upload s = Z.of_nat (uploads (sv_list s)) /\ Forall in_bounds (sv_list s).
Lemma schedule_queue s r : inv_queue s -> in_bounds r -> inv_queue (service_schedule s r).
Proof.
  intros (A & B & C) Hr. unfold inv_queue, service_schedule. cbn [sv_list sv_count sv_count_upload]. rewrite app_length, uploads_app, uploads_cons. cbn [length]. split; [lia|]. split; [|apply Forall_app; split; [exact C|constructor; [exact Hr|constructor]]]. change (uploads []) with 0. destruct (is_upload r); lia.
Qed.
Lemma fetch_queue s f : inv_queue s ->
  (service_fetch s f = Ok (None, s) /\ Forall (fun x => service_filter x f = false) (sv_list s)) \/
  exists r s', service_fetch s f = Ok (Some r, s') /\ oldest_for f (sv_list s) r (sv_list s') /\ inv_queue s' /\ sv_shutdown s' = sv_shutdown s.
Proof.
  intros (A & B & C). unfold service_fetch. destruct (Z.eqb_spec (sv_count s) 0) as [E|E].
  - left. split; [reflexivity|]. destruct (sv_list s); [constructor|cbn [length] in A; lia].
  - destruct f.
    + destruct (sv_list s) as [|r l] eqn:L; [cbn in A; lia|]. right. exists r. eexists. split; [reflexivity|]. cbn [sv_list sv_shutdown]. rewrite uploads_cons in B. cbn [length] in A. split; [exists [], l; repeat split; constructor|]. split; [|reflexivity].
      split; [cbn; lia|]. split; [cbn [sv_count_upload sv_list]; destruct (is_upload r); lia|exact (Forall_inv_tail C)].
    + destruct (Z.eqb_spec (sv_count s - sv_count_upload s) 0) as [E2|E2].
      * left. split; [reflexivity|]. apply uploads_all. lia.
      * destruct (take_first (fun r => negb (is_upload r)) (sv_list s)) as [[r l]|] eqn:T; [|left; split; [reflexivity|exact (take_none _ _ T)]]. right. destruct (take_some _ _ _ _ T) as (a & b & L & -> & F & N). exists r. eexists. split; [reflexivity|]. cbn [sv_list sv_shutdown]. split; [exists a, b; repeat split; assumption|]. split; [|reflexivity].
        rewrite L in *. rewrite uploads_app, uploads_cons in B. rewrite app_length in A. cbn [length] in A. apply negb_true_iff in F. rewrite F in B. split; [cbn [sv_count sv_list]; rewrite app_length; lia|]. split; [cbn [sv_count_upload sv_list]; rewrite uploads_app; lia|]. apply Forall_app in C. destruct C as [C1 C2]. apply Forall_app. split; [exact C1|exact (Forall_inv_tail C2)].
    + destruct (Z.eqb_spec (sv_count_upload s) 0) as [E2|E2].
      * left. split; [reflexivity|]. assert (Z0 : uploads (sv_list s) = 0) by lia. clear - Z0. induction (sv_list s) as [|x l IH]; [constructor|]. rewrite uploads_cons in Z0. cbn [service_filter]. destruct (is_upload x) eqn:E; [lia|]. constructor; [exact E|apply IH; lia].
      * destruct (take_first is_upload (sv_list s)) as [[r l]|] eqn:T; [|left; split; [reflexivity|exact (take_none _ _ T)]]. right. destruct (take_some _ _ _ _ T) as (a & b & L & -> & F & N). exists r. eexists. split; [reflexivity|]. cbn [sv_list sv_shutdown]. split; [exists a, b; repeat split; assumption|]. split; [|reflexivity].
        rewrite L in *. rewrite uploads_app, uploads_cons in B. rewrite app_length in A. cbn [length] in A. rewrite F in B. split; [cbn [sv_count sv_list]; rewrite app_length; lia|]. split; [cbn [sv_count_upload sv_list]; rewrite uploads_app; lia|]. apply Forall_app in C. destruct C as [C1 C2]. apply Forall_app. split; [exact C1|exact (Forall_inv_tail C2)].
Qed.

(* workers *)
Definition hand (k : worker) : list req := match wk_state k with Busy r => [r] | _ => [] end.
Lemma worker_split : forall ws w k, nth_error ws w = Some k -> exists a b, ws = a ++ k :: b /\ forall k', set_worker ws w k' = a ++ k' :: b.
Proof.
  induction ws as [|x ws IH]; intros [|w] k H; cbn [nth_error] in H; try discriminate.
  - injection H as ->. exists [], ws. repeat split.
  - destruct (IH w k H) as (a & b & -> & E). exists (x :: a), b. split; [reflexivity|]. intro k'. cbn [set_worker]. rewrite E. reflexivity.
Qed.
Lemma hands_app a b : flat_map hand (a ++ b) = flat_map hand a ++ flat_map hand b.
Proof. apply flat_map_app. Qed.
Lemma hands_awaken ws : flat_map hand (map awaken ws) = flat_map hand ws.
Proof. induction ws as [|k ws IH]; [reflexivity|]. cbn [map flat_map]. rewrite IH. f_equal. unfold awaken, hand. destruct (wk_state k) eqn:E; try rewrite E; reflexivity. Qed.
Lemma hands_set ws w k k' : nth_error ws w = Some k -> exists rest, Permutation (flat_map hand ws) (hand k ++ rest) /\ Permutation (flat_map hand (set_worker ws w k')) (hand k' ++ rest).
Proof.
  intro H. destruct (worker_split ws w k H) as (a & b & -> & E). rewrite E. exists (flat_map hand a ++ flat_map hand b). rewrite !hands_app. cbn [flat_map]. split; rewrite Permutation_app_comm, <- app_assoc; apply Permutation_app_head, Permutation_app_comm.
Qed.

(* where the requests are: queue, hands, log, next number *)
Definition quiet (e : list event) : Prop := Forall (fun e => match e with Asked _ => True | Replaced _ => True | _ => False end) e.
Inductive shift (Q H : list req) (L : list event) (n : nat) : list req -> list req -> list event -> nat -> Prop :=
| sh_same e H' : quiet e -> Permutation H H' -> shift Q H L n Q H' (e ++ L) n
| sh_add e H' id a l : quiet e -> Permutation H H' -> shift Q H L n (Q ++ [mk_req n id (a :: l) 0]) H' (e ++ Added n id (a :: l) :: L) (S n)
| sh_fetch a r b H' : Q = a ++ r :: b -> Permutation (r :: H) H' -> shift Q H L n (a ++ b) H' L n
| sh_back r R H' a : Permutation H (r :: R) -> Permutation R H' -> current_action r = Some a -> shift Q H L n (Q ++ [r]) H' L n
| sh_ran e r R H' a : quiet e -> Permutation H (r :: R) -> current_action r = Some a -> Permutation (mk_req (rq_no r) (rq_id r) (rq_actions r) (S (rq_current r)) :: R) H' ->
    shift Q H L n Q H' (e ++ Ran (rq_no r) a :: L) n
| sh_end r R H' : Permutation H (r :: R) -> current_action r = None -> Permutation R H' -> shift Q H L n Q H' (Ended (rq_no r) :: L) n
| sh_fail e r R H' a : quiet e -> Permutation H (r :: R) -> current_action r = Some a -> Permutation R H' -> shift Q H L n Q H' (e ++ Failed (rq_no r) a :: L) n.
Definition shifted (y z : system) : Prop := shift (sv_list (y_service y)) (in_hands y) (y_log y) (y_next y) (sv_list (y_service z)) (in_hands z) (y_log z) (y_next z).
Lemma in_hands_eq y : in_hands y = flat_map hand (y_workers y).
Proof. reflexivity. Qed.
Lemma replaced_quiet l : quiet (map Replaced l).
Proof. apply Forall_map, Forall_forall. intros x _. exact I. Qed.
Lemma hand_put k st : hand (put k st) = match st with Busy r => [r] | _ => [] end.
Proof. reflexivity. Qed.
Lemma moved_shift y m z : inv_queue (y_service y) -> moved y m = Ok z -> shifted y z.
Proof.
  intros IQ M. unfold shifted. rewrite !in_hands_eq. destruct m as [id a l|p cloud|w o|w|p| ]; cbn [moved] in M.
  - injection M as <-. cbn [service_add y_service service_schedule sv_list y_log y_next y_workers]. apply (sh_add _ _ _ _ []); [constructor|rewrite hands_awaken; reflexivity].
  - injection M as <-. unfold want_refresh. destruct (y_marks y p); [apply (sh_same _ _ _ _ []); [constructor|reflexivity]|]. cbn [service_add y_service service_schedule sv_list y_log y_next y_workers]. destruct cloud; apply (sh_add _ _ _ _ [Asked p]); try (constructor; [exact I|constructor]); rewrite hands_awaken; reflexivity.
  - unfold work in M. destruct (nth_error (y_workers y) w) as [k|] eqn:Hw; [|injection M as <-; apply (sh_same _ _ _ _ []); [constructor|reflexivity]].
    destruct (wk_state k) as [| |r|] eqn:St.
    + assert (NH : hand k = []) by (unfold hand; rewrite St; reflexivity). assert (SM : forall st, (forall r, st <> Busy r) -> Permutation (flat_map hand (y_workers y)) (flat_map hand (set_worker (y_workers y) w (put k st)))).
      { intros st N. destruct (hands_set (y_workers y) w k (put k st) Hw) as (R & P1 & P2). rewrite P1, P2, NH, hand_put. destruct st; try reflexivity. destruct (N r eq_refl). }
      destruct (sv_shutdown (y_service y)); [injection M as <-; apply (sh_same _ _ _ _ []); [constructor|apply SM; discriminate]|].
      destruct (fetch_queue (y_service y) (wk_filter k) IQ) as [[E _]|(r & s' & E & (a & b & L & L' & _) & _)]; rewrite E in M.
      * injection M as <-. apply (sh_same _ _ _ _ []); [constructor|]. cbn [y_workers]. apply SM. destruct (wk_wait k); discriminate.
      * injection M as <-. cbn [y_service y_workers y_log y_next]. rewrite L'. apply (sh_fetch _ _ _ _ a r b); [exact L|]. destruct (hands_set (y_workers y) w k (put k (Busy r)) Hw) as (R & P1 & P2). rewrite P1, P2, NH. reflexivity.
    + injection M as <-. apply (sh_same _ _ _ _ []); [constructor|reflexivity].
    + assert (NH : hand k = [r]) by (unfold hand; rewrite St; reflexivity). destruct (current_action r) as [a|] eqn:Ca.
      2:{ injection M as <-. cbn [y_service y_workers y_log y_next]. destruct (hands_set (y_workers y) w k (put k Ready) Hw) as (R & P1 & P2). rewrite NH in P1. apply (sh_end _ _ _ _ r R); [exact P1|exact Ca|symmetry; exact P2]. }
      destruct (negb (service_filter r (wk_filter k))).
      * injection M as <-. cbn [y_service y_workers y_log y_next service_schedule sv_list]. destruct (hands_set (y_workers y) w k (put k Ready) Hw) as (R & P1 & P2). rewrite NH in P1. apply (sh_back _ _ _ _ r R _ a); [exact P1|rewrite hands_awaken; symmetry; exact P2|exact Ca].
      * destruct (action_marks (y_marks y) r a o) as [mm q]. destruct (o_fine o); injection M as <-; cbn [y_service y_workers y_log y_next].
        -- destruct (hands_set (y_workers y) w k (put k (Busy (mk_req (rq_no r) (rq_id r) (rq_actions r) (S (rq_current r))))) Hw) as (R & P1 & P2). rewrite NH in P1. apply (sh_ran _ _ _ _ _ r R); [apply replaced_quiet|exact P1|exact Ca|symmetry; exact P2].
        -- destruct (hands_set (y_workers y) w k (put k Ready) Hw) as (R & P1 & P2). rewrite NH in P1. apply (sh_fail _ _ _ _ _ r R); [apply replaced_quiet|exact P1|exact Ca|symmetry; exact P2].
    + injection M as <-. apply (sh_same _ _ _ _ []); [constructor|reflexivity].
  - injection M as <-. destruct (nth_error (y_workers y) w) as [k|] eqn:Hw; [|apply (sh_same _ _ _ _ []); [constructor|reflexivity]]. apply (sh_same _ _ _ _ []); [constructor|]. cbn [y_workers]. destruct (hands_set (y_workers y) w k (awaken k) Hw) as (R & P1 & P2). rewrite P1, P2. assert (E : hand (awaken k) = hand k) by (unfold awaken, hand; destruct (wk_state k) eqn:E; try rewrite E; reflexivity). rewrite E. reflexivity.
  - injection M as <-. apply (sh_same _ _ _ _ [Replaced p]); [constructor; [exact I|constructor]|reflexivity].
  - injection M as <-. apply (sh_same _ _ _ _ []); [constructor|]. cbn [y_workers]. rewrite hands_awaken. reflexivity.
Qed.

(* the record of what happened *)
Definition added (l : list event) : list (nat * N * list action) := flat_map (fun e => match e with Added n id a => [(n, id, a)] | _ => [] end) l.
Lemma quiet_ended e l : quiet e -> ended (e ++ l) = ended l.
Proof. induction 1 as [|x e Q F IH]; [reflexivity|]. cbn [app ended flat_map]. fold (ended (e ++ l)). rewrite IH. destruct x; try destruct Q; reflexivity. Qed.
Lemma quiet_added e l : quiet e -> added (e ++ l) = added l.
Proof. induction 1 as [|x e Q F IH]; [reflexivity|]. cbn [app added flat_map]. fold (added (e ++ l)). rewrite IH. destruct x; try destruct Q; reflexivity. Qed.
Lemma done_cons n x l : done n (x :: l) = done n l ++ match x with Ran m a => if m =? n then [a] else [] | _ => [] end.
Proof. unfold done. cbn [rev]. rewrite flat_map_app. cbn [flat_map]. rewrite app_nil_r. reflexivity. Qed.
Lemma quiet_done n e l : quiet e -> done n (e ++ l) = done n l.
Proof. induction 1 as [|x e Q F IH]; [reflexivity|]. cbn [app]. rewrite done_cons, IH. destruct x; try destruct Q; apply app_nil_r. Qed.
Lemma quiet_in x e l : quiet e -> In x (e ++ l) -> match x with Asked _ => True | Replaced _ => True | _ => In x l end.
Proof. intros Q H. apply in_app_or in H. destruct H as [H|H]; [|destruct x; tauto]. unfold quiet in Q. rewrite Forall_forall in Q. specialize (Q x H). destruct x; tauto. Qed.
Lemma firstn_next {A} (l : list A) n a : nth_error l n = Some a -> firstn (S n) l = firstn n l ++ [a].
Proof. revert n. induction l as [|x l IH]; intros [|n] H; cbn in *; try discriminate; [injection H as ->; reflexivity|]. rewrite (IH n H). reflexivity. Qed.
Definition right_so_far (L : list event) (r : req) : Prop :=
  done (rq_no r) L = firstn (rq_current r) (rq_actions r) /\ rq_current r <= length (rq_actions r) /\ In (rq_no r, rq_id r, rq_actions r) (added L).
Definition ended_right (L : list event) (x : event) : Prop :=
  match x with
  | Ended n => exists id a, In (n, id, a) (added L) /\ done n L = a
  | Failed n b => exists id a k, In (n, id, a) (added L) /\ nth_error a k = Some b /\ done n L = firstn k a
  | _ => True
  end.
Definition inv_where (Q H : list req) (L : list event) (n : nat) : Prop :=
  Permutation (map rq_no Q ++ map rq_no H ++ ended L) (seq 0 n) /\
  map (fun x => fst (fst x)) (added L) = rev (seq 0 n) /\
  (forall m, n <= m -> done m L = []) /\
  Forall (right_so_far L) (Q ++ H) /\ Forall (ended_right L) L.
Lemma seq_next n : seq 0 (S n) = seq 0 n ++ [n].
Proof. rewrite seq_S. reflexivity. Qed.
(* a change of the log which adds nothing to what was done *)
Lemma right_same L L' r : (forall x, In x (added L) -> In x (added L')) -> done (rq_no r) L' = done (rq_no r) L -> right_so_far L r -> right_so_far L' r.
Proof. intros A D (X & Y & Z). split; [congruence|]. split; [exact Y|apply A, Z]. Qed.
Lemma ended_same L L' x : (forall x, In x (added L) -> In x (added L')) -> (forall n, In n (ended [x]) -> done n L' = done n L) -> ended_right L x -> ended_right L' x.
Proof.
  intros A D. destruct x as [| |n b|n| |]; cbn [ended_right]; try (intro; exact I).
  - intros (id & a & k & X & Y & Z). exists id, a, k. rewrite (D n) by (cbn; tauto). auto.
  - intros (id & a & X & Y). exists id, a. rewrite (D n) by (cbn; tauto). auto.
Qed.
Lemma quiet_right e L : quiet e -> Forall (ended_right L) e.
Proof. intro Q. eapply Forall_impl; [|exact Q]. intros x. destruct x; tauto. Qed.
Lemma nodup_perm {A} (a b : list A) : Permutation a b -> NoDup b -> NoDup a.
Proof. intros P N. eapply Permutation_NoDup; [symmetry; exact P|exact N]. Qed.
Lemma in_ended n x L : In x L -> In n (ended [x]) -> In n (ended L).
Proof. intros I J. unfold ended in *. apply in_flat_map. exists x. split; [exact I|]. cbn [flat_map] in J. rewrite app_nil_r in J. exact J. Qed.
Lemma shift_where Q H L n Q' H' L' n' : shift Q H L n Q' H' L' n' -> inv_where Q H L n -> inv_where Q' H' L' n'.
Proof.
  intros S (P & Ad & Fr & RS & ER). destruct S as [e H' q PH|e H' id a l q PH|a r b H' -> PH|r R H' a P1 P2 Ca|e r R H' a q P1 Ca P2|r R H' P1 Ca P2|e r R H' a q P1 Ca P2].
  - split; [rewrite quiet_ended by exact q; rewrite <- PH; exact P|]. split; [rewrite quiet_added by exact q; exact Ad|]. split; [intros m Hm; rewrite quiet_done by exact q; apply Fr, Hm|]. split.
    + assert (X : Forall (right_so_far L) (Q ++ H')) by (rewrite <- PH; exact RS). eapply Forall_impl; [|exact X]. intros r. apply right_same; [intros x; rewrite quiet_added by exact q; auto|apply quiet_done, q].
    + apply Forall_app. split; [apply quiet_right, q|]. eapply Forall_impl; [|exact ER]. intros x. apply ended_same; [intros z; rewrite quiet_added by exact q; auto|intros m _; apply quiet_done, q].
  - set (L1 := Added n id (a :: l) :: L). assert (D1 : forall m, done m (e ++ L1) = done m L) by (intro m; rewrite quiet_done by exact q; unfold L1; rewrite done_cons; apply app_nil_r). assert (A1 : added (e ++ L1) = (n, id, a :: l) :: added L) by (rewrite quiet_added by exact q; reflexivity).
    split; [rewrite quiet_ended by exact q; rewrite seq_next, map_app; cbn [map rq_no L1 ended flat_map app]; fold (ended L); rewrite <- PH, <- P, <- app_assoc, (app_assoc (map rq_no Q)), <- (app_assoc (map rq_no Q)); apply Permutation_trans with (n :: map rq_no Q ++ map rq_no H ++ ended L); [symmetry; apply Permutation_middle|apply Permutation_cons_append]|].
    split; [rewrite A1, seq_next, rev_app_distr; cbn; rewrite Ad; reflexivity|]. split; [intros m Hm; rewrite D1; apply Fr; lia|].
    assert (IA : forall x, In x (added L) -> In x (added (e ++ L1))) by (intros x Hx; rewrite A1; right; exact Hx). split.
    + assert (X : Forall (right_so_far L) (Q ++ H')) by (rewrite <- PH; exact RS). apply Forall_app in X. destruct X as [X1 X2]. rewrite <- app_assoc. apply Forall_app. split; [eapply Forall_impl; [|exact X1]; intros r; apply right_same; [exact IA|apply D1]|]. constructor; [|eapply Forall_impl; [|exact X2]; intros r; apply right_same; [exact IA|apply D1]].
      split; [cbn [rq_no rq_current firstn]; rewrite D1; apply Fr; lia|]. split; [cbn; lia|]. rewrite A1. left. reflexivity.
    + apply Forall_app. split; [apply quiet_right, q|]. constructor; [exact I|]. eapply Forall_impl; [|exact ER]. intros x. apply ended_same; [exact IA|intros m _; apply D1].
  - assert (X : Permutation ((a ++ r :: b) ++ H) ((a ++ b) ++ H')) by (rewrite <- PH, <- !app_assoc; apply Permutation_app_head; cbn [app]; apply Permutation_middle). split; [|split; [exact Ad|split; [exact Fr|split; [rewrite <- X; exact RS|exact ER]]]].
    rewrite <- P. rewrite !app_assoc, <- !map_app. apply Permutation_app_tail, Permutation_map. symmetry. exact X.
  - assert (X : Permutation (Q ++ H) ((Q ++ [r]) ++ H')) by (rewrite P1, <- app_assoc; cbn [app]; rewrite P2; reflexivity). split; [|split; [exact Ad|split; [exact Fr|split; [rewrite <- X; exact RS|exact ER]]]].
    rewrite <- P. rewrite !app_assoc, <- !map_app. apply Permutation_app_tail, Permutation_map. symmetry. exact X.
  - set (L1 := Ran (rq_no r) a :: L). assert (A1 : added (e ++ L1) = added L) by (rewrite quiet_added by exact q; reflexivity).
    assert (D1 : forall m, m <> rq_no r -> done m (e ++ L1) = done m L) by (intros m N; rewrite quiet_done by exact q; unfold L1; rewrite done_cons; destruct (Nat.eqb_spec (rq_no r) m); [congruence|apply app_nil_r]).
    assert (Dr : done (rq_no r) (e ++ L1) = done (rq_no r) L ++ [a]) by (rewrite quiet_done by exact q; unfold L1; rewrite done_cons, Nat.eqb_refl; reflexivity).
    assert (P' : Permutation (rq_no r :: map rq_no Q ++ map rq_no R ++ ended L) (seq 0 n)) by (rewrite <- P, P1; cbn [map app]; apply Permutation_middle).
    assert (N : NoDup (rq_no r :: map rq_no Q ++ map rq_no R ++ ended L)) by (apply (nodup_perm _ _ P'), seq_NoDup). inversion N as [|? ? N1 N2]; subst.
    assert (Lt : rq_no r < n) by (assert (X : In (rq_no r) (seq 0 n)) by (eapply Permutation_in; [exact P'|left; reflexivity]); apply in_seq in X; lia).
    split; [rewrite quiet_ended by exact q; unfold L1; cbn [ended flat_map app]; fold (ended L); rewrite <- P2; cbn [map app rq_no]; rewrite <- P'; symmetry; apply Permutation_middle|]. split; [rewrite A1; exact Ad|]. split; [intros m Hm; rewrite D1 by lia; apply Fr, Hm|].
    assert (RS' : Forall (right_so_far L) (r :: Q ++ R)) by (assert (X : Permutation (Q ++ H) (r :: Q ++ R)) by (rewrite P1; symmetry; apply Permutation_middle); rewrite <- X; exact RS). split.
    + assert (X : Permutation (mk_req (rq_no r) (rq_id r) (rq_actions r) (S (rq_current r)) :: Q ++ R) (Q ++ H')) by (rewrite <- P2; apply Permutation_middle). rewrite <- X. pose proof (Forall_inv RS') as (R1 & R2 & R3). constructor.
      * split; [cbn [rq_no rq_current rq_actions]; rewrite Dr, R1; symmetry; apply firstn_next, Ca|]. cbn [rq_no rq_id rq_current rq_actions]. split; [apply nth_error_Some; unfold current_action in Ca; congruence|rewrite A1; exact R3].
      * apply Forall_inv_tail in RS'. rewrite Forall_forall in RS' |- *. intros x Ix. apply (right_same L); [rewrite A1; auto| |apply RS', Ix]. apply D1. intro E. apply N1. rewrite <- E. rewrite app_assoc, <- map_app. apply in_or_app. left. apply in_map, Ix.
    + apply Forall_app. split; [apply quiet_right, q|]. constructor; [exact I|]. rewrite Forall_forall in ER |- *. intros x Ix. apply (ended_same L); [rewrite A1; auto| |apply ER, Ix]. intros m Hm. apply D1. intros ->. apply N1. apply in_or_app. right. apply in_or_app. right. apply (in_ended _ x); assumption.
  - assert (D1 : forall m, done m (Ended (rq_no r) :: L) = done m L) by (intro m; rewrite done_cons; apply app_nil_r).
    assert (RS' : Forall (right_so_far L) (r :: Q ++ R)) by (assert (X : Permutation (Q ++ H) (r :: Q ++ R)) by (rewrite P1; symmetry; apply Permutation_middle); rewrite <- X; exact RS).
    split; [cbn [ended flat_map app]; fold (ended L); rewrite <- P, P1, <- P2; cbn [map app]; apply Permutation_app_head; symmetry; apply Permutation_middle|]. split; [exact Ad|]. split; [intros m Hm; rewrite D1; apply Fr, Hm|].
    pose proof (Forall_inv RS') as (R1 & R2 & R3). apply Forall_inv_tail in RS'. split.
    + assert (X : Permutation (Q ++ R) (Q ++ H')) by (rewrite P2; reflexivity). rewrite <- X. eapply Forall_impl; [|exact RS']. intros x. apply right_same; [auto|apply D1].
    + constructor; [|eapply Forall_impl; [|exact ER]; intros x; apply ended_same; [auto|intros m _; apply D1]]. exists (rq_id r), (rq_actions r). split; [exact R3|]. rewrite D1, R1. apply firstn_all2. apply nth_error_None. exact Ca.
  - set (L1 := Failed (rq_no r) a :: L). assert (A1 : added (e ++ L1) = added L) by (rewrite quiet_added by exact q; reflexivity).
    assert (D1 : forall m, done m (e ++ L1) = done m L) by (intro m; rewrite quiet_done by exact q; unfold L1; rewrite done_cons; apply app_nil_r).
    assert (RS' : Forall (right_so_far L) (r :: Q ++ R)) by (assert (X : Permutation (Q ++ H) (r :: Q ++ R)) by (rewrite P1; symmetry; apply Permutation_middle); rewrite <- X; exact RS).
    split; [rewrite quiet_ended by exact q; unfold L1; cbn [ended flat_map app]; fold (ended L); rewrite <- P, P1, <- P2; cbn [map app]; apply Permutation_app_head; symmetry; apply Permutation_middle|]. split; [rewrite A1; exact Ad|]. split; [intros m Hm; rewrite D1; apply Fr, Hm|].
    pose proof (Forall_inv RS') as (R1 & R2 & R3). apply Forall_inv_tail in RS'. split.
    + assert (X : Permutation (Q ++ R) (Q ++ H')) by (rewrite P2; reflexivity). rewrite <- X. eapply Forall_impl; [|exact RS']. intros x. apply right_same; [rewrite A1; auto|apply D1].
    + apply Forall_app. split; [apply quiet_right, q|]. constructor; [|eapply Forall_impl; [|exact ER]; intros x; apply ended_same; [rewrite A1; auto|intros m _; apply D1]].
      exists (rq_id r), (rq_actions r), (rq_current r). rewrite A1, D1. split; [exact R3|]. split; [exact Ca|exact R1].
Qed.
