(* Histories of the queue and its workers. *)
From Coq Require Import NArith ZArith Arith List Bool Lia Permutation.
Import ListNotations.
From Verif Require Import Model.Base Model.Service Spec.Service Proof.ServiceL.
Local Open Scope res_scope.
Local Arguments Nat.eqb : simpl never.

Definition awake (s : service) (k : worker) : Prop :=
  (wk_state k = Asleep -> sv_shutdown s = false /\ Forall (fun x => service_filter x (wk_filter k) = false) (sv_list s)) /\
  (wk_state k = Gone -> sv_shutdown s = true).
Definition inv (y : system) : Prop :=
  inv_queue (y_service y) /\ Forall (awake (y_service y)) (y_workers y) /\
  inv_where (sv_list (y_service y)) (in_hands y) (y_log y) (y_next y).
Lemma awaken_filter k : wk_filter (awaken k) = wk_filter k.
Proof. unfold awaken. destruct (wk_state k); reflexivity. Qed.
Lemma awaken_awake s k : (wk_state k = Gone -> sv_shutdown s = true) -> awake s (awaken k).
Proof. intro G. unfold awake, awaken. destruct (wk_state k) eqn:E; cbn [put wk_state]; try rewrite E; split; try discriminate; auto. Qed.
Lemma awaken_all s l : Forall (fun k => wk_state k = Gone -> sv_shutdown s = true) l -> Forall (awake s) (map awaken l).
Proof. intro F. apply Forall_map. eapply Forall_impl; [|exact F]. intros k. apply awaken_awake. Qed.
Lemma set_forall (P : worker -> Prop) ws w k : Forall P ws -> P k -> Forall P (set_worker ws w k).
Proof. revert w. induction ws as [|x ws IH]; intros [|w] F K; cbn [set_worker]; try constructor; try exact K; try exact (Forall_inv F); try exact (Forall_inv_tail F). apply IH; [exact (Forall_inv_tail F)|exact K]. Qed.
Lemma gone_all s l : Forall (awake s) l -> Forall (fun k => wk_state k = Gone -> sv_shutdown s = true) l.
Proof. intro F. eapply Forall_impl; [|exact F]. intros k [_ G]. exact G. Qed.
Lemma nth_forall {A} (P : A -> Prop) l w x : Forall P l -> nth_error l w = Some x -> P x.
Proof. intros F H. rewrite Forall_forall in F. apply F. eapply nth_error_In, H. Qed.
Lemma some_bounds r a : current_action r = Some a -> in_bounds r.
Proof. intro H. unfold in_bounds, current_action in *. apply nth_error_Some. congruence. Qed.
Lemma moved_ok y m : inv y -> exists z, moved y m = Ok z /\ inv_queue (y_service z) /\ Forall (awake (y_service z)) (y_workers z).
Proof.
  intros (IQ & IA & _). destruct m as [id a l|p cloud|w o|w|p| ]; cbn [moved].
  - eexists. split; [reflexivity|]. cbn [service_add y_service y_workers]. split; [apply schedule_queue; [exact IQ|unfold in_bounds; cbn; lia]|]. apply awaken_all. apply (gone_all _ _ IA).
  - eexists. split; [reflexivity|]. unfold want_refresh. destruct (y_marks y p); [split; assumption|]. cbn [service_add y_service y_workers]. split; [apply schedule_queue; [exact IQ|unfold in_bounds; destruct cloud; cbn; lia]|]. apply awaken_all. apply (gone_all _ _ IA).
  - unfold work. destruct (nth_error (y_workers y) w) as [k|] eqn:Hw; [|exists y; tauto]. pose proof (nth_forall _ _ _ _ IA Hw) as Ak. destruct (wk_state k) as [| |r|] eqn:St; try (exists y; tauto).
    + destruct (sv_shutdown (y_service y)) eqn:Sd.
      * eexists. split; [reflexivity|]. cbn [y_service y_workers]. split; [exact IQ|]. apply set_forall; [exact IA|]. split; [discriminate|intros _; exact Sd].
      * destruct (fetch_queue (y_service y) (wk_filter k) IQ) as [[E N]|(r & s' & E & (a & b & L & L' & _) & IQ' & Sd')]; rewrite E.
        -- eexists. split; [reflexivity|]. cbn [y_service y_workers]. split; [exact IQ|]. apply set_forall; [exact IA|]. destruct (wk_wait k); (split; [|discriminate]); [|discriminate]. intros _. split; [exact Sd|exact N].
        -- eexists. split; [reflexivity|]. cbn [y_service y_workers]. split; [exact IQ'|]. apply set_forall; [|split; discriminate]. eapply Forall_impl; [|exact IA]. intros x [A G]. split; [|rewrite Sd'; exact G]. intro As. destruct (A As) as [A1 A2]. rewrite Sd'. split; [exact A1|]. rewrite L in A2. rewrite L'. apply Forall_app in A2. destruct A2 as [X Y]. apply Forall_app. split; [exact X|exact (Forall_inv_tail Y)].
    + destruct (current_action r) as [a|] eqn:Ca.
      2:{ eexists. split; [reflexivity|]. cbn [y_service y_workers]. split; [exact IQ|]. apply set_forall; [exact IA|split; discriminate]. }
      destruct (negb (service_filter r (wk_filter k))).
      * eexists. split; [reflexivity|]. cbn [y_service y_workers]. split; [apply schedule_queue; [exact IQ|apply (some_bounds r a Ca)]|]. apply awaken_all. apply set_forall; [apply (gone_all _ _ IA)|discriminate].
      * destruct (action_marks (y_marks y) r a o) as [mm q]. eexists. split; [reflexivity|]. cbn [y_service y_workers]. split; [exact IQ|]. apply set_forall; [exact IA|]. destruct (o_fine o); split; discriminate.
  - eexists. split; [reflexivity|]. destruct (nth_error (y_workers y) w) as [k|] eqn:Hw; [|split; assumption]. cbn [y_service y_workers]. split; [exact IQ|]. apply set_forall; [exact IA|]. apply awaken_awake. apply (nth_forall _ _ _ _ IA Hw).
  - eexists. split; [reflexivity|]. split; assumption.
  - eexists. split; [reflexivity|]. cbn [y_service y_workers]. split; [exact IQ|]. apply awaken_all. apply Forall_forall. intros x _ _. reflexivity.
Qed.
Lemma moved_inv y m z : inv y -> moved y m = Ok z -> inv z.
Proof.
  intros I M. destruct (moved_ok y m I) as (z' & M' & A & B). rewrite M in M'. injection M' as <-. split; [exact A|]. split; [exact B|]. apply (shift_where _ _ _ _ _ _ _ _ (moved_shift y m z (proj1 I) M)), I.
Qed.
Lemma start_inv ws : all_ready ws -> inv (start ws).
Proof.
  intro R. assert (H : in_hands (start ws) = []). { rewrite in_hands_eq. cbn [start y_workers]. induction R as [|k ws E F IH]; [reflexivity|]. cbn [flat_map]. rewrite IH. unfold hand. rewrite E. reflexivity. }
  split; [repeat split; constructor|]. split; [cbn [start y_workers y_service]; eapply Forall_impl; [|exact R]; intros k E; split; rewrite E; discriminate|]. rewrite H. repeat split; constructor.
Qed.
Lemma moves_keep (P : system -> Prop) : (forall y m z, P y -> moved y m = Ok z -> P z) -> forall l y z, P y -> moves y l = Ok z -> P z.
Proof.
  intro H. induction l as [|m l IH]; intros y z I M; cbn [moves] in M; [injection M as <-; exact I|]. destruct (moved y m) as [y1| |] eqn:E; try discriminate. apply (IH y1 z (H y m y1 I E) M).
Qed.
Lemma reached_inv ws y : all_ready ws -> reached ws y -> inv y.
Proof. intros R (l & M). apply (moves_keep inv moved_inv l (start ws) y (start_inv ws R) M). Qed.
Lemma moves_total : forall l y, inv y -> exists z, moves y l = Ok z.
Proof.
  induction l as [|m l IH]; intros y I; [exists y; reflexivity|]. destruct (moved_ok y m I) as (z & M & _). cbn [moves]. rewrite M. cbn [bind]. apply IH. apply (moved_inv y m z I M).
Qed.
(* theorems *)
Theorem never_wild ws l : all_ready ws -> exists y, moves (start ws) l = Ok y.
Proof. intro R. apply moves_total, start_inv, R. Qed.
Theorem counters ws y : all_ready ws -> reached ws y -> sv_count (y_service y) = Z.of_nat (length (sv_list (y_service y))) /\ sv_count_upload (y_service y) = Z.of_nat (uploads (sv_list (y_service y))).
Proof. intros R H. destruct (reached_inv ws y R H) as [(A & B & _) _]. tauto. Qed.
Theorem fetched ws y f : all_ready ws -> reached ws y ->
  (service_fetch (y_service y) f = Ok (None, y_service y) /\ Forall (fun x => service_filter x f = false) (sv_list (y_service y))) \/
  exists r s', service_fetch (y_service y) f = Ok (Some r, s') /\ oldest_for f (sv_list (y_service y)) r (sv_list s').
Proof.
  intros R H. destruct (reached_inv ws y R H) as [A _]. destruct (fetch_queue (y_service y) f A) as [X|(r & s' & E & O & _)]; [left; exact X|right; exists r, s'; tauto].
Qed.
Theorem accounted ws y : all_ready ws -> reached ws y ->
  Permutation (map rq_no (sv_list (y_service y)) ++ map rq_no (in_hands y) ++ ended (y_log y)) (seq 0 (y_next y)) /\
  map (fun x => fst (fst x)) (added (y_log y)) = rev (seq 0 (y_next y)).
Proof. intros R H. destruct (reached_inv ws y R H) as (_ & _ & (A & B & _)). tauto. Qed.
Lemma added_in n id a L : In (n, id, a) (added L) <-> In (Added n id a) L.
Proof.
  unfold added. rewrite in_flat_map. split.
  - intros (x & I & J). destruct x; try destruct J. injection H as -> -> ->. exact I. destruct H.
  - intro I. exists (Added n id a). split; [exact I|left; reflexivity].
Qed.
Theorem in_order ws y : all_ready ws -> reached ws y ->
  Forall (fun r => In (Added (rq_no r) (rq_id r) (rq_actions r)) (y_log y) /\ done (rq_no r) (y_log y) = firstn (rq_current r) (rq_actions r)) (sv_list (y_service y) ++ in_hands y) /\
  (forall n, In (Ended n) (y_log y) -> exists id a, In (Added n id a) (y_log y) /\ done n (y_log y) = a) /\
  (forall n b, In (Failed n b) (y_log y) -> exists id a k, In (Added n id a) (y_log y) /\ nth_error a k = Some b /\ done n (y_log y) = firstn k a).
Proof.
  intros R H. destruct (reached_inv ws y R H) as (_ & _ & (_ & _ & _ & A & B)). split; [|split].
  - eapply Forall_impl; [|exact A]. intros r (X & _ & Z). rewrite <- added_in. tauto.
  - intros n I. rewrite Forall_forall in B. destruct (B _ I) as (id & a & X & Y). exists id, a. rewrite <- added_in. tauto.
  - intros n b I. rewrite Forall_forall in B. destruct (B _ I) as (id & a & k & X & Y). exists id, a, k. rewrite <- added_in. tauto.
Qed.
Theorem nobody_sleeps ws y k : all_ready ws -> reached ws y -> In k (y_workers y) -> wk_state k = Asleep ->
  sv_shutdown (y_service y) = false /\ Forall (fun r => service_filter r (wk_filter k) = false) (sv_list (y_service y)).
Proof. intros R H I. destruct (reached_inv ws y R H) as (_ & A & _). rewrite Forall_forall in A. apply (A k I). Qed.

(* everything can be served *)
Definition rem (r : req) : nat := length (rq_actions r) - rq_current r.
Definition queue_weight (r : req) : nat := 3 * rem r + 2.
Definition worker_weight (k : worker) : nat :=
  match wk_state k with
  | Busy r => match current_action r with Some _ => if service_filter r (wk_filter k) then 3 * rem r + 1 else 3 * rem r + 3 | None => 1 end
  | _ => 0
  end.
Definition weight (y : system) : nat := list_sum (map queue_weight (sv_list (y_service y))) + list_sum (map worker_weight (y_workers y)).
Lemma sum_app a b : list_sum (a ++ b) = list_sum a + list_sum b.
Proof. induction a as [|x a IH]; [reflexivity|]. change (x + list_sum (a ++ b) = (x + list_sum a) + list_sum b). lia. Qed.
Lemma sum_cons x l : list_sum (x :: l) = x + list_sum l.
Proof. reflexivity. Qed.
Lemma weight_set ws w k k' : nth_error ws w = Some k -> list_sum (map worker_weight (set_worker ws w k')) + worker_weight k = list_sum (map worker_weight ws) + worker_weight k'.
Proof. intro H. destruct (worker_split ws w k H) as (a & b & -> & E). rewrite E, !map_app, !sum_app. unfold list_sum. cbn [map fold_right]. lia. Qed.
Lemma weight_awaken ws : list_sum (map worker_weight (map awaken ws)) = list_sum (map worker_weight ws).
Proof. rewrite map_map. f_equal. apply map_ext. intro k. unfold awaken, worker_weight. destruct (wk_state k) eqn:E; try rewrite E; reflexivity. Qed.
Lemma rem_pos r a : current_action r = Some a -> 0 < rem r.
Proof. intro H. apply some_bounds in H. unfold in_bounds, rem in *. lia. Qed.
Lemma busy_goes y w k r : inv y -> nth_error (y_workers y) w = Some k -> wk_state k = Busy r -> exists z, work y w fine = Ok z /\ weight z < weight y.
Proof.
  intros I Hw St. unfold work. rewrite Hw, St. destruct (current_action r) as [a|] eqn:Ca.
  2:{ eexists. split; [reflexivity|]. unfold weight. cbn [y_service y_workers]. pose proof (weight_set (y_workers y) w k (put k Ready) Hw) as W. unfold worker_weight at 2 4 in W. rewrite St, Ca in W. cbn [put wk_state] in W. lia. }
  pose proof (rem_pos r a Ca) as RP. destruct (service_filter r (wk_filter k)) eqn:Fl; cbn [negb].
  - destruct (action_marks (y_marks y) r a fine) as [mm q]. cbn [o_fine fine]. eexists. split; [reflexivity|]. unfold weight. cbn [y_service y_workers]. set (r' := mk_req (rq_no r) (rq_id r) (rq_actions r) (S (rq_current r))). pose proof (weight_set (y_workers y) w k (put k (Busy r')) Hw) as W. unfold worker_weight at 2 4 in W. rewrite St, Ca, Fl in W. cbn [put wk_state wk_filter] in W.
    assert (E : rem r' = rem r - 1) by (unfold rem, r'; cbn; lia). destruct (current_action r'); [destruct (service_filter r' (wk_filter k))|]; lia.
  - eexists. split; [reflexivity|]. unfold weight. cbn [y_service y_workers service_schedule sv_list]. rewrite weight_awaken, map_app, sum_app. cbn [map list_sum fold_right]. pose proof (weight_set (y_workers y) w k (put k Ready) Hw) as W. unfold worker_weight at 2 4 in W. rewrite St, Ca, Fl in W. cbn [put wk_state] in W. unfold queue_weight at 2. lia.
Qed.
Lemma filters_kept y m z : moved y m = Ok z -> map wk_filter (y_workers z) = map wk_filter (y_workers y).
Proof.
  assert (A : forall l, map wk_filter (map awaken l) = map wk_filter l) by (intro l; rewrite map_map; apply map_ext, awaken_filter).
  assert (S : forall ws w k k', nth_error ws w = Some k -> wk_filter k' = wk_filter k -> map wk_filter (set_worker ws w k') = map wk_filter ws) by (intros ws w k k' H E; destruct (worker_split ws w k H) as (a & b & -> & X); rewrite X, !map_app; cbn [map]; rewrite E; reflexivity).
  destruct m as [id a l|p cloud|w o|w|p| ]; cbn [moved]; intro M.
  - injection M as <-. apply A.
  - injection M as <-. unfold want_refresh. destruct (y_marks y p); [reflexivity|]. apply A.
  - unfold work in M. destruct (nth_error (y_workers y) w) as [k|] eqn:Hw; [|injection M as <-; reflexivity]. destruct (wk_state k) as [| |r|]; try (injection M as <-; reflexivity).
    + destruct (sv_shutdown (y_service y)); [injection M as <-; apply (S _ _ k _ Hw); reflexivity|]. destruct (service_fetch (y_service y) (wk_filter k)) as [[[r|] s']| |]; try discriminate; injection M as <-; apply (S _ _ k _ Hw); reflexivity.
    + destruct (current_action r) as [a|]; [|injection M as <-; apply (S _ _ k _ Hw); reflexivity]. destruct (negb (service_filter r (wk_filter k))); [injection M as <-; cbn [y_workers]; rewrite A; apply (S _ _ k _ Hw); reflexivity|]. destruct (action_marks (y_marks y) r a o). injection M as <-. apply (S _ _ k _ Hw). reflexivity.
  - injection M as <-. destruct (nth_error (y_workers y) w) as [k|] eqn:Hw; [|reflexivity]. apply (S _ _ k _ Hw), awaken_filter.
  - injection M as <-. reflexivity.
  - injection M as <-. apply A.
Qed.
Lemma manned_filters ws : manned ws <-> In Any (map wk_filter ws) \/ In WithoutUpload (map wk_filter ws) /\ In OnlyUpload (map wk_filter ws).
Proof. unfold manned. rewrite !in_map_iff. split; (intros [(k & A & B)|[(k & A & B) (j & C & D)]]; [left; exists k; tauto|right; split; [exists k|exists j]; tauto]). Qed.
Lemma work_shutdown y w o z : inv y -> work y w o = Ok z -> sv_shutdown (y_service z) = sv_shutdown (y_service y).
Proof.
  intros (IQ & _). unfold work. destruct (nth_error (y_workers y) w) as [k|]; [|intro M; injection M as <-; reflexivity]. destruct (wk_state k) as [| |r|]; try (intro M; injection M as <-; reflexivity).
  - destruct (sv_shutdown (y_service y)) eqn:Sd; [intro M; injection M as <-; exact Sd|]. destruct (fetch_queue (y_service y) (wk_filter k) IQ) as [[E _]|(r & s' & E & _ & _ & S)]; rewrite E; intro M; injection M as <-; [exact Sd|]. cbn [y_service]. congruence.
  - destruct (current_action r) as [a|]; [|intro M; injection M as <-; reflexivity]. destruct (negb (service_filter r (wk_filter k))); [intro M; injection M as <-; reflexivity|]. destruct (action_marks (y_marks y) r a o). intro M. injection M as <-. reflexivity.
Qed.
Lemma somebody_goes y : inv y -> manned (y_workers y) -> sv_shutdown (y_service y) = false -> ~ idle y -> exists w z, work y w fine = Ok z /\ weight z < weight y.
Proof.
  intros I Mn Sd NI. destruct (in_hands y) as [|r0 rs] eqn:Hn.
  - assert (NB : forall k r, In k (y_workers y) -> wk_state k <> Busy r).
    { intros k r Ik E. assert (X : In r (in_hands y)) by (rewrite in_hands_eq; apply in_flat_map; exists k; split; [exact Ik|unfold hand; rewrite E; left; reflexivity]). rewrite Hn in X. destruct X. }
    destruct (sv_list (y_service y)) as [|r l] eqn:L; [destruct NI; split; assumption|].
    assert (X : exists k, In k (y_workers y) /\ service_filter r (wk_filter k) = true).
    { destruct Mn as [(k & Ik & F)|[(k & Ik & F) (j & Ij & G)]]; [exists k; rewrite F; tauto|]. destruct (is_upload r) eqn:U; [exists j; rewrite G; tauto|exists k; rewrite F; cbn; rewrite U; tauto]. }
    destruct X as (k & Ik & F). destruct (In_nth_error _ _ Ik) as (w & Hw). destruct I as (IQ & IA & _). pose proof (nth_forall _ _ _ _ IA Hw) as [A G]. exists w. unfold work. rewrite Hw. destruct (wk_state k) as [| |r'|] eqn:St.
    + rewrite Sd. destruct (fetch_queue (y_service y) (wk_filter k) IQ) as [[_ N]|(r1 & s' & E & (a & b & Lq & L' & F1 & _) & _)]; [rewrite L in N; apply Forall_inv in N; congruence|]. rewrite E. eexists. split; [reflexivity|]. unfold weight. cbn [y_service y_workers]. rewrite L', Lq, !map_app, !sum_app. cbn [map]. rewrite sum_cons. pose proof (weight_set (y_workers y) w k (put k (Busy r1)) Hw) as W. unfold worker_weight at 2 4 in W. rewrite St in W. cbn [put wk_state wk_filter] in W. rewrite F1 in W. assert (QW : queue_weight r1 = 3 * rem r1 + 2) by reflexivity. rewrite QW. destruct (current_action r1); lia.
    + destruct (A eq_refl) as [_ N]. rewrite L in N. apply Forall_inv in N. congruence.
    + destruct (NB k r' Ik St).
    + rewrite (G eq_refl) in Sd. discriminate.
  - assert (X : In r0 (in_hands y)) by (rewrite Hn; left; reflexivity). rewrite in_hands_eq in X. apply in_flat_map in X. destruct X as (k & Ik & Hk). unfold hand in Hk. destruct (wk_state k) as [| |r|] eqn:St; try destruct Hk. destruct (In_nth_error _ _ Ik) as (w & Hw). exists w. apply (busy_goes y w k r I Hw St). destruct H.
Qed.
Lemma serve_all : forall n y, weight y <= n -> inv y -> manned (y_workers y) -> sv_shutdown (y_service y) = false -> exists ws z, moves y (map (fun w => Work w fine) ws) = Ok z /\ idle z /\ y_next z = y_next y.
Proof.
  assert (D : forall y, idle y \/ ~ idle y) by (intro y; unfold idle; destruct (sv_list (y_service y)); [destruct (in_hands y); [left; tauto|right; intros [_ X]; discriminate]|right; intros [X _]; discriminate]).
  assert (N : forall y w z, work y w fine = Ok z -> y_next z = y_next y).
  { intros y w z. unfold work. destruct (nth_error (y_workers y) w) as [k|]; [|intro M; injection M as <-; reflexivity]. destruct (wk_state k) as [| |r|]; try (intro M; injection M as <-; reflexivity).
    - destruct (sv_shutdown (y_service y)); [intro M; injection M as <-; reflexivity|]. destruct (service_fetch (y_service y) (wk_filter k)) as [[[r|] s']| |]; intro M; try discriminate; injection M as <-; reflexivity.
    - destruct (current_action r) as [a|]; [|intro M; injection M as <-; reflexivity]. destruct (negb (service_filter r (wk_filter k))); [intro M; injection M as <-; reflexivity|]. destruct (action_marks (y_marks y) r a fine). intro M. injection M as <-. reflexivity. }
  induction n as [|n IH]; intros y W I Mn Sd; destruct (D y) as [Id|Id]; try (exists [], y; repeat split; try reflexivity; apply Id); destruct (somebody_goes y I Mn Sd Id) as (w & z & M & L); [lia|].
  destruct (IH z ltac:(lia) (moved_inv y (Work w fine) z I M)) as (ws & z' & M' & Id' & Nx).
  - apply manned_filters. rewrite (filters_kept y (Work w fine) z M). apply manned_filters, Mn.
  - rewrite (work_shutdown y w fine z I M). exact Sd.
  - exists (w :: ws), z'. split; [cbn [map moves moved]; rewrite M; exact M'|]. split; [exact Id'|]. rewrite Nx. apply (N y w z M).
Qed.
Lemma reached_filters ws y : reached ws y -> map wk_filter (y_workers y) = map wk_filter ws.
Proof.
  intros (l & M). refine (moves_keep (fun y => map wk_filter (y_workers y) = map wk_filter ws) _ l (start ws) y eq_refl M). intros a m b E X. rewrite (filters_kept a m b X). exact E.
Qed.
Theorem all_served ws y : all_ready ws -> manned ws -> reached ws y -> sv_shutdown (y_service y) = false ->
  exists l z, moves y (map (fun w => Work w fine) l) = Ok z /\ idle z /\ y_next z = y_next y /\ Permutation (ended (y_log z)) (seq 0 (y_next y)).
Proof.
  intros R Mn H Sd. pose proof (reached_inv ws y R H) as I. assert (Mn' : manned (y_workers y)) by (apply manned_filters; rewrite (reached_filters ws y H); apply manned_filters, Mn).
  destruct (serve_all (weight y) y (le_n _) I Mn' Sd) as (l & z & M & Id & Nx). exists l, z. split; [exact M|]. split; [exact Id|]. split; [exact Nx|]. rewrite <- Nx.
  destruct (moves_keep inv moved_inv _ y z I M) as (_ & _ & (P & _)). destruct Id as [I1 I2]. rewrite I1, I2 in P. exact P.
Qed.

(* marks *)
Definition inv_marks (y : system) : Prop := forall p, no_two (about p (y_log y)) /\ (y_marks y p = false -> hd false (about p (y_log y)) = false).
Lemma about_app p a b : about p (a ++ b) = about p a ++ about p b.
Proof. apply flat_map_app. Qed.
Lemma no_two_false n l : no_two l -> no_two (repeat false n ++ l).
Proof. induction n as [|n IH]; intro H; [exact H|]. cbn. apply IH, H. Qed.
Lemma about_replaced p q : exists n, about p (map Replaced q) = repeat false n /\ (In p q <-> 0 < n).
Proof.
  induction q as [|x q (n & E & I)]; [exists 0; split; [reflexivity|cbn; lia]|]. cbn [map about flat_map]. fold (about p (map Replaced q)). rewrite E. cbn [In]. destruct (N.eqb_spec x p) as [->|N].
  - exists (S n). split; [reflexivity|]. split; [lia|tauto].
  - exists n. split; [reflexivity|]. rewrite <- I. tauto.
Qed.
Lemma marks_spec m r a o m' q p : action_marks m r a o = (m', q) -> m' p = false -> In p q \/ m p = false.
Proof.
  destruct a; cbn [action_marks]; try (intro E; injection E as <- <-; tauto).
  - revert m m' q. induction (o_moved o) as [|[x b] l IH]; intros m m' q E H; cbn [rebalance_marks] in E; [injection E as <- <-; tauto|]. destruct (m x) eqn:Mx; [apply (IH _ _ _ E H)|]. destruct (rebalance_marks (mark (negb b) m x) l) as [m1 q1] eqn:E1. injection E as <- <-.
    destruct (IH _ _ _ E1 H) as [Y|Y]; [left; destruct b; [right|]; exact Y|]. unfold mark in Y. destruct (N.eqb_spec p x) as [->|]; [|tauto]. tauto.
  - destruct (o_replaced o); intro E; injection E as <- <-; [|tauto]. unfold mark. destruct (N.eqb_spec p (rq_id r)) as [->|]; [left; left; reflexivity|tauto].
Qed.
Lemma quiet_step y z q x : inv_marks y -> (match x with Ran _ _ => True | Failed _ _ => True | _ => False end) -> (forall p, y_marks z p = false -> In p q \/ y_marks y p = false) -> y_log z = map Replaced (rev q) ++ x :: y_log y -> inv_marks z.
Proof.
  intros I X H L p. rewrite L, about_app. destruct (about_replaced p (rev q)) as (n & E & J). rewrite E. assert (X' : about p (x :: y_log y) = about p (y_log y)) by (destruct x; try destruct X; reflexivity). rewrite X'. destruct (I p) as [A B]. split; [apply no_two_false, A|]. intro F. destruct n as [|n]; [|reflexivity]. cbn [repeat app]. apply B. destruct (H p F) as [K|K]; [|exact K]. apply in_rev in K. apply J in K. lia.
Qed.
Lemma marks_moved y m z : inv_marks y -> moved y m = Ok z -> inv_marks z.
Proof.
  intros I M. assert (S : forall z, y_marks z = y_marks y -> (forall p, about p (y_log z) = about p (y_log y)) -> inv_marks z) by (intros z0 A B p; rewrite A, B; apply I).
  destruct m as [id a l|p cloud|w o|w|p| ]; cbn [moved] in M.
  - injection M as <-. apply S; reflexivity.
  - injection M as <-. unfold want_refresh. destruct (y_marks y p) eqn:Mp; [exact I|]. intro q. cbn [y_log y_marks service_add about flat_map]. fold (about q (y_log y)). unfold mark. destruct (I q) as [A B]. rewrite (N.eqb_sym p q). destruct (N.eqb_spec q p) as [->|N].
    + split; [|discriminate]. specialize (B Mp). cbn [app]. destruct (about p (y_log y)) as [|[|] t]; [exact Logic.I|discriminate|exact A].
    + split; assumption.
  - unfold work in M. destruct (nth_error (y_workers y) w) as [k|]; [|injection M as <-; exact I]. destruct (wk_state k) as [| |r|]; try (injection M as <-; exact I).
    + destruct (sv_shutdown (y_service y)); [injection M as <-; apply S; reflexivity|]. destruct (service_fetch (y_service y) (wk_filter k)) as [[[r|] s']| |]; try discriminate; injection M as <-; apply S; reflexivity.
    + destruct (current_action r) as [a|]; [|injection M as <-; apply S; reflexivity]. destruct (negb (service_filter r (wk_filter k))); [injection M as <-; apply S; reflexivity|]. destruct (action_marks (y_marks y) r a o) as [m' q] eqn:E. injection M as <-.
      apply (quiet_step y _ q (if o_fine o then Ran (rq_no r) a else Failed (rq_no r) a) I); [destruct (o_fine o); exact Logic.I| |reflexivity]. intros p. cbn [y_marks]. apply (marks_spec _ _ _ _ _ _ p E).
  - injection M as <-. destruct (nth_error (y_workers y) w); [apply S; reflexivity|exact I].
  - injection M as <-. intro q. cbn [y_log y_marks about flat_map]. fold (about q (y_log y)). unfold mark. destruct (I q) as [A B]. rewrite (N.eqb_sym p q). destruct (N.eqb_spec q p); [split; [exact A|reflexivity]|split; assumption].
  - injection M as <-. apply S; reflexivity.
Qed.
Theorem asked_once ws y p : reached ws y -> no_two (about p (y_log y)).
Proof. intros (l & M). apply (moves_keep inv_marks marks_moved l (start ws) y); [intro q; split; [exact Logic.I|reflexivity]|exact M]. Qed.
(* forgotten partitions *)
Lemma forgotten_moved y m z p : inv y -> forgotten y p -> leaves p m -> moved y m = Ok z -> forgotten z p.
Proof.
  intros I (Mp & F) Lv M. pose proof (moved_shift y m z (proj1 I) M) as Sh. assert (F' : forall r, In r (sv_list (y_service y) ++ in_hands y) -> rq_id r <> p) by (rewrite Forall_forall in F; exact F).
  assert (RQ : (forall id a l, m = Add id a l -> True) -> Forall (fun r => rq_id r <> p) (sv_list (y_service z) ++ in_hands z) /\ y_marks z p = true).
  { intros _. split.
    - unfold shifted in Sh. assert (NA : forall n id a l, In (Added n id (a :: l)) (y_log z) -> In (Added n id (a :: l)) (y_log y) \/ id <> p).
      { destruct m as [id a l|q cloud|w o|w|q| ]; cbn [moved] in M; intros n0 id0 a0 l0 J.
        - injection M as <-. cbn [y_log service_add] in J. destruct J as [J|J]; [injection J as <- <- <- <-; right; exact Lv|left; exact J].
        - injection M as <-. unfold want_refresh in J. destruct (y_marks y q) eqn:Mq; [left; exact J|]. cbn [y_log service_add] in J. destruct J as [J|[J|J]]; [discriminate| |left; exact J]. injection J as _ <- _. right. intros ->. congruence.
        - left. unfold work in M. destruct (nth_error (y_workers y) w) as [k|]; [|injection M as <-; exact J]. destruct (wk_state k) as [| |r|]; try (injection M as <-; exact J).
          + destruct (sv_shutdown (y_service y)); [injection M as <-; exact J|]. destruct (service_fetch (y_service y) (wk_filter k)) as [[[r|] s']| |]; try discriminate; injection M as <-; exact J.
          + destruct (current_action r) as [b|]; [|injection M as <-; cbn [y_log] in J; destruct J as [J|J]; [discriminate|exact J]]. destruct (negb (service_filter r (wk_filter k))); [injection M as <-; exact J|]. destruct (action_marks (y_marks y) r b o). injection M as <-. cbn [y_log] in J. apply in_app_or in J. destruct J as [J|[J|J]]; [|destruct (o_fine o); discriminate|exact J]. apply in_map_iff in J. destruct J as (? & X & _). discriminate.
        - injection M as <-. left. destruct (nth_error (y_workers y) w); exact J.
        - injection M as <-. left. destruct J as [J|J]; [discriminate|exact J].
        - injection M as <-. left. exact J. }
      apply Forall_forall. intros r Ir. inversion Sh as [e H' q PH E1 E2 E3 E4|e H' id a l q PH E1 E2 E3 E4|a r0 b H' EQ PH E1 E2 E3 E4|r0 R H' a P1 P2 Ca E1 E2 E3 E4|e r0 R H' a q P1 Ca P2 E1 E2 E3 E4|r0 R H' P1 Ca P2 E1 E2 E3 E4|e r0 R H' a q P1 Ca P2 E1 E2 E3 E4]; clear Sh.
      + rewrite <- E1 in Ir. apply F'. apply in_app_or in Ir. apply in_or_app. destruct Ir as [Ir|Ir]; [left; exact Ir|right; eapply Permutation_in; [symmetry; exact PH|exact Ir]].
      + rewrite <- E1 in Ir. apply in_app_or in Ir. destruct Ir as [Ir|Ir]; [apply in_app_or in Ir; destruct Ir as [Ir|[<-|[]]]|].
        * apply F', in_or_app. left. exact Ir.
        * cbn [rq_id]. destruct (NA (y_next y) id a l) as [J|J]; [rewrite <- E3; apply in_or_app; right; left; reflexivity| |exact J]. exfalso.
          destruct I as (_ & _ & (_ & Ad & _)). apply added_in in J. assert (X : In (y_next y) (rev (seq 0 (y_next y)))) by (rewrite <- Ad; apply in_map_iff; eexists; split; [|exact J]; reflexivity). apply in_rev in X. apply in_seq in X. lia.
        * apply F', in_or_app. right. eapply Permutation_in; [symmetry; exact PH|exact Ir].
      + apply F'. rewrite EQ. rewrite <- E1 in Ir. assert (X : Permutation ((a ++ r0 :: b) ++ in_hands y) ((a ++ b) ++ in_hands z)) by (rewrite <- PH, <- !app_assoc; apply Permutation_app_head; cbn [app]; apply Permutation_middle). eapply Permutation_in; [symmetry; exact X|exact Ir].
      + apply F'. rewrite <- E1 in Ir. assert (X : Permutation (sv_list (y_service y) ++ in_hands y) ((sv_list (y_service y) ++ [r0]) ++ in_hands z)) by (rewrite P1, <- app_assoc; cbn [app]; rewrite P2; reflexivity). eapply Permutation_in; [symmetry; exact X|exact Ir].
      + rewrite <- E1 in Ir. apply in_app_or in Ir. destruct Ir as [Ir|Ir]; [apply F', in_or_app; left; exact Ir|]. apply (Permutation_in r (Permutation_sym P2)) in Ir. destruct Ir as [<-|Ir]; [cbn [rq_id]; apply F', in_or_app; right; eapply Permutation_in; [symmetry; exact P1|left; reflexivity]|]. apply F', in_or_app. right. eapply Permutation_in; [symmetry; exact P1|right; exact Ir].
      + rewrite <- E1 in Ir. apply F'. apply in_app_or in Ir. apply in_or_app. destruct Ir as [Ir|Ir]; [left; exact Ir|right]. eapply Permutation_in; [symmetry; exact P1|right]. eapply Permutation_in; [symmetry; exact P2|exact Ir].
      + rewrite <- E1 in Ir. apply F'. apply in_app_or in Ir. apply in_or_app. destruct Ir as [Ir|Ir]; [left; exact Ir|right]. eapply Permutation_in; [symmetry; exact P1|right]. eapply Permutation_in; [symmetry; exact P2|exact Ir].
    - destruct m as [id a l|q cloud|w o|w|q| ]; cbn [moved] in M.
      + injection M as <-. exact Mp.
      + injection M as <-. unfold want_refresh. destruct (y_marks y q); [exact Mp|]. cbn [y_marks service_add]. unfold mark. destruct (p =? q)%N; [reflexivity|exact Mp].
      + unfold work in M. destruct (nth_error (y_workers y) w) as [k|] eqn:Hw; [|injection M as <-; exact Mp]. destruct (wk_state k) as [| |r|] eqn:St; try (injection M as <-; exact Mp).
        * destruct (sv_shutdown (y_service y)); [injection M as <-; exact Mp|]. destruct (service_fetch (y_service y) (wk_filter k)) as [[[r|] s']| |]; try discriminate; injection M as <-; exact Mp.
        * assert (Nr : rq_id r <> p) by (apply F', in_or_app; right; rewrite in_hands_eq; apply in_flat_map; exists k; split; [eapply nth_error_In, Hw|unfold hand; rewrite St; left; reflexivity]).
          destruct (current_action r) as [b|]; [|injection M as <-; exact Mp]. destruct (negb (service_filter r (wk_filter k))); [injection M as <-; exact Mp|]. destruct (action_marks (y_marks y) r b o) as [m' q] eqn:E. injection M as <-. cbn [y_marks].
          destruct b; cbn [action_marks] in E; try (injection E as <- <-; exact Mp).
          -- clear - Mp E. revert E. generalize (y_marks y) m' q Mp. induction (o_moved o) as [|[x c] l IH]; intros m0 m1 q1 H E; cbn [rebalance_marks] in E; [injection E as <- <-; exact H|]. destruct (m0 x) eqn:Mx; [apply (IH _ _ _ H E)|]. destruct (rebalance_marks (mark (negb c) m0 x) l) as [m2 q2] eqn:E2. injection E as <- <-. apply (IH (mark (negb c) m0 x) m2 q2); [|exact E2]. unfold mark. destruct (N.eqb_spec p x); [congruence|exact H].
          -- destruct (o_replaced o); injection E as <- <-; [|exact Mp]. unfold mark. destruct (N.eqb_spec p (rq_id r)); [congruence|exact Mp].
      + injection M as <-. destruct (nth_error (y_workers y) w); exact Mp.
      + injection M as <-. cbn [y_marks]. unfold mark. cbn [leaves] in Lv. destruct (N.eqb_spec p q); [congruence|exact Mp].
      + injection M as <-. exact Mp. }
  destruct (RQ (fun _ _ _ _ => Logic.I)) as [A B]. split; assumption.
Qed.
Lemma forgotten_moves : forall l y z p, inv y -> forgotten y p -> Forall (leaves p) l -> moves y l = Ok z -> forgotten z p.
Proof.
  induction l as [|m l IH]; intros y z p I F Lv M; cbn [moves] in M; [injection M as <-; exact F|]. destruct (moved y m) as [y1| |] eqn:E; try discriminate. apply (IH y1 z p (moved_inv y m y1 I E)); [apply (forgotten_moved y m y1 p I F (Forall_inv Lv) E)|exact (Forall_inv_tail Lv)|exact M].
Qed.
Theorem stays_forgotten ws y z l p : all_ready ws -> reached ws y -> forgotten y p -> Forall (leaves p) l -> moves y l = Ok z -> forgotten z p.
Proof. intros R H. apply forgotten_moves, (reached_inv ws y R H). Qed.
(* a refreshed partition can be asked for again *)
Theorem asked_again y z u w k r o cloud :
  nth_error (y_workers y) w = Some k -> wk_state k = Busy r -> current_action r = Some Refresh ->
  service_filter r (wk_filter k) = true -> o_replaced o = true -> moved y (Work w o) = Ok z ->
  moved z (Want (rq_id r) cloud) = Ok u ->
  y_next u = S (y_next z) /\ In (mk_req (y_next z) (rq_id r) (refresh_actions cloud) 0) (sv_list (y_service u)).
Proof.
  intros W S C F O M N. cbn [moved] in M, N. unfold work in M. rewrite W, S, C, F in M. cbn [negb action_marks] in M. rewrite O in M.
  injection M as <-. injection N as <-. unfold want_refresh. cbn [y_marks].
  assert (E : mark false (y_marks y) (rq_id r) (rq_id r) = false) by (unfold mark; rewrite N.eqb_refl; reflexivity). rewrite E.
  cbn [service_add y_next y_service service_schedule sv_list]. split; [reflexivity|]. apply in_or_app. right. left. reflexivity.
Qed.
