(* Histories and the rebalance. *)
From Coq Require Import NArith ZArith Arith List Bool Lia.
Import ListNotations.
From Verif Require Import Model.Base Model.Show Model.Tiering Spec.Tiering Proof.TieringL Proof.TieringO.
Local Arguments N.land : simpl never.
Local Arguments N.ldiff : simpl never.
Local Arguments N.lor : simpl never.
Local Arguments N.testbit : simpl never.
Local Arguments Z.pow : simpl never.
Local Arguments Z.modulo : simpl never.
Local Arguments N.leb : simpl never.
Local Arguments N.ltb : simpl never.
Local Arguments N.eqb : simpl never.
Local Arguments Nat.eqb : simpl never.

Lemma andthen_step lost d r k (keep : Prop) : result lost d (fst r) True ->
  (forall lost1, snd r <> Failed -> wf (fst r) -> counted lost1 (fst r) -> result lost1 (fst r) (fst (k (fst r))) keep) ->
  result lost d (fst (andthen r k)) keep.
Proof.
  intros R H. destruct r as [d1 o]. cbn [fst snd] in *. destruct R as (W & F & X & K). destruct o; cbn [andthen];
  try (eapply (result_then lost d d1 _ True keep); [split; [exact W|]; split; [exact F|]; split; [exact X|exact K]| |tauto]; intros l1 C1; apply H; [discriminate|exact W|exact C1]).
  cbn [fst]. split; [exact W|]. split; [exact F|]. split; [exact X|]. intros _. apply K, Logic.I.
Qed.
Lemma downloaded d id e k : wf d -> snd (engine_download d id e true k) <> Failed -> has_copy (fst (engine_download d id e true k)) id ID_CLOUD.
Proof.
  intros W H. unfold engine_download in *. destruct (part_at d id) as [p|] eqn:A.
  2:{ intros q Aq. exfalso. destruct e; cbn [fst] in Aq; congruence. }
  destruct (ok_at d id p W A) as [I K].
  assert (L : tp_has p ID = true \/ filed p = false -> has_copy d id ID_CLOUD).
  { intros L q Aq Fq. rewrite A in Aq. injection Aq as <-. destruct L as [L|L]; [|congruence].
    destruct (state_cases d p K) as [S|[S|[S|S]]]; unfold tp_has in L; rewrite S in *; try discriminate; vm_compute; discriminate. }
  assert (M : tp_has p ID = false -> tp_has p ID_CLOUD = false -> filed p = false).
  { intros M1 M2. destruct (state_cases d p K) as [S|[S|[S|S]]]; unfold tp_has, filed in *; rewrite S in *; try discriminate; reflexivity. }
  destruct (has_cloud d p) eqn:HC; cbn [negb fst snd] in *.
  - destruct (tp_has p ID) eqn:H1; cbn [orb fst snd] in *; [apply L; tauto|]. destruct (tp_has p ID_CLOUD) eqn:H2; cbn [negb orb fst snd] in *; [|apply L; right; apply M; reflexivity].
    destruct (lk_download k); cbn [fst snd] in *; [|congruence]. intros q Aq Fq.
    destruct (lor_ok d p ID K (or_introl eq_refl) (has_filed p _ H2)) as [K' F'].
    rewrite (part_at_put d id p _ W A (set_same p _) K') in Aq. injection Aq as <-. cbn [set_state tp_state].
    destruct (state_cases d p K) as [S|[S|[S|S]]]; unfold tp_has in *; rewrite S in *; try discriminate; vm_compute; discriminate.
  - destruct (tp_has p ID) eqn:H1; [apply L; tauto|]. destruct (tp_has p ID_CLOUD) eqn:H2; [|apply L; right; apply M; reflexivity]. exfalso.
    destruct K as (_ & _ & x & Ix & Ex & Cx). unfold has_cloud in HC. destruct W as (_ & _ & N & _). rewrite <- Ex, (storage_at_in d x N Ix), (Cx H2) in HC. discriminate.
Qed.
Lemma move_step lost d id t e k : wf d -> counted lost d -> result lost d (fst (engine_refresh d id t e k)) True.
Proof.
  intros W C. unfold engine_refresh. apply andthen_step; [apply download_step; assumption|]. intros l1 H1 W1 C1. apply andthen_step.
  { eapply result_weaken; [apply drop_step; assumption|]. intros _. apply downloaded; assumption. }
  intros l2 H2 W2 C2. apply andthen_step; [apply refresh_step; assumption|]. intros l3 H3 W3 C3. apply andthen_step; [apply upload_step; assumption|].
  intros l4 H4 W4 C4. apply drop_uploaded_step; assumption.
Qed.

(* the rebalance *)
Lemma oldest_fold : forall l m, exists q, fold_left (fun m p => match m with
    | None => Some p
    | Some m => if (tp_created p <? tp_created m)%N then Some p else Some m end) l (Some m) = Some q /\
  (q = m \/ In q l) /\ (tp_created q <= tp_created m)%N /\ forall p, In p l -> (tp_created q <= tp_created p)%N.
Proof.
  induction l as [|x l IH]; intro m; cbn [fold_left].
  - exists m. repeat split; [tauto|lia|intros p []].
  - destruct (N.ltb_spec (tp_created x) (tp_created m)) as [L|L].
    + destruct (IH x) as (q & E & H & G & F). exists q. split; [exact E|]. split; [destruct H as [->|H]; [right; left; reflexivity|right; right; exact H]|]. split; [lia|].
      intros p [<-|I]; [lia|apply F, I].
    + destruct (IH m) as (q & E & H & G & F). exists q. split; [exact E|]. split; [destruct H as [->|H]; [left; reflexivity|right; right; exact H]|]. split; [lia|].
      intros p [<-|I]; [lia|apply F, I].
Qed.
Lemma storage_oldest_spec l : match storage_oldest l with Some p => oldest l p | None => l = [] end.
Proof.
  destruct l as [|x l]; [reflexivity|]. unfold storage_oldest. cbn [fold_left]. destruct (oldest_fold l x) as (q & -> & H & G & F). split.
  - destruct H as [->|H]; [left; reflexivity|right; exact H].
  - intros p [<-|I]; [exact G|apply F, I].
Qed.
Lemma tier_next_in d t now p : engine_rebalance_tier_next d t now = Some p -> oldest (on d (tt_storage t)) p.
Proof.
  unfold engine_rebalance_tier_next. destruct (storage_at d (tt_storage t)) as [x|] eqn:E; [|discriminate]. apply storage_at_some in E. destruct E as [_ E]. rewrite E.
  pose proof (storage_oldest_spec (parts_of d (tt_storage t))) as O. fold (on d (tt_storage t)) in *. unfold parts_of in *. fold (on d (tt_storage t)) in *.
  repeat match goal with |- context [if ?c then _ else _] => destruct c end; try discriminate; intro H; try (rewrite H in O; exact O).
  - destruct (storage_oldest (on d (tt_storage t))) as [q|]; [|discriminate]. destruct (tt_duration t <=? Z.of_N (sub64 now (tp_created q)))%Z; [|discriminate]. injection H as <-. exact O.
Qed.
Lemma on_in d s p : In p (on d s) -> In p (d_parts d) /\ tp_storage p = s.
Proof. intro H. apply filter_In in H. destruct H as [H E]. apply Nat.eqb_eq in E. tauto. Qed.
Lemma next_in d now : forall l s d1 min s', engine_rebalance_next d l s now = Some (d1, min, s') ->
  exists p, In p (d_parts d) /\ d1 = put_part d (set_refresh p) /\ min = tp_min p /\ tp_refresh p = false.
Proof.
  induction l as [|t r IH]; intros s d1 min s'; cbn [engine_rebalance_next]; [discriminate|]. destruct (engine_rebalance_tier_next d t now) as [p|] eqn:E; [|apply IH].
  destruct (tp_refresh p) eqn:R; [apply IH|]. intro H. injection H as <- <- _. exists p. apply tier_next_in in E. destruct E as [E _]. apply on_in in E. tauto.
Qed.
Lemma mark_ok d p : part_ok d p -> part_ok d (set_refresh p).
Proof. intro K. exact K. Qed.
Lemma mark_step lost d p : wf d -> counted lost d -> In p (d_parts d) -> result lost d (put_part d (set_refresh p)) True.
Proof.
  intros W C I. assert (K : part_ok d p) by (destruct W as (F & _); rewrite Forall_forall in F; apply F, I).
  eapply result_weaken; [apply (put_step lost d p (set_refresh p) W C I); [repeat split|exact K|]|intros _ F; exact F]. intro F. repeat split. exact F.
Qed.
Lemma rebalance_step : forall fuel ws lost d, wf d -> counted lost d ->
  result lost d (fst (fst (engine_rebalance fuel ws d))) (Forall (fun a => snd a <> None) (snd (fst (engine_rebalance fuel ws d)))).
Proof.
  induction fuel as [|f IH]; intros ws lost d W C; cbn [engine_rebalance]; [apply result_same; assumption|].
  destruct (engine_rebalance_next d (d_tiers d) None (fst (ws 0))) as [[[d1 min] s]|] eqn:E; [|apply result_same; assumption].
  destruct (next_in _ _ _ _ _ _ _ E) as (p & I & -> & -> & R). pose proof (mark_step lost d p W C I) as M.
  set (act := match s with None => engine_drop _ _ _ _ _ | Some s0 => engine_refresh _ _ _ _ _ end).
  assert (A : result lost d (fst act) (s <> None)).
  { unfold act. destruct s as [s|].
    - eapply (result_then lost d _ _ True True); [exact M| |tauto]. intros l1 C1. apply move_step; [apply M|exact C1].
    - eapply (result_then lost d _ _ True _); [exact M| |intro X; exfalso; apply X; reflexivity]. intros l1 C1. apply drop_step; [apply M|exact C1]. }
  clearbody act. destruct act as [d2 o]. cbn [fst] in A.
  assert (G : forall o', o' <> Failed -> o = o' -> result lost d (fst (fst (let '(d3, l, e) := engine_rebalance f (fun n => ws (S n)) d2 in (d3, (tp_min p, s) :: l, e))))
    (Forall (fun a => snd a <> None) (snd (fst (let '(d3, l, e) := engine_rebalance f (fun n => ws (S n)) d2 in (d3, (tp_min p, s) :: l, e)))))).
  { intros o' _ _. pose proof (fun l1 C1 => IH (fun n => ws (S n)) l1 d2 (proj1 A) C1) as R2. destruct (engine_rebalance f (fun n => ws (S n)) d2) as [[d3 l] e]. cbn [fst snd] in *.
    eapply (result_then lost d d2 d3 _ _); [exact A|exact R2|]. intro F. inversion F as [|a b F1 F2]; subst. split; [exact F1|exact F2]. }
  destruct o; [apply (G Yes); [discriminate|reflexivity]|apply (G No); [discriminate|reflexivity]|]. cbn [fst snd].
  eapply result_weaken; [exact A|]. intro F. inversion F. assumption.
Qed.

(* restart *)
Lemma recover_one d p : ~ In (tp_min p) (map tp_min (d_parts d)) ->
  on_storage (put_part (storage_add d (set_state p 0)) p) (tp_storage p) (storage_add_metrics p) = storage_add d p.
Proof.
  intro H. destruct d as [ss ts ps]. unfold storage_add, on_storage, put_part. cbn [d_storages d_tiers d_parts set_state tp_storage tp_min] in *. f_equal.
  - rewrite map_map. apply map_ext. intro x. destruct (ts_id x =? tp_storage p) eqn:E.
    + unfold storage_add_metrics at 2. cbn [set_state tp_state]. change ((0 =? 0)%N) with true. cbv iota. unfold storage_add_metrics at 1. cbn [set_state tp_state]. change ((0 =? 0)%N) with true. cbv iota.
      cbn [count_by ts_id]. rewrite E. reflexivity.
    + rewrite E. reflexivity.
  - rewrite map_app, (map_skip p) by exact H. cbn [map set_state tp_min]. rewrite N.eqb_refl. reflexivity.
Qed.
Lemma recover_fold : forall l d, wf d -> exact d -> Forall (part_ok d) l -> ForallOrdPairs apart (d_parts d ++ l) ->
  let d' := fold_left (fun d p => on_storage (put_part (storage_add d (set_state p 0)) p) (tp_storage p) (storage_add_metrics p)) l d in
  wf d' /\ exact d' /\ framed d d' /\ d_parts d' = d_parts d ++ l.
Proof.
  induction l as [|p l IH]; intros d W X F O; cbn [fold_left]; [rewrite app_nil_r; split; [exact W|]; split; [exact X|]; split; [apply framed_refl|reflexivity]|]. pose proof (Forall_inv F) as F1. pose proof (Forall_inv_tail F) as F2.
  assert (O1 : ForallOrdPairs apart ((d_parts d ++ [p]) ++ l)) by (rewrite <- app_assoc; exact O).
  assert (A : Forall (fun q => apart q p) (d_parts d)).
  { clear - O. induction (d_parts d) as [|x ps IH]; [constructor|]. cbn [app] in O. inversion O as [|a b O1 O2]; subst. constructor; [|apply IH, O2]. rewrite Forall_forall in O1. apply O1, in_or_app. right. left. reflexivity. }
  assert (N : ~ In (tp_min p) (map tp_min (d_parts d))).
  { intro I. apply in_map_iff in I. destruct I as (q & E & I). rewrite Forall_forall in A. specialize (A q I). destruct W as (Fw & _). pose proof (ok_mins d _ Fw) as M. rewrite Forall_forall in M. specialize (M q I).
    destruct F1 as (F1 & _). unfold apart in A. cbn beta in M. lia. }
  rewrite (recover_one d p N). assert (Fr : framed d (storage_add d p)).
  { split; [|reflexivity]. unfold storage_add. rewrite on_storage_frame; [reflexivity|]. intro x. rewrite frame_add. reflexivity. }
  destruct (IH (storage_add d p)) as (H1 & H2 & H3 & H4).
  - apply add_wf; assumption.
  - apply add_counted, X.
  - eapply Forall_impl; [|exact F2]. intro q. apply part_ok_frame, Fr.
  - exact O1.
  - split; [exact H1|]. split; [exact H2|]. split; [eapply framed_trans; eassumption|]. rewrite H4. cbn [storage_add on_storage d_parts]. rewrite <- app_assoc. reflexivity.
Qed.
Lemma recover_exact d l : wf (mk_tdb (d_storages d) (d_tiers d) l) -> let d' := engine_recover d l in wf d' /\ exact d' /\ framed d d' /\ d_parts d' = l.
Proof.
  intros W. unfold engine_recover. set (d0 := mk_tdb (map _ (d_storages d)) (d_tiers d) []). assert (Fr : map frame (d_storages d0) = map frame (d_storages d)) by (cbn [d0 d_storages]; rewrite map_map; reflexivity).
  destruct W as (A & B & C & D & E). cbn [d_parts d_storages d_tiers] in *.
  assert (W0 : wf d0).
  { split; [constructor|]. split; [constructor|]. split; [rewrite (frame_ids d d0 Fr); exact C|]. split; [cbn [d0 d_storages]; destruct (d_storages d); [congruence|discriminate]|]. rewrite (frame_ids d d0 Fr). exact E. }
  destruct (recover_fold l d0 W0) as (H1 & H2 & H3 & H4).
  - intros x Ix. cbn [d0 d_storages] in Ix. apply in_map_iff in Ix. destruct Ix as (y & <- & _). repeat split.
  - eapply Forall_impl; [|exact A]. intro q. apply (part_ok_frame (mk_tdb (d_storages d) (d_tiers d) l)), Fr.
  - exact B.
  - split; [exact H1|]. split; [exact H2|]. split; [|exact H4]. apply (framed_trans d d0); [split; [exact Fr|reflexivity]|exact H3].
Qed.

(* histories *)
Lemma primary_exists d : wf d -> In (match d_tiers d with t :: _ => tt_storage t | [] => match d_storages d with x :: _ => ts_id x | [] => 0 end end) (map ts_id (d_storages d)).
Proof.
  intros (_ & _ & _ & D & E). destruct (d_tiers d) as [|t r]; [|inversion E; assumption]. destruct (d_storages d); [congruence|left; reflexivity].
Qed.
Lemma run_step lost d o : wf d -> counted lost d -> possible d o ->
  wf (run d o) /\ framed d (run d o) /\ (gains lost -> exists lost', gains lost' /\ counted lost' (run d o)) /\
  (lost = (fun _ => (0, 0))%Z -> keeps d o -> counted lost (run d o)).
Proof.
  intros W C P. assert (G : forall d' keep, result lost d d' keep -> (keeps d o -> keep) -> wf d' /\ framed d d' /\ (gains lost -> exists lost', gains lost' /\ counted lost' d') /\
    (lost = (fun _ => (0, 0))%Z -> keeps d o -> counted lost d')).
  { intros d' keep (A & B & (l1 & D1 & D2) & E) K. split; [exact A|]. split; [exact B|]. split; [|intros _ Q; apply E, K, Q].
    intro Z0. exists l1. split; [|exact D2]. intro i. specialize (D1 i). specialize (Z0 i). lia. }
  destruct o as [min max now|id e mask k|id k|id e c k|id e c k|id e k|id t e k|fuel ws|l]; cbn [run].
  - cbn [possible] in P. destruct P as [P1 P2]. unfold engine_create. apply (G _ True); [|tauto].
    pose proof (primary_exists d W) as Pr. set (s := match d_tiers d with t :: _ => _ | [] => _ end) in *. apply in_map_iff in Pr. destruct Pr as (x & Ex & Ix).
    assert (C' : counted lost (storage_add d (mk_tpart min max now 0 false 0 0 s))) by (apply add_counted, C).
    split; [|split; [|split; [exists lost; split; [apply grows_refl|exact C']|intros _; exact C']]].
    + apply add_wf; [exact W| |].
      * split; [exact P1|]. split; [left; reflexivity|]. exists x. split; [exact Ix|]. split; [exact Ex|]. vm_compute. discriminate.
      * eapply Forall_impl; [|exact P2]. intros q H. cbv beta in H. unfold apart. cbn [tp_min tp_max]. lia.
    + split; [|reflexivity]. unfold storage_add. rewrite on_storage_frame; [reflexivity|]. intro y. rewrite frame_add. reflexivity.
  - apply (G _ _ (drop_step lost d id e mask k W C)). cbn [keeps]. intros K p A F. destruct (part_at_in d id p A) as [I R]. apply (K p I R F).
  - apply (G _ _ (drop_uploaded_step lost d id true k W C)). tauto.
  - apply (G _ _ (download_step lost d id e c k W C)). tauto.
  - apply (G _ _ (upload_step lost d id e c k W C)). tauto.
  - apply (G _ _ (refresh_step lost d id None e k W C)). tauto.
  - apply (G _ _ (move_step lost d id t e k W C)). tauto.
  - apply (G _ _ (rebalance_step fuel ws lost d W C)). tauto.
  - cbn [possible] in P. destruct P as [P _]. destruct (recover_exact d l P) as (H1 & H2 & H3 & _). split; [exact H1|]. split; [exact H3|]. split.
    + intros _. exists (fun _ => (0, 0)%Z). split; [intro i; cbn; lia|exact H2].
    + intros -> _. exact H2.
Qed.
Theorem histories_counted : forall l d, wf d -> exact d -> all_possible d l ->
  wf (runs d l) /\ exists lost, gains lost /\ counted lost (runs d l).
Proof.
  assert (G : forall l d lost, wf d -> gains lost -> counted lost d -> all_possible d l ->
    wf (runs d l) /\ exists lost, gains lost /\ counted lost (runs d l)).
  { induction l as [|o l IH]; intros d lost W Z0 C P; cbn [runs]; [split; [exact W|exists lost; split; assumption]|]. destruct P as [P1 P2].
    destruct (run_step lost d o W C P1) as (W1 & _ & X & _). destruct (X Z0) as (l1 & Z1 & C1). apply (IH _ l1); assumption. }
  intros l d W X P. apply (G l d (fun _ => (0, 0)%Z)); try assumption. intro i. cbn. lia.
Qed.
Theorem histories_exact : forall l d, wf d -> exact d -> all_possible d l -> all_keep d l -> exact (runs d l).
Proof.
  induction l as [|o l IH]; intros d W X P K; cbn [runs]; [exact X|]. destruct P as [P1 P2]. destruct K as [K1 K2].
  destruct (run_step _ d o W X P1) as (W1 & _ & _ & Y). apply IH; try assumption. apply Y; [reflexivity|exact K1].
Qed.
Theorem restart_exact : forall d l, wf (mk_tdb (d_storages d) (d_tiers d) l) -> exact (engine_recover d l) /\ d_parts (engine_recover d l) = l.
Proof. intros d l W. destruct (recover_exact d l W) as (_ & A & _ & B). split; assumption. Qed.
