(* The operations on partitions keep the counters. *)
From Coq Require Import NArith ZArith Arith List Bool Lia.
Import ListNotations.
From Verif Require Import Model.Base Model.Show Model.Tiering Spec.Tiering Proof.TieringL.
Local Arguments N.land : simpl never.
Local Arguments N.ldiff : simpl never.
Local Arguments N.lor : simpl never.
Local Arguments N.testbit : simpl never.
Local Arguments Z.pow : simpl never.
Local Arguments Z.modulo : simpl never.
Local Arguments N.leb : simpl never.
Local Arguments N.ltb : simpl never.
Local Arguments N.eqb : simpl never.
Local Arguments Nat.eqb : simpl never.

Lemma mask_local m : (0 <? N.land m ID)%N = N.testbit m 0.
Proof. destruct m as [|p]; [reflexivity|]. destruct p; reflexivity. Qed.
Lemma mask_cloud m : (0 <? N.land m ID_CLOUD)%N = N.testbit m 3.
Proof. destruct m as [|p]; [reflexivity|]. do 4 (destruct p as [p|p|]; try reflexivity). Qed.
Lemma ldiff_1 m : N.ldiff 1 m = if N.testbit m 0 then 0%N else 1%N.
Proof. destruct m as [|p]; [reflexivity|]. destruct p; reflexivity. Qed.
Lemma ldiff_8 m : N.ldiff 8 m = if N.testbit m 3 then 0%N else 8%N.
Proof. destruct m as [|p]; [reflexivity|]. do 4 (destruct p as [p|p|]; try reflexivity). Qed.
Lemma ldiff_9 m : N.ldiff 9 m = if N.testbit m 0 then (if N.testbit m 3 then 0%N else 8%N) else if N.testbit m 3 then 1%N else 9%N.
Proof. destruct m as [|p]; [reflexivity|]. do 4 (destruct p as [p|p|]; try reflexivity). Qed.

Lemma put_put d p q : tp_min q = tp_min p -> put_part (put_part d p) q = put_part d q.
Proof.
  intro E. unfold put_part. cbn [d_storages d_tiers d_parts]. f_equal. rewrite map_map. apply map_ext. intro x.
  destruct (N.eqb_spec (tp_min x) (tp_min p)) as [E1|E1]; rewrite E; [rewrite N.eqb_refl|]; destruct (N.eqb_spec (tp_min x) (tp_min p)); congruence.
Qed.
Lemma put_self d p : wf d -> In p (d_parts d) -> put_part d p = d.
Proof.
  intros W I. pose proof (wf_mins d W) as N. destruct d as [ss ts ps]. unfold put_part. cbn [d_storages d_tiers d_parts] in *. f_equal. clear W.
  rewrite <- (map_id ps) at 2. apply map_ext_in. intros q Iq. destruct (N.eqb_spec (tp_min q) (tp_min p)) as [E|E]; [|reflexivity].
  induction ps as [|x l IH]; [destruct I|]. cbn [map] in N. inversion N as [|a b N1 N2]; subst. destruct I as [->|I], Iq as [->|Iq]; [reflexivity| | |apply IH; assumption].
  - exfalso. apply N1. rewrite <- E. apply in_map, Iq.
  - exfalso. apply N1. rewrite E. apply in_map, I.
Qed.
Lemma no_metrics d s p : tp_state p = 0%N -> on_storage d s (storage_remove_metrics p) = d.
Proof.
  intro E. destruct d as [ss ts ps]. unfold on_storage. cbn [d_storages d_tiers d_parts]. f_equal. rewrite <- (map_id ss) at 2. apply map_ext. intro x.
  unfold storage_remove_metrics. rewrite E. cbn. destruct (ts_id x =? s); reflexivity.
Qed.
Lemma state_cases d p : part_ok d p -> tp_state p = 0%N \/ tp_state p = 1%N \/ tp_state p = 8%N \/ tp_state p = 9%N.
Proof. intros (_ & H & _). cbn in H. intuition congruence. Qed.

(* what a drop of files does to the partition *)
Record dropped (mask : N) (p p' : tpart) (o : outcome) : Prop := mk_dropped {
  dr_place : same_place p p'; dr_created : tp_created p' = tp_created p; dr_refresh : tp_refresh p' = tp_refresh p;
  dr_index : filed p' = true -> tp_size p' = tp_size p /\ tp_events p' = tp_events p;
  dr_filed : filed p' = true -> filed p = true;
  dr_cloud : tp_has p' ID_CLOUD = true -> tp_has p ID_CLOUD = true;
  dr_state : In (tp_state p') [0; 1; 8; 9]%N;
  dr_full : N.ldiff (tp_state p) mask <> 0%N -> filed p' = true;
  dr_yes : o = Yes -> tp_state p' = N.ldiff (tp_state p) mask }.

Lemma bits_09 : N.testbit 0 0 = false /\ N.testbit 0 3 = false /\ N.testbit 1 0 = true /\ N.testbit 1 3 = false /\
  N.testbit 8 0 = false /\ N.testbit 8 3 = true /\ N.testbit 9 0 = true /\ N.testbit 9 3 = true.
Proof. repeat split. Qed.
Lemma diffs_09 : N.ldiff 9 ID_CLOUD = 1%N /\ N.ldiff 8 ID_CLOUD = 0%N /\ N.ldiff 9 ID = 8%N /\ N.ldiff 1 ID = 0%N.
Proof. repeat split. Qed.
Lemma eqs_09 : (0 =? 0)%N = true /\ (1 =? 0)%N = false /\ (8 =? 0)%N = false /\ (9 =? 0)%N = false.
Proof. repeat split. Qed.
Ltac states := repeat first
  [ progress cbn [andb orb negb set_state tp_state tp_min tp_max tp_created tp_refresh tp_size tp_events tp_storage reset_index]
  | rewrite (proj1 bits_09) | rewrite (proj1 (proj2 bits_09)) | rewrite (proj1 (proj2 (proj2 bits_09))) | rewrite (proj1 (proj2 (proj2 (proj2 bits_09))))
  | rewrite (proj1 (proj2 (proj2 (proj2 (proj2 bits_09))))) | rewrite (proj1 (proj2 (proj2 (proj2 (proj2 (proj2 bits_09))))))
  | rewrite (proj1 (proj2 (proj2 (proj2 (proj2 (proj2 (proj2 bits_09))))))) | rewrite (proj2 (proj2 (proj2 (proj2 (proj2 (proj2 (proj2 bits_09)))))))
  | rewrite (proj1 diffs_09) | rewrite (proj1 (proj2 diffs_09)) | rewrite (proj1 (proj2 (proj2 diffs_09))) | rewrite (proj2 (proj2 (proj2 diffs_09)))
  | rewrite (proj1 eqs_09) | rewrite (proj1 (proj2 eqs_09)) | rewrite (proj1 (proj2 (proj2 eqs_09))) | rewrite (proj2 (proj2 (proj2 eqs_09))) ].
Ltac drops B0 B3 := constructor; unfold same_place, filed, tp_has; rewrite ?mask_cloud; states; rewrite ?ldiff_1, ?ldiff_8, ?ldiff_9, ?N.ldiff_0_l, ?B0, ?B3; states;
  try (intros; discriminate); try (intros; congruence); try (cbn; tauto); auto.
Lemma drop_file_at d id e mask k p : wf d -> part_at d id = Some p ->
  exists p' o, engine_drop_file d id e false mask k = (put_part d p', o) /\ dropped mask p p' o /\ (lk_drop_cloud k = true -> lk_drop_local k = true -> o = Yes) /\ o <> No.
Proof.
  intros W A. pose proof (part_at_in d id p A) as [I _]. assert (K : part_ok d p) by (destruct W as (F & _); rewrite Forall_forall in F; apply F, I).
  unfold engine_drop_file. rewrite A. cbn [andb]. rewrite mask_local, mask_cloud.
  pose proof (put_self d p W I) as PS. unfold tp_has. rewrite !mask_local, !mask_cloud.
  destruct p as [mn mx cr st rf sz ev sg]. destruct (state_cases d _ K) as [S|[S|[S|S]]]; cbn [tp_state] in S; subst st; clear K I A W;
  destruct (N.testbit mask 0) eqn:B0; destruct (N.testbit mask 3) eqn:B3; destruct (lk_drop_cloud k) eqn:L1; destruct (lk_drop_local k) eqn:L2; states;
  rewrite ?no_metrics by reflexivity; rewrite ?put_put by reflexivity;
  (eexists _, _; split; [first [reflexivity|f_equal; symmetry; exact PS]|]; split; [drops B0 B3|split; [intros; congruence|discriminate]]).
Qed.

(* one operation: storages keep their numbers, the counters can only gain *)
Definition framed (d d' : tdb) : Prop := map frame (d_storages d') = map frame (d_storages d) /\ d_tiers d' = d_tiers d.
Lemma framed_refl d : framed d d.
Proof. split; reflexivity. Qed.
Lemma framed_trans a b c : framed a b -> framed b c -> framed a c.
Proof. intros [A B] [C D]. split; congruence. Qed.
Definition grows (a b : nat -> Z * Z) : Prop := forall i, (fst (a i) <= fst (b i) /\ snd (a i) <= snd (b i))%Z.
Lemma grows_refl a : grows a a.
Proof. intro i. lia. Qed.
Lemma grows_trans a b c : grows a b -> grows b c -> grows a c.
Proof. intros H G i. specialize (H i). specialize (G i). lia. Qed.
Definition result (lost : nat -> Z * Z) (d d' : tdb) (keep : Prop) : Prop :=
  wf d' /\ framed d d' /\ (exists lost', grows lost lost' /\ counted lost' d') /\ (keep -> counted lost d').
Lemma result_same lost d keep : wf d -> counted lost d -> result lost d d keep.
Proof. intros W C. split; [exact W|]. split; [apply framed_refl|]. split; [exists lost; split; [apply grows_refl|exact C]|intros _; exact C]. Qed.
Lemma result_then lost d d1 d2 (k1 k2 keep : Prop) : result lost d d1 k1 ->
  (forall lost1, counted lost1 d1 -> result lost1 d1 d2 k2) -> (keep -> k1 /\ k2) -> result lost d d2 keep.
Proof.
  intros (W1 & F1 & (l1 & G1 & C1) & K1) H K. destruct (H l1 C1) as (W2 & F2 & (l2 & G2 & C2) & _). split; [exact W2|]. split; [eapply framed_trans; eassumption|].
  split; [exists l2; split; [eapply grows_trans; eassumption|exact C2]|]. intro Q. destruct (K Q) as [Q1 Q2]. apply (H lost (K1 Q1)), Q2.
Qed.
Lemma result_weaken lost d d' (k1 k2 : Prop) : result lost d d' k1 -> (k2 -> k1) -> result lost d d' k2.
Proof. intros (A & B & C & D) H. split; [exact A|]. split; [exact B|]. split; [exact C|]. intro Q. apply D, H, Q. Qed.

Lemma grows_lost lost s a b : (0 <= a)%Z -> (0 <= b)%Z -> grows lost (with_lost lost s a b).
Proof. intros A B i. unfold with_lost. destruct (i =? s); cbn [fst snd]; lia. Qed.
Lemma put_step lost d p p' : wf d -> counted lost d -> In p (d_parts d) -> same_place p p' -> part_ok d p' ->
  (filed p' = true -> filed p = true /\ tp_size p' = tp_size p /\ tp_events p' = tp_events p) ->
  result lost d (put_part d p') (filed p = true -> filed p' = true).
Proof.
  intros W C I S K H. split; [apply (put_wf d p p'); assumption|]. split; [split; reflexivity|].
  destruct (filed p) eqn:F; destruct (filed p') eqn:F'.
  - assert (C' : counted lost (put_part d p')) by (apply (put_counted lost d p p'); try assumption; [congruence|intros _; destruct (H eq_refl) as (_ & A & B); tauto]).
    split; [exists lost; split; [apply grows_refl|exact C']|intros _; exact C'].
  - split; [|intro X; discriminate (X eq_refl)]. eexists. split; [|apply (empty_counted lost d p p'); assumption]. apply grows_lost; lia.
  - destruct (H eq_refl) as (X & _). discriminate.
  - assert (C' : counted lost (put_part d p')) by (apply (put_counted lost d p p'); try assumption; [congruence|rewrite F; discriminate]).
    split; [exists lost; split; [apply grows_refl|exact C']|intros _; exact C'].
Qed.
Lemma ok_at d id p : wf d -> part_at d id = Some p -> In p (d_parts d) /\ part_ok d p.
Proof. intros W A. apply part_at_in in A as [I _]. split; [exact I|]. destruct W as (F & _). rewrite Forall_forall in F. apply F, I. Qed.
Lemma place_ok d p p' : part_ok d p -> same_place p p' -> In (tp_state p') [0; 1; 8; 9]%N -> (tp_has p' ID_CLOUD = true -> tp_has p ID_CLOUD = true) -> part_ok d p'.
Proof.
  intros (A & B & x & I & E & C) (P1 & P2 & P3) S H. split; [rewrite P1, P2; exact A|]. split; [exact S|]. exists x. split; [exact I|]. split; [congruence|]. intro Q. apply C, H, Q.
Qed.

Definition has_copy (d : tdb) (id mask : N) : Prop := forall p, part_at d id = Some p -> filed p = true -> N.ldiff (tp_state p) mask <> 0%N.
Lemma drop_file_step lost d id e mask k : wf d -> counted lost d -> result lost d (fst (engine_drop_file d id e false mask k)) (has_copy d id mask).
Proof.
  intros W C. destruct (part_at d id) as [p|] eqn:A.
  - destruct (drop_file_at d id e mask k p W A) as (p' & o & E & D & _). rewrite E. cbn [fst]. destruct (ok_at d id p W A) as [I K].
    assert (K' : part_ok d p') by (apply (place_ok d p p' K); apply D).
    eapply result_weaken; [apply (put_step lost d p p' W C I (dr_place _ _ _ _ D) K')|].
    + intro F. split; [apply (dr_filed _ _ _ _ D), F|apply (dr_index _ _ _ _ D), F].
    + intros H F. apply (dr_full _ _ _ _ D), (H p A F).
  - unfold engine_drop_file. rewrite A. apply result_same; assumption.
Qed.
Lemma has_bits p : tp_has p ID = N.testbit (tp_state p) 0 /\ tp_has p ID_CLOUD = N.testbit (tp_state p) 3.
Proof. unfold tp_has. rewrite mask_local, mask_cloud. tauto. Qed.
(* the automatic drop of the local file *)
Lemma drop_uploaded_at d id e k : engine_drop_file d id e true ID k = engine_drop_file d id e false ID k \/
  engine_drop_file d id e true ID k = (d, No).
Proof.
  unfold engine_drop_file. destruct (part_at d id) as [p|]; [|left; reflexivity]. cbn [andb].
  destruct (negb (match storage_at d (tp_storage p) with Some x => ts_drop_local x | None => false end) || negb (tp_has p ID_CLOUD)); [right|left]; reflexivity.
Qed.
Lemma drop_uploaded_step lost d id e k : wf d -> counted lost d -> result lost d (fst (engine_drop_file d id e true ID k)) True.
Proof.
  intros W C. destruct (part_at d id) as [p|] eqn:A.
  - destruct (tp_has p ID_CLOUD) eqn:H.
    + destruct (drop_uploaded_at d id e k) as [E|E]; rewrite E; [|apply result_same; assumption].
      eapply result_weaken; [apply drop_file_step; assumption|]. intros _ q Aq _. rewrite A in Aq. injection Aq as <-.
      destruct (ok_at d id p W A) as [_ K]. destruct (state_cases d p K) as [S|[S|[S|S]]]; unfold tp_has in H; rewrite S in *; try discriminate; discriminate.
    + unfold engine_drop_file. rewrite A, H, orb_true_r. cbn [andb fst]. apply result_same; assumption.
  - unfold engine_drop_file. rewrite A. apply result_same; assumption.
Qed.
Lemma drop_reference_step lost d id : wf d -> counted lost d -> result lost d (fst (engine_drop_reference d id)) True.
Proof.
  intros W C. unfold engine_drop_reference. destruct (part_at d id) as [p|] eqn:A; [|apply result_same; assumption]. destruct (ok_at d id p W A) as [I K].
  destruct (tp_state p =? 0)%N; cbn [fst]; [|apply result_same; assumption]. assert (C' : counted lost (storage_remove d p)) by (apply remove_counted; assumption).
  split; [apply remove_wf, W|]. split; [|split; [exists lost; split; [apply grows_refl|exact C']|intros _; exact C']].
  split; [|reflexivity]. unfold storage_remove. rewrite on_storage_frame; [reflexivity|]. intro x. rewrite frame_remove. reflexivity.
Qed.
Lemma part_at_put d id p p' : wf d -> part_at d id = Some p -> same_place p p' -> part_ok d p' -> part_at (put_part d p') id = Some p'.
Proof.
  intros W A S K. destruct (part_at_in d id p A) as [I R]. assert (W' : wf (put_part d p')) by (apply (put_wf d p p'); assumption).
  assert (I' : In p' (d_parts (put_part d p'))).
  { cbn [put_part d_parts]. apply in_map_iff. exists p. destruct S as (S1 & _). rewrite S1, N.eqb_refl. tauto. }
  destruct (part_at (put_part d p') id) as [q|] eqn:E.
  - destruct (part_at_in _ _ _ E) as [Iq Rq]. f_equal. destruct W' as (F & O & _). apply (apart_same (d_parts (put_part d p')) q p' id); try assumption; [apply (ok_mins (put_part d p')), F|].
    destruct S as (S1 & S2 & _). lia.
  - exfalso. apply (find_none _ _ E) in I'. cbn beta in I'. apply andb_false_iff in I'. rewrite !N.leb_gt in I'. destruct S as (S1 & S2 & _). lia.
Qed.
Lemma ldiff_all d p : part_ok d p -> N.ldiff (tp_state p) (ID + ID_CLOUD) = 0%N.
Proof. intro K. destruct (state_cases d p K) as [S|[S|[S|S]]]; rewrite S; reflexivity. Qed.
(* a whole partition is dropped *)
Lemma drop_all_at d id e k p : wf d -> part_at d id = Some p ->
  exists p', dropped (ID + ID_CLOUD) p p' Failed /\ part_ok d p' /\
  (engine_drop d id e (ID + ID_CLOUD) k = (put_part d p', Failed) /\ (lk_drop_cloud k = true -> lk_drop_local k = true -> False) \/
   engine_drop d id e (ID + ID_CLOUD) k = (storage_remove (put_part d p') p', Yes) /\ tp_state p' = 0%N).
Proof.
  intros W A. destruct (drop_file_at d id e (ID + ID_CLOUD) k p W A) as (p' & o & E & D & L & NN). destruct (ok_at d id p W A) as [I K].
  assert (K' : part_ok d p') by (apply (place_ok d p p' K); apply D). exists p'.
  assert (Df : dropped (ID + ID_CLOUD) p p' Failed) by (destruct D; constructor; try assumption; discriminate). split; [exact Df|]. split; [exact K'|].
  unfold engine_drop. replace (ID + ID_CLOUD =? ID + ID_CLOUD)%N with true by reflexivity. cbn [drop_loop]. rewrite E. destruct o; [right|congruence|left; split; [reflexivity|intros; discriminate (L H H0)]].
  assert (S : tp_state p' = 0%N) by (rewrite (dr_yes _ _ _ _ D eq_refl); apply (ldiff_all d), K).
  unfold engine_drop_reference. rewrite (part_at_put d id p p' W A (dr_place _ _ _ _ D) K'), S. cbn. tauto.
Qed.
Lemma drop_step lost d id e mask k : wf d -> counted lost d -> result lost d (fst (engine_drop d id e mask k)) (has_copy d id mask).
Proof.
  intros W C. destruct (N.eqb_spec mask (ID + ID_CLOUD)) as [->|NE].
  - destruct (part_at d id) as [p|] eqn:A.
    + destruct (drop_all_at d id e k p W A) as (p' & D & K' & H). destruct (ok_at d id p W A) as [I K].
      assert (R : result lost d (put_part d p') (has_copy d id (ID + ID_CLOUD))).
      { eapply result_weaken; [apply (put_step lost d p p' W C I (dr_place _ _ _ _ D) K')|].
        - intro F. split; [apply (dr_filed _ _ _ _ D), F|apply (dr_index _ _ _ _ D), F].
        - intros H' F. apply (dr_full _ _ _ _ D), (H' p A F). }
      destruct H as [[-> _]|[-> S]]; cbn [fst]; [exact R|].
      eapply (result_then lost d (put_part d p') _ _ True); [exact R| |tauto]. intros l1 C1. destruct R as (W1 & _).
      assert (A1 : part_at (put_part d p') id = Some p') by (apply (part_at_put d id p p'); try assumption; apply D).
      pose proof (drop_reference_step l1 (put_part d p') id W1 C1) as R1. unfold engine_drop_reference in R1. rewrite A1, S in R1. exact R1.
    + unfold engine_drop. replace (ID + ID_CLOUD =? ID + ID_CLOUD)%N with true by reflexivity. cbn [drop_loop]. unfold engine_drop_file. rewrite A. destruct e; apply result_same; assumption.
  - unfold engine_drop. destruct (N.eqb_spec mask (ID + ID_CLOUD)); [congruence|]. apply drop_file_step; assumption.
Qed.

(* bits are set *)
Lemma lor_ok d p b : part_ok d p -> b = ID \/ (b = ID_CLOUD /\ exists x, In x (d_storages d) /\ ts_id x = tp_storage p /\ ts_cloud x = true) -> filed p = true ->
  part_ok d (set_state p (N.lor (tp_state p) b)) /\ filed (set_state p (N.lor (tp_state p) b)) = true.
Proof.
  intros K H F. pose proof (state_cases d p K) as S. destruct K as (A & B & x & I & E & C). unfold filed in *. destruct p as [mn mx cr st rf sz ev sg]. cbn [set_state tp_state tp_min tp_max tp_storage] in *.
  destruct S as [S|[S|[S|S]]]; subst st; [discriminate| | |]; destruct H as [->|[-> (y & Iy & Ey & Cy)]]; (split; [|reflexivity]);
  (split; [exact A|]); (split; [cbn; tauto|]); try (exists x; split; [exact I|]; split; [exact E|]; intro Q; apply C; exact Q || (vm_compute in Q; discriminate)); exists y; (split; [exact Iy|]; split; [exact Ey|]; intros _; exact Cy).
Qed.
Lemma has_filed p b : tp_has p b = true -> filed p = true.
Proof. unfold tp_has, filed. destruct (N.eqb_spec (tp_state p) 0) as [->|E]; [rewrite N.land_0_l; discriminate|reflexivity]. Qed.
Lemma set_same p n : same_place p (set_state p n).
Proof. repeat split. Qed.
Lemma download_step lost d id e c k : wf d -> counted lost d -> result lost d (fst (engine_download d id e c k)) True.
Proof.
  intros W C. unfold engine_download. destruct (part_at d id) as [p|] eqn:A; [|destruct e; apply result_same; assumption]. destruct (ok_at d id p W A) as [I K].
  destruct (has_cloud d p); cbn [negb]; [|apply result_same; assumption]. destruct (tp_has p ID) eqn:H1; cbn [orb]; [apply result_same; assumption|].
  destruct (tp_has p ID_CLOUD) eqn:H2; cbn [negb orb]; [|apply result_same; assumption]. destruct (lk_download k); [|apply result_same; assumption]. cbn [fst].
  pose proof (has_filed p _ H2) as F. destruct (lor_ok d p ID K (or_introl eq_refl) F) as [K' F'].
  eapply result_weaken; [apply (put_step lost d p _ W C I (set_same p _) K')|auto]. intros _. repeat split. exact F.
Qed.
Lemma cloud_exists d p : has_cloud d p = true -> exists x, In x (d_storages d) /\ ts_id x = tp_storage p /\ ts_cloud x = true.
Proof. unfold has_cloud. destruct (storage_at d (tp_storage p)) as [x|] eqn:E; [|discriminate]. apply storage_at_some in E. intro H. exists x. tauto. Qed.
Lemma upload_step lost d id e c k : wf d -> counted lost d -> result lost d (fst (engine_upload d id e c k)) True.
Proof.
  intros W C. unfold engine_upload. destruct (part_at d id) as [p|] eqn:A; [|destruct e; apply result_same; assumption]. destruct (ok_at d id p W A) as [I K].
  destruct (has_cloud d p) eqn:HC; cbn [negb]; [|apply result_same; assumption]. destruct (tp_has p ID_CLOUD) eqn:H1; [apply result_same; assumption|].
  destruct (tp_has p ID) eqn:H2; cbn [negb]; [|apply result_same; assumption]. destruct (lk_upload k); [|apply result_same; assumption]. cbn [fst].
  pose proof (has_filed p _ H2) as F. destruct (lor_ok d p ID_CLOUD K (or_intror (conj eq_refl (cloud_exists d p HC))) F) as [K' F'].
  eapply result_weaken; [apply (put_step lost d p _ W C I (set_same p _) K')|auto]. intros _. repeat split. exact F.
Qed.

(* the new file replaces the old one *)
Definition renewed (p : tpart) (s : nat) (size events : N) : tpart := mk_tpart (tp_min p) (tp_max p) (tp_created p) ID false size events s.
Lemma replaced d p s size events : wf d -> In p (d_parts d) -> In s (map ts_id (d_storages d)) ->
  let new := mk_tpart (tp_min p) (tp_max p) (tp_created p) ID_INCOMPLETE false size events s in
  let d2 := put_part (storage_add (storage_remove d p) new) (set_state new (N.lor (N.ldiff ID_INCOMPLETE ID_INCOMPLETE) ID)) in
  wf d2 /\ framed d d2 /\ (forall lost, counted lost d -> counted lost d2) /\
  d_parts d2 = filter (fun q => negb (tp_min q =? tp_min p)%N) (d_parts d) ++ [renewed p s size events].
Proof.
  intros W I Hs new d2. pose proof W as W0. assert (Kp : part_ok d p) by (destruct W as (F & _); rewrite Forall_forall in F; apply F, I).
  assert (Fd : framed d (storage_remove d p)).
  { split; [|reflexivity]. unfold storage_remove. rewrite on_storage_frame; [reflexivity|]. intro x. rewrite frame_remove. reflexivity. }
  pose proof (remove_wf d p W) as W1. set (d1 := storage_remove d p) in *.
  assert (Ft : forall q, framed d1 (storage_add d1 q)).
  { intro q. split; [|reflexivity]. unfold storage_add. rewrite on_storage_frame; [reflexivity|]. intro x. rewrite frame_add. reflexivity. }
  assert (Hs1 : In s (map ts_id (d_storages d1))) by (rewrite (frame_ids d d1); [exact Hs|apply Fd]).
  assert (Ap : Forall (fun q => apart q new) (d_parts d1)).
  { cbn [d1 storage_remove on_storage d_parts]. apply Forall_forall. intros q Iq. apply filter_In in Iq. destruct Iq as [Iq Nq]. apply negb_true_iff, N.eqb_neq in Nq.
    destruct W0 as (F & O & _). pose proof (ok_mins d _ F) as M.
    assert (Hd : apart q p \/ q = p).
    { clear - O I Iq. induction O as [|x l H O IH]; [destruct I|]. rewrite Forall_forall in H. destruct I as [->|I], Iq as [->|Iq]; [right; reflexivity| | |apply IH; assumption].
      - left. specialize (H q Iq). unfold apart in *. tauto.
      - left. specialize (H p I). exact H. }
    destruct Hd as [Hd|Hd]; [exact Hd|congruence]. }
  (* the same as adding the finished partition, but for the counters *)
  assert (E : d_parts d2 = filter (fun q => negb (tp_min q =? tp_min p)%N) (d_parts d) ++ [renewed p s size events]).
  { cbn [d2 put_part d_parts storage_add on_storage d1 storage_remove]. rewrite map_app. cbn [map tp_min set_state new]. rewrite N.eqb_refl. f_equal.
    rewrite <- map_id. apply map_ext_in. intros q Iq. apply filter_In in Iq. destruct Iq as [_ Nq]. apply negb_true_iff in Nq. rewrite Nq. reflexivity. }
  apply in_map_iff in Hs1. destruct Hs1 as (y & Ey & Iy).
  assert (Kn : part_ok d1 (renewed p s size events)).
  { split; [apply Kp|]. split; [cbn; tauto|]. exists y. split; [exact Iy|]. split; [exact Ey|]. vm_compute. discriminate. }
  assert (W2 : wf (storage_add d1 (renewed p s size events))) by (apply add_wf; [exact W1|exact Kn|exact Ap]).
  assert (Wd : wf d2).
  { eapply wf_frame; [| | |exact W2].
    - destruct (Ft new) as [X _]. destruct (Ft (renewed p s size events)) as [Y _]. cbn [d2 put_part d_storages]. rewrite X, Y. reflexivity.
    - reflexivity.
    - rewrite E. reflexivity. }
  split; [exact Wd|]. split; [apply (framed_trans d d1); [exact Fd|]; destruct (Ft new) as [X Y]; split; [exact X|exact Y]|]. split; [|exact E].
  intros lost C. assert (C1 : counted lost d1) by (apply remove_counted; assumption). pose proof (add_counted lost d1 new C1) as C2.
  intros x Ix. specialize (C2 x Ix). rewrite count_sum, size_sum, events_sum in *. rewrite E.
  cbn [storage_add on_storage d_parts d1 storage_remove] in C2. rewrite !sum_app in *. exact C2.
Qed.
Lemma refresh_step lost d id t e k : wf d -> counted lost d -> result lost d (fst (refresh_run d id t e k)) True.
Proof.
  intros W C. unfold refresh_run. destruct (part_at d id) as [p|] eqn:A; [|destruct e; apply result_same; assumption]. destruct (ok_at d id p W A) as [I K].
  destruct (tp_has p ID_CLOUD); [apply result_same; assumption|].
  assert (G : forall s, In s (map ts_id (d_storages d)) -> result lost d (fst (match lk_merge k with
      | None => (d, Failed)
      | Some (size, events) =>
        let new := mk_tpart (tp_min p) (tp_max p) (tp_created p) ID_INCOMPLETE false size events s in
        let d1 := storage_add (storage_remove d p) new in
        let d2 := put_part d1 (set_state new (N.lor (N.ldiff ID_INCOMPLETE ID_INCOMPLETE) ID)) in
        (d2, if lk_end k then Yes else Failed)
      end)) True).
  { intros s Hs. destruct (lk_merge k) as [[size events]|]; [|apply result_same; assumption]. cbn [fst].
    destruct (replaced d p s size events W I Hs) as (W2 & F2 & C2 & _). split; [exact W2|]. split; [exact F2|]. split; [exists lost; split; [apply grows_refl|apply C2, C]|intros _; apply C2, C]. }
  destruct t as [s|].
  - destruct (storage_at d s) as [x|] eqn:E; [|apply result_same; assumption]. destruct (s =? tp_storage p); [apply result_same; assumption|]. apply G.
    apply storage_at_some in E. destruct E as [Ix <-]. apply in_map, Ix.
  - apply G. destruct K as (_ & _ & x & Ix & Ex & _). rewrite <- Ex. apply in_map, Ix.
Qed.
