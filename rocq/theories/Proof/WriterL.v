From Coq Require Import NArith ZArith List Bool Sorted Lia.
Import ListNotations.
From Verif Require Import Model.Base Model.Event Model.Codec Model.PartIter Model.Writer
  Spec.Order Spec.Files Spec.Regions Proof.OrderL Proof.PartIterL.

Lemma event_weight_size e : event_size e = event_weight e.
Proof. unfold event_size, event_weight. lia. Qed.
Lemma weights r : fold_right (fun e n => event_size e + n)%N 0%N r = fold_right (fun e n => event_weight e + n)%N 0%N r.
Proof. induction r; simpl; auto. rewrite event_weight_size, IHr. auto. Qed.
Lemma region_bytes_weight r : (region_weight r < 2^32)%N -> region_bytes r = region_weight r.
Proof. intros H. unfold region_bytes, w32. rewrite weights. apply N.mod_small. exact H. Qed.

Lemma weight_app a b : (region_weight (a ++ b) = region_weight a + region_weight b - 24)%N.
Proof.
  unfold region_weight. rewrite app_length.
  assert (E : fold_right (fun e n => event_weight e + n)%N 0%N (a ++ b) =
    (fold_right (fun e n => event_weight e + n) 0 a + fold_right (fun e n => event_weight e + n) 0 b)%N).
  { induction a; simpl; auto. rewrite IHa. lia. }
  rewrite E. lia.
Qed.
Lemma weight_ge r : (24 <= region_weight r)%N.
Proof. unfold region_weight. lia. Qed.
Lemma weight_concat_le r f : In r f -> (region_weight r <= region_weight (concat f))%N.
Proof.
  induction f as [|a f IH]; intros H; [contradiction|]. simpl. rewrite weight_app.
  pose proof (weight_ge a). pose proof (weight_ge (concat f)).
  destruct H as [->|H]; [lia|]. specialize (IH H). lia.
Qed.

(* without wrap-around *)
Definition cut_inv (limit : N) (evs : list event) (w : wregions) : Prop :=
  concat (fst w) ++ match snd w with Some r => r | None => [] end = evs /\
  Forall (fun r => r <> [] /\ (limit <= region_weight r)%N) (fst w) /\
  (snd w = None -> fst w = []) /\ snd w <> Some [] /\
  (forall r a e b, In r (cut_stop w) -> r = a ++ e :: b -> a <> [] ->
     (limit <= region_weight a)%N -> exists x, In x a /\ ev_id x = ev_id e) /\
  (forall pre r e t post, cut_stop w = pre ++ r :: (e :: t) :: post -> region_last_id r <> ev_id e).

Lemma last_id_in r : r <> [] -> exists x, In x r /\ ev_id x = region_last_id r.
Proof.
  intros H. unfold region_last_id. destruct (rev r) as [|x t] eqn:E.
  - apply (f_equal (@rev event)) in E. rewrite rev_involutive in E. simpl in E. contradiction.
  - exists x. split; auto. apply in_rev. rewrite E. simpl. auto.
Qed.

Lemma tight_app (r : list event) e a x b : r ++ [e] = a ++ x :: b ->
  (exists b', r = a ++ x :: b') \/ (a = r /\ x = e).
Proof.
  intros H. destruct (rev b) as [|y b'] eqn:E.
  - apply (f_equal (@rev event)) in E. rewrite rev_involutive in E. simpl in E. subst b.
    right. apply app_inj_tail in H as [H1 H2]. auto.
  - left. apply (f_equal (@rev event)) in E. rewrite rev_involutive in E. simpl in E. subst b.
    exists (rev b'). change (x :: rev b' ++ [y]) with ((x :: rev b') ++ [y]) in H.
    rewrite app_assoc in H. apply app_inj_tail in H as [H1 H2]. auto.
Qed.

Lemma snoc_split {A} (l : list A) : l = [] \/ exists l' x, l = l' ++ [x].
Proof.
  destruct (rev l) as [|x t] eqn:E.
  - left. apply (f_equal (@rev A)) in E. rewrite rev_involutive in E. auto.
  - right. apply (f_equal (@rev A)) in E. rewrite rev_involutive in E. exists (rev t), x. auto.
Qed.

Definition apart_at (f : list region) : Prop :=
  forall pre r e t post, f = pre ++ r :: (e :: t) :: post -> region_last_id r <> ev_id e.

Lemma apart_snoc f r e t : apart_at (f ++ [r]) -> region_last_id r <> ev_id e ->
  apart_at ((f ++ [r]) ++ [e :: t]).
Proof.
  intros H Hn pre r0 x t0 post E. destruct (snoc_split post) as [->|(p' & y & ->)].
  - change (pre ++ [r0; x :: t0]) with (pre ++ [r0] ++ [x :: t0]) in E. rewrite app_assoc in E.
    apply app_inj_tail in E as [E1 E2]. apply app_inj_tail in E1 as [_ <-]. inversion E2; subst. auto.
  - change (r0 :: (x :: t0) :: p' ++ [y]) with ((r0 :: (x :: t0) :: p') ++ [y]) in E.
    rewrite app_assoc in E. apply app_inj_tail in E as [E _]. eapply H; eauto.
Qed.
Lemma apart_extend f e t l : apart_at (f ++ [e :: t]) -> apart_at (f ++ [(e :: t) ++ l]).
Proof.
  intros H pre r0 x t0 post E. destruct (snoc_split post) as [->|(p' & y & ->)].
  - change (pre ++ [r0; x :: t0]) with (pre ++ [r0] ++ [x :: t0]) in E. rewrite app_assoc in E.
    apply app_inj_tail in E as [E1 E2]. simpl in E2. inversion E2; subst.
    apply (H pre r0 x t []). rewrite <- app_assoc. auto.
  - change (r0 :: (x :: t0) :: p' ++ [y]) with ((r0 :: (x :: t0) :: p') ++ [y]) in E.
    rewrite app_assoc in E. apply app_inj_tail in E as [E _].
    apply (H pre r0 x t0 (p' ++ [e :: t])). rewrite E, <- app_assoc. auto.
Qed.

Lemma cut_step limit evs w e : (region_weight evs < 2^32)%N -> cut_inv limit evs w ->
  cut_inv limit (evs ++ [e]) (cut_add limit w e).
Proof.
  intros Hw (H1 & H2 & H3 & H4 & H5 & H6). destruct w as [f [r|]]; unfold cut_add; cbn [fst snd] in *.
  - assert (Hr : r <> []) by (intros ->; apply H4; reflexivity).
    assert (Eb : region_bytes r = region_weight r).
    { apply region_bytes_weight. rewrite <- H1, weight_app in Hw.
      pose proof (weight_ge (concat f)). pose proof (weight_ge r). lia. }
    rewrite Eb.
    assert (Hadd : (forall a, (exists b', r = a ++ b') -> a <> [] -> (limit <= region_weight a)%N ->
                     a = r -> exists x, In x a /\ ev_id x = ev_id e) ->
                   cut_inv limit (evs ++ [e]) (f, Some (r ++ [e]))).
    { intros Hlast. unfold cut_inv. cbn [fst snd].
      split; [rewrite app_assoc, H1; auto|]. split; auto. split; [discriminate|].
      split; [intros E; inversion E; destruct r; discriminate|].
      split; [|intros pre r0 x t post E; revert pre r0 x t post E; destruct r as [|r1 rt]; [contradiction|]; apply (apart_extend f r1 rt [e]); exact H6].
      intros r0 a x b Hin Hr0 Ha Hla. unfold cut_stop in Hin. cbn [fst snd] in Hin.
      apply in_app_iff in Hin as [Hin|[<-|[]]].
      - apply (H5 r0 a x b); auto. unfold cut_stop. cbn [fst snd]. apply in_app_iff; auto.
      - apply tight_app in Hr0 as [(b' & Hb)|[-> ->]].
        + apply (H5 r a x b'); auto. unfold cut_stop. cbn [fst snd].
          apply in_app_iff. right. left. auto.
        + apply Hlast; auto. exists []. rewrite app_nil_r. auto. }
    destruct (N.leb_spec limit (region_weight r)) as [Hl|Hl].
    + destruct (N.eqb_spec (region_last_id r) (ev_id e)) as [Hid|Hid].
      * apply Hadd. intros a _ Ha _ ->. destruct (last_id_in r Hr) as (x & Hx & Ex).
        exists x. split; auto. congruence.
      * unfold cut_inv. cbn [fst snd]. split.
        { rewrite concat_app. simpl. rewrite app_nil_r. rewrite H1. auto. }
        split; [apply Forall_app; split; auto|]. split; [discriminate|]. split; [discriminate|].
        split; [|intros pre r0 x t post E; revert pre r0 x t post E; apply (apart_snoc f r e []); auto; exact H6].
        intros r0 a x b Hin Hr0 Ha Hla. unfold cut_stop in Hin. cbn [fst snd] in Hin.
        apply in_app_iff in Hin as [Hin|[<-|[]]].
        { apply (H5 r0 a x b); auto. }
        { destruct a as [|y [|z a]]; [contradiction|discriminate|discriminate]. }
    + apply Hadd. intros a _ _ Hla ->. lia.
  - unfold cut_inv. cbn [fst snd]. rewrite app_nil_r in H1. rewrite H1. split; auto.
    split; auto. split; [discriminate|]. split; [discriminate|].
    split; [|intros pre r0 x t post E; unfold cut_stop in E; cbn [fst snd] in E;
             rewrite (H3 eq_refl) in E; destruct pre as [|? [|? ?]]; discriminate].
    intros r0 a x b Hin Hr0 Ha Hla. unfold cut_stop in Hin. cbn [fst snd] in Hin.
    rewrite (H3 eq_refl) in Hin. destruct Hin as [<-|[]].
    destruct a as [|y [|z a]]; [contradiction|discriminate|discriminate].
Qed.

Lemma cut_fold limit evs2 : forall evs1 w, (region_weight (evs1 ++ evs2) < 2^32)%N ->
  cut_inv limit evs1 w -> cut_inv limit (evs1 ++ evs2) (fold_left (cut_add limit) evs2 w).
Proof.
  induction evs2 as [|e evs2 IH]; intros evs1 w Hw Hi; simpl.
  - rewrite app_nil_r. auto.
  - change (e :: evs2) with ([e] ++ evs2) in *. rewrite app_assoc in *. apply IH; auto.
    apply cut_step; auto. rewrite <- app_assoc, weight_app in Hw.
    pose proof (weight_ge ([e] ++ evs2)). lia.
Qed.

Lemma cut_statement limit evs : (region_weight evs < 2^32)%N ->
  cut limit evs (cut_regions limit evs) /\ apart_at (cut_regions limit evs).
Proof.
  intros Hw. unfold cut_regions.
  destruct (cut_fold limit evs [] ([], None)) as (H1 & H2 & H3 & H4 & H5 & H6); auto.
  { repeat split; simpl; auto; try discriminate; try (intros; contradiction). intros [|? [|? ?]]; discriminate. }
  simpl app in *. split; [|exact H6]. destruct (fold_left (cut_add limit) evs ([], None)) as [f [r|]]; unfold cut_stop in *; cbn [fst snd] in *.
  - constructor; auto.
    + rewrite concat_app. simpl. rewrite app_nil_r. auto.
    + apply Forall_app. split; [|constructor; auto; intros ->; apply H4; reflexivity].
      eapply Forall_impl; [|exact H2]. simpl. tauto.
    + intros pre x post E Hp.
      destruct (rev post) as [|y p'] eqn:Er.
      { apply (f_equal (@rev _)) in Er. rewrite rev_involutive in Er. contradiction. }
      apply (f_equal (@rev _)) in Er. rewrite rev_involutive in Er. simpl in Er. subst post.
      change (x :: rev p' ++ [y]) with ((x :: rev p') ++ [y]) in E. rewrite app_assoc in E.
      apply app_inj_tail in E as [E _]. rewrite Forall_forall in H2. apply (H2 x).
      rewrite E. apply in_app_iff. right. left. auto.
  - rewrite app_nil_r in H1. rewrite (H3 eq_refl) in *. simpl in H1. subst evs. constructor; auto.
    + intros [|a pre] r post E; discriminate.
Qed.

(* --- consequences for ascending events --- *)
Lemma cut_file_ok limit evs f : ascending evs -> cut limit evs f -> file_ok f.
Proof. intros Ha [H1 H2 _ _]. split; auto. rewrite H1. auto. Qed.

(* no id continues in the next region *)
Lemma last_id_max r e : ascending r -> In e r -> (ev_id e <= region_last_id r)%N.
Proof.
  intros Ha He. unfold region_last_id. destruct (rev r) as [|x t] eqn:E.
  - apply (f_equal (@rev event)) in E. rewrite rev_involutive in E. subst. contradiction.
  - apply (f_equal (@rev event)) in E. rewrite rev_involutive in E. simpl in E. subst r.
    apply ascending_app in Ha as (_ & _ & Ha).
    apply in_app_iff in He as [He|[->|[]]]; [|lia].
    apply ev_lt_ids. apply Ha; simpl; auto.
Qed.

Lemma nth_two {A} (f : list A) i x y : nth_error f i = Some x -> nth_error f (S i) = Some y ->
  exists pre post, f = pre ++ x :: y :: post.
Proof.
  revert i. induction f as [|a f IH]; intros i Hi Hj; [destruct i; discriminate|].
  destruct i as [|i].
  - inversion Hi; subst. destruct f as [|b f]; [discriminate|]. inversion Hj; subst. exists [], f. auto.
  - destruct (IH i Hi Hj) as (pre & post & ->). exists (a :: pre), post. auto.
Qed.

Lemma apart_ids f : file_ok f -> apart_at f -> ids_apart f.
Proof.
  intros [Hs Hne] Hap i j ri rj a b Hij Hi Hj Ha Hb. rewrite Forall_forall in Hne.
  destruct (nth_error f (S i)) as [r1|] eqn:E1.
  2: { apply nth_error_None in E1. assert (nth_error f j <> None) by congruence.
       apply nth_error_Some in H. lia. }
  assert (Hri : ascending ri) by (eapply ascending_concat_region; eauto).
  pose proof (last_id_max ri a Hri Ha) as Hm.
  destruct r1 as [|e t]; [exfalso; eapply Hne; eauto using nth_error_In|].
  destruct (nth_two f i ri (e :: t) Hi E1) as (pre & post & Ef).
  pose proof (Hap _ _ _ _ _ Ef) as Hn.
  destruct (last_id_in ri) as (x & Hx & Ex). { eapply Hne, nth_error_In; eauto. }
  assert (Hxe : ev_lt x e) by (eapply (ascending_concat_lt f i (S i)); eauto; left; auto).
  apply ev_lt_ids in Hxe.
  assert (Heb : (ev_id e <= ev_id b)%N).
  { destruct (Nat.eq_dec j (S i)) as [->|Hne2].
    - rewrite E1 in Hj. inversion Hj; subst. assert (Hr1 : ascending (e :: t)) by (eapply ascending_concat_region; eauto).
      destruct Hb as [->|Hb]; [lia|]. apply ev_lt_ids. inversion Hr1; subst.
      rewrite Forall_forall in H2. auto.
    - apply ev_lt_ids. eapply (ascending_concat_lt f (S i) j); eauto; [lia|left; auto]. }
  lia.
Qed.

Lemma write_file_ok limit evs : ascending evs -> (region_weight evs < 2^32)%N ->
  cut limit evs (cut_regions limit evs) /\ file_ok (cut_regions limit evs) /\
  ids_apart (cut_regions limit evs).
Proof.
  intros Ha Hw. destruct (cut_statement limit evs Hw) as [H1 H2].
  assert (H3 : file_ok (cut_regions limit evs)) by (eapply cut_file_ok; eauto).
  auto using apart_ids.
Qed.
