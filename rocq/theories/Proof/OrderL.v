From Coq Require Import NArith ZArith List Bool Sorted Lia Permutation.
Import ListNotations.
From Verif Require Import Model.Base Model.Event Spec.Order.

Lemma bytes_cmp_refl a : bytes_cmp a a = Eq.
Proof. induction a; simpl; auto. rewrite N.compare_refl; auto. Qed.

Lemma bytes_cmp_eq a b : bytes_cmp a b = Eq <-> a = b.
Proof.
  split; [|intros ->; apply bytes_cmp_refl].
  revert b; induction a; destruct b; simpl; try discriminate; auto.
  destruct (N.compare_spec a n); try discriminate. subst. intros H; f_equal; auto.
Qed.

Lemma bytes_cmp_antisym a b : bytes_cmp b a = CompOpp (bytes_cmp a b).
Proof.
  revert b; induction a; destruct b; simpl; auto.
  rewrite (N.compare_antisym a n). destruct (a ?= n)%N; simpl; auto.
Qed.

Lemma bytes_cmp_lt_trans a b c :
  bytes_cmp a b = Lt -> bytes_cmp b c = Lt -> bytes_cmp a c = Lt.
Proof.
  revert b c; induction a; destruct b, c; simpl; try discriminate; auto.
  destruct (N.compare_spec a n), (N.compare_spec n n0); try discriminate; subst.
  - rewrite N.compare_refl. eauto.
  - intros. apply N.compare_lt_iff in H0. rewrite H0. auto.
  - intros. apply N.compare_lt_iff in H. rewrite H. auto.
  - intros. assert (a < n0)%N by lia. apply N.compare_lt_iff in H3. rewrite H3. auto.
Qed.

Lemma ev_cmp_refl a : ev_cmp a a = Eq.
Proof. unfold ev_cmp. rewrite N.compare_refl. apply bytes_cmp_refl. Qed.

Lemma ev_cmp_eq a b : ev_cmp a b = Eq <-> same_key a b.
Proof.
  unfold ev_cmp, same_key. destruct (N.compare_spec (ev_id a) (ev_id b)).
  - rewrite bytes_cmp_eq. tauto.
  - split; [discriminate|]. intros []. lia.
  - split; [discriminate|]. intros []. lia.
Qed.

Lemma ev_cmp_antisym a b : ev_cmp b a = CompOpp (ev_cmp a b).
Proof.
  unfold ev_cmp. rewrite (N.compare_antisym (ev_id a) (ev_id b)).
  destruct (ev_id a ?= ev_id b)%N; simpl; auto. apply bytes_cmp_antisym.
Qed.

Lemma ev_lt_trans a b c : ev_lt a b -> ev_lt b c -> ev_lt a c.
Proof.
  unfold ev_lt, ev_cmp.
  destruct (N.compare_spec (ev_id a) (ev_id b)), (N.compare_spec (ev_id b) (ev_id c));
    try discriminate; intros.
  - rewrite H, H0, N.compare_refl. eapply bytes_cmp_lt_trans; eauto.
  - rewrite H. apply N.compare_lt_iff in H0. rewrite H0; auto.
  - rewrite <- H0. apply N.compare_lt_iff in H. rewrite H; auto.
  - assert (ev_id a < ev_id c)%N by lia. apply N.compare_lt_iff in H3. rewrite H3; auto.
Qed.

Lemma ev_lt_irrefl a : ~ ev_lt a a.
Proof. unfold ev_lt. rewrite ev_cmp_refl. discriminate. Qed.

Lemma ev_gt_lt a b : ev_cmp a b = Gt <-> ev_lt b a.
Proof. unfold ev_lt. rewrite (ev_cmp_antisym a b). destruct (ev_cmp a b); simpl; split; congruence. Qed.

Lemma same_key_cmp_l a b c : same_key a b -> ev_cmp a c = ev_cmp b c.
Proof. unfold same_key, ev_cmp. intros [-> ->]. auto. Qed.
Lemma same_key_cmp_r a b c : same_key a b -> ev_cmp c a = ev_cmp c b.
Proof. unfold same_key, ev_cmp. intros [-> ->]. auto. Qed.

Lemma same_key_refl a : same_key a a. Proof. split; auto. Qed.
Lemma same_key_sym a b : same_key a b -> same_key b a. Proof. intros []; split; auto. Qed.
Lemma same_key_trans a b c : same_key a b -> same_key b c -> same_key a c.
Proof. intros [] []; split; congruence. Qed.

Lemma same_keyb_true a b : same_keyb a b = true <-> same_key a b.
Proof. unfold same_keyb. rewrite <- ev_cmp_eq. destruct (ev_cmp a b); split; congruence. Qed.
Lemma same_keyb_false a b : same_keyb a b = false <-> ~ same_key a b.
Proof. rewrite <- same_keyb_true. destruct (same_keyb a b); split; congruence. Qed.
Lemma same_keyb_sym a b : same_keyb a b = same_keyb b a.
Proof. unfold same_keyb. rewrite (ev_cmp_antisym a b). destruct (ev_cmp a b); auto. Qed.

Lemma ev_lt_not_same a b : ev_lt a b -> ~ same_key a b.
Proof. unfold ev_lt. rewrite <- ev_cmp_eq. congruence. Qed.

Lemma ev_lt_le a b : ev_lt a b -> ev_le a b.
Proof. unfold ev_lt, ev_le. congruence. Qed.
Lemma ev_le_refl a : ev_le a a.
Proof. unfold ev_le. rewrite ev_cmp_refl. discriminate. Qed.
Lemma ev_le_lt_trans a b c : ev_le a b -> ev_lt b c -> ev_lt a c.
Proof.
  unfold ev_le. intros H1 H2. destruct (ev_cmp a b) eqn:E; try congruence.
  - apply ev_cmp_eq in E. unfold ev_lt in *. rewrite (same_key_cmp_l _ _ _ E). auto.
  - eapply ev_lt_trans; eauto.
Qed.
Lemma ev_lt_le_trans a b c : ev_lt a b -> ev_le b c -> ev_lt a c.
Proof.
  unfold ev_le. intros H1 H2. destruct (ev_cmp b c) eqn:E; try congruence.
  - apply ev_cmp_eq in E. unfold ev_lt in *. rewrite <- (same_key_cmp_r _ _ _ E). auto.
  - eapply ev_lt_trans; eauto.
Qed.
Lemma ev_le_trans a b c : ev_le a b -> ev_le b c -> ev_le a c.
Proof.
  intros H1 H2. unfold ev_le in H1. destruct (ev_cmp a b) eqn:E; try congruence.
  - apply ev_cmp_eq in E. unfold ev_le in *. rewrite (same_key_cmp_l _ _ _ E). auto.
  - apply ev_lt_le. eapply ev_lt_le_trans; eauto.
Qed.
Lemma ev_not_lt a b : ~ ev_lt a b <-> ev_le b a.
Proof.
  unfold ev_lt, ev_le. rewrite (ev_cmp_antisym a b).
  destruct (ev_cmp a b); simpl; split; congruence.
Qed.
Lemma ev_lt_dec a b : {ev_lt a b} + {~ ev_lt a b}.
Proof. unfold ev_lt. destruct (ev_cmp a b); [right|left|right]; congruence. Defined.

Lemma geb_true k e : geb k e = true <-> ev_le k e.
Proof.
  unfold geb, ev_le. rewrite (ev_cmp_antisym e k).
  destruct (ev_cmp e k); simpl; split; congruence.
Qed.
Lemma geb_false k e : geb k e = false <-> ev_lt e k.
Proof. unfold geb, ev_lt. destruct (ev_cmp e k); split; congruence. Qed.

(* --- integers --- *)
Lemma sub64_ge a b : (b <= a < 2^64)%N -> sub64 a b = (a - b)%N.
Proof.
  intros. unfold sub64, two64.
  replace (a + 2^64 - b)%N with ((a - b) + 1 * 2^64)%N by lia.
  rewrite N.mod_add by lia. apply N.mod_small. lia.
Qed.
Lemma sub64_lt a b : (a < b < 2^64)%N -> sub64 a b = (a + 2^64 - b)%N.
Proof. intros. unfold sub64, two64. apply N.mod_small. lia. Qed.

Lemma i64_sub_exact a b :
  (a < 2^64)%N -> (b < 2^64)%N ->
  (- 2^63 <= Z.of_N a - Z.of_N b < 2^63)%Z ->
  i64_of_u64 (sub64 a b) = (Z.of_N a - Z.of_N b)%Z.
Proof.
  intros Ha Hb Hd. unfold i64_of_u64, w64, two64.
  destruct (N.leb_spec b a) as [Hle|Hlt].
  - rewrite sub64_ge by lia. rewrite N.mod_small by lia.
    destruct (Z.ltb_spec (Z.of_N (a - b)) (2^63)); lia.
  - rewrite sub64_lt by lia. rewrite N.mod_small by lia.
    destruct (Z.ltb_spec (Z.of_N (a + 2^64 - b)) (2^63)); lia.
Qed.

Lemma i32_exact z : (- 2^31 <= z < 2^31)%Z -> i32_of_z z = z.
Proof.
  intros. unfold i32_of_z.
  destruct (Z.ltb_spec z 0).
  - replace (z mod 2^32)%Z with (z + 2^32)%Z.
    + destruct (Z.ltb_spec (z + 2^32) (2^31)); lia.
    + apply Z.mod_unique with (-1)%Z; lia.
  - rewrite Z.mod_small by lia.
    destruct (Z.ltb_spec z (2^31)); lia.
Qed.

(* --- memcmp --- *)
Lemma memcmp_cmp a b :
  match Z.compare (let s := Nat.min (length a) (length b) in
             let rc := memcmp (firstn s a) (firstn s b) in
             if (rc =? 0)%Z then (Z.of_nat (length a) - Z.of_nat (length b))%Z else rc) 0 with
  | c => c = bytes_cmp a b
  end.
Proof.
  revert b. induction a as [|x a IH]; destruct b as [|y b]; try reflexivity.
  cbn [length Nat.min firstn memcmp bytes_cmp].
  specialize (IH b). cbv zeta in IH.
  destruct (N.eqb_spec x y).
  - subst. rewrite N.compare_refl. rewrite <- IH.
    cbv zeta. destruct (memcmp _ _ =? 0)%Z; auto.
    f_equal. lia.
  - cbv zeta. destruct (Z.eqb_spec (Z.of_N x - Z.of_N y) 0); [lia|].
    destruct (N.compare_spec x y), (Z.compare_spec (Z.of_N x - Z.of_N y) 0); auto; lia.
Qed.

Lemma memcmp_bound a b :
  Forall (fun b => (b < 256)%N) a -> Forall (fun b => (b < 256)%N) b ->
  (-256 < memcmp a b < 256)%Z.
Proof.
  revert b. induction a as [|x a IH]; destruct b as [|y b]; simpl; intros; try lia.
  inversion H; inversion H0; subst. destruct (N.eqb_spec x y); auto. lia.
Qed.

Lemma Forall_firstn {A} (P : A -> Prop) n l : Forall P l -> Forall P (firstn n l).
Proof. revert l; induction n; intros; simpl; auto. destruct l; auto. inversion H; constructor; auto. Qed.
Lemma Forall_skipn {A} (P : A -> Prop) n l : Forall P l -> Forall P (skipn n l).
Proof. revert l; induction n; intros; simpl; auto. destruct l; auto. inversion H; auto. Qed.

(* comparator.h agrees with the specification order when ids are within 2^63 *)
Lemma compare_spec a b :
  (ev_id a < 2^64)%N -> (ev_id b < 2^64)%N ->
  (- 2^63 <= Z.of_N (ev_id a) - Z.of_N (ev_id b) < 2^63)%Z ->
  Z.compare (compare a b) 0 = ev_cmp a b.
Proof.
  intros Ha Hb Hd. unfold compare, ev_cmp.
  rewrite i64_sub_exact by auto.
  destruct (Z.eqb_spec (Z.of_N (ev_id a) - Z.of_N (ev_id b)) 0) as [E|E].
  - assert (ev_id a = ev_id b) as -> by lia. rewrite N.compare_refl.
    destruct (Nat.eqb_spec (length (ev_key a)) 0), (Nat.eqb_spec (length (ev_key b)) 0); cbn [andb].
    + destruct (ev_key a), (ev_key b); simpl in *; try discriminate; auto.
    + apply memcmp_cmp.
    + apply memcmp_cmp.
    + apply memcmp_cmp.
  - destruct (N.compare_spec (ev_id a) (ev_id b)),
      (Z.compare_spec (Z.of_N (ev_id a) - Z.of_N (ev_id b)) 0); auto; lia.
Qed.

Lemma compare_range a b :
  ev_ok a -> ev_ok b ->
  (- 2^31 <= Z.of_N (ev_id a) - Z.of_N (ev_id b) < 2^31)%Z ->
  (- 2^31 <= compare a b < 2^31)%Z.
Proof.
  intros (Ha & Hka & Hba & _) (Hb & Hkb & Hbb & _) Hd. unfold compare.
  rewrite i64_sub_exact by lia.
  destruct (Z.eqb_spec (Z.of_N (ev_id a) - Z.of_N (ev_id b)) 0) as [E|E]; [|lia].
  destruct (_ && _); [lia|].
  pose proof (memcmp_bound (firstn (Nat.min (length (ev_key a)) (length (ev_key b))) (ev_key a))
     (firstn (Nat.min (length (ev_key a)) (length (ev_key b))) (ev_key b))
     (Forall_firstn _ _ _ Hba) (Forall_firstn _ _ _ Hbb)).
  cbv zeta. destruct (_ =? 0)%Z; lia.
Qed.

Lemma compare_int_exact a b :
  ev_ok a -> ev_ok b ->
  (- 2^31 <= Z.of_N (ev_id a) - Z.of_N (ev_id b) < 2^31)%Z ->
  compare_int a b = compare a b.
Proof. intros. apply i32_exact. apply compare_range; auto. Qed.

Lemma compare_int_spec a b :
  ev_ok a -> ev_ok b ->
  (- 2^31 <= Z.of_N (ev_id a) - Z.of_N (ev_id b) < 2^31)%Z ->
  Z.compare (compare_int a b) 0 = ev_cmp a b.
Proof.
  intros Ha Hb Hd. rewrite compare_int_exact by auto.
  destruct Ha, Hb. apply compare_spec; auto. lia.
Qed.

Lemma win_diff lo a b : win lo a -> win lo b ->
  (- 2^31 <= Z.of_N (ev_id a) - Z.of_N (ev_id b) < 2^31)%Z.
Proof. unfold win. lia. Qed.

Lemma cmp_win lo a b : ev_ok a -> ev_ok b -> win lo a -> win lo b ->
  Z.compare (compare_int a b) 0 = ev_cmp a b /\ Z.compare (compare a b) 0 = ev_cmp a b.
Proof.
  intros. pose proof (win_diff lo a b H1 H2). split.
  - apply compare_int_spec; auto.
  - destruct H, H0. apply compare_spec; auto. lia.
Qed.

(* --- ascending lists --- *)
Lemma ascending_app l1 l2 :
  ascending (l1 ++ l2) <->
  ascending l1 /\ ascending l2 /\ (forall a b, In a l1 -> In b l2 -> ev_lt a b).
Proof.
  unfold ascending. induction l1; simpl.
  - split.
    + intros. split; [constructor|split; auto]. intros ? ? [].
    + tauto.
  - split.
    + intros H. inversion H; subst. apply IHl1 in H2 as (? & ? & ?).
      rewrite Forall_app in H3. destruct H3 as [F1 F2].
      split; [constructor; auto|]. split; auto.
      intros x y [<-|?] ?; auto. rewrite Forall_forall in F2. auto.
    + intros (H1 & H2 & H3). inversion H1; subst. constructor.
      * apply IHl1. split; [|split]; auto.
      * apply Forall_app. split; auto. apply Forall_forall. auto.
Qed.

Lemma ascending_cons a l : ascending (a :: l) <-> Forall (ev_lt a) l /\ ascending l.
Proof. unfold ascending. split; [intros H; inversion H; auto|intros []; constructor; auto]. Qed.

Lemma lookup_in l k e : lookup l k = Some e -> In e l /\ same_key k e.
Proof. unfold lookup. intros H. apply find_some in H. rewrite same_keyb_true in H. auto. Qed.

Lemma ascending_lookup l e k :
  ascending l -> In e l -> same_key k e -> lookup l k = Some e.
Proof.
  unfold lookup. induction l as [|x l IH]; simpl; [tauto|].
  intros H Hin Hk. apply ascending_cons in H as [HF Hs].
  destruct Hin as [->|Hin].
  - apply same_keyb_true in Hk. rewrite Hk. auto.
  - destruct (same_keyb k x) eqn:E; auto.
    apply same_keyb_true in E. exfalso.
    rewrite Forall_forall in HF. specialize (HF _ Hin).
    apply ev_lt_not_same in HF. apply HF.
    eapply same_key_trans; [apply same_key_sym; eauto|auto].
Qed.

Lemma lookup_none l k : lookup l k = None <-> forall e, In e l -> ~ same_key k e.
Proof.
  unfold lookup. split.
  - intros H e Hin Hk. eapply find_none in H; eauto. apply same_keyb_true in Hk. congruence.
  - intros H. destruct (find _ l) eqn:E; auto. apply find_some in E as [? E].
    apply same_keyb_true in E. exfalso. eapply H; eauto.
Qed.

Lemma lookup_same l a b : same_key a b -> lookup l a = lookup l b.
Proof.
  intros H. unfold lookup. induction l; simpl; auto.
  assert (same_keyb a a0 = same_keyb b a0) as ->.
  { unfold same_keyb. rewrite (same_key_cmp_l _ _ _ H). auto. }
  rewrite IHl. auto.
Qed.

Lemma lookup_app l1 l2 k :
  lookup (l1 ++ l2) k = match lookup l1 k with Some e => Some e | None => lookup l2 k end.
Proof. unfold lookup. induction l1; simpl; auto. destruct (same_keyb k a); auto. Qed.

(* two ascending contents with the same lookups are equal *)
Lemma ascending_ext l1 l2 :
  ascending l1 -> ascending l2 -> (forall k, lookup l1 k = lookup l2 k) -> l1 = l2.
Proof.
  revert l2. induction l1 as [|a l1 IH]; intros l2 H1 H2 H.
  - destruct l2 as [|b l2]; auto. specialize (H b). unfold lookup in H. simpl in H.
    unfold same_keyb in H. rewrite ev_cmp_refl in H. discriminate.
  - destruct l2 as [|b l2].
    { specialize (H a). unfold lookup in H. simpl in H.
      unfold same_keyb in H. rewrite ev_cmp_refl in H. discriminate. }
    assert (HA := H1). assert (HB := H2).
    apply ascending_cons in H1 as [F1 S1]. apply ascending_cons in H2 as [F2 S2].
    assert (a = b).
    { assert (La : lookup (b :: l2) a = Some a).
      { rewrite <- H. apply ascending_lookup; simpl; auto. apply same_key_refl. }
      assert (Lb : lookup (a :: l1) b = Some b).
      { rewrite H. apply ascending_lookup; simpl; auto. apply same_key_refl. }
      apply lookup_in in La as [Ia _]. apply lookup_in in Lb as [Ib _].
      destruct Ia as [?|Ia]; auto. destruct Ib as [?|Ib]; auto.
      rewrite Forall_forall in *. specialize (F1 _ Ib). specialize (F2 _ Ia).
      exfalso. eapply ev_lt_irrefl. eapply ev_lt_trans; eauto. }
    subst b. f_equal. apply IH; auto.
    intros k. specialize (H k). unfold lookup in *. simpl in H.
    destruct (same_keyb k a) eqn:E; auto.
    apply same_keyb_true in E.
    assert (forall l, Forall (ev_lt a) l -> find (same_keyb k) l = None) as Hn.
    { intros l HF. apply lookup_none. intros e Hin Hk. rewrite Forall_forall in HF.
      specialize (HF _ Hin). apply ev_lt_not_same in HF. apply HF.
      eapply same_key_trans; [apply same_key_sym|]; eauto. }
    rewrite !Hn; auto.
Qed.
