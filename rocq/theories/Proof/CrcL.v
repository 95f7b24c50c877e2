From Coq Require Import NArith Arith List Bool Lia.
Import ListNotations.
From Verif Require Import Model.Base Model.CrcTables Model.Crc Spec.Checksum.

Lemma lxor_swap a b c d : N.lxor (N.lxor a b) (N.lxor c d) = N.lxor (N.lxor a c) (N.lxor b d).
Proof.
  rewrite <- !N.lxor_assoc. f_equal. rewrite !N.lxor_assoc. f_equal. apply N.lxor_comm.
Qed.

Lemma odd_lxor a b : N.odd (N.lxor a b) = xorb (N.odd a) (N.odd b).
Proof. rewrite <- !N.bit0_odd. apply N.lxor_spec. Qed.
Lemma div2_lxor a b : N.div2 (N.lxor a b) = N.lxor (N.div2 a) (N.div2 b).
Proof. rewrite !N.div2_spec. apply N.shiftr_lxor. Qed.

Lemma crc_bit_lxor a b : crc_bit (N.lxor a b) = N.lxor (crc_bit a) (crc_bit b).
Proof.
  unfold crc_bit. rewrite odd_lxor, div2_lxor.
  destruct (N.odd a), (N.odd b); simpl xorb; cbn iota.
  - rewrite lxor_swap, N.lxor_nilpotent, N.lxor_0_r. auto.
  - rewrite !N.lxor_assoc. f_equal. apply N.lxor_comm.
  - rewrite N.lxor_assoc. auto.
  - auto.
Qed.

Lemma crc_bits_lxor n : forall a b, crc_bits n (N.lxor a b) = N.lxor (crc_bits n a) (crc_bits n b).
Proof. induction n; intros; simpl; auto. rewrite crc_bit_lxor. apply IHn. Qed.

Lemma crc_bits_add n m : forall c, crc_bits (n + m) c = crc_bits m (crc_bits n c).
Proof. induction n; intros; simpl; auto. Qed.

Lemma crc_bit_double x : crc_bit (2 * x) = x.
Proof.
  unfold crc_bit. rewrite N.odd_mul. simpl. apply N.div2_double.
Qed.
Lemma crc_bits_shift n : forall x, crc_bits n (x * 2 ^ N.of_nat n)%N = x.
Proof.
  induction n; intros x.
  - simpl. apply N.mul_1_r.
  - cbn [crc_bits]. replace (x * 2 ^ N.of_nat (S n))%N with (2 * (x * 2 ^ N.of_nat n))%N.
    + rewrite crc_bit_double. apply IHn.
    + rewrite Nat2N.inj_succ, N.pow_succ_r'. lia.
Qed.
Lemma crc_bits_0 n : crc_bits n 0 = 0%N.
Proof. induction n; simpl; auto. Qed.

(* a sum without common bits is an exclusive or *)

Lemma testbit_small b i k : (b < 2 ^ k)%N -> (k <= i)%N -> N.testbit b i = false.
Proof.
  intros H Hi. rewrite <- (N.mod_small b (2^k)) by auto. apply N.mod_pow2_bits_high. auto.
Qed.
Lemma add_lxor b x k : (b < 2 ^ k)%N -> (b + x * 2 ^ k = N.lxor b (x * 2 ^ k))%N.
Proof.
  intros H. apply N.add_nocarry_lxor.
  apply N.bits_inj. intros i. rewrite N.land_spec, N.bits_0.
  destruct (N.ltb_spec i k).
  - rewrite N.mul_pow2_bits_low; auto. apply andb_false_r.
  - rewrite (testbit_small b i k); auto.
Qed.

(* --- the specification, byte by byte --- *)
Lemma shift_bit c b : crc_shift c b = crc_bit (N.lxor c (N.b2n b)).
Proof.
  unfold crc_shift, crc_bit. rewrite odd_lxor, div2_lxor.
  replace (N.odd (N.b2n b)) with b by (destruct b; auto).
  replace (N.div2 (N.b2n b)) with 0%N by (destruct b; auto). rewrite N.lxor_0_r. auto.
Qed.

Lemma fold_bits : forall n c b, (b < 2 ^ N.of_nat n)%N ->
  fold_left crc_shift (map (fun i => N.testbit b (N.of_nat i)) (seq 0 n)) c =
  crc_bits n (N.lxor c b).
Proof.
  induction n; intros c b H.
  - simpl in *. replace b with 0%N by lia. rewrite N.lxor_0_r. auto.
  - simpl seq. cbn [map fold_left]. rewrite <- seq_shift, map_map.
    rewrite (map_ext _ (fun i => N.testbit (N.div2 b) (N.of_nat i))).
    2: { intros i. rewrite N.div2_spec, N.shiftr_spec by lia. f_equal. lia. }
    rewrite IHn.
    2: { rewrite Nat2N.inj_succ, N.pow_succ_r' in H. rewrite N.div2_div.
         apply N.div_lt_upper_bound; lia. }
    cbn [crc_bits]. f_equal. rewrite shift_bit.
    rewrite <- (crc_bit_double (N.div2 b)), <- crc_bit_lxor. f_equal.
    rewrite N.lxor_assoc. f_equal.
    rewrite (N.div2_odd b) at 3. unfold N.of_nat. rewrite N.bit0_odd.
    rewrite N.add_comm, (N.mul_comm 2 (N.div2 b)).
    symmetry. pose proof (add_lxor (N.b2n (N.odd b)) (N.div2 b) 1) as A.
    change (2^1)%N with 2%N in A. apply A. destruct (N.odd b); simpl; lia.
Qed.

Lemma crc32c_byte c b : (b < 256)%N -> crc32c c [b] = crc_bits 8 (N.lxor c b).
Proof.
  intros H. unfold crc32c, message_bits, bits_of. cbn [flat_map]. rewrite app_nil_r.
  apply (fold_bits 8). auto.
Qed.
Lemma crc32c_app c a b : crc32c c (a ++ b) = crc32c (crc32c c a) b.
Proof. unfold crc32c, message_bits. rewrite flat_map_app, fold_left_app. auto. Qed.
Lemma crc32c_cons c x l : (x < 256)%N -> crc32c c (x :: l) = crc32c (crc_bits 8 (N.lxor c x)) l.
Proof. intros. change (x :: l) with ([x] ++ l). rewrite crc32c_app, crc32c_byte; auto. Qed.

Lemma crc32c_block : forall l c, bytes l ->
  crc32c c l = crc_bits (8 * length l) (N.lxor c (le_value l)).
Proof.
  induction l as [|x l IH]; intros c H.
  - simpl. rewrite N.lxor_0_r. auto.
  - inversion H; subst. rewrite crc32c_cons, IH by auto.
    replace (8 * length (x :: l)) with (8 + 8 * length l) by (simpl; lia).
    rewrite crc_bits_add. f_equal. cbn [le_value].
    replace (x + 256 * le_value l)%N with (N.lxor x (le_value l * 2 ^ 8)).
    + rewrite <- N.lxor_assoc, (crc_bits_lxor 8 (N.lxor c x)). f_equal.
      symmetry. apply (crc_bits_shift 8).
    + rewrite <- add_lxor by auto. change (2^8)%N with 256%N. lia.
Qed.

(* --- tables --- *)
Definition table_ok (n : nat) (t : list N) : bool :=
  forallb (fun i => (tab t (N.of_nat i) =? crc_bits n (N.of_nat i))%N) (seq 0 256).
Lemma table_spec n t : table_ok n t = true -> forall i, (i < 256)%N -> tab t i = crc_bits n i.
Proof.
  intros H i Hi. unfold table_ok in H. rewrite forallb_forall in H.
  specialize (H (N.to_nat i)). rewrite N2Nat.id in H. apply N.eqb_eq, H, in_seq. lia.
Qed.
Lemma t32 : forall i, (i < 256)%N -> tab crc_tableil8_o32 i = crc_bits 8 i.
Proof. apply table_spec. vm_compute. reflexivity. Qed.
Lemma t40 : forall i, (i < 256)%N -> tab crc_tableil8_o40 i = crc_bits 16 i.
Proof. apply table_spec. vm_compute. reflexivity. Qed.
Lemma t48 : forall i, (i < 256)%N -> tab crc_tableil8_o48 i = crc_bits 24 i.
Proof. apply table_spec. vm_compute. reflexivity. Qed.
Lemma t56 : forall i, (i < 256)%N -> tab crc_tableil8_o56 i = crc_bits 32 i.
Proof. apply table_spec. vm_compute. reflexivity. Qed.
Lemma t64 : forall i, (i < 256)%N -> tab crc_tableil8_o64 i = crc_bits 40 i.
Proof. apply table_spec. vm_compute. reflexivity. Qed.
Lemma t72 : forall i, (i < 256)%N -> tab crc_tableil8_o72 i = crc_bits 48 i.
Proof. apply table_spec. vm_compute. reflexivity. Qed.
Lemma t80 : forall i, (i < 256)%N -> tab crc_tableil8_o80 i = crc_bits 56 i.
Proof. apply table_spec. vm_compute. reflexivity. Qed.
Lemma t88 : forall i, (i < 256)%N -> tab crc_tableil8_o88 i = crc_bits 64 i.
Proof. apply table_spec. vm_compute. reflexivity. Qed.

Lemma land_255 x : N.land x 255 = (x mod 256)%N.
Proof. change 255%N with (N.ones 8). apply N.land_ones. Qed.
Lemma land_lt x : (N.land x 255 < 256)%N.
Proof. rewrite land_255. apply N.mod_lt. lia. Qed.

Lemma split_low x : x = N.lxor (N.land x 255) (N.shiftr x 8 * 2 ^ 8).
Proof.
  rewrite <- add_lxor by apply land_lt. rewrite land_255, N.shiftr_div_pow2.
  change (2^8)%N with 256%N. rewrite (N.div_mod x 256) at 1 by lia. lia.
Qed.

(* n more bits: the low byte goes through its table *)
Lemma peel n x : crc_bits (8 + n) x = N.lxor (crc_bits (8 + n) (N.land x 255)) (crc_bits n (N.shiftr x 8)).
Proof.
  rewrite (split_low x) at 1. rewrite crc_bits_lxor. f_equal.
  rewrite crc_bits_add. f_equal. apply (crc_bits_shift 8).
Qed.

Lemma land_lxor_8 a b : (b < 256)%N -> N.shiftr (N.lxor a b) 8 = N.shiftr a 8.
Proof.
  intros H. rewrite N.shiftr_lxor. rewrite (N.shiftr_div_pow2 b), N.div_small by (simpl; lia).
  apply N.lxor_0_r.
Qed.

Lemma sw_byte_spec c b : (b < 256)%N -> sw_byte c b = crc_bits 8 (N.lxor c b).
Proof.
  intros H. unfold sw_byte. rewrite t32 by apply land_lt.
  pose proof (peel 0 (N.lxor c b)) as P. cbn [Nat.add] in P. rewrite P. f_equal.
  cbn [crc_bits]. rewrite land_lxor_8; auto.
Qed.
Lemma sw_bytes_spec : forall l c, bytes l -> sw_bytes c l = crc32c c l.
Proof.
  induction l as [|x l IH]; intros c H; auto. inversion H; subst.
  unfold sw_bytes. simpl. fold (sw_bytes (sw_byte c x) l).
  rewrite crc32c_cons, IH, sw_byte_spec by auto. auto.
Qed.
Lemma hw_bytes_spec : forall l c, bytes l -> fold_left hw_crc8 l c = crc32c c l.
Proof.
  induction l as [|x l IH]; intros c H; auto. inversion H; subst. simpl.
  rewrite crc32c_cons, IH by auto. auto.
Qed.

(* four bytes at the end of a 32-bit value *)
Lemma peel4 n x : (x < 2^32)%N ->
  crc_bits (32 + n) x =
  N.lxor (N.lxor (crc_bits (32 + n) (N.land x 255)) (crc_bits (24 + n) (N.land (N.shiftr x 8) 255)))
   (N.lxor (crc_bits (16 + n) (N.land (N.shiftr x 16) 255))
           (crc_bits (8 + n) (N.land (N.shiftr x 24) 255))).
Proof.
  intros H. change (32 + n) with (8 + (24 + n)). rewrite peel.
  change (24 + n) with (8 + (16 + n)). rewrite (peel (16 + n)).
  change (16 + n) with (8 + (8 + n)). rewrite (peel (8 + n)).
  rewrite (peel n). rewrite !N.shiftr_shiftr.
  change (8 + 8)%N with 16%N. change (16 + 8)%N with 24%N. change (24 + 8)%N with 32%N.
  replace (N.shiftr x 32) with 0%N.
  - rewrite crc_bits_0, N.lxor_0_r, !N.lxor_assoc. auto.
  - rewrite N.shiftr_div_pow2, N.div_small; auto.
Qed.

Lemma align32_spec a b c d l : align32 (a :: b :: c :: d :: l) = le_value [a;b;c;d].
Proof. unfold align32. cbn [le_value]. lia. Qed.
Lemma le_value_lt l : bytes l -> (le_value l < 2 ^ (8 * N.of_nat (length l)))%N.
Proof.
  induction l as [|x l IH]; intros H; cbn [le_value length]; [simpl; lia|]. inversion H; subst.
  specialize (IH H3). replace (8 * N.of_nat (S (length l)))%N
    with (8 + 8 * N.of_nat (length l))%N by lia.
  rewrite N.pow_add_r. change (2^8)%N with 256%N. nia.
Qed.
Lemma le_value_app a b : le_value (a ++ b) = (le_value a + le_value b * 2 ^ (8 * N.of_nat (length a)))%N.
Proof.
  induction a as [|x a IH]; cbn [app le_value length].
  - simpl. lia.
  - rewrite IH. replace (8 * N.of_nat (S (length a)))%N with (8 + 8 * N.of_nat (length a))%N by lia.
    rewrite N.pow_add_r. change (2^8)%N with 256%N. lia.
Qed.

Lemma lxor_lt a b k : (a < 2^k)%N -> (b < 2^k)%N -> (N.lxor a b < 2^k)%N.
Proof.
  intros Ha Hb. rewrite <- (N.mod_small a (2^k)), <- (N.mod_small b (2^k)) by auto.
  rewrite <- !N.land_ones.
  assert (E : N.lxor (N.land a (N.ones k)) (N.land b (N.ones k)) = N.land (N.lxor a b) (N.ones k)).
  { apply N.bits_inj. intros i. rewrite !N.lxor_spec, !N.land_spec, N.lxor_spec.
    destruct (N.testbit a i), (N.testbit b i), (N.testbit (N.ones k) i); auto. }
  rewrite E, N.land_ones. apply N.mod_lt. apply N.pow_nonzero. lia.
Qed.

Local Opaque crc_bits.
Lemma two_halves c u v : (u < 2^32)%N ->
  crc_bits 64 (N.lxor c (u + v * 2^32)) = N.lxor (crc_bits 64 (N.lxor c u)) (crc_bits 32 v).
Proof.
  intros Hu. rewrite add_lxor, <- N.lxor_assoc, crc_bits_lxor by auto. f_equal.
  change 64 with (32 + 32). rewrite (crc_bits_add 32 32). f_equal.
  pose proof (crc_bits_shift 32 v) as A. change (N.of_nat 32) with 32%N in A. exact A.
Qed.

Lemma sw_eight_spec c l : (c < 2^32)%N -> bytes l -> 8 <= length l ->
  sw_eight c l = crc_bits 64 (N.lxor c (le_value (firstn 8 l))).
Proof.
  intros Hc H Hl.
  destruct l as [|b0 [|b1 [|b2 [|b3 [|b4 [|b5 [|b6 [|b7 l]]]]]]]]; simpl in Hl; try lia.
  assert (H12 : bytes [b0;b1;b2;b3] /\ bytes [b4;b5;b6;b7]).
  { unfold bytes in *. change (b0 :: b1 :: b2 :: b3 :: b4 :: b5 :: b6 :: b7 :: l) with
      ([b0;b1;b2;b3] ++ [b4;b5;b6;b7] ++ l) in H.
    apply Forall_app in H as [Ha H]. apply Forall_app in H as [Hb _]. auto. }
  destruct H12 as [H1 H2].
  unfold sw_eight. cbn [skipn firstn]. rewrite !align32_spec.
  change ([b0;b1;b2;b3;b4;b5;b6;b7]) with ([b0;b1;b2;b3] ++ [b4;b5;b6;b7]).
  rewrite le_value_app. simpl length. change (8 * N.of_nat 4)%N with 32%N.
  assert (Hu : (le_value [b0;b1;b2;b3] < 2^32)%N) by (apply (le_value_lt [b0;b1;b2;b3]); auto).
  assert (Hv : (le_value [b4;b5;b6;b7] < 2^32)%N) by (apply (le_value_lt [b4;b5;b6;b7]); auto).
  
  revert Hu Hv. generalize (le_value [b0;b1;b2;b3]) (le_value [b4;b5;b6;b7]). intros u v Hu Hv.
  rewrite two_halves by auto.
  pose proof (peel4 32 (N.lxor c u) (lxor_lt _ _ _ Hc Hu)) as P1. pose proof (peel4 0 v Hv) as P2.
  cbn [Nat.add] in P1, P2. rewrite P1, P2.
  rewrite t88, t80, t72, t64, t56, t48, t40, t32 by apply land_lt.
  rewrite !N.shiftr_shiftr. change (16 + 8)%N with 24%N. rewrite !N.lxor_assoc.
  reflexivity.
Qed.

Local Transparent crc_bits.
Lemma crc_bit_lt c : (c < 2^32)%N -> (crc_bit c < 2^32)%N.
Proof.
  intros H. unfold crc_bit. assert (N.div2 c < 2^32)%N.
  { rewrite N.div2_div. apply N.div_lt_upper_bound; lia. }
  destruct (N.odd c); auto. apply lxor_lt; auto. reflexivity.
Qed.
Lemma crc_bits_lt n : forall c, (c < 2^32)%N -> (crc_bits n c < 2^32)%N.
Proof. induction n; intros; simpl; auto. apply IHn, crc_bit_lt; auto. Qed.
Lemma crc_bits_narrow n : forall c k, (c < 2^(k + N.of_nat n))%N -> (32 <= k)%N ->
  (crc_bits n c < 2^k)%N.
Proof.
  induction n; intros c k H Hk; cbn [crc_bits].
  - rewrite N.add_0_r in H. auto.
  - apply IHn; auto. unfold crc_bit.
    assert (Hd : (N.div2 c < 2^(k + N.of_nat n))%N).
    { rewrite N.div2_div. apply N.div_lt_upper_bound; [lia|]. rewrite <- N.pow_succ_r'.
      replace (N.succ (k + N.of_nat n)) with (k + N.of_nat (S n))%N by lia. auto. }
    destruct (N.odd c); auto. apply lxor_lt; auto.
    eapply N.lt_le_trans with (2^32)%N; [reflexivity|]. apply N.pow_le_mono_r; lia.
Qed.

Lemma crc32c_lt c l : bytes l -> (c < 2^32)%N -> (crc32c c l < 2^32)%N.
Proof.
  revert c. induction l as [|x l IH]; intros c Hb H; auto.
  inversion Hb; subst. rewrite crc32c_cons by auto. apply IH; auto. apply crc_bits_lt, lxor_lt; auto. lia.
Qed.

Lemma bytes_app a b : bytes (a ++ b) <-> bytes a /\ bytes b.
Proof. apply Forall_app. Qed.
Lemma bytes_firstn n l : bytes l -> bytes (firstn n l).
Proof. intros H. rewrite <- (firstn_skipn n l) in H. apply bytes_app in H. tauto. Qed.
Lemma bytes_skipn n l : bytes l -> bytes (skipn n l).
Proof. intros H. rewrite <- (firstn_skipn n l) in H. apply bytes_app in H. tauto. Qed.

Lemma eight_spec c l : bytes l -> 8 <= length l -> crc_bits 64 (N.lxor c (le_value (firstn 8 l))) = crc32c c (firstn 8 l).
Proof.
  intros H Hl. rewrite crc32c_block by (apply bytes_firstn; auto).
  rewrite firstn_length_le by auto. auto.
Qed.

Lemma firstn_add {A} a b : forall l : list A, firstn (a + b) l = firstn a l ++ firstn b (skipn a l).
Proof.
  induction a; intros l; simpl; auto. destruct l; simpl; [destruct b; auto|]. f_equal. auto.
Qed.

Lemma running_spec : forall n c l, (c < 2^32)%N -> bytes l -> 8 * n <= length l ->
  sw_running n c l = crc32c c (firstn (8 * n) l) /\ hw_words n c l = crc32c c (firstn (8 * n) l).
Proof.
  induction n; intros c l Hc H Hl.
  - rewrite Nat.mul_0_r. simpl. auto.
  - cbn [sw_running hw_words]. rewrite sw_eight_spec by (auto; lia). unfold hw_crc64.
    rewrite !eight_spec by (auto; lia).
    replace (8 * S n) with (8 + 8 * n) by lia.
    rewrite firstn_add.
    rewrite crc32c_app. apply IHn; auto using bytes_skipn.
    + apply crc32c_lt; auto using bytes_firstn.
    + rewrite skipn_length. lia.
Qed.

Lemma crc32_statement hw align c l : (c < 2^32)%N -> bytes l -> crc32 hw align c l = crc32c c l.
Proof.
  intros Hc H. unfold crc32. destruct hw.
  - unfold crc32_hw. destruct (running_spec (length l / 8) c l) as [_ E]; auto.
    { apply Nat.mul_div_le. lia. }
    rewrite hw_bytes_spec by (apply bytes_skipn; auto).
    etransitivity; [|apply f_equal, (firstn_skipn (8 * (length l / 8)) l)].
    rewrite crc32c_app. f_equal. exact E.
  - unfold crc32_sw. set (i := Nat.min (length l) ((4 - align mod 4) mod 4)).
    rewrite (sw_bytes_spec (firstn i l)) by auto using bytes_firstn.
    destruct (running_spec (length (skipn i l) / 8) (crc32c c (firstn i l)) (skipn i l)) as [E _];
      auto using bytes_skipn, crc32c_lt, bytes_firstn.
    { apply Nat.mul_div_le. lia. }
    rewrite sw_bytes_spec by (apply bytes_skipn, bytes_skipn; auto).
    etransitivity; [|apply f_equal, (firstn_skipn i l)]. rewrite crc32c_app.
    etransitivity; [|apply f_equal, (firstn_skipn (8 * (length (skipn i l) / 8)) (skipn i l))].
    rewrite crc32c_app. f_equal. exact E.
Qed.

(* --- incremental, leading zeros --- *)
Lemma crc32c_zeros n : crc32c 0 (repeat 0%N n) = 0%N.
Proof.
  induction n as [|n IHn]; [reflexivity|]. cbn [repeat]. rewrite crc32c_cons by lia. rewrite N.lxor_0_r, crc_bits_0. exact IHn.
Qed.

(* --- error detection --- *)
Lemma crc_bit_zero c : (c < 2^32)%N -> crc_bit c = 0%N -> c = 0%N.
Proof.
  intros H. unfold crc_bit. destruct (N.odd c) eqn:E.
  - intros Hx. apply N.lxor_eq in Hx. rewrite N.div2_div in Hx.
    assert (c / 2 < 2^31)%N by (apply N.div_lt_upper_bound; lia).
    rewrite Hx in H0. vm_compute in H0. discriminate.
  - intros Hx. rewrite (N.div2_odd c), E, Hx. auto.
Qed.
Lemma crc_bits_zero n : forall c, (c < 2^32)%N -> crc_bits n c = 0%N -> c = 0%N.
Proof.
  induction n; intros c H Hz; simpl in Hz; auto. apply IHn in Hz; auto using crc_bit_lt, crc_bit_zero.
Qed.
Lemma crc_bits_inj n a b : (a < 2^32)%N -> (b < 2^32)%N -> crc_bits n a = crc_bits n b -> a = b.
Proof.
  intros Ha Hb E. apply N.lxor_eq, (crc_bits_zero n); auto using lxor_lt.
  rewrite crc_bits_lxor, E. apply N.lxor_nilpotent.
Qed.
Lemma le_value_inj : forall a b, bytes a -> bytes b -> length a = length b -> le_value a = le_value b -> a = b.
Proof.
  induction a as [|x a IH]; destruct b as [|y b]; intros Ha Hb Hl E; try discriminate; auto.
  inversion Ha; inversion Hb; subst. cbn [le_value] in E. simpl in Hl.
  assert (Hm : forall u v, (u < 256)%N -> ((u + 256 * v) mod 256 = u)%N).
  { intros u v Hu. rewrite N.mul_comm, N.mod_add, N.mod_small; auto. lia. }
  assert (Hxy : x = y) by (rewrite <- (Hm x (le_value a)), <- (Hm y (le_value b)) by auto; congruence).
  subst y. f_equal. apply IH; auto. lia.
Qed.

Lemma crc32c_inj_start l : forall a b, bytes l -> (a < 2^32)%N -> (b < 2^32)%N ->
  crc32c a l = crc32c b l -> a = b.
Proof.
  induction l as [|x l IH]; intros a b H Ha Hb E; auto.
  inversion H; subst. rewrite !crc32c_cons in E by auto.
  assert (x < 2^32)%N by lia.
  apply IH in E; auto; [|apply crc_bits_lt, lxor_lt; auto|apply crc_bits_lt, lxor_lt; auto].
  apply crc_bits_inj in E; try (apply lxor_lt; auto).
  apply N.lxor_eq. replace (N.lxor a b) with (N.lxor (N.lxor a x) (N.lxor b x)).
  - rewrite E. apply N.lxor_nilpotent.
  - rewrite lxor_swap, N.lxor_nilpotent, N.lxor_0_r. auto.
Qed.

Lemma detect c pre x y post : (c < 2^32)%N -> bytes (pre ++ x ++ post) -> bytes y ->
  length x = length y -> length x <= 4 ->
  crc32c c (pre ++ x ++ post) = crc32c c (pre ++ y ++ post) -> x = y.
Proof.
  intros Hc Hb Hy Hl H4 E. apply bytes_app in Hb as [H1 Hb]. apply bytes_app in Hb as [H2 H3].
  rewrite !crc32c_app in E. set (d := crc32c c pre) in *.
  assert (Hd : (d < 2^32)%N) by (apply crc32c_lt; auto).
  apply crc32c_inj_start in E; auto using crc32c_lt.
  rewrite !crc32c_block, <- Hl in E by auto.
  assert (B : forall z, bytes z -> length z <= 4 -> (le_value z < 2^32)%N).
  { intros z Hz Hlz. eapply N.lt_le_trans; [apply le_value_lt; auto|].
    apply N.pow_le_mono_r; lia. }
  apply crc_bits_inj in E; try (apply lxor_lt; auto; apply B; auto; lia).
  apply le_value_inj; auto.
  apply N.lxor_eq. replace (N.lxor (le_value x) (le_value y)) with
    (N.lxor (N.lxor d (le_value x)) (N.lxor d (le_value y))).
  - rewrite E. apply N.lxor_nilpotent.
  - rewrite lxor_swap, N.lxor_nilpotent, N.lxor_0_l. auto.
Qed.
