(* Small changes of a footer that holds its own checksum. *)
From Coq Require Import NArith ZArith Arith List Bool Lia.
Import ListNotations.
From Verif Require Import Model.Base Model.Event Model.Crc Model.Codec Model.File
  Spec.Checksum Proof.CrcL Proof.CrcP Proof.CodecL.

Definition linear (f : N -> N) : Prop := forall a b, f (N.lxor a b) = N.lxor (f a) (f b).
Lemma linear_0 f : linear f -> f 0%N = 0%N.
Proof. intros H. pose proof (H 0%N 0%N) as E. rewrite !N.lxor_nilpotent in E. exact E. Qed.

Lemma linear_ext f g n : linear f -> linear g ->
  (forall i, i < n -> f (2 ^ N.of_nat i)%N = g (2 ^ N.of_nat i)%N) ->
  forall d, (d < 2 ^ N.of_nat n)%N -> f d = g d.
Proof.
  intros Hf Hg. induction n as [|n IH]; intros H d Hd.
  - replace d with 0%N by (simpl in Hd; lia). rewrite !linear_0; auto.
  - set (p := (2 ^ N.of_nat n)%N) in *.
    assert (Hp : (0 < p)%N) by (unfold p; apply N.neq_0_lt_0, N.pow_nonzero; lia).
    assert (E2 : (2 ^ N.of_nat (S n) = 2 * p)%N) by (unfold p; rewrite Nat2N.inj_succ, N.pow_succ_r'; auto).
    rewrite E2 in Hd.
    assert (Hq : (d / p < 2)%N) by (apply N.div_lt_upper_bound; lia).
    assert (Ed : d = N.lxor (d mod p) (d / p * p)).
    { unfold p. rewrite <- add_lxor by (apply N.mod_lt; unfold p in Hp; lia). fold p.
      rewrite (N.div_mod d p) at 1 by lia. lia. }
    assert (Hr : (d mod p < p)%N) by (apply N.mod_lt; lia).
    remember (d / p)%N as q eqn:Eq. remember (d mod p)%N as r eqn:Er. clear Eq Er. subst d.
    rewrite Hf, Hg. rewrite (IH (fun i Hi => H i ltac:(lia)) r Hr).
    f_equal. assert (q = 0 \/ q = 1)%N as [-> | ->] by lia.
    + rewrite !linear_0; auto.
    + rewrite N.mul_1_l. apply H. lia.
Qed.

Fixpoint mat (cols : list N) (v : N) : N :=
  match cols with
  | [] => 0%N
  | c :: t => N.lxor (if N.odd v then c else 0%N) (mat t (N.div2 v))
  end.
Lemma mat_linear cols : linear (mat cols).
Proof.
  induction cols as [|c t IH]; intros a b; cbn [mat]; auto.
  rewrite odd_lxor, div2_lxor, IH, lxor_swap. f_equal.
  destruct (N.odd a), (N.odd b); cbn [xorb]; rewrite ?N.lxor_nilpotent, ?N.lxor_0_r, ?N.lxor_0_l; auto.
Qed.
Lemma mat_low cols : forall v, (v mod 2 ^ N.of_nat (length cols) = 0)%N -> mat cols v = 0%N.
Proof.
  induction cols as [|c t IH]; intros v H; cbn [mat]; auto.
  cbn [length] in H. rewrite Nat2N.inj_succ, N.pow_succ_r' in H.
  set (p := (2 ^ N.of_nat (length t))%N) in *.
  assert (Hp : p <> 0%N) by (unfold p; apply N.pow_nonzero; lia).
  apply N.mod_divide in H as [k ->]; [|lia].
  replace (k * (2 * p))%N with (2 * (k * p))%N by lia.
  rewrite N.odd_mul, N.div2_double. cbn [N.odd andb]. rewrite IH; [reflexivity|].
  apply N.mod_mul; auto.
Qed.

Definition inv1 : list N := [143;84;168;245;160;229;128;165]%N.
Definition inv2 : list N := [810;63897;58856;8903;47683;25180;15221;30442;4633;56319;41252;43871;49065;38469;14928;35693]%N.
Definition inv3 : list N := [8562185;1550656;3101312;870347;1740694;6749671;10361093;8205715;11110893;4322952;8645904;4644281;14571961;11425312;5130514;10261028;7873489;10724713;5615488;16301515;11566095;7478604;14957208;9007785]%N.

Definition inv_ok (cols : list N) : bool :=
  forallb (fun i => (mat cols (crc_bits 1008 (2 ^ N.of_nat i)) =? 2 ^ N.of_nat i)%N) (seq 0 (length cols)).
Lemma inv_ok1 : inv_ok inv1 = true. Proof. vm_compute. reflexivity. Qed.
Lemma inv_ok2 : inv_ok inv2 = true. Proof. vm_compute. reflexivity. Qed.
Lemma inv_ok3 : inv_ok inv3 = true. Proof. vm_compute. reflexivity. Qed.

Local Opaque crc_bits.
Lemma crc_low cols d : inv_ok cols = true -> (d < 2 ^ N.of_nat (length cols))%N ->
  (crc_bits 1008 d mod 2 ^ N.of_nat (length cols) = 0)%N -> d = 0%N.
Proof.
  intros Hc Hd H. unfold inv_ok in Hc. rewrite forallb_forall in Hc.
  rewrite <- (mat_low cols _ H).
  symmetry. apply (linear_ext (fun v => mat cols (crc_bits 1008 v)) (fun v => v) (length cols)); auto.
  - intros a b. rewrite crc_bits_lxor. apply mat_linear.
  - intros a b. reflexivity.
  - intros i Hi. apply N.eqb_eq. apply Hc. apply in_seq. lia.
Qed.
Lemma crc_low_bytes m d : 1 <= m <= 3 -> (d < 2 ^ (8 * N.of_nat m))%N ->
  (crc_bits 1008 d mod 2 ^ (8 * N.of_nat m) = 0)%N -> d = 0%N.
Proof.
  intros Hm Hd H. assert (m = 1 \/ m = 2 \/ m = 3) as [->|[->| ->]] by lia.
  - apply (crc_low inv1); auto using inv_ok1.
  - apply (crc_low inv2); auto using inv_ok2.
  - apply (crc_low inv3); auto using inv_ok3.
Qed.

Lemma crc_spec l : bytes l -> crc 0 l = crc32c 0 l.
Proof. intros H. unfold crc. apply crc32_statement; auto. lia. Qed.

(* bytes that agree below [m] *)
Lemma le_value_xor p x q y : bytes p -> bytes x -> bytes y -> bytes q ->
  length x = length y ->
  N.lxor (le_value (x ++ q)) (le_value (y ++ q)) = N.lxor (le_value x) (le_value y) /\
  exists k, N.lxor (le_value (p ++ x)) (le_value (p ++ y)) = (k * 2 ^ (8 * N.of_nat (length p)))%N.
Proof.
  intros Hp Hx Hy Hq Hl. rewrite !le_value_app.
  pose proof (le_value_lt p Hp) as B1. pose proof (le_value_lt x Hx) as B2. pose proof (le_value_lt y Hy) as B3.
  rewrite <- Hl in B3 |- *.
  rewrite (add_lxor (le_value x) (le_value q)), (add_lxor (le_value y) (le_value q)),
    (add_lxor (le_value p) (le_value x)), (add_lxor (le_value p) (le_value y)) by auto.
  split.
  - rewrite lxor_swap, N.lxor_nilpotent, N.lxor_0_r. auto.
  - exists (N.lxor (le_value x) (le_value y)).
    rewrite lxor_swap, N.lxor_nilpotent, N.lxor_0_l.
    rewrite <- !N.shiftl_mul_pow2. symmetry. apply N.shiftl_lxor.
Qed.

Definition agrees (f : list byte) : Prop := crc 0 (skipn 4 f) = le_value (firstn 4 f).

Lemma split_at {A} n (l : list A) : n <= length l -> exists a b, l = a ++ b /\ length a = n.
Proof.
  intros H. exists (firstn n l), (skipn n l). split; [symmetry; apply firstn_skipn|apply firstn_length_le; auto].
Qed.

Lemma agrees_burst p x y q : bytes (p ++ x ++ q) -> bytes y -> length x = length y -> length x <= 4 ->
  length (p ++ x ++ q) = 130 -> agrees (p ++ x ++ q) -> agrees (p ++ y ++ q) -> x = y.
Proof.
  intros Hb Hy Hl H4 Hn A B. unfold agrees in *.
  pose proof (proj1 (bytes_app _ _) Hb) as [Hp Hxq]. pose proof (proj1 (bytes_app _ _) Hxq) as [Hx Hq].
  destruct (le_lt_dec 4 (length p)) as [Hp4|Hp4].
  - destruct (split_at 4 p Hp4) as (a & b & -> & Ha). rewrite <- !app_assoc in A, B.
    rewrite skipn_app_exact, firstn_app_exact in A, B by auto.
    rewrite <- B in A. apply bytes_app in Hp as [_ Hb2].
    rewrite !crc_spec in A by (repeat (apply bytes_app; split; auto)).
    apply (detect 0 b x y q) in A; auto; [lia|]. repeat (apply bytes_app; split; auto).
  - destruct (le_lt_dec (length p + length x) 4) as [Hpx|Hpx].
    + rewrite !app_length in Hn.
      assert (Hq4 : 4 - (length p + length x) <= length q) by lia.
      destruct (split_at _ q Hq4) as (a & b & -> & Ha).
      rewrite (app_assoc x), (app_assoc p) in A. rewrite (app_assoc y), (app_assoc p) in B.
      rewrite skipn_app_exact, firstn_app_exact in A by (rewrite !app_length; lia).
      rewrite skipn_app_exact, firstn_app_exact in B by (rewrite !app_length; lia).
      rewrite A in B. apply bytes_app in Hq as [Hqa _].
      apply le_value_inj in B; try (repeat (apply bytes_app; split; auto)); try (rewrite !app_length; lia).
      apply app_inv_head in B. apply app_inv_tail in B. auto.
    + assert (Hx4 : 4 - length p <= length x) by lia.
      destruct (split_at _ x Hx4) as (x1 & x2 & -> & Hx1).
      assert (Hy4 : 4 - length p <= length y) by lia.
      destruct (split_at _ y Hy4) as (y1 & y2 & -> & Hy1).
      rewrite !app_length in *.
      rewrite <- !app_assoc in A, B. rewrite (app_assoc p) in A, B.
      rewrite skipn_app_exact, firstn_app_exact in A by (rewrite !app_length; lia).
      rewrite skipn_app_exact, firstn_app_exact in B by (rewrite !app_length; lia).
      apply bytes_app in Hx as [Hx1b Hx2b]. apply bytes_app in Hy as [Hy1b Hy2b].
      assert (Bx : bytes (x2 ++ q)) by (apply bytes_app; auto).
      assert (By : bytes (y2 ++ q)) by (apply bytes_app; auto).
      assert (Hlx : length (x2 ++ q) = 126) by (rewrite app_length; lia).
      assert (Hly : length (y2 ++ q) = 126) by (rewrite app_length; lia).
      rewrite crc_spec, crc32c_block, N.lxor_0_l, Hlx in A by auto.
      rewrite crc_spec, crc32c_block, N.lxor_0_l, Hly in B by auto.
      change (8 * 126) with 1008 in A, B.
      destruct (le_value_xor p x2 q y2 Hp Hx2b Hy2b Hq ltac:(lia)) as [E1 _].
      destruct (le_value_xor p x1 q y1 Hp Hx1b Hy1b Hq ltac:(lia)) as [_ [k E2]].
      rewrite <- A, <- B, <- crc_bits_lxor, E1 in E2.
      assert (Hz : N.lxor (le_value x2) (le_value y2) = 0%N).
      { apply (crc_low_bytes (length x2)); [lia| |].
        - apply lxor_lt; [apply le_value_lt; auto|].
          replace (length x2) with (length y2) by lia. apply le_value_lt; auto.
        - rewrite E2.
          replace (8 * N.of_nat (length p))%N with (8 * N.of_nat (length p - length x2) + 8 * N.of_nat (length x2))%N by lia.
          rewrite N.pow_add_r, N.mul_assoc. apply N.mod_mul. apply N.pow_nonzero. lia. }
      apply N.lxor_eq in Hz. apply le_value_inj in Hz; auto; [|lia]. subst y2.
      rewrite A in B. apply le_value_inj in B; try (apply bytes_app; auto); [|rewrite !app_length; lia].
      apply app_inv_head in B. subst. auto.
Qed.

(* opening *)
Lemma index_load_some f : length f = 130 ->
  exists ix, index_load f = Some ix /\ ix_crc ix = le_value (firstn 4 f).
Proof.
  intros _. unfold index_load, index_fields. cbn [unpack]. eexists. split; reflexivity.
Qed.

Lemma index_open_iff pre f : length f = 130 ->
  index_open (pre ++ f) <> UB /\
  forall ix, index_open (pre ++ f) = Ok ix <->
    index_load f = Some ix /\ agrees f /\ ix_magic ix = INDEX_MAGIC /\
    ix_size_total ix = N.of_nat (length (pre ++ f)) /\ (ix_version ix <= INDEX_VERSION)%N.
Proof.
  intros Hf. destruct (index_load_some f Hf) as (i0 & E0 & Ec).
  unfold index_open. rewrite app_length, Hf.
  replace (N.of_nat (length pre + 130) <? 130)%N with false by (symmetry; apply N.ltb_ge; lia).
  unfold pread. replace (N.to_nat (N.of_nat (length pre + 130) - 130)) with (length pre) by lia.
  rewrite (slice_end pre f) by auto. cbn [bind]. rewrite E0. cbn [of_opt bind].
  unfold agrees. rewrite <- Ec.
  destruct (N.eqb_spec (ix_magic i0) INDEX_MAGIC) as [E1|E1]; cbn [negb];
  [|split; [discriminate|intros ix; split; [discriminate|intros (X & _ & Y & _); inversion X; subst; contradiction]]].
  destruct (N.eqb_spec (crc 0 (skipn 4 f)) (ix_crc i0)) as [E2|E2]; cbn [negb];
  [|split; [discriminate|intros ix; split; [discriminate|intros (X & Y & _); contradiction]]].
  destruct (N.eqb_spec (N.of_nat (length pre + 130)) (ix_size_total i0)) as [E3|E3]; cbn [negb];
  [|split; [discriminate|intros ix; split; [discriminate|intros (X & _ & _ & Y & _); inversion X; subst; exfalso; apply E3; auto]]].
  destruct (N.ltb_spec INDEX_VERSION (ix_version i0)) as [E4|E4];
  [split; [discriminate|intros ix; split; [discriminate|intros (X & _ & _ & _ & Y); inversion X; subst; lia]]|].
  split; [discriminate|]. intros ix. split.
  - intros X. inversion X; subst. auto.
  - intros (X & _). inversion X; subst. auto.
Qed.

Lemma index_open_short file : length file < 130 -> index_open file = Err.
Proof.
  intros H. unfold index_open. replace (N.of_nat (length file) <? 130)%N with true; auto.
  symmetry. apply N.ltb_lt. lia.
Qed.

Lemma footer_detects pre x y post ix : bytes (pre ++ x ++ post) -> bytes y -> length x = length y ->
  length x <= 4 -> x <> y -> length (x ++ post) <= 130 ->
  index_open (pre ++ x ++ post) = Ok ix -> index_open (pre ++ y ++ post) = Err.
Proof.
  intros Hb Hy Hl H4 Hne Hlast Ho.
  assert (Hn : 130 <= length (pre ++ x ++ post)).
  { destruct (le_lt_dec 130 (length (pre ++ x ++ post))) as [?|E]; auto.
    rewrite index_open_short in Ho by auto. discriminate. }
  rewrite (app_length pre) in Hn.
  destruct (split_at (length pre + length (x ++ post) - 130) pre ltac:(lia)) as (a & b & -> & Ha).
  rewrite <- app_assoc in Ho |- *. rewrite <- app_assoc in Hb. rewrite app_length in *.
  assert (Hf : length (b ++ x ++ post) = 130) by (rewrite !app_length in *; lia).
  assert (Hf' : length (b ++ y ++ post) = 130) by (rewrite !app_length in *; lia).
  destruct (index_open_iff a _ Hf) as [_ O1]. apply O1 in Ho as (_ & A & _).
  destruct (index_open_iff a _ Hf') as [U O2].
  destruct (index_open (a ++ b ++ y ++ post)) as [ix'| |] eqn:E; auto; [|contradiction].
  destruct (proj1 (O2 ix') eq_refl) as (_ & B & _). exfalso. apply Hne.
  apply (agrees_burst b x y post); auto. apply bytes_app in Hb as [_ Hb]; auto.
Qed.

Lemma footer_checks file ix : index_open file = Ok ix ->
  exists pre f, file = pre ++ f /\ length f = 130 /\ index_load f = Some ix /\
    ix_crc ix = crc 0 (skipn 4 f) /\ ix_magic ix = INDEX_MAGIC /\
    ix_size_total ix = N.of_nat (length file) /\ (ix_version ix <= INDEX_VERSION)%N.
Proof.
  intros H. destruct (le_lt_dec 130 (length file)) as [Hn|Hn].
  2: { rewrite index_open_short in H by auto. discriminate. }
  destruct (split_at (length file - 130) file ltac:(lia)) as (a & f & -> & Ha).
  rewrite app_length in *. assert (Hf : length f = 130) by lia.
  destruct (index_open_iff a f Hf) as [_ O]. apply O in H as (H1 & H2 & H3 & H4 & H5).
  exists a, f. rewrite app_length in H4. repeat split; auto.
  destruct (index_load_some f Hf) as (i0 & E0 & Ec). rewrite H1 in E0. inversion E0; subst i0.
  rewrite Ec. symmetry. exact H2.
Qed.
