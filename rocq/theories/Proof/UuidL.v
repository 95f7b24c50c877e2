(* Lemmas on uuids. *)
From Coq Require Import NArith Arith List Bool Lia.
Import ListNotations.
From Verif Require Import Model.Base Model.Uuid Spec.UuidText Proof.CodecL.
Local Arguments N.mul : simpl never.
Local Arguments N.div : simpl never.
Local Arguments N.modulo : simpl never.
Local Arguments N.pow : simpl never.
Local Arguments N.add : simpl never.
Local Open Scope N_scope.

Lemma nibble_some c d : nibble c = Some d -> d < 16 /\ is_hex c.
Proof.
  unfold nibble, is_hex.
  destruct (N.leb_spec 48 c), (N.leb_spec c 57); cbn [andb]; try (intro H1; injection H1 as <-; lia);
  destruct (N.leb_spec 97 c), (N.leb_spec c 102); cbn [andb]; try (intro H3; injection H3 as <-; lia);
  destruct (N.leb_spec 65 c), (N.leb_spec c 70); cbn [andb]; try (intro H5; injection H5 as <-; lia); discriminate.
Qed.
Lemma nibble_hex c : is_hex c -> exists d, nibble c = Some d.
Proof.
  unfold nibble, is_hex. intro H.
  destruct (N.leb_spec 48 c), (N.leb_spec c 57); cbn [andb]; eauto;
  destruct (N.leb_spec 97 c), (N.leb_spec c 102); cbn [andb]; eauto;
  destruct (N.leb_spec 65 c), (N.leb_spec c 70); cbn [andb]; eauto; lia.
Qed.
Lemma nibble_digit d : d < 16 -> nibble (hex_digit d) = Some d.
Proof.
  intro H. unfold hex_digit. destruct (N.ltb_spec d 10); unfold nibble.
  - destruct (N.leb_spec 48 (48 + d)), (N.leb_spec (48 + d) 57); try lia. cbn [andb]. f_equal. lia.
  - destruct (N.leb_spec 48 (97 + (d - 10))), (N.leb_spec (97 + (d - 10)) 57); try lia. cbn [andb].
    destruct (N.leb_spec 97 (97 + (d - 10))), (N.leb_spec (97 + (d - 10)) 102); try lia. cbn [andb]. f_equal. lia.
Qed.

Lemma shift_in_spec v d : d < 16 -> v < 2 ^ 60 -> shift_in v d = v * 16 + d.
Proof.
  intros Hd Hv. unfold shift_in, w64, two64. rewrite N.shiftl_mul_pow2. change (2 ^ 4) with 16.
  rewrite (N.mod_small (v * 16)) by lia.
  replace (N.land d 15) with d.
  2:{ change 15 with (N.ones 4). rewrite N.land_ones. symmetry. apply N.mod_small. change (2 ^ 4) with 16. lia. }
  rewrite <- N.lxor_lor, <- N.add_nocarry_lxor; [reflexivity| |].
  all: apply N.bits_inj; intro k; rewrite N.land_spec, N.bits_0.
  all: destruct (N.ltb_spec k 4).
  all: try (rewrite (N.mul_comm v), <- (N.shiftl_mul_pow2 v 4) || idtac).
  all: change 16 with (2 ^ 4); rewrite <- N.shiftl_mul_pow2.
  all: try (rewrite N.shiftl_spec_low by lia; reflexivity).
  all: rewrite (N.bits_above_log2 d k); [apply andb_false_r|].
  all: destruct (N.eq_dec d 0) as [-> |]; [cbn; lia|].
  all: apply N.log2_lt_pow2; [lia|]; apply N.lt_le_trans with (2 ^ 4); [change (2 ^ 4) with 16; lia|apply N.pow_le_mono_r; lia].
Qed.

(* the digits of a group *)
Fixpoint hexval (v : N) (l : list byte) : option N :=
  match l with
  | [] => Some v
  | c :: t => match nibble c with Some d => hexval (shift_in v d) t | None => None end
  end.
Lemma hexval_app a : forall v b, hexval v (a ++ b) = match hexval v a with Some v' => hexval v' b | None => None end.
Proof. induction a as [|c a IH]; intros v b; cbn [app hexval]; [reflexivity|]. destruct (nibble c); [apply IH|reflexivity]. Qed.
Lemma hexval_hex k : forall n, n < 16 ^ N.of_nat k -> (k <= 15)%nat -> hexval 0 (hex k n) = Some n.
Proof.
  induction k as [|k IH]; intros n H Hk.
  - cbn. change (16 ^ N.of_nat 0) with 1 in H. f_equal. lia.
  - cbn [hex]. rewrite hexval_app. rewrite Nat2N.inj_succ, N.pow_succ_r' in H.
    assert (Hq : n / 16 < 16 ^ N.of_nat k) by (apply N.div_lt_upper_bound; lia).
    rewrite IH by (exact Hq || lia). cbn [hexval].
    pose proof (N.mod_lt n 16 ltac:(lia)). pose proof (N.div_mod n 16 ltac:(lia)) as E.
    rewrite nibble_digit by assumption. rewrite shift_in_spec; [f_equal; lia|assumption|].
    apply N.lt_le_trans with (16 ^ N.of_nat k); [exact Hq|].
    change (2 ^ 60) with (16 ^ 15). apply N.pow_le_mono_r; lia.
Qed.
Lemma hex_length k : forall n, length (hex k n) = k.
Proof. induction k as [|k IH]; intro n; cbn [hex]; [reflexivity|]. rewrite app_length, IH. cbn. lia. Qed.
Lemma hex_hex k : forall n, Forall is_hex (hex k n).
Proof.
  induction k as [|k IH]; intro n; cbn [hex]; [constructor|]. apply Forall_app. split; [apply IH|].
  constructor; [|constructor]. pose proof (N.mod_lt n 16 ltac:(lia)) as H. apply (nibble_some _ (n mod 16)). apply nibble_digit, H.
Qed.
Lemma hexval_is l : forall v, Forall is_hex l <-> exists w, hexval v l = Some w.
Proof.
  induction l as [|c l IH]; intro v; cbn [hexval].
  - split; [intros _; exists v; reflexivity|constructor].
  - split.
    + intro H. inversion H as [|x y Hc Hl]; subst. destruct (nibble_hex c Hc) as [d ->]. apply IH, Hl.
    + intros [w H]. destruct (nibble c) as [d|] eqn:E; [|discriminate]. constructor; [exact (proj2 (nibble_some c d E))|].
      apply (IH (shift_in v d)). exists w. exact H.
Qed.

Definition special (i : nat) : Prop := i = 8%nat \/ i = 13%nat \/ i = 18%nat \/ i = 23%nat \/ i = 28%nat.
Lemma step_digit i b v c : ~ special i ->
  uuid_step i b v c = match nibble c with Some d => Some (b, shift_in v d) | None => None end.
Proof.
  unfold special, uuid_step. intro H.
  do 29 (destruct i as [|i]; [first [reflexivity|elim H; tauto]|]). reflexivity.
Qed.
Lemma loop_digits : forall l i b v r, (forall j, (i <= j < i + length l)%nat -> ~ special j) ->
  uuid_loop i b v (l ++ r) = match hexval v l with Some v' => uuid_loop (i + length l) b v' r | None => None end.
Proof.
  induction l as [|c l IH]; intros i b v r H; cbn [app uuid_loop hexval length].
  - rewrite Nat.add_0_r. reflexivity.
  - rewrite step_digit by (apply H; cbn; lia). destruct (nibble c) as [d|]; [|reflexivity].
    rewrite IH by (intros j Hj; apply H; cbn [length]; lia). replace (S i + length l)%nat with (i + S (length l))%nat by lia. reflexivity.
Qed.

Ltac notsp := let j := fresh in intros j ?; unfold special; cbn in *; lia.

Ltac nones := repeat match goal with |- context [if ?b then _ else _] => destruct b end; reflexivity.

Definition zero_bits := mk_bits 0 0 0 0 0 0.
Definition parsed (g1 g2 g3 g4 e f : list byte) : option (uuid_bits * N) :=
  match hexval 0 g1, hexval 0 g2, hexval 0 g3, hexval 0 g4, hexval 0 e, hexval 0 f with
  | Some a, Some b, Some c, Some d, Some e, Some f =>
    Some (mk_bits (a mod 2 ^ 32) (b mod 2 ^ 16) (c mod 2 ^ 16) (d mod 2 ^ 16) (e mod 2 ^ 16) 0, f)
  | _, _, _, _, _, _ => None
  end.

Lemma loop_groups g1 g2 g3 g4 e f c1 c2 c3 c4 :
  length g1 = 8%nat -> length g2 = 4%nat -> length g3 = 4%nat -> length g4 = 4%nat -> length e = 4%nat -> length f = 8%nat ->
  uuid_loop 0 zero_bits 0 (g1 ++ c1 :: g2 ++ c2 :: g3 ++ c3 :: g4 ++ c4 :: e ++ f)
  = if (c1 =? 45) && (c2 =? 45) && (c3 =? 45) && (c4 =? 45) then parsed g1 g2 g3 g4 e f else None.
Proof.
  intros L1 L2 L3 L4 L5 L6. unfold parsed.
  rewrite loop_digits by (rewrite L1; notsp). rewrite L1.
  destruct (hexval 0 g1) as [a|]; [|nones].
  cbn [Nat.add uuid_loop uuid_step]. destruct (c1 =? 45); [|reflexivity]. cbn [andb].
  rewrite loop_digits by (rewrite L2; notsp). rewrite L2.
  destruct (hexval 0 g2) as [b|]; [|nones].
  cbn [Nat.add uuid_loop uuid_step]. destruct (c2 =? 45); [|reflexivity]. cbn [andb].
  rewrite loop_digits by (rewrite L3; notsp). rewrite L3.
  destruct (hexval 0 g3) as [c|]; [|nones].
  cbn [Nat.add uuid_loop uuid_step]. destruct (c3 =? 45); [|reflexivity]. cbn [andb].
  rewrite loop_digits by (rewrite L4; notsp). rewrite L4.
  destruct (hexval 0 g4) as [d|]; [|nones].
  cbn [Nat.add uuid_loop uuid_step]. destruct (c4 =? 45); [|reflexivity]. cbn [andb].
  rewrite loop_digits by (rewrite L5; notsp). rewrite L5.
  destruct (hexval 0 e) as [ee|]; [|reflexivity].
  destruct f as [|f0 f]; [discriminate|]. cbn [Nat.add uuid_loop uuid_step hexval].
  destruct (nibble f0) as [dd|]; [|reflexivity].
  rewrite <- (app_nil_r f) at 1. cbn [length] in L6. rewrite loop_digits by (replace (length f) with 7%nat by lia; notsp).
  destruct (hexval (shift_in 0 dd) f) as [ff|]; reflexivity.
Qed.

(* any 36 characters are such groups *)
Lemma split36 (s : list byte) : length s = 36%nat -> exists g1 c1 g2 c2 g3 c3 g4 c4 e f,
  length g1 = 8%nat /\ length g2 = 4%nat /\ length g3 = 4%nat /\ length g4 = 4%nat /\ length e = 4%nat /\ length f = 8%nat /\
  s = g1 ++ c1 :: g2 ++ c2 :: g3 ++ c3 :: g4 ++ c4 :: e ++ f.
Proof.
  intro H. do 36 (destruct s as [|? s]; [discriminate|]). destruct s; [|discriminate].
  match goal with |- context [?a0::?a1::?a2::?a3::?a4::?a5::?a6::?a7::?a8::?a9::?a10::?a11::?a12::?a13::?a14::?a15::?a16::?a17::?a18::?a19::?a20::?a21::?a22::?a23::?a24::?a25::?a26::?a27::?a28::?a29::?a30::?a31::?a32::?a33::?a34::?a35::[]] =>
    exists [a0;a1;a2;a3;a4;a5;a6;a7], a8, [a9;a10;a11;a12], a13, [a14;a15;a16;a17], a18, [a19;a20;a21;a22], a23, [a24;a25;a26;a27], [a28;a29;a30;a31;a32;a33;a34;a35]
  end.
  repeat split; reflexivity.
Qed.

Lemma bits_uuid u : u_a u < 2 ^ 64 -> u_b u < 2 ^ 64 -> uuid_of (bits_of u) = u.
Proof.
  destruct u as [a b]. unfold uuid_of, bits_of. cbn. intros Ha Hb. f_equal.
  - change (2 ^ 48) with (2 ^ 32 * 2 ^ 16). rewrite <- N.div_div by lia.
    pose proof (N.div_mod a (2 ^ 32) ltac:(lia)) as E. set (q := a / 2 ^ 32) in *. set (m := a mod 2 ^ 32) in *.
    pose proof (N.div_mod q (2 ^ 16) ltac:(lia)) as E2.
    assert (q < 2 ^ 32) by (apply N.div_lt_upper_bound; [lia|change (2 ^ 32 * 2 ^ 32) with (2 ^ 64); exact Ha]).
    assert (q / 2 ^ 16 < 2 ^ 16) by (apply N.div_lt_upper_bound; [lia|change (2 ^ 16 * 2 ^ 16) with (2 ^ 32); assumption]).
    rewrite (N.mod_small (q / 2 ^ 16)) by assumption.
    set (q2 := q / 2 ^ 16) in *. set (m2 := q mod 2 ^ 16) in *. clearbody q m q2 m2. subst q a. lia.
  - change (2 ^ 32) with (2 ^ 16 * 2 ^ 16). rewrite <- N.div_div by lia.
    pose proof (N.div_mod b (2 ^ 16) ltac:(lia)) as E. set (q := b / 2 ^ 16) in *. set (m := b mod 2 ^ 16) in *.
    pose proof (N.div_mod q (2 ^ 16) ltac:(lia)) as E2.
    assert (q < 2 ^ 48) by (apply N.div_lt_upper_bound; [lia|change (2 ^ 16 * 2 ^ 48) with (2 ^ 64); exact Hb]).
    assert (q / 2 ^ 16 < 2 ^ 16 * 2 ^ 16) by (apply N.div_lt_upper_bound; [lia|change (2 ^ 16 * (2 ^ 16 * 2 ^ 16)) with (2 ^ 48); assumption]).
    rewrite (N.mod_small (q / 2 ^ 16)) by assumption.
    set (q2 := q / 2 ^ 16) in *. set (m2 := q mod 2 ^ 16) in *. clearbody q m q2 m2. subst q b. lia.
Qed.

Lemma to_string_text u : uuid_text (uuid_to_string u) /\ length (uuid_to_string u) = 36%nat.
Proof.
  unfold uuid_to_string. split.
  - exists (hex 8 (b_a (bits_of u))), (hex 4 (b_b (bits_of u))), (hex 4 (b_c (bits_of u))), (hex 4 (b_d (bits_of u))),
      (hex 4 (b_e (bits_of u)) ++ hex 8 (b_f (bits_of u))).
    unfold group. rewrite app_length, !hex_length. repeat split; try apply hex_hex. apply Forall_app. split; apply hex_hex.
  - rewrite !app_length, !hex_length. reflexivity.
Qed.

Lemma uuid_round u tail : u_a u < 2 ^ 64 -> u_b u < 2 ^ 64 -> uuid_from_string (uuid_to_string u ++ tail) = Some u.
Proof.
  intros Ha Hb. unfold uuid_from_string. rewrite app_length, (proj2 (to_string_text u)). cbn [Nat.add].
  rewrite (proj2 (Nat.ltb_ge _ _)) by lia. rewrite firstn_app_exact by apply to_string_text.
  unfold uuid_to_string. cbn [app]. fold zero_bits.
  rewrite loop_groups by apply hex_length. cbn [N.eqb Pos.eqb andb]. unfold parsed.
  assert (M32 : forall x, x mod 2 ^ 32 < 16 ^ N.of_nat 8) by (intro x; change (16 ^ N.of_nat 8) with (2 ^ 32); apply N.mod_lt; lia).
  assert (M16 : forall x, x mod 2 ^ 16 < 16 ^ N.of_nat 4) by (intro x; change (16 ^ N.of_nat 4) with (2 ^ 16); apply N.mod_lt; lia).
  rewrite !hexval_hex by (cbn [b_a b_b b_c b_d b_e b_f bits_of]; (apply M32 || apply M16 || lia)).
  f_equal. unfold set_f. cbn [b_a b_b b_c b_d b_e b_f bits_of]. rewrite !N.mod_mod by lia. apply (bits_uuid u Ha Hb).
Qed.

Lemma parsed_is g1 g2 g3 g4 e f : (exists x, parsed g1 g2 g3 g4 e f = Some x) <->
  Forall is_hex g1 /\ Forall is_hex g2 /\ Forall is_hex g3 /\ Forall is_hex g4 /\ Forall is_hex e /\ Forall is_hex f.
Proof.
  rewrite (hexval_is g1 0), (hexval_is g2 0), (hexval_is g3 0), (hexval_is g4 0), (hexval_is e 0), (hexval_is f 0). unfold parsed.
  destruct (hexval 0 g1), (hexval 0 g2), (hexval 0 g3), (hexval 0 g4), (hexval 0 e), (hexval 0 f);
    (split; [intros [x H]; try discriminate; repeat split; eexists; reflexivity|
     intros ([? H1] & [? H2] & [? H3] & [? H4] & [? H5] & [? H6]); try discriminate; eexists; reflexivity]).
Qed.

Lemma accepts_iff s : (exists u, uuid_from_string s = Some u) <-> exists h t, s = h ++ t /\ uuid_text h.
Proof.
  unfold uuid_from_string. destruct (Nat.ltb_spec (length s) 36) as [H|H].
  - split; [intros [u E]; discriminate|]. intros (h & t & -> & g1 & g2 & g3 & g4 & g5 & [L1 _] & [L2 _] & [L3 _] & [L4 _] & [L5 _] & ->).
    rewrite !app_length in H. cbn [length] in H. lia.
  - fold zero_bits. 
    destruct (split36 (firstn 36 s)) as (g1 & c1 & g2 & c2 & g3 & c3 & g4 & c4 & e & f & L1 & L2 & L3 & L4 & L5 & L6 & E); [apply firstn_length_le, H|].
    rewrite E, loop_groups by assumption. split.
    + intros [u Hu].
      destruct (N.eqb_spec c1 45); [|discriminate]. destruct (N.eqb_spec c2 45); [|discriminate].
      destruct (N.eqb_spec c3 45); [|discriminate]. destruct (N.eqb_spec c4 45); [|discriminate]. cbn [andb] in Hu. subst.
      assert (Hp : exists x, parsed g1 g2 g3 g4 e f = Some x) by (destruct (parsed g1 g2 g3 g4 e f) as [x|]; [exists x; reflexivity|discriminate]).
      apply parsed_is in Hp. destruct Hp as (P1 & P2 & P3 & P4 & P5 & P6).
      exists (firstn 36 s), (skipn 36 s). split; [symmetry; apply firstn_skipn|]. exists g1, g2, g3, g4, (e ++ f).
      unfold group. rewrite app_length, L1, L2, L3, L4, L5, L6. repeat split; auto. apply Forall_app. auto.
    + intros (h & t & -> & k1 & k2 & k3 & k4 & k5 & [K1 P1] & [K2 P2] & [K3 P3] & [K4 P4] & [K5 P5] & ->).
      rewrite firstn_app_exact in E by (rewrite !app_length; cbn; lia).
      assert (Eq := fun n => f_equal (firstn n) E).
      cbn [app] in E.
      assert (A : forall (a b : list byte) n x y, length a = n -> length b = n -> a ++ x = b ++ y -> a = b /\ x = y).
      { intros a b n x y La Lb Hab. split.
        - rewrite <- (firstn_app_exact a x n La), <- (firstn_app_exact b y n Lb), Hab. reflexivity.
        - rewrite <- (skipn_app_exact a x n La), <- (skipn_app_exact b y n Lb), Hab. reflexivity. }
      clear Eq. apply (A _ _ 8%nat) in E; [|assumption|assumption]. destruct E as [<- E]. injection E as <- E.
      apply (A _ _ 4%nat) in E; [|assumption|assumption]. destruct E as [<- E]. injection E as <- E.
      apply (A _ _ 4%nat) in E; [|assumption|assumption]. destruct E as [<- E]. injection E as <- E.
      apply (A _ _ 4%nat) in E; [|assumption|assumption]. destruct E as [<- E]. injection E as <- ->.
      cbn [N.eqb Pos.eqb andb]. apply Forall_app in P5. destruct P5 as [P5 P6].
      destruct (proj2 (parsed_is k1 k2 k3 k4 e f) (conj P1 (conj P2 (conj P3 (conj P4 (conj P5 P6)))))) as [[b v] E].
      rewrite E. eexists. reflexivity.
Qed.
