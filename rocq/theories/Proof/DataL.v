(* Lemmas on tagged binary values. *)
From Coq Require Import NArith ZArith List Bool Lia.
Import ListNotations.
From Verif Require Import Model.Base Model.Crc Model.Codec Model.Data Spec.Checksum Spec.Value Proof.CodecL.
Local Arguments N.mul : simpl never.
Local Arguments N.div : simpl never.
Local Arguments N.modulo : simpl never.
Local Arguments N.pow : simpl never.
Local Arguments Z.pow : simpl never.
Local Arguments N.leb : simpl never.
Local Arguments N.add : simpl never.
Local Arguments N.sub : simpl never.
Local Arguments N.eqb : simpl never.
Local Arguments le : simpl never.

(* induction over nested values *)
Fixpoint value_deep (P : value -> Prop) (H0 : P VNull) (H1 : forall b, P (VBool b)) (H2 : forall z, P (VInt z))
    (H3 : forall d, P (VReal d)) (H4 : forall s, P (VStr s)) (H5 : forall l, Forall P l -> P (VArr l))
    (H6 : forall l, Forall (fun p => P (fst p) /\ P (snd p)) l -> P (VMap l)) (v : value) : P v :=
  let rec := value_deep P H0 H1 H2 H3 H4 H5 H6 in
  match v with
  | VNull => H0 | VBool b => H1 b | VInt z => H2 z | VReal d => H3 d | VStr s => H4 s
  | VArr l => H5 l ((fix go l : Forall P l := match l with [] => Forall_nil _ | x :: t => Forall_cons _ (rec x) (go t) end) l)
  | VMap l => H6 l ((fix go l : Forall (fun p => P (fst p) /\ P (snd p)) l :=
                       match l with [] => Forall_nil _ | x :: t => Forall_cons _ (conj (rec (fst x)) (rec (snd x))) (go t) end) l)
  end.

Lemma take_app a b k : length a = k -> take k (a ++ b) = Ok (a, b).
Proof.
  intro H. unfold take. rewrite slice_start by exact H. rewrite skipn_app_exact by exact H. reflexivity.
Qed.

Lemma read_signed_le k v r : (v < 2 ^ (8 * N.of_nat k))%N ->
  read_signed k (le k v ++ r) = Ok (sx k v, r).
Proof.
  intro H. unfold read_signed. rewrite take_app by apply le_length. cbn [bind].
  rewrite le_value_le by exact H. reflexivity.
Qed.

Lemma sx_small k v : (v < 2 ^ (8 * N.of_nat k - 1))%N -> sx k v = Z.of_N v.
Proof. intro H. unfold sx. destruct (N.ltb_spec v (2 ^ (8 * N.of_nat k - 1))); [reflexivity|lia]. Qed.

Ltac deb := repeat match goal with
  | |- context [(?a <=? ?b)%N] => destruct (N.leb_spec a b); try lia
  | |- context [(?a =? ?b)%N] => destruct (N.eqb_spec a b); try lia
  | |- context [(?a <? ?b)%N] => destruct (N.ltb_spec a b); try lia
  end.

Lemma read_len_small base v r : (v <= 32)%N -> data_read_len base ((base + v)%N :: r) = Ok (Z.of_N v, r).
Proof.
  intro H. unfold data_read_len. deb. cbn [andb]. f_equal. f_equal. f_equal. lia.
Qed.
Lemma read_len_1 base v r : (v < 128)%N -> data_read_len base ((base + 33)%N :: le 1 v ++ r) = Ok (Z.of_N v, r).
Proof.
  intro H. unfold data_read_len. deb. cbn [andb]. rewrite read_signed_le by (change (2 ^ (8 * N.of_nat 1))%N with 256%N; lia).
  rewrite sx_small by (change (2 ^ (8 * N.of_nat 1 - 1))%N with 128%N; lia). reflexivity.
Qed.
Lemma read_len_2 base v r : (v < 32768)%N -> data_read_len base ((base + 34)%N :: le 2 v ++ r) = Ok (Z.of_N v, r).
Proof.
  intro H. unfold data_read_len. deb. cbn [andb]. rewrite read_signed_le by (change (2 ^ (8 * N.of_nat 2))%N with 65536%N; lia).
  rewrite sx_small by (change (2 ^ (8 * N.of_nat 2 - 1))%N with 32768%N; lia). reflexivity.
Qed.
Lemma read_len_wide base v r : (v < 2 ^ 31)%N -> data_read_len base (data_write_len32 base v ++ r) = Ok (Z.of_N v, r).
Proof.
  intro H. unfold data_write_len32, data_read_len. cbn [app]. deb. cbn [andb].
  rewrite read_signed_le by (change (2 ^ (8 * N.of_nat 4))%N with (2 ^ 32)%N; lia).
  rewrite sx_small by (change (2 ^ (8 * N.of_nat 4 - 1))%N with (2 ^ 31)%N; lia). reflexivity.
Qed.
Lemma read_len base v r : (v < 2 ^ 31)%N -> data_read_len base (data_write_len base v ++ r) = Ok (Z.of_N v, r).
Proof.
  intro H. unfold data_write_len.
  destruct (N.leb_spec v 31); [apply read_len_small; lia|].
  destruct (N.leb_spec v 127); [apply read_len_1; lia|].
  destruct (N.leb_spec v 32767); [apply read_len_2; lia|].
  apply read_len_wide, H.
Qed.

Lemma read_raw s r : (N.of_nat (length s) < 2 ^ 31)%N -> data_read_raw (data_write_raw s ++ r) = Ok (s, r).
Proof.
  intro H. unfold data_read_raw, data_write_raw. rewrite <- app_assoc, read_len by exact H. cbn [bind].
  destruct (Z.ltb_spec (Z.of_N (N.of_nat (length s))) 0); [lia|].
  apply take_app. lia.
Qed.

Lemma read_integer z r : (- 2 ^ 63 <= z < 2 ^ 63)%Z ->
  data_read_integer (data_write_integer (Z.to_N (z mod 2 ^ 64)) ++ r) = Ok (z, r).
Proof.
  intro H. set (v := Z.to_N (z mod 2 ^ 64)).
  assert (Hm : (0 <= z mod 2 ^ 64 < 2 ^ 64)%Z) by (apply Z.mod_pos_bound; lia).
  assert (E : (0 <= z /\ z = Z.of_N v \/ z < 0 /\ z = Z.of_N v - 2 ^ 64)%Z).
  { unfold v. rewrite Z2N.id by lia. destruct (Z.ltb_spec z 0).
    - right. split; [lia|]. rewrite <- (Z.mod_unique z (2 ^ 64) (-1) (z + 2 ^ 64)); lia.
    - left. split; [lia|]. rewrite Z.mod_small; lia. }
  assert (Hv : (v < 2 ^ 64)%N) by (unfold v; lia).
  clearbody v. unfold data_write_integer.
  destruct (N.leb_spec v 31).
  { cbn [app]. unfold data_read_integer, MN_INTV0. deb. cbn [andb]. f_equal. f_equal. lia. }
  destruct (N.leb_spec v 127).
  { cbn [app]. unfold data_read_integer. deb. cbn [andb].
    rewrite read_signed_le by (change (2 ^ (8 * N.of_nat 1))%N with 256%N; lia).
    rewrite sx_small by (change (2 ^ (8 * N.of_nat 1 - 1))%N with 128%N; lia). f_equal. f_equal. lia. }
  destruct (N.leb_spec v 32767).
  { cbn [app]. unfold data_read_integer. deb. cbn [andb].
    rewrite read_signed_le by (change (2 ^ (8 * N.of_nat 2))%N with 65536%N; lia).
    rewrite sx_small by (change (2 ^ (8 * N.of_nat 2 - 1))%N with 32768%N; lia). f_equal. f_equal. lia. }
  destruct (N.leb_spec v 2147483647).
  { cbn [app]. unfold data_read_integer. deb. cbn [andb].
    rewrite read_signed_le by (change (2 ^ (8 * N.of_nat 4))%N with (2 ^ 32)%N; lia).
    rewrite sx_small by (change (2 ^ (8 * N.of_nat 4 - 1))%N with (2 ^ 31)%N; lia). f_equal. f_equal. lia. }
  cbn [app]. unfold data_read_integer. deb. cbn [andb].
  rewrite read_signed_le by (change (2 ^ (8 * N.of_nat 8))%N with (2 ^ 64)%N; lia).
  f_equal. f_equal. unfold sx.
  change (2 ^ (8 * N.of_nat 8 - 1))%N with (2 ^ 63)%N. change (2 ^ (8 * Z.of_nat 8))%Z with (2 ^ 64)%Z.
  destruct (N.ltb_spec v (2 ^ 63)); lia.
Qed.

Lemma to_float_fits d : fits_float d = true -> (to_float d < 2 ^ 32)%N.
Proof.
  unfold fits_float, FLT_MIN, FLT_MAX. intro H. apply andb_true_iff in H. destruct H as [Ha Hb].
  apply N.leb_le in Ha, Hb. unfold to_float. change (2 ^ 29)%N with 536870912%N. change (2 ^ 28)%N with 268435456%N.
  change (2 ^ 23)%N with 8388608%N. change (2 ^ 32)%N with 4294967296%N.
  pose proof (N.div_mod d 536870912 ltac:(lia)). pose proof (N.mod_lt d 536870912 ltac:(lia)).
  set (q := (d / 536870912)%N) in *. set (m := (d mod 536870912)%N) in *. clearbody q m.
  destruct (_ || _); lia.
Qed.

Lemma of_to_float d : fits_float d = true -> (of_float (to_float d) = d <-> d mod 2 ^ 29 = 0)%N.
Proof.
  unfold fits_float, FLT_MIN, FLT_MAX. intro H. apply andb_true_iff in H. destruct H as [Ha Hb].
  apply N.leb_le in Ha, Hb. unfold to_float, of_float. change (2 ^ 29)%N with 536870912%N. change (2 ^ 28)%N with 268435456%N.
  change (2 ^ 23)%N with 8388608%N.
  pose proof (N.div_mod d 536870912 ltac:(lia)) as E. pose proof (N.mod_lt d 536870912 ltac:(lia)).
  set (q := (d / 536870912)%N) in *. set (m := (d mod 536870912)%N) in *. clearbody q m.
  destruct (N.ltb_spec 268435456 m); destruct (N.eqb_spec m 268435456); cbn [orb andb]; try (split; intros; lia).
Qed.

(* the real that is read back *)
Definition real_kept (d : N) : N := if fits_float d then of_float (to_float d) else d.
Lemma read_real d r : (d < 2 ^ 64)%N -> data_read_real (data_write_real d ++ r) = Ok (real_kept d, r).
Proof.
  intro H. unfold data_write_real, real_kept. destruct (fits_float d) eqn:F; cbn [app]; unfold data_read_real, MN_REAL32, MN_REAL64; deb.
  - rewrite take_app by apply le_length. cbn [bind]. rewrite le_value_le; [reflexivity|].
    change (2 ^ (8 * N.of_nat 4))%N with (2 ^ 32)%N. apply to_float_fits, F.
  - rewrite take_app by apply le_length. cbn [bind]. rewrite le_value_le; [reflexivity|exact H].
Qed.

(* what a value reads back to: the same with the reals that were kept *)
Fixpoint kept (v : value) : value :=
  match v with
  | VReal d => VReal (real_kept d)
  | VArr l => VArr (map kept l)
  | VMap l => VMap (map (fun p => (kept (fst p), kept (snd p))) l)
  | _ => v
  end.

Lemma real_kept_exact d : real_kept d = d <-> (fits_float d = true -> (d mod 2 ^ 29 = 0)%N).
Proof.
  unfold real_kept. destruct (fits_float d) eqn:F.
  - rewrite of_to_float by exact F. intuition.
  - intuition congruence.
Qed.

Lemma kept_exact v : kept v = v <-> exact_reals v.
Proof.
  induction v as [| | |d| |l IH|l IH] using value_deep; cbn [kept]; try (split; [constructor|reflexivity]).
  - split.
    + intro H. injection H as H. constructor. apply real_kept_exact, H.
    + intro H. inversion H; subst. f_equal. apply real_kept_exact; assumption.
  - split.
    + intro H. injection H as H. constructor. induction IH as [|x t Hx IH IH2]; [constructor|].
      cbn in H. injection H as Ha Hb. constructor; [apply Hx, Ha|apply IH2, Hb].
    + intro H. inversion H as [| | | | |l' Hl E|]; subst. f_equal. clear H.
      induction IH as [|x t Hx IH IH2]; [reflexivity|]. inversion Hl; subst. cbn. f_equal; [apply Hx; assumption|apply IH2; assumption].
  - split.
    + intro H. injection H as H. constructor. induction IH as [|[a b] t [Hx Hy] IH IH2]; [constructor|].
      cbn in H. injection H as Ha Hb Hc. constructor; [split; [apply Hx, Ha|apply Hy, Hb]|apply IH2, Hc].
    + intro H. inversion H as [| | | | | |l' Hl E]; subst. f_equal. clear H.
      induction IH as [|[a b] t [Hx Hy] IH IH2]; [reflexivity|]. inversion Hl as [|p q [Hp Hq] Ht]; subst. cbn. f_equal; [f_equal|apply IH2; exact Ht].
      * apply Hx, Hp.
      * apply Hy, Hq.
Qed.

(* the tag at the head of an encoding *)
Definition tag_of (l : list byte) : N := match l with t :: _ => t | [] => 0%N end.
Fixpoint depth (v : value) : nat :=
  match v with
  | VArr l => S (fold_right (fun v n => Nat.max (depth v) n) 0 l)
  | VMap l => S (fold_right (fun p n => Nat.max (Nat.max (depth (fst p)) (depth (snd p))) n) 0 l)
  | _ => 1
  end.
Lemma depth_pos v : 1 <= depth v.
Proof. destruct v; cbn; lia. Qed.

Lemma write_len_head base v r : exists t u, data_write_len base v ++ r = t :: u /\ (base <= t <= base + 35)%N.
Proof.
  unfold data_write_len. deb; cbn [app]; eexists; eexists; (split; [reflexivity|lia]).
Qed.
Lemma write_len32_head base v r : exists t u, data_write_len32 base v ++ r = t :: u /\ (base <= t <= base + 35)%N.
Proof. eexists; eexists; split; [reflexivity|]. cbn. lia. Qed.

Lemma write_int_head v r : exists t u, data_write_integer v ++ r = t :: u /\ (5 <= t <= 41)%N.
Proof.
  unfold data_write_integer, MN_INTV0. deb; cbn [app]; eexists; eexists; (split; [reflexivity|lia]).
Qed.
Lemma write_real_head v r : exists t u, data_write_real v ++ r = t :: u /\ (t = 3 \/ t = 4)%N.
Proof.
  unfold data_write_real, MN_REAL32, MN_REAL64. destruct (fits_float v); cbn [app]; eexists; eexists; (split; [reflexivity|tauto]).
Qed.

(* list_of and times over a concatenation *)
Lemma list_of_app {A B} (enc : A -> list byte) (out : A -> B) f : forall l r,
  Forall (fun a => forall r, f (enc a ++ r) = Ok (out a, r)) l ->
  list_of (length l) f (flat_map enc l ++ r) = Ok (map out l, r).
Proof.
  induction l as [|a l IH]; intros r H; cbn [flat_map length list_of map app]; [reflexivity|].
  inversion H as [|x y Ha Hl]; subst. rewrite <- app_assoc, Ha. cbn [bind]. rewrite IH by exact Hl. reflexivity.
Qed.
Lemma times_app {A} (enc : A -> list byte) f : forall l r,
  Forall (fun a => forall r, f (enc a ++ r) = Ok r) l ->
  times (length l) f (flat_map enc l ++ r) = Ok r.
Proof.
  induction l as [|a l IH]; intros r H; cbn [flat_map length times app]; [reflexivity|].
  inversion H as [|x y Ha Hl]; subst. rewrite <- app_assoc, Ha. cbn [bind]. apply IH, Hl.
Qed.

Lemma max_each {A} (f : A -> nat) l n : fold_right (fun a m => Nat.max (f a) m) 0 l <= n -> Forall (fun a => f a <= n) l.
Proof.
  induction l as [|a l IH]; cbn; intro H; constructor; [lia|apply IH; lia].
Qed.
Lemma max_each2 {A} (f g : A -> nat) l n : fold_right (fun a m => Nat.max (Nat.max (f a) (g a)) m) 0 l <= n -> Forall (fun a => f a <= n /\ g a <= n) l.
Proof.
  induction l as [|a l IH]; cbn; intro H; constructor; [lia|apply IH; lia].
Qed.

Ltac head_of H := destruct H as [? [? [-> ?]]].

(* reading whatever the encoder wrote; [wide] selects the encoder *)
Definition enc (wide : bool) := if wide then encode_wide else encode.

Lemma enc_arr w l : enc w (VArr l) =
  (if w then data_write_len32 else data_write_len) MN_ARRAYV0 (N.of_nat (length l)) ++ flat_map (enc w) l.
Proof. destruct w; reflexivity. Qed.
Lemma enc_map w l : enc w (VMap l) =
  (if w then data_write_len32 else data_write_len) MN_MAPV0 (N.of_nat (length l)) ++ flat_map (fun p => enc w (fst p) ++ enc w (snd p)) l.
Proof. destruct w; reflexivity. Qed.
Lemma any_len_head (w : bool) base v r : exists t u, (if w then data_write_len32 else data_write_len) base v ++ r = t :: u /\ (base <= t <= base + 35)%N.
Proof. destruct w; [apply write_len32_head|apply write_len_head]. Qed.
Lemma any_len_read (w : bool) base v r : (v < 2 ^ 31)%N ->
  data_read_len base ((if w then data_write_len32 else data_write_len) base v ++ r) = Ok (Z.of_N v, r).
Proof. destruct w; [apply read_len_wide|apply read_len]. Qed.
Lemma enc_simple w v : (forall l, v <> VArr l) -> (forall l, v <> VMap l) -> enc w v = encode v.
Proof. destruct w; [|reflexivity]. destruct v; intros Ha Hm; try reflexivity; [elim (Ha l)|elim (Hm l)]; reflexivity. Qed.

Ltac flags := unfold is_bool, is_int, is_real, is_array, is_map, is_string, MN_NULL, MN_TRUE, MN_FALSE, MN_REAL32, MN_REAL64 in *;
  deb; cbn [andb orb].

Theorem decode_enc w : forall v fuel r, value_ok v -> depth v <= fuel -> decode_at fuel (enc w v ++ r) = Ok (kept v, r).
Proof.
  induction v as [|b|z|d|s|l IH|l IH] using value_deep; intros fuel r Hok Hf;
    (destruct fuel as [|fuel]; [cbn in Hf; lia|]).
  - rewrite enc_simple by discriminate. reflexivity.
  - rewrite enc_simple by discriminate. destruct b; reflexivity.
  - rewrite enc_simple by discriminate. inversion Hok; subst. cbn [encode kept].
    assert (Hd := read_integer z r ltac:(assumption)).
    destruct (write_int_head (Z.to_N (z mod 2 ^ 64)) r) as [t [u [E Ht]]]. rewrite E in *. cbn [decode_at]. flags.
    all: rewrite Hd; reflexivity.
  - rewrite enc_simple by discriminate. inversion Hok; subst. cbn [encode kept].
    assert (Hd := read_real d r ltac:(assumption)).
    destruct (write_real_head d r) as [t [u [E Ht]]]. rewrite E in *. cbn [decode_at]. flags.
    all: rewrite Hd; reflexivity.
  - rewrite enc_simple by discriminate. inversion Hok; subst. cbn [encode kept].
    assert (Hd := read_raw s r ltac:(assumption)). unfold data_write_raw in Hd |- *. rewrite <- app_assoc in *.
    destruct (write_len_head MN_STRINGV0 (N.of_nat (length s)) (s ++ r)) as [t [u [E Ht]]]. rewrite E in *. cbn [decode_at].
    unfold MN_STRINGV0 in Ht. flags.
    rewrite Hd. reflexivity.
  - rewrite enc_arr. inversion Hok as [| | | | |l' Hl Hall E|]; subst. rewrite <- app_assoc.
    assert (Hd := any_len_read w MN_ARRAYV0 (N.of_nat (length l)) (flat_map (enc w) l ++ r) Hl).
    destruct (any_len_head w MN_ARRAYV0 (N.of_nat (length l)) (flat_map (enc w) l ++ r)) as [t [u [E Ht]]]. rewrite E in *. cbn [decode_at].
    unfold MN_ARRAYV0 in Ht. flags. rewrite Hd. cbn [bind].
    replace (Z.to_nat (Z.of_N (N.of_nat (length l)))) with (length l) by lia.
    rewrite (list_of_app (enc w) kept); [reflexivity|].
    cbn [depth] in Hf. assert (Hm := max_each depth l fuel ltac:(lia)).
    rewrite Forall_forall in *. intros x Hx r'. apply IH; auto.
  - rewrite enc_map. inversion Hok as [| | | | | |l' Hl Hall E]; subst. rewrite <- app_assoc.
    set (fl := flat_map _ l).
    assert (Hd := any_len_read w MN_MAPV0 (N.of_nat (length l)) (fl ++ r) Hl).
    destruct (any_len_head w MN_MAPV0 (N.of_nat (length l)) (fl ++ r)) as [t [u [E Ht]]]. rewrite E in *. cbn [decode_at].
    unfold MN_MAPV0 in Ht. flags. rewrite Hd. cbn [bind].
    replace (Z.to_nat (Z.of_N (N.of_nat (length l)))) with (length l) by lia. subst fl.
    rewrite (list_of_app (fun p => enc w (fst p) ++ enc w (snd p)) (fun p => (kept (fst p), kept (snd p)))); [reflexivity|].
    cbn [depth] in Hf. assert (Hm := max_each2 (fun p => depth (fst p)) (fun p => depth (snd p)) l fuel ltac:(lia)).
    rewrite Forall_forall in *. intros x Hx r'. destruct (IH x Hx) as [I1 I2]. destruct (Hall x Hx). destruct (Hm x Hx).
    rewrite <- app_assoc, I1 by assumption. cbn [bind]. rewrite I2 by assumption. reflexivity.
Qed.

Theorem skip_enc w : forall v fuel r, value_ok v -> depth v <= fuel -> data_skip_at fuel (enc w v ++ r) = Ok r.
Proof.
  induction v as [|b|z|d|s|l IH|l IH] using value_deep; intros fuel r Hok Hf;
    (destruct fuel as [|fuel]; [cbn in Hf; lia|]).
  - rewrite enc_simple by discriminate. reflexivity.
  - rewrite enc_simple by discriminate. destruct b; reflexivity.
  - rewrite enc_simple by discriminate. inversion Hok; subst. cbn [encode kept].
    assert (Hd := read_integer z r ltac:(assumption)).
    destruct (write_int_head (Z.to_N (z mod 2 ^ 64)) r) as [t [u [E Ht]]]. rewrite E in *. cbn [data_skip_at]. flags.
    all: rewrite Hd; reflexivity.
  - rewrite enc_simple by discriminate. inversion Hok; subst. cbn [encode kept].
    assert (Hd := read_real d r ltac:(assumption)).
    destruct (write_real_head d r) as [t [u [E Ht]]]. rewrite E in *. cbn [data_skip_at]. flags.
    all: rewrite Hd; reflexivity.
  - rewrite enc_simple by discriminate. inversion Hok; subst. cbn [encode kept].
    assert (Hd := read_raw s r ltac:(assumption)). unfold data_write_raw in Hd |- *. rewrite <- app_assoc in *.
    destruct (write_len_head MN_STRINGV0 (N.of_nat (length s)) (s ++ r)) as [t [u [E Ht]]]. rewrite E in *. cbn [data_skip_at].
    unfold MN_STRINGV0 in Ht. flags.
    rewrite Hd. reflexivity.
  - rewrite enc_arr. inversion Hok as [| | | | |l' Hl Hall E|]; subst. rewrite <- app_assoc.
    assert (Hd := any_len_read w MN_ARRAYV0 (N.of_nat (length l)) (flat_map (enc w) l ++ r) Hl).
    destruct (any_len_head w MN_ARRAYV0 (N.of_nat (length l)) (flat_map (enc w) l ++ r)) as [t [u [E Ht]]]. rewrite E in *. cbn [data_skip_at].
    unfold MN_ARRAYV0 in Ht. flags. rewrite Hd. cbn [bind].
    replace (Z.to_nat (Z.of_N (N.of_nat (length l)))) with (length l) by lia.
    apply times_app.
    cbn [depth] in Hf. assert (Hm := max_each depth l fuel ltac:(lia)).
    rewrite Forall_forall in *. intros x Hx r'. apply IH; auto.
  - rewrite enc_map. inversion Hok as [| | | | | |l' Hl Hall E]; subst. rewrite <- app_assoc.
    set (fl := flat_map _ l).
    assert (Hd := any_len_read w MN_MAPV0 (N.of_nat (length l)) (fl ++ r) Hl).
    destruct (any_len_head w MN_MAPV0 (N.of_nat (length l)) (fl ++ r)) as [t [u [E Ht]]]. rewrite E in *. cbn [data_skip_at].
    unfold MN_MAPV0 in Ht. flags. rewrite Hd. cbn [bind].
    replace (Z.to_nat (Z.of_N (N.of_nat (length l)))) with (length l) by lia. subst fl.
    apply times_app.
    cbn [depth] in Hf. assert (Hm := max_each2 (fun p => depth (fst p)) (fun p => depth (snd p)) l fuel ltac:(lia)).
    rewrite Forall_forall in *. intros x Hx r'. destruct (IH x Hx) as [I1 I2]. destruct (Hall x Hx). destruct (Hm x Hx).
    rewrite <- app_assoc, I1 by assumption. cbn [bind]. apply I2; assumption.
Qed.

(* nesting is bounded by the bytes *)
Lemma enc_some w v : 1 <= length (enc w v).
Proof.
  destruct v as [|b|z|d|s|l|l].
  1-5: rewrite enc_simple by discriminate; cbn [encode].
  - cbn; lia.
  - cbn; lia.
  - destruct (write_int_head (Z.to_N (z mod 2 ^ 64)) []) as [t [u [E _]]]. rewrite app_nil_r in E. rewrite E. cbn; lia.
  - destruct (write_real_head d []) as [t [u [E _]]]. rewrite app_nil_r in E. rewrite E. cbn; lia.
  - unfold data_write_raw. destruct (write_len_head MN_STRINGV0 (N.of_nat (length s)) s) as [t [u [E _]]]. rewrite E. cbn; lia.
  - rewrite enc_arr. destruct (any_len_head w MN_ARRAYV0 (N.of_nat (length l)) (flat_map (enc w) l)) as [t [u [E _]]]. rewrite E. cbn; lia.
  - rewrite enc_map. set (fl := flat_map _ l). destruct (any_len_head w MN_MAPV0 (N.of_nat (length l)) fl) as [t [u [E _]]]. rewrite E. cbn; lia.
Qed.

Lemma any_len_some (w : bool) base v : 1 <= length ((if w then data_write_len32 else data_write_len) base v).
Proof.
  destruct (any_len_head w base v []) as [t [u [E _]]]. rewrite app_nil_r in E. rewrite E. cbn; lia.
Qed.

Lemma depth_enc w v : depth v <= length (enc w v).
Proof.
  induction v as [|b|z|d|s|l IH|l IH] using value_deep; try (cbn [depth]; apply enc_some).
  - rewrite enc_arr, app_length. cbn [depth].
    pose proof (any_len_some w MN_ARRAYV0 (N.of_nat (length l))).
    enough (fold_right (fun v n => Nat.max (depth v) n) 0 l <= length (flat_map (enc w) l)) by lia.
    clear H. induction IH as [|x t Hx IH IH2]; cbn [fold_right flat_map length]; [lia|]. rewrite app_length. lia.
  - rewrite enc_map, app_length. cbn [depth].
    pose proof (any_len_some w MN_MAPV0 (N.of_nat (length l))).
    match goal with |- S ?a <= _ + ?b => enough (a <= b) by lia end.
    clear H. induction IH as [|x t [Hx Hy] IH IH2]; cbn [fold_right flat_map length]; [lia|]. rewrite !app_length. lia.
Qed.

(* statements *)
Lemma decode_exact w v r : value_ok v -> exact_reals v -> decode (enc w v ++ r) = Ok (v, r).
Proof.
  intros H He. unfold decode. rewrite decode_enc; [f_equal; f_equal; apply kept_exact, He|exact H|].
  rewrite app_length. pose proof (depth_enc w v). lia.
Qed.
Lemma decode_same v r : value_ok v -> exact_reals v -> decode (encode v ++ r) = Ok (v, r).
Proof. exact (decode_exact false v r). Qed.
Lemma decode_same_wide v r : value_ok v -> exact_reals v -> decode (encode_wide v ++ r) = Ok (v, r).
Proof. exact (decode_exact true v r). Qed.
Lemma skip_exact w v r : value_ok v -> data_skip (enc w v ++ r) = Ok r.
Proof.
  intro H. unfold data_skip. apply skip_enc; [exact H|]. rewrite app_length. pose proof (depth_enc w v). lia.
Qed.
Lemma skip_same v r : value_ok v -> data_skip (encode v ++ r) = Ok r.
Proof. exact (skip_exact false v r). Qed.
Lemma skip_same_wide v r : value_ok v -> data_skip (encode_wide v ++ r) = Ok r.
Proof. exact (skip_exact true v r). Qed.

(* the space reserved (encode.h) is the space written *)
Lemma write_len_size base v : (v < 2 ^ 31)%N -> N.of_nat (length (data_write_len base v)) = data_size_of v.
Proof.
  intro H. unfold data_write_len, data_size_of. change (2 ^ 31)%N with 2147483648%N in H.
  deb; cbn [length]; rewrite ?le_length; reflexivity.
Qed.
Lemma write_integer_size v : N.of_nat (length (data_write_integer v)) = data_size_of v.
Proof. unfold data_write_integer, data_size_of. deb; cbn [length]; rewrite ?le_length; reflexivity. Qed.
Lemma write_raw_size s : (N.of_nat (length s) < 2 ^ 31)%N ->
  N.of_nat (length (data_write_raw s)) = (data_size_of (N.of_nat (length s)) + N.of_nat (length s))%N.
Proof. intro H. unfold data_write_raw. rewrite app_length, Nat2N.inj_add, write_len_size by exact H. reflexivity. Qed.
Lemma write_real_size d : N.of_nat (length (data_write_real d)) = data_size_real d.
Proof. unfold data_write_real, data_size_real. destruct (fits_float d); cbn [length]; rewrite le_length; reflexivity. Qed.

(* same_bytes *)
Lemma same_bytes_eq a : forall b, same_bytes a b = true <-> a = b.
Proof.
  induction a as [|x a IH]; destruct b as [|y b]; cbn; split; intro H; try discriminate; try reflexivity.
  - apply andb_true_iff in H. destruct H as [Hx H]. apply N.eqb_eq in Hx. apply IH in H. congruence.
  - injection H as -> ->. rewrite N.eqb_refl. apply IH. reflexivity.
Qed.
Lemma same_bytes_refl a : same_bytes a a = true.
Proof. apply same_bytes_eq. reflexivity. Qed.
Lemma same_bytes_neq a b : same_bytes a b = false <-> a <> b.
Proof.
  rewrite <- same_bytes_eq. destruct (same_bytes a b); intuition congruence.
Qed.
