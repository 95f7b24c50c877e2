(* Random numbers: lemmas. *)
From Coq Require Import NArith ZArith Arith List Bool Lia.
Import ListNotations.
From Verif Require Import Model.Base Model.Crc Model.Uuid Model.Codec Model.Random Spec.Random Proof.CodecL Proof.RandomP.
Local Open Scope N_scope.

Definition pair_of (s : random) : N * N := (rn_a s, rn_b s).

Lemma pair_inj s t : pair_of s = pair_of t -> s = t.
Proof. destruct s, t. unfold pair_of; cbn. congruence. Qed.
Lemma pair_zero s : s <> zero -> pair_of s <> v0.
Proof. intros H E. apply H. apply pair_inj. exact E. Qed.
Lemma good_fits s : good s <-> fits (pair_of s).
Proof. reflexivity. Qed.
Lemma pair_step s : pair_of (snd (random_generate s)) = step (pair_of s).
Proof.
  destruct s as [a b]. unfold random_generate, random_xorshift128plus, pair_of, step; cbn [rn_a rn_b snd]. cbv zeta. cbn [snd rn_a rn_b].
  rewrite N.land_ones. reflexivity.
Qed.
Lemma pair_after k s : pair_of (after k s) = N.iter k step (pair_of s).
Proof.
  unfold after. induction k as [|k IH] using N.peano_ind; [reflexivity|]. rewrite !N.iter_succ, pair_step, IH. reflexivity.
Qed.
Lemma after_add i j s : after (i + j) s = after i (after j s).
Proof. unfold after. apply N.iter_add. Qed.
Lemma after_1 s : after 1 s = snd (random_generate s).
Proof. reflexivity. Qed.
Lemma good_after k s : good s -> good (after k s).
Proof. rewrite !good_fits, pair_after. apply fits_iter. Qed.

(* one number *)
Lemma bit_of_word a i : word a -> bit_of a i = N.testbit a i.
Proof.
  intros W. unfold bit_of. destruct (N.ltb_spec i 64); auto. symmetry. apply (proj1 (below_bits 64 a) W). auto.
Qed.
Lemma generate_ok s : good s -> exists c, word c /\ next_word (rn_a s) (rn_b s) c /\
  random_generate s = ((rn_b s + c) mod 18446744073709551616, mk_random (rn_b s) c).
Proof.
  intros G. pose proof (pair_step s) as P. pose proof (fits_step (pair_of s) G) as F. rewrite <- P in F.
  destruct s as [a b]. destruct G as [A B]; cbn [rn_a rn_b] in *.
  unfold random_generate, random_xorshift128plus in *; cbn [rn_a rn_b] in *. cbv zeta in *. cbn [snd fst] in *.
  set (a' := N.lxor a (w64 (N.shiftl a 23))) in *. set (c := N.lxor _ (N.shiftr b 26)) in *.
  exists c. destruct F as [_ F]; cbn in F. split; [exact F|]. split.
  - assert (MA : forall i, N.testbit a' i = (i <? 64) && mixed a i).
    { intros i. unfold a'. rewrite N.lxor_spec. unfold w64, two64. change 18446744073709551616 with (2 ^ 64).
      unfold mixed. rewrite !bit_of_word by auto. destruct (N.ltb_spec i 64) as [L|L]; cbn [andb].
      - rewrite N.mod_pow2_bits_low by auto. f_equal. destruct (N.leb_spec 23 i).
        + rewrite N.shiftl_spec_high by lia. reflexivity.
        + rewrite N.shiftl_spec_low by lia. reflexivity.
      - rewrite N.mod_pow2_bits_high by auto. rewrite (proj1 (below_bits 64 a) A) by auto. reflexivity. }
    intros i. unfold c, next_bit. rewrite !N.lxor_spec, !N.shiftr_spec, !MA, !bit_of_word by (auto; lia).
    destruct (N.ltb_spec i 64) as [L|L]; cbn [andb].
    + destruct (i + 17 <? 64), (mixed a i), (N.testbit b i), (mixed a (i + 17)), (N.testbit b (i + 26)); reflexivity.
    + replace (i + 17 <? 64) with false by (symmetry; apply N.ltb_ge; lia).
      rewrite !(proj1 (below_bits 64 b) B) by lia. reflexivity.
  - f_equal. unfold add64, two64. f_equal. lia.
Qed.

(* the period *)
Lemma states_period : states = period.
Proof. reflexivity. Qed.
Lemma whole_period s : good s -> after states s = s.
Proof. intros G. apply pair_inj. rewrite pair_after. exact (period_step (pair_of s) G). Qed.
Lemma never_zero s k : good s -> s <> zero -> after k s <> zero.
Proof.
  intros G Z E. apply (iter_nonzero (pair_of s) k G (pair_zero s Z)). rewrite <- pair_after, E. reflexivity.
Qed.
Lemma all_different s i j : good s -> s <> zero -> i < j -> j < states -> after i s <> after j s.
Proof.
  intros G Z I J E. apply (distinct (pair_of s) i j G (pair_zero s Z) I).
  - rewrite <- states_period. exact J.
  - rewrite <- !pair_after, E. reflexivity.
Qed.
Lemma all_met s t : good s -> s <> zero -> good t -> t <> zero -> exists k, k < states /\ after k s = t.
Proof.
  intros G Z H T. destruct (visits (pair_of s) (pair_of t) G (pair_zero s Z) H (pair_zero t T)) as (k & K & E).
  exists k. split; [rewrite states_period; exact K|]. apply pair_inj. rewrite pair_after. exact E.
Qed.
Lemma previous s t : good s -> good t -> snd (random_generate s) = snd (random_generate t) -> s = t.
Proof.
  intros G H E. apply pair_inj. apply step_back; auto. rewrite <- !pair_step, E. reflexivity.
Qed.
(* every pair of a number and a word of the state but one is met once in a period *)
Lemma every_number s v w : good s -> s <> zero -> word v -> word w -> (v <> 0 \/ w <> 0) ->
  exists k, k < states /\ number k s = v /\ rn_a (after (k + 1) s) = w.
Proof.
  intros G Z V W N0. set (c := (v + 18446744073709551616 - w) mod 18446744073709551616).
  assert (C : word c) by (apply N.mod_lt; discriminate). unfold word in *.
  assert (S : (w + c) mod 18446744073709551616 = v).
  { unfold c. rewrite N.add_mod_idemp_r by discriminate. replace (w + (v + 18446744073709551616 - w)) with (v + 1 * 18446744073709551616) by lia.
    rewrite N.mod_add by discriminate. apply N.mod_small. auto. }
  assert (T : mk_random w c <> zero).
  { intros E. unfold zero in E. injection E as E1 E2. subst w. rewrite E2 in S. cbn in S. destruct N0; congruence. }
  assert (GT : good (mk_random w c)) by (split; auto).
  destruct (all_met (snd (random_generate s)) (mk_random w c)) as (k & K & E); auto.
  - rewrite <- after_1. apply good_after. auto.
  - rewrite <- after_1. apply never_zero; auto.
  - exists k. split; auto. rewrite <- after_1, <- after_add in E. rewrite E. split; auto.
    unfold number. rewrite N.add_comm, after_add, after_1 in E.
    destruct (generate_ok (after k s) (good_after k s G)) as (c' & C' & _ & R). rewrite R in *. cbn [fst snd] in *.
    injection E as E1 E2. subst c'. rewrite E1. exact S.
Qed.

(* keys *)
Lemma isalnum_ok b : isalnum b = is_letter b.
Proof.
  destruct (N.lt_ge_cases b 128) as [L|L].
  - assert (A : forallb (fun n => Bool.eqb (isalnum (N.of_nat n)) (is_letter (N.of_nat n))) (seq 0 128) = true) by (vm_compute; reflexivity).
    rewrite forallb_forall in A. specialize (A (N.to_nat b) ltac:(apply in_seq; lia)). rewrite N2Nat.id in A. apply eqb_prop in A. exact A.
  - transitivity false.
    + unfold isalnum. destruct (N.leb_spec b 57), (N.leb_spec b 90), (N.leb_spec b 122); lia.
    + symmetry. apply Bool.not_true_is_false. intros H. apply existsb_exists in H as (x & H & E). apply N.eqb_eq in E. subst x.
      assert (A : forallb (fun x => x <? 128) letters = true) by (vm_compute; reflexivity). rewrite forallb_forall in A.
      apply A in H. apply N.ltb_lt in H. lia.
Qed.
Lemma octets_ok v : pack [(8%nat, v)] = octets v.
Proof.
  cbn [pack le octets map app]. rewrite !N.shiftr_div_pow2. rewrite !N.div_div by discriminate. cbn [N.mul]. 
  replace (2 ^ 0) with 1 by reflexivity. rewrite N.div_1_r. reflexivity.
Qed.
Lemma filter_ok l : filter isalnum l = filter is_letter l.
Proof. apply filter_ext. intros. apply isalnum_ok. Qed.
Lemma alnum_bytes_ok l : forall data size, (length data < size)%nat ->
  alnum_bytes l data size =
    if (length (data ++ filter is_letter l) <? size)%nat then (data ++ filter is_letter l, false)
    else (firstn size (data ++ filter is_letter l), true).
Proof.
  induction l as [|b l IH]; intros data size H; cbn [alnum_bytes filter].
  - rewrite app_nil_r. destruct (Nat.ltb_spec (length data) size); [reflexivity|lia].
  - rewrite isalnum_ok. destruct (is_letter b); auto. cbv zeta.
    destruct (Nat.eqb_spec (length (data ++ [b])) size) as [E|E].
    + replace (data ++ b :: filter is_letter l) with ((data ++ [b]) ++ filter is_letter l) by (rewrite <- app_assoc; reflexivity).
      destruct (Nat.ltb_spec (length ((data ++ [b]) ++ filter is_letter l)) size) as [L|L]; [rewrite app_length in L; lia|].
      rewrite firstn_app, E, Nat.sub_diag, firstn_all2 by lia. cbn. rewrite app_nil_r. reflexivity.
    + rewrite IH by (rewrite app_length in *; cbn in *; lia). rewrite <- app_assoc. reflexivity.
Qed.
Lemma alnum_loop_ok fuel : forall s data size, (length data < size)%nat ->
  match alnum_loop fuel s data size with
  | Ok (key, t) => exists n, (n <= fuel)%nat /\ t = after (N.of_nat n) s /\ length key = size /\
      key = firstn size (data ++ filter is_letter (drawn n s))
  | Err => (length (data ++ filter is_letter (drawn fuel s)) < size)%nat
  | UB => False
  end.
Proof.
  induction fuel as [|fuel IH]; intros s data size H; cbn [alnum_loop drawn].
  - rewrite app_nil_r. auto.
  - rewrite (surjective_pairing (random_generate s)). change (fst (random_generate s)) with (number 0 s).
    change (snd (random_generate s)) with (after 1 s). cbv beta iota. rewrite octets_ok, alnum_bytes_ok by auto.
    destruct (Nat.ltb_spec (length (data ++ filter is_letter (octets (number 0 s)))) size) as [L|L]; cbv beta iota.
    + specialize (IH (after 1 s) _ size L). rewrite filter_app, app_assoc. destruct alnum_loop as [[key t]| |]; auto.
      destruct IH as (n & A & B & C & D). exists (S n). split; [lia|]. split.
      { rewrite B, <- after_add. f_equal. lia. }
      split; auto. cbn [drawn]. rewrite filter_app, app_assoc. exact D.
    + exists 1%nat. split; [lia|]. split; [reflexivity|]. cbn [drawn]. rewrite app_nil_r.
      split; auto. rewrite firstn_length. lia.
Qed.
Lemma drawn_add m : forall n s, drawn (m + n) s = drawn m s ++ drawn n (after (N.of_nat m) s).
Proof.
  induction m as [|m IH]; intros n s; cbn [Nat.add drawn]; [reflexivity|]. rewrite IH, <- app_assoc. do 3 f_equal.
  rewrite <- after_add. f_equal. lia.
Qed.
Lemma drawn_letters s : good s -> s <> zero -> exists n, filter is_letter (drawn n s) <> [].
Proof.
  intros G Z. destruct (every_number s 48 0) as (k & K & E & _); auto; [reflexivity|reflexivity|left; discriminate|].
  exists (N.to_nat k + 1)%nat. rewrite drawn_add, filter_app. rewrite N2Nat.id. cbn [drawn].
  change (number 0 (after k s)) with (number k s). rewrite E. change (filter is_letter (octets 48 ++ [])) with [48].
  intros X. apply app_eq_nil in X as [_ X]. discriminate.
Qed.
Lemma drawn_enough size : forall s, good s -> s <> zero -> exists n, (size <= length (filter is_letter (drawn n s)))%nat.
Proof.
  induction size as [|size IH]; intros s G Z; [exists O; lia|].
  destruct (drawn_letters s G Z) as [m M]. destruct (IH (after (N.of_nat m) s)) as [n N]; auto using good_after, never_zero.
  exists (m + n)%nat. rewrite drawn_add, filter_app, app_length. destruct (filter is_letter (drawn m s)); [contradiction|]. cbn. lia.
Qed.
Lemma drawn_mono m n s : (m <= n)%nat -> (length (filter is_letter (drawn m s)) <= length (filter is_letter (drawn n s)))%nat.
Proof. intros L. replace n with (m + (n - m))%nat by lia. rewrite drawn_add, filter_app, app_length. lia. Qed.
Lemma key_ends s size : good s -> s <> zero -> (0 < size)%nat ->
  exists key t fuel, length key = size /\ Forall (fun b => In b letters) key /\
    (exists n, key = firstn size (filter is_letter (drawn n s)) /\ t = after (N.of_nat n) s) /\
    forall more, (fuel <= more)%nat -> random_generate_alnum more s size = Ok (key, t).
Proof.
  intros G Z S. destruct (drawn_enough size s G Z) as [fuel F].
  assert (R : forall f, (fuel <= f)%nat -> exists key t, random_generate_alnum f s size = Ok (key, t)).
  { intros f L. unfold random_generate_alnum. pose proof (alnum_loop_ok f s [] size S) as H. cbn [app] in H.
    destruct alnum_loop as [[key t]| |]; [eauto| |contradiction]. pose proof (drawn_mono fuel f s L). lia. }
  assert (More : forall f s data x, alnum_loop f s data size = Ok x -> forall g, (f <= g)%nat -> alnum_loop g s data size = Ok x).
  { clear. induction f as [|f IH]; intros s data x H g L; [discriminate|]. destruct g as [|g]; [lia|]. cbn [alnum_loop] in *.
    destruct (random_generate s) as [v s']. destruct (alnum_bytes _ data size) as [d full]. destruct full; auto. apply (IH _ _ _ H). lia. }
  destruct (R fuel (le_n _)) as (key & t & E). exists key, t, fuel.
  pose proof (alnum_loop_ok fuel s [] size S) as H. unfold random_generate_alnum in E. rewrite E in H. cbn [app] in H.
  destruct H as (n & A & B & C & D). split; auto. split.
  { rewrite D. apply Forall_forall. intros b Hb. assert (Hb2 : In b (filter is_letter (drawn n s))).
    { rewrite <- (firstn_skipn size). apply in_or_app. auto. }
    apply filter_In in Hb2 as [_ Hb2]. apply existsb_exists in Hb2 as (x & X & Y). apply N.eqb_eq in Y. subst. auto. }
  split; [eauto|]. intros more L. exact (More _ _ _ _ E more L).
Qed.

(* the zero state *)
Lemma zero_stays fuel size : forall data, (length data < size)%nat -> alnum_loop fuel zero data size = Err.
Proof.
  induction fuel as [|fuel IH]; intros data H; cbn [alnum_loop]; auto.
  change (random_generate zero) with (0, zero). cbv beta iota. rewrite octets_ok, alnum_bytes_ok by auto.
  change (filter is_letter (octets 0)) with (@nil N). rewrite app_nil_r. destruct (Nat.ltb_spec (length data) size); [auto|lia].
Qed.
Lemma zero_secrets fuel : storage_secrets fuel zero = Err.
Proof.
  unfold storage_secrets. change (uuid_generate zero) with (mk_uuid 0 0, zero). cbv beta iota. unfold random_generate_alnum.
  rewrite zero_stays; [reflexivity|]. cbn. lia.
Qed.
Lemma zero_seed pid uid sec nsec r1 r2 : word r1 -> word r2 ->
  exists d1 d2, word d1 /\ word d2 /\ random_open (d1, d2) pid uid sec nsec r1 r2 = zero.
Proof.
  intros A B. unfold random_open; cbv zeta; cbn [fst snd]. set (seed := w64 _).
  assert (S : word seed) by (apply N.mod_lt; discriminate).
  exists (N.lxor seed r1), (N.lxor seed r2). split; [apply (below_lxor 64); auto|]. split; [apply (below_lxor 64); auto|].
  rewrite !N.lxor_nilpotent. reflexivity.
Qed.

(* what a uuid tells *)
Definition guess (u : uuid) (x : N) : random := mk_random x ((u_b u + (18446744073709551616 - x)) mod 18446744073709551616).
Lemma sum_back a b v : word a -> word b -> v = (a + b) mod 18446744073709551616 -> b = (v + (18446744073709551616 - a)) mod 18446744073709551616.
Proof.
  unfold word. intros A B ->. rewrite N.add_mod_idemp_l by discriminate.
  replace (a + b + (18446744073709551616 - a)) with (b + 1 * 18446744073709551616) by lia. rewrite N.mod_add by discriminate.
  symmetry. apply N.mod_small. auto.
Qed.
Lemma uuid_tells s u t : good s -> uuid_generate s = (u, t) -> exists x, word x /\ t = guess u x /\
  next_word ((u_a u + (18446744073709551616 - x)) mod 18446744073709551616) x (rn_b t).
Proof.
  intros G E. unfold uuid_generate in E. destruct (generate_ok s G) as (c & C & N1 & R). rewrite R in E.
  assert (G2 : good (mk_random (rn_b s) c)) by (destruct G; split; auto).
  destruct (generate_ok _ G2) as (d & D & N2 & R2). rewrite R2 in E. cbn [rn_a rn_b] in *. injection E as <- <-.
  exists c. split; auto. unfold guess; cbn [u_a u_b rn_b]. split.
  - f_equal. apply sum_back; auto.
  - replace ((_ + (18446744073709551616 - c)) mod _) with (rn_b s); auto. apply sum_back; auto; [apply G|]. f_equal. lia.
Qed.
Lemma key_guess : exists f : nat -> uuid -> N -> res (list byte * random), forall fuel s u key t, good s ->
  storage_secrets fuel s = Ok (u, key, t) -> exists x, word x /\ f fuel u x = Ok (key, t).
Proof.
  exists (fun fuel u x => random_generate_alnum fuel (guess u x) 32). intros fuel s u key t G E. unfold storage_secrets in E.
  destruct (uuid_generate s) as [v s'] eqn:U. destruct (uuid_tells s v s' G U) as (x & X & T & _).
  exists x. destruct (random_generate_alnum fuel s' 32) as [[k t']| |] eqn:K; try discriminate. injection E as <- <- <-. subst s'. auto.
Qed.
Lemma once s i j : good s -> s <> zero -> i < states -> j < states -> after (i + 1) s = after (j + 1) s -> i = j.
Proof.
  intros G Z I J E. rewrite !(N.add_comm _ 1), !after_add, !after_1 in E. apply previous in E; auto using good_after.
  destruct (N.lt_trichotomy i j) as [L|[L|L]]; auto.
  - destruct (all_different s i j G Z L J E).
  - symmetry in E. destruct (all_different s j i G Z L I E).
Qed.
Lemma number_once s i j : good s -> s <> zero -> i < states -> j < states ->
  number i s = number j s -> rn_a (after (i + 1) s) = rn_a (after (j + 1) s) -> i = j.
Proof.
  intros G Z I J E F. apply (once s i j); auto. unfold number in E. rewrite !(N.add_comm _ 1), !after_add, !after_1 in *.
  destruct (generate_ok _ (good_after i s G)) as (c & C & _ & R). destruct (generate_ok _ (good_after j s G)) as (d & D & _ & S).
  rewrite R, S in *. cbn [fst snd rn_a] in *. pose proof (good_after i s G) as [_ B]. rewrite <- F in *. f_equal.
  rewrite (sum_back _ c _ B C eq_refl), (sum_back _ d _ B D eq_refl), E. reflexivity.
Qed.
Lemma equal_share s v w : good s -> s <> zero -> word v -> word w -> (v <> 0 \/ w <> 0) ->
  exists k, (k < states /\ number k s = v /\ rn_a (after (k + 1) s) = w) /\
    forall i, i < states -> number i s = v -> rn_a (after (i + 1) s) = w -> i = k.
Proof.
  intros G Z V W H. destruct (every_number s v w G Z V W H) as (k & K & A & B). exists k. split; auto.
  intros i I C D. apply (number_once s); auto; congruence.
Qed.
Lemma period_all s : good s -> s <> zero ->
  after states s = s /\ (forall k, good (after k s) /\ after k s <> zero) /\
  (forall i j, i < j -> j < states -> after i s <> after j s) /\
  (forall t, good t -> t <> zero -> exists k, k < states /\ after k s = t).
Proof.
  intros G Z. split; [apply whole_period; auto|]. split; [intros k; split; [apply good_after; auto|apply never_zero; auto]|].
  split; [intros i j; apply all_different; auto|intros t; apply all_met; auto].
Qed.
Lemma made s : fst (uuid_generate s) = mk_uuid (number 0 s) (number 1 s) /\ snd (uuid_generate s) = after 2 s /\
  fst (aes_iv s) = octets (number 0 s) ++ octets (number 1 s) /\ snd (aes_iv s) = after 2 s.
Proof.
  unfold uuid_generate, aes_iv, number. change (after 0 s) with s. rewrite after_1. change 2 with (1 + 1). rewrite after_add, !after_1.
  rewrite (surjective_pairing (random_generate s)). cbn [fst snd].
  rewrite (surjective_pairing (random_generate (snd (random_generate s)))). cbn [fst snd].
  split; [reflexivity|]. split; [reflexivity|]. split; [|reflexivity]. rewrite <- !octets_ok. cbn [pack]. rewrite !app_nil_r. reflexivity.
Qed.
Lemma open_good d1 d2 pid uid sec nsec r1 r2 : word d1 -> word d2 -> word r1 -> word r2 ->
  good (random_open (d1, d2) pid uid sec nsec r1 r2).
Proof.
  intros A B C D. unfold random_open; cbv zeta; cbn [fst snd]. set (seed := w64 _).
  assert (S : word seed) by (apply N.mod_lt; discriminate).
  split; cbn [rn_a rn_b]; repeat apply (below_lxor 64); auto.
Qed.
(* for every answer of the others exactly one answer of the device gives a given seed *)
Lemma open_onto s pid uid sec nsec r1 r2 : good s -> word r1 -> word r2 ->
  exists d, (word (fst d) /\ word (snd d) /\ random_open d pid uid sec nsec r1 r2 = s) /\
    forall e, random_open e pid uid sec nsec r1 r2 = s -> e = d.
Proof.
  intros [A B] C D. unfold random_open; cbv zeta. set (seed := w64 _).
  assert (S : word seed) by (apply N.mod_lt; discriminate).
  assert (K : forall x y, N.lxor (N.lxor x y) y = x) by (intros; rewrite N.lxor_assoc, N.lxor_nilpotent, N.lxor_0_r; reflexivity).
  exists (N.lxor (rn_a s) (N.lxor seed r1), N.lxor (rn_b s) (N.lxor seed r2)). cbn [fst snd]. split.
  - split; [repeat apply (below_lxor 64); auto|]. split; [repeat apply (below_lxor 64); auto|].
    rewrite !K. destruct s. reflexivity.
  - intros [e1 e2] E. cbn [fst snd] in E. destruct s as [a b]. injection E as <- <-. cbn [rn_a rn_b]. rewrite !K. reflexivity.
Qed.
Lemma key_guess_many : 18446744073709551616 ^ 2 < 62 ^ 32 /\
  exists f : nat -> uuid -> N -> res (list byte * random), forall fuel s u key t, good s ->
  storage_secrets fuel s = Ok (u, key, t) -> exists x, word x /\ f fuel u x = Ok (key, t).
Proof. split; [reflexivity|apply key_guess]. Qed.
Lemma iv_guess : exists f : list byte -> N -> random, forall s iv t, good s ->
  aes_iv s = (iv, t) -> exists x, word x /\ t = f iv x.
Proof.
  exists (fun iv x => guess (mk_uuid 0 (le_value (skipn 8 iv))) x). intros s iv t G E.
  destruct (made s) as (U & V & A & B). rewrite E in A, B. cbn [fst snd] in A, B.
  destruct (uuid_generate s) as [u t'] eqn:H. cbn [fst snd] in U, V. subst t'.
  destruct (uuid_tells s u _ G H) as (x & X & T & _). exists x. split; auto. rewrite B, T. unfold guess. do 3 f_equal. cbn [u_b].
  rewrite U. cbn [u_b]. rewrite A. change (skipn 8 (octets (number 0 s) ++ octets (number 1 s))) with (octets (number 1 s)).
  rewrite <- octets_ok. cbn [pack]. rewrite app_nil_r. symmetry. apply le_value_le.
  unfold number. destruct (generate_ok _ (good_after 1 s G)) as (c & _ & _ & R). rewrite R. apply N.mod_lt. discriminate.
Qed.
