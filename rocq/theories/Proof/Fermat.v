(* Primes: the little theorem of Fermat, a test for primes, divisors of 2^128 - 1. *)
From Coq Require Import ZArith Znumtheory List Permutation Lia Bool.
Import ListNotations.
Local Open Scope Z_scope.

Lemma gcd_closed (G : N -> Prop) : (forall x y, (y <= x)%N -> G x -> G y -> G (x - y)%N) ->
  forall x y, G x -> G y -> G (N.gcd x y).
Proof.
  intros S. assert (W : forall n x y, (x + y < n)%N -> G x -> G y -> G (N.gcd x y)).
  { induction n as [|n IH] using N.peano_ind; intros x y Hn Gx Gy; [lia|].
    destruct (N.eq_dec x 0) as [->|X]; [rewrite N.gcd_0_l; auto|].
    destruct (N.eq_dec y 0) as [->|Y]; [rewrite N.gcd_0_r; auto|].
    destruct (N.le_ge_cases y x) as [L|L].
    - rewrite N.gcd_comm, <- (N.gcd_sub_diag_r y x L). apply IH; auto. lia.
    - rewrite <- (N.gcd_sub_diag_r x y L). apply IH; auto. lia. }
  intros x y. apply (W (x + y + 1)%N). lia.
Qed.

Definition prod (l : list Z) : Z := fold_right Z.mul 1 l.
Lemma prod_perm l l' : Permutation l l' -> prod l = prod l'.
Proof. induction 1; unfold prod in *; cbn [fold_right] in *; try congruence. ring. Qed.
Lemma prod_prime q l : prime q -> (q | prod l) -> exists x, In x l /\ (q | x).
Proof.
  intros P. induction l as [|x l IH]; cbn [prod fold_right].
  - intros D. apply Z.divide_1_r_nonneg in D; [|destruct P; lia]. destruct P; lia.
  - intros D. apply prime_mult in D as [D|D]; auto; [exists x; simpl; auto|]. destruct (IH D) as (y & A & B). exists y. simpl. auto.
Qed.
Lemma prod_map q a l : (q | prod (map (fun x => (a * x) mod q) l) - a ^ Z.of_nat (length l) * prod l) \/ q = 0.
Proof.
  destruct (Z.eq_dec q 0) as [E|E]; auto. left. induction l as [|x l [k IH]]; cbn [map prod fold_right length].
  - exists 0. cbn. lia.
  - fold (prod (map (fun x => (a * x) mod q) l)). fold (prod l). rewrite Nat2Z.inj_succ, Z.pow_succ_r by lia.
    pose proof (Z.div_mod (a * x) q E) as D. set (m := (a * x) mod q) in *. set (d := a * x / q) in *.
    set (A := prod (map _ l)) in *. set (B := a ^ Z.of_nat (length l)) in *. set (C := prod l) in *.
    exists (m * k - d * B * C). assert (E1 : m = a * x - q * d) by lia. assert (E2 : A = B * C + k * q) by lia.
    rewrite E2, E1. ring_simplify. ring.
Qed.
Lemma fermat q a : prime q -> ~ (q | a) -> (q | a ^ (q - 1) - 1).
Proof.
  intros P A. assert (Q : 1 < q) by (destruct P; auto).
  set (L := map Z.of_nat (seq 1 (Z.to_nat (q - 1)))). set (f := fun x => (a * x) mod q).
  assert (IL : forall x, In x L <-> 1 <= x <= q - 1).
  { intros x. unfold L. rewrite in_map_iff. split.
    - intros (n & <- & Hn). apply in_seq in Hn. lia.
    - intros H. exists (Z.to_nat x). split; [lia|]. apply in_seq. lia. }
  assert (NL : NoDup L) by (apply FinFun.Injective_map_NoDup; [exact Nat2Z.inj|apply seq_NoDup]).
  assert (IF : forall x y, In x L -> In y L -> f x = f y -> x = y).
  { intros x y Hx Hy E. apply IL in Hx, Hy. unfold f in E.
    assert (D : (q | a * (x - y))).
    { apply Z.mod_divide; [lia|]. rewrite Z.mul_sub_distr_l, Zminus_mod, E, Z.sub_diag. reflexivity. }
    apply prime_mult in D as [D|D]; auto; [contradiction|]. destruct D as [k D]. clear E. assert (k = 0) by nia. subst. lia. }
  assert (NF : NoDup (map f L)).
  { clear IL. induction NL as [|x l Hx N IH]; [constructor|]. cbn [map]. constructor.
    - intros Hin. apply in_map_iff in Hin as (y & E & Hy). apply Hx. rewrite (IF x y); simpl; auto.
    - apply IH. intros u v Hu Hv. apply IF; simpl; auto. }
  assert (SF : incl (map f L) L).
  { intros y Hy. apply in_map_iff in Hy as (x & <- & Hx). apply IL in Hx. apply IL. unfold f.
    pose proof (Z.mod_pos_bound (a * x) q ltac:(lia)) as B. destruct (Z.eq_dec ((a * x) mod q) 0) as [E|E]; [|lia].
    apply Z.mod_divide in E; [|lia]. apply prime_mult in E as [E|E]; auto; [contradiction|].
    apply Z.divide_pos_le in E; lia. }
  assert (PF : Permutation (map f L) L).
  { apply NoDup_Permutation; auto. intros x. split; [apply SF|]. apply NoDup_length_incl; auto. rewrite map_length. auto. }
  apply prod_perm in PF. destruct (prod_map q a L) as [D|D]; [|lia]. fold f in D. rewrite PF in D.
  assert (LL : Z.of_nat (length L) = q - 1) by (unfold L; rewrite map_length, seq_length; lia). rewrite LL in D.
  replace (prod L - a ^ (q - 1) * prod L) with ((1 - a ^ (q - 1)) * prod L) in D by ring.
  apply prime_mult in D as [D|D]; auto.
  - apply Z.divide_opp_r in D. replace (a ^ (q - 1) - 1) with (- (1 - a ^ (q - 1))) by ring. auto.
  - apply prod_prime in D as (x & Hx & D); auto. apply IL in Hx. apply Z.divide_pos_le in D; lia.
Qed.

Lemma prime_divisor n : 1 < n -> exists q, prime q /\ (q | n).
Proof.
  intros H. assert (W : forall k n, 1 < n -> n < Z.of_nat k -> exists q, prime q /\ (q | n)).
  { clear. induction k as [|k IH]; intros n H L; [lia|]. destruct (prime_dec n) as [P|P]; [exists n; split; auto; reflexivity|].
    apply not_prime_divide in P as (m & M & D); auto. destruct (IH m) as (q & Q & E); [lia|lia|].
    exists q. split; auto. transitivity m; auto. }
  apply (W (S (Z.to_nat n)) n); lia.
Qed.
Lemma small_divisor n : 1 < n -> ~ prime n -> exists q, prime q /\ (q | n) /\ q * q <= n.
Proof.
  intros H P. apply not_prime_divide in P as (m & M & [k D]); auto.
  assert (S : exists d, 1 < d /\ (d | n) /\ d * d <= n).
  { destruct (Z.le_gt_cases m k); [exists m|exists k]; (split; [nia|]; split; [|nia]); [exists k|exists m]; lia. }
  destruct S as (d & D1 & D2 & D3). destruct (prime_divisor d D1) as (q & Q & E). exists q. split; auto.
  split; [transitivity d; auto|]. apply Z.divide_pos_le in E; [|lia]. destruct Q. nia.
Qed.

(* trial division *)
Fixpoint trial (fuel : nat) (k n : Z) : bool :=
  match fuel with
  | O => false
  | S fuel => if (n <? k * k) then true else if (n mod k =? 0) then false else trial fuel (k + 1) n
  end.
Lemma trial_ok fuel : forall k n, 1 < k -> trial fuel k n = true -> forall d, k <= d -> d * d <= n -> ~ (d | n).
Proof.
  induction fuel as [|fuel IH]; intros k n Hk H d Hd Hs D; cbn [trial] in H; [discriminate|].
  destruct (Z.ltb_spec n (k * k)); [nia|]. destruct (Z.eqb_spec (n mod k) 0) as [E|E]; [discriminate|].
  destruct (Z.eq_dec d k) as [->|N]; [|apply (IH (k + 1) n ltac:(lia) H d); auto; lia].
  apply Z.mod_divide in D; lia.
Qed.
Lemma trial_prime fuel n : 1 < n -> trial fuel 2 n = true -> prime n.
Proof.
  intros H T. destruct (prime_dec n) as [P|P]; auto. exfalso. apply small_divisor in P as (q & Q & D & S); auto.
  apply (trial_ok fuel 2 n ltac:(lia) T q); auto. destruct Q; lia.
Qed.

(* the test of Pocklington *)
Lemma pow_one q a x y : (q | a ^ Z.of_N x - 1) -> (q | a ^ Z.of_N y - 1) -> rel_prime q a -> (q | a ^ Z.of_N (N.gcd x y) - 1).
Proof.
  intros X Y R. apply (gcd_closed (fun n => (q | a ^ Z.of_N n - 1))); auto. clear x y X Y. intros x y L X Y.
  replace (a ^ Z.of_N x) with (a ^ Z.of_N (x - y) * a ^ Z.of_N y) in X by (rewrite <- Z.pow_add_r by lia; f_equal; lia).
  set (u := a ^ Z.of_N (x - y)) in *. set (v := a ^ Z.of_N y) in *.
  assert (D : (q | v * (u - 1))).
  { replace (v * (u - 1)) with ((u * v - 1) - (v - 1)) by ring. apply Z.divide_sub_r; auto. }
  apply Gauss in D; auto. destruct Y as [k Y]. apply bezout_rel_prime. fold v. exists (- k) 1. lia.
Qed.
Lemma pocklington p r m a : 1 < p -> prime r -> p - 1 = r * m -> 0 < m ->
  (p | a ^ (p - 1) - 1) -> rel_prime (a ^ m - 1) p ->
  forall q, prime q -> (q | p) -> (r | q - 1).
Proof.
  intros Hp R E Hm F C q Q D. assert (Q1 : 1 < q) by (destruct Q; auto). assert (R1 : 1 < r) by (destruct R; auto).
  destruct (Zdivide_dec r (q - 1)) as [Y|Y]; auto. exfalso.
  assert (A : ~ (q | a)).
  { intros B. assert (X : (q | 1)); [|apply Z.divide_1_r_nonneg in X; lia].
    assert (G : (q | a ^ (p - 1) - 1)) by (transitivity p; auto).
    replace 1 with (a ^ (p - 1) - (a ^ (p - 1) - 1)) by ring. apply Z.divide_sub_r; auto.
    replace (p - 1) with (Z.succ (p - 2)) by lia. rewrite Z.pow_succ_r by lia. apply Z.divide_mul_l; auto. }
  assert (X : (q | a ^ Z.of_N (N.gcd (Z.to_N (p - 1)) (Z.to_N (q - 1))) - 1)).
  { apply pow_one; rewrite ?Z2N.id by lia; [transitivity p; auto|apply fermat; auto|apply prime_rel_prime; auto]. }
  set (d := N.gcd (Z.to_N (p - 1)) (Z.to_N (q - 1))) in *.
  assert (D1 : (Z.of_N d | r * m)).
  { rewrite <- E. rewrite <- (Z2N.id (p - 1)) by lia. destruct (N.gcd_divide_l (Z.to_N (p - 1)) (Z.to_N (q - 1))) as [k K].
    exists (Z.of_N k). rewrite <- N2Z.inj_mul. f_equal. exact K. }
  assert (D2 : (Z.of_N d | q - 1)).
  { rewrite <- (Z2N.id (q - 1)) by lia. destruct (N.gcd_divide_r (Z.to_N (p - 1)) (Z.to_N (q - 1))) as [k K].
    exists (Z.of_N k). rewrite <- N2Z.inj_mul. f_equal. exact K. }
  assert (D3 : (Z.of_N d | m)).
  { apply Gauss with r; auto. apply rel_prime_sym. apply prime_rel_prime; auto. intros B. apply Y. transitivity (Z.of_N d); auto. }
  assert (X2 : (q | a ^ m - 1)).
  { destruct D3 as [k K]. rewrite K, Z.mul_comm, Z.pow_mul_r by nia. set (u := a ^ Z.of_N d) in *.
    assert (K0 : 0 <= k) by nia. clear - X K0. pattern k. apply natlike_ind; auto.
    - exists 0. rewrite Z.pow_0_r. lia.
    - intros j J I. rewrite Z.pow_succ_r by auto. replace (u * u ^ j - 1) with (u * (u ^ j - 1) + (u - 1)) by ring.
      apply Z.divide_add_r; auto. apply Z.divide_mul_r; auto. }
  destruct C as [_ _ C]. assert (B : (q | 1)) by (apply C; auto). apply Z.divide_1_r_nonneg in B; lia.
Qed.

(* the primes of 2^128 - 1 *)
Definition last_prime : Z := 67280421310721.
Fixpoint pow_mod (a : Z) (e : positive) (p : Z) : Z :=
  match e with
  | xH => a mod p
  | xO e => let x := pow_mod a e p in (x * x) mod p
  | xI e => let x := pow_mod a e p in (a * ((x * x) mod p)) mod p
  end.
Lemma pow_mod_ok a p e : p <> 0 -> pow_mod a e p = a ^ Zpos e mod p.
Proof.
  intros H. induction e as [e IH|e IH|]; cbn [pow_mod]; cbv zeta; rewrite ?IH.
  - rewrite <- Z.mul_mod, Z.mul_mod_idemp_r by auto. f_equal.
    rewrite Pos2Z.inj_xI, Z.pow_add_r, Z.pow_1_r by lia. rewrite (Z.mul_comm 2), Z.pow_mul_r, Z.pow_2_r by lia. ring.
  - rewrite <- Z.mul_mod by auto. rewrite Pos2Z.inj_xO, (Z.mul_comm 2), Z.pow_mul_r, Z.pow_2_r by lia. reflexivity.
  - rewrite Z.pow_1_r. reflexivity.
Qed.
Lemma pocklington_test (r m : positive) (p a u v : Z) : 1 < p -> prime (Zpos r) -> p - 1 = Zpos (r * m) ->
  pow_mod a (r * m) p = 1 -> u * (pow_mod a m p - 1) + v * p = 1 ->
  forall q, prime q -> (q | p) -> (Zpos r | q - 1).
Proof.
  intros Hp R E F B. rewrite pow_mod_ok in F, B by lia.
  apply (pocklington p (Zpos r) (Zpos m) a); auto.
  - reflexivity.
  - rewrite E. apply Z.mod_divide; [lia|]. rewrite Zminus_mod, F, (Z.mod_small 1 p) by lia. apply Z.mod_0_l. lia.
  - revert B. generalize (a ^ Zpos m). intros w B. pose proof (Z.div_mod w p ltac:(lia)) as W.
    apply bezout_rel_prime. apply (Bezout_intro _ _ _ u (v - u * (w / p))).
    set (d := w / p) in *. set (x := w mod p) in *. transitivity (u * (x - 1) + v * p); [rewrite W; ring|exact B].
Qed.
Lemma last_prime_prime : prime last_prime.
Proof.
  destruct (prime_dec last_prime) as [P|P]; auto. exfalso.
  apply small_divisor in P as (q & Q & D & S); [|reflexivity].
  assert (R : prime 2998279) by (apply (trial_prime 2000); [reflexivity|vm_compute; reflexivity]).
  assert (G : (2998279 | q - 1)).
  { apply (pocklington_test 2998279 22439680 last_prime 3 47000331560307 (-42717961376404)); auto; vm_compute; reflexivity. }
  destruct G as [k G]. unfold last_prime in *. assert (q <= 8202465) by nia. destruct Q as [Q _].
  assert (k = 1 \/ k = 2) as [K|K] by lia; subst k; assert (q = 2998280 \/ q = 5996559) as [F|F] by lia; try lia; rewrite F in D;
    apply Z.mod_divide in D; try discriminate; vm_compute in D; discriminate.
Qed.

Definition factors : list Z := [3; 5; 17; 257; 641; 65537; 274177; 6700417; last_prime].
Lemma factors_prime : forall p, In p factors -> prime p.
Proof.
  assert (S : forall p, In p (removelast factors) -> prime p).
  { intros p Hp. apply (trial_prime 2600 p).
    - cbn in Hp. intuition (subst; reflexivity).
    - assert (A : forallb (trial 2600 2) (removelast factors) = true) by (vm_compute; reflexivity).
      rewrite forallb_forall in A. auto. }
  intros p Hp. change factors with (removelast factors ++ [last_prime]) in Hp. apply in_app_iff in Hp as [Hp|[<-|[]]]; auto using last_prime_prime.
Qed.
Definition whole : Z := 2 ^ 128 - 1.
Lemma factors_prod : prod factors = whole.
Proof. vm_compute. reflexivity. Qed.
Lemma divisor_of g : (g | whole) -> 0 < g -> g <> whole -> exists p, In p factors /\ (g | whole / p).
Proof.
  intros [m D] Hg N. assert (W : 0 < whole) by reflexivity. assert (M : 1 < m).
  { clear - D Hg N W. destruct (Z.eq_dec m 1) as [->|]; [lia|]. nia. }
  destruct (prime_divisor m M) as (q & Q & [k E]). assert (F : (q | prod factors)).
  { rewrite factors_prod, D, E. exists (k * g). ring. }
  apply prod_prime in F as (p & Hp & F); auto. exists p. split; auto. apply prime_div_prime in F; auto using factors_prime.
  subst q. exists k. rewrite D, E. assert (p <> 0) by (destruct Q; lia). replace (k * p * g) with (k * g * p) by ring. rewrite Z.div_mul; auto.
Qed.
