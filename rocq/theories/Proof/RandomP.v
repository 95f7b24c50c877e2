(* The step of the generator as a linear map over two elements: its polynomial and its period. *)
From Coq Require Import NArith ZArith List Bool Lia.
Import ListNotations.
From Verif Require Import Proof.Fermat.
Local Open Scope N_scope.

Notation st := (N * N)%type.
Definition vx (u v : st) : st := (N.lxor (fst u) (fst v), N.lxor (snd u) (snd v)).
Definition v0 : st := (0, 0).
Definition step (v : st) : st :=
  let (a, b) := v in
  let a := N.lxor a (N.land (N.shiftl a 23) (N.ones 64)) in
  (b, N.lxor (N.lxor (N.lxor a b) (N.shiftr a 17)) (N.shiftr b 26)).
Definition fits (v : st) : Prop := fst v < 2 ^ 64 /\ snd v < 2 ^ 64.

(* vectors *)
Lemma vx_0_l v : vx v0 v = v.
Proof. destruct v. reflexivity. Qed.
Lemma vx_0_r v : vx v v0 = v.
Proof. destruct v as [a b]. unfold vx; cbn [fst snd v0]. rewrite !N.lxor_0_r. reflexivity. Qed.
Lemma vx_diag v : vx v v = v0.
Proof. unfold vx. rewrite !N.lxor_nilpotent. reflexivity. Qed.
Lemma vx_comm u v : vx u v = vx v u.
Proof. unfold vx. f_equal; apply N.lxor_comm. Qed.
Lemma vx_assoc u v w : vx (vx u v) w = vx u (vx v w).
Proof. unfold vx; cbn [fst snd]. f_equal; apply N.lxor_assoc. Qed.
Lemma vx_swap a b c d : vx (vx a b) (vx c d) = vx (vx a c) (vx b d).
Proof. rewrite !vx_assoc. f_equal. rewrite <- !vx_assoc. f_equal. apply vx_comm. Qed.
Lemma vx_eq u v : vx u v = v0 -> u = v.
Proof.
  intros E. rewrite <- (vx_0_r u), <- (vx_diag v), <- vx_assoc, E. apply vx_0_l.
Qed.

Lemma land_lxor a b c : N.land (N.lxor a b) c = N.lxor (N.land a c) (N.land b c).
Proof.
  apply N.bits_inj. intros n. rewrite N.land_spec, !N.lxor_spec, !N.land_spec.
  destruct (N.testbit a n), (N.testbit b n), (N.testbit c n); reflexivity.
Qed.
Lemma step_lin u v : step (vx u v) = vx (step u) (step v).
Proof.
  destruct u as [a b], v as [c d]. unfold step, vx; cbn [fst snd]. cbv zeta. f_equal.
  rewrite !N.shiftl_lxor, !land_lxor, !N.shiftr_lxor.
  apply N.bits_inj. intros n. rewrite !N.lxor_spec.
  repeat match goal with |- context [N.testbit ?x ?k] => generalize (N.testbit x k); intro end.
  repeat match goal with b : bool |- _ => destruct b end; reflexivity.
Qed.
Lemma step_0 : step v0 = v0.
Proof. reflexivity. Qed.

(* what polynomials do to vectors *)
Fixpoint evp (q : positive) (v : st) : st :=
  match q with
  | xH => v
  | xO q => step (evp q v)
  | xI q => vx v (step (evp q v))
  end.
Definition ev (q : N) (v : st) : st := match q with N0 => v0 | Npos q => evp q v end.
Lemma ev_double q v : ev (N.double q) v = step (ev q v).
Proof. destruct q; reflexivity. Qed.
Lemma ev_sdouble q v : ev (N.succ_double q) v = vx v (step (ev q v)).
Proof. destruct q; cbn; [rewrite vx_0_r|]; reflexivity. Qed.
Lemma evp_lin q u v : evp q (vx u v) = vx (evp q u) (evp q v).
Proof. induction q as [q IH|q IH|]; cbn [evp]; rewrite ?IH, ?step_lin; auto. apply vx_swap. Qed.
Lemma ev_lin q u v : ev q (vx u v) = vx (ev q u) (ev q v).
Proof. destruct q; [reflexivity|apply evp_lin]. Qed.
Lemma evp_0 q : evp q v0 = v0.
Proof. induction q as [q IH|q IH|]; cbn [evp]; rewrite ?IH; reflexivity. Qed.
Lemma ev_0 q : ev q v0 = v0.
Proof. destruct q; [reflexivity|apply evp_0]. Qed.
Lemma evp_step q v : evp q (step v) = step (evp q v).
Proof. induction q as [q IH|q IH|]; cbn [evp]; rewrite ?IH, ?step_lin; auto. Qed.
Lemma ev_step q v : ev q (step v) = step (ev q v).
Proof. destruct q; [reflexivity|apply evp_step]. Qed.
Lemma ev_lxor p q v : ev (N.lxor p q) v = vx (ev p v) (ev q v).
Proof.
  destruct p as [|p]; [cbn; rewrite vx_0_l; reflexivity|]. destruct q as [|q]; [cbn; rewrite vx_0_r; reflexivity|].
  cbn [N.lxor ev]. revert q. induction p as [p IH|p IH|]; intros [q|q|]; cbn [Pos.lxor evp];
    rewrite ?ev_double, ?ev_sdouble, ?IH, ?step_lin; cbn [ev evp].
  - rewrite vx_swap, vx_diag, vx_0_l. reflexivity.
  - rewrite vx_assoc. reflexivity.
  - rewrite (vx_comm v), vx_assoc, vx_diag, vx_0_r. reflexivity.
  - rewrite <- !vx_assoc. f_equal. apply vx_comm.
  - reflexivity.
  - apply vx_comm.
  - rewrite <- vx_assoc, vx_diag, vx_0_l. reflexivity.
  - reflexivity.
  - rewrite vx_diag. reflexivity.
Qed.

(* states within 64 bits *)
Lemma below_bits n a : a < 2 ^ n <-> forall k, n <= k -> N.testbit a k = false.
Proof.
  split.
  - intros H k K. destruct (N.eq_dec a 0) as [->|Z]; [apply N.bits_0|]. apply N.bits_above_log2.
    apply N.log2_lt_pow2 in H; lia.
  - intros H. destruct (N.eq_dec a 0) as [->|Z]; [apply N.neq_0_lt_0, N.pow_nonzero; lia|].
    apply N.log2_lt_pow2; [lia|]. destruct (N.lt_ge_cases (N.log2 a) n) as [L|L]; auto.
    apply H in L. rewrite N.bit_log2 in L; auto. discriminate.
Qed.
Lemma below_lxor n a b : a < 2 ^ n -> b < 2 ^ n -> N.lxor a b < 2 ^ n.
Proof. rewrite !below_bits. intros A B k K. rewrite N.lxor_spec, A, B; auto. Qed.
Lemma below_shiftr n a k : a < 2 ^ n -> N.shiftr a k < 2 ^ n.
Proof. rewrite !below_bits. intros A i K. rewrite N.shiftr_spec by lia. apply A. lia. Qed.
Lemma below_ones n a : N.land a (N.ones n) < 2 ^ n.
Proof. rewrite N.land_ones. apply N.mod_lt, N.pow_nonzero. lia. Qed.
Lemma fits_vx u v : fits u -> fits v -> fits (vx u v).
Proof. intros [A B] [C D]. split; apply below_lxor; auto. Qed.
Lemma fits_step v : fits v -> fits (step v).
Proof.
  destruct v as [a b]. intros [A B]; cbn [fst snd] in *. unfold step; cbv zeta. split; cbn [fst snd]; auto.
  auto 10 using below_lxor, below_shiftr, below_ones.
Qed.
Lemma fits_iter k v : fits v -> fits (N.iter k step v).
Proof. intros H. apply N.iter_invariant; auto. intros w. apply fits_step. Qed.

Lemma span (G : N -> Prop) : G 0 -> (forall a b, G a -> G b -> G (N.lxor a b)) ->
  forall n, (forall k, (k < n)%nat -> G (2 ^ N.of_nat k)) -> forall a, a < 2 ^ N.of_nat n -> G a.
Proof.
  intros G0 GX. induction n as [|n IH]; intros GB a A.
  - cbn in A. assert (a = 0) as -> by lia. auto.
  - replace a with (N.lxor (N.land a (N.ones (N.of_nat n))) (if N.testbit a (N.of_nat n) then 2 ^ N.of_nat n else 0)).
    + apply GX; [apply IH; auto; apply below_ones|]. destruct (N.testbit _ _); auto.
    + apply N.bits_inj. intros k. rewrite N.lxor_spec, N.land_spec.
      destruct (N.lt_trichotomy k (N.of_nat n)) as [L|[->|L]].
      * rewrite N.ones_spec_low by auto. destruct (N.testbit a (N.of_nat n)); rewrite ?N.bits_0, ?N.pow2_bits_false by lia.
        -- destruct (N.testbit a k); reflexivity.
        -- destruct (N.testbit a k); reflexivity.
      * rewrite N.ones_spec_high by lia. destruct (N.testbit a (N.of_nat n)) eqn:E; rewrite ?N.bits_0, ?N.pow2_bits_true; reflexivity.
      * rewrite N.ones_spec_high by lia. rewrite (proj1 (below_bits _ a) A k ltac:(lia)).
        destruct (N.testbit a (N.of_nat n)); rewrite ?N.bits_0, ?N.pow2_bits_false by lia; reflexivity.
Qed.

Definition poly : N := 0x101f9f801f6fd0098bd82fd40e01730f9.
Definition zero_at (v : st) : bool := let (a, b) := ev poly v in (a =? 0) && (b =? 0).
Lemma poly_basis : forallb (fun k => zero_at (2 ^ N.of_nat k, 0) && zero_at (0, 2 ^ N.of_nat k)) (seq 0 64) = true.
Proof. vm_compute. reflexivity. Qed.
Lemma zero_at_ok v : zero_at v = true -> ev poly v = v0.
Proof.
  unfold zero_at. destruct (ev poly v) as [a b]. intros H. apply andb_prop in H as [A B].
  apply N.eqb_eq in A, B. subst. reflexivity.
Qed.
Lemma poly_zero v : fits v -> ev poly v = v0.
Proof.
  pose proof poly_basis as B. rewrite forallb_forall in B. destruct v as [a b]. intros [Ha Hb]; cbn [fst snd] in *.
  assert (A1 : ev poly (a, 0) = v0).
  { apply (span (fun a => ev poly (a, 0) = v0) (ev_0 poly)) with (n := 64%nat); auto.
    - intros x y X Y. change (N.lxor x y, 0) with (vx (x, 0) (y, 0)). rewrite ev_lin, X, Y. reflexivity.
    - intros k K. apply zero_at_ok. specialize (B k ltac:(apply in_seq; lia)). apply andb_prop in B as [B _]. exact B. }
  assert (B1 : ev poly (0, b) = v0).
  { apply (span (fun b => ev poly (0, b) = v0) (ev_0 poly)) with (n := 64%nat); auto.
    - intros x y X Y. change (0, N.lxor x y) with (vx (0, x) (0, y)). rewrite ev_lin, X, Y. reflexivity.
    - intros k K. apply zero_at_ok. specialize (B k ltac:(apply in_seq; lia)). apply andb_prop in B as [_ B]. exact B. }
  replace (a, b) with (vx (a, 0) (0, b)) by (unfold vx; cbn [fst snd]; rewrite N.lxor_0_r; reflexivity).
  rewrite ev_lin, A1, B1. reflexivity.
Qed.

(* polynomials modulo that of the step *)
Definition times_x (q : N) : N := let q := N.double q in if N.testbit q 128 then N.lxor q poly else q.
Fixpoint mulp (p : positive) (q : N) : N :=
  match p with
  | xH => q
  | xO p => times_x (mulp p q)
  | xI p => N.lxor q (times_x (mulp p q))
  end.
Definition mul (p q : N) : N := match p with N0 => 0 | Npos p => mulp p q end.
Fixpoint pwx (e : positive) : N :=
  match e with
  | xH => 2
  | xO e => let x := pwx e in mul x x
  | xI e => let x := pwx e in times_x (mul x x)
  end.
Lemma ev_times_x q v : fits v -> ev (times_x q) v = step (ev q v).
Proof.
  intros F. unfold times_x; cbv zeta. destruct (N.testbit _ 128); rewrite ?ev_lxor, ?ev_double, ?(poly_zero v F), ?vx_0_r; reflexivity.
Qed.
Lemma ev_mul p q v : fits v -> ev (mul p q) v = ev p (ev q v).
Proof.
  intros F. destruct p as [|p]; [reflexivity|]. cbn [mul ev].
  induction p as [p IH|p IH|]; cbn [mulp evp]; rewrite ?ev_lxor, ?ev_times_x, ?IH by auto; reflexivity.
Qed.
Lemma fits_ev q v : fits v -> fits (ev q v).
Proof.
  intros F. destruct q as [|q]; [split; reflexivity|]. cbn [ev].
  induction q as [q IH|q IH|]; cbn [evp]; auto using fits_vx, fits_step.
Qed.
Lemma ev_pwx e v : fits v -> ev (pwx e) v = N.iter (Npos e) step v.
Proof.
  revert v. induction e as [e IH|e IH|]; intros v F; cbn [pwx]; cbv zeta; rewrite ?ev_times_x, ?ev_mul, ?(IH v F), ?IH by auto using fits_iter.
  - change (N.pos e~1) with (N.succ_double (Npos e)). rewrite N.succ_double_spec.
    replace (2 * N.pos e + 1) with (N.succ (N.pos e + N.pos e)) by lia. rewrite N.iter_succ, N.iter_add. reflexivity.
  - replace (N.pos e~0) with (N.pos e + N.pos e) by lia. rewrite N.iter_add. reflexivity.
  - reflexivity.
Qed.

(* the order of the step *)
Definition certs : list (Z * N) := combine factors
  [241453233029460021203426471162042953619; 130784733295281475895497296924878226039; 131995454731790851923070603403251172034;
   250427995623285817458762783256093402322; 153232802646500198348106848486896838772; 38061147069789156561083027911905930588;
   264204369592870642996498686258873536819; 231852902709860832232127464142718596249; 254901961205142181107392018616309761778].
Lemma certs_ok : forallb (fun pu => mul (snd pu) (N.lxor (pwx (Z.to_pos (whole / fst pu))) 1) =? 1) certs = true.
Proof. vm_compute. reflexivity. Qed.
Lemma whole_ok : pwx (Z.to_pos whole) = 1.
Proof. vm_compute. reflexivity. Qed.
Definition period : N := 2 ^ 128 - 1.
Lemma whole_period : whole = Z.of_N period.
Proof. reflexivity. Qed.
Lemma period_pos : period <> 0.
Proof. discriminate. Qed.
Lemma period_step v : fits v -> N.iter period step v = v.
Proof.
  intros F. change period with (Npos (Z.to_pos whole)). rewrite <- ev_pwx by auto. rewrite whole_ok. reflexivity.
Qed.
Lemma factor_step p v : In p factors -> fits v -> N.iter (Z.to_N (whole / p)) step v = v -> v = v0.
Proof.
  intros Hp F E. assert (U : exists u, In (p, u) certs).
  { change factors with (map fst certs) in Hp. apply in_map_iff in Hp as ([q u] & <- & H). exists u. exact H. }
  destruct U as [u U]. pose proof certs_ok as C. rewrite forallb_forall in C. specialize (C _ U). cbn [fst snd] in C.
  assert (W : (0 < whole / p)%Z).
  { clear - Hp. cbn in Hp. intuition (subst; reflexivity). }
  apply N.eqb_eq in C. assert (G : ev 1 v = v0).
  { rewrite <- C, ev_mul, ev_lxor, ev_pwx by auto.
    replace (Npos (Z.to_pos (whole / p))) with (Z.to_N (whole / p)) by (destruct (whole / p)%Z; [discriminate|reflexivity|discriminate]).
    rewrite E. change (ev 1 v) with v. rewrite vx_diag. apply ev_0. }
  exact G.
Qed.
Lemma iter_mul v d k : N.iter d step v = v -> N.iter (k * d) step v = v.
Proof.
  intros E. induction k as [|k IH] using N.peano_ind; [reflexivity|].
  rewrite N.mul_succ_l, N.iter_add, E. exact IH.
Qed.
Local Opaque period.
Lemma order v k : fits v -> v <> v0 -> N.iter k step v = v -> (period | k).
Proof.
  intros F Z E. assert (G : N.iter (N.gcd period k) step v = v).
  { apply (gcd_closed (fun n => N.iter n step v = v)); [|exact (period_step v F)|exact E]. intros x y L X Y.
    replace x with (x - y + y) in X by lia. rewrite N.iter_add, Y in X. exact X. }
  destruct (N.eq_dec (N.gcd period k) period) as [P|P]; [rewrite <- P; apply N.gcd_divide_r|].
  exfalso. apply Z. assert (D : (N.gcd period k | period)) by apply N.gcd_divide_l.
  revert G P D. generalize (N.gcd period k). intros g G P [m D].
  destruct (divisor_of (Z.of_N g)) as (p & Hp & [j J]).
  - exists (Z.of_N m). rewrite whole_period, D. lia.
  - destruct g; [rewrite N.mul_0_r in D; apply period_pos in D; contradiction|]. lia.
  - rewrite whole_period. lia.
  - apply (factor_step p); auto. assert (W : (0 < whole / p)%Z) by (clear - Hp; cbn in Hp; intuition (subst; reflexivity)).
    assert (0 < j)%Z by nia. replace (Z.to_N (whole / p)) with (Z.to_N j * g) by (rewrite J; nia).
    apply iter_mul. exact G.
Qed.
Lemma step_back u v : fits u -> fits v -> step u = step v -> u = v.
Proof.
  intros U V E. rewrite <- (period_step u U), <- (period_step v V). assert (P : period = N.pred period + 1) by (pose proof period_pos; lia).
  revert P. generalize (N.pred period). generalize period. intros n m ->. rewrite !N.iter_add. change (N.iter 1 step u) with (step u). change (N.iter 1 step v) with (step v). rewrite E. reflexivity.
Qed.
Lemma iter_nonzero v k : fits v -> v <> v0 -> N.iter k step v <> v0.
Proof.
  intros F Z. induction k as [|k IH] using N.peano_ind; auto. rewrite N.iter_succ. intros E. apply IH.
  apply step_back; auto using fits_iter. split; reflexivity.
Qed.
Lemma distinct v i j : fits v -> v <> v0 -> i < j -> j < period -> N.iter i step v <> N.iter j step v.
Proof.
  intros F Z I J E. assert (G : N.iter (period - i) step (N.iter i step v) = N.iter (period - i) step (N.iter j step v)) by (rewrite E; reflexivity).
  rewrite <- !N.iter_add in G. replace (period - i + i) with period in G by lia.
  replace (period - i + j) with (j - i + period) in G by lia. rewrite N.iter_add, !period_step in G by auto.
  symmetry in G. apply order in G as [m G]; auto. destruct m; nia.
Qed.

(* every state is met *)
Lemma onto (w : N) (h : N -> N) : (forall k, k < w -> h k < w) -> (forall i j, i < j -> j < w -> h i <> h j) ->
  forall y, y < w -> exists k, k < w /\ h k = y.
Proof.
  intros B I y Y. set (L := map (fun n => h (N.of_nat n)) (seq 0 (N.to_nat w))). set (M := map N.of_nat (seq 0 (N.to_nat w))).
  assert (ML : forall x, In x M <-> x < w).
  { intros x. unfold M. rewrite in_map_iff. split.
    - intros (n & <- & Hn). apply in_seq in Hn. lia.
    - intros H. exists (N.to_nat x). split; [lia|]. apply in_seq. lia. }
  assert (NL : NoDup L).
  { unfold L. assert (G : forall m a, (a + m <= N.to_nat w)%nat -> NoDup (map (fun n => h (N.of_nat n)) (seq a m))).
    { induction m as [|m IH]; intros a Ha; cbn [seq map]; constructor; [|apply IH; lia].
      intros H. apply in_map_iff in H as (n & E & Hn). apply in_seq in Hn. apply (I (N.of_nat a) (N.of_nat n)); [lia|lia|auto]. }
    apply G. lia. }
  assert (IL : incl L M).
  { intros x Hx. apply in_map_iff in Hx as (n & <- & Hn). apply in_seq in Hn. apply ML. apply B. lia. }
  assert (IM : incl M L) by (apply NoDup_length_incl; auto; unfold L, M; rewrite !map_length; auto).
  assert (H : In y L) by (apply IM, ML; auto). apply in_map_iff in H as (n & E & Hn). apply in_seq in Hn.
  exists (N.of_nat n). split; [lia|auto].
Qed.
Definition code (v : st) : N := fst v + snd v * 2 ^ 64.
Lemma code_inj u v : fits u -> fits v -> code u = code v -> u = v.
Proof. destruct u as [a b], v as [c d]. unfold fits, code; cbn [fst snd]. intros [A B] [C D] E. f_equal; lia. Qed.
Transparent period.
Lemma code_bound v : fits v -> v <> v0 -> 0 < code v <= period.
Proof.
  destruct v as [a b]. unfold fits, code, period; cbn [fst snd]. intros [A B] Z. split; [|lia].
  destruct (N.eq_dec a 0) as [->|]; [|lia]. destruct (N.eq_dec b 0) as [->|]; [|lia]. contradiction Z. reflexivity.
Qed.
Local Opaque period.
Lemma visits v u : fits v -> v <> v0 -> fits u -> u <> v0 -> exists k, k < period /\ N.iter k step v = u.
Proof.
  intros F Z U UZ. pose proof (code_bound u U UZ) as CU.
  destruct (onto period (fun k => code (N.iter k step v) - 1)) with (y := code u - 1) as (k & K & E).
  - intros k K. pose proof (code_bound _ (fits_iter k v F) (iter_nonzero v k F Z)). lia.
  - intros i j I J E. apply (distinct v i j F Z I J). apply code_inj; auto using fits_iter.
    pose proof (code_bound _ (fits_iter i v F) (iter_nonzero v i F Z)).
    pose proof (code_bound _ (fits_iter j v F) (iter_nonzero v j F Z)). lia.
  - lia.
  - exists k. split; auto. apply code_inj; auto using fits_iter.
    pose proof (code_bound _ (fits_iter k v F) (iter_nonzero v k F Z)). lia.
Qed.
