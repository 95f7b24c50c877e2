(* C81: requests to S3. *)
From Coq Require Import ZArith NArith Arith List Bool String Lia ZifyBool ZifyN ZifyNat.
Import ListNotations.
From Verif Require Import Model.Base Model.Lex Model.Json Model.Uuid Model.Names Model.Vfs Model.S3 Spec.Units Spec.UuidText Spec.Written Spec.S3
  Proof.UuidL Proof.VfsL Proof.NamesL Proof.JsonL.
Local Open Scope N_scope.

(* base64 *)

Lemma b64_value v : value64 (b64 v) = Some (v mod 64).
Proof.
  unfold b64. change 63 with (N.ones 6). rewrite N.land_ones. change (2 ^ 6) with 64.
  pose proof (N.mod_lt v 64 ltac:(lia)) as H. set (x := v mod 64) in *. clearbody x.
  assert (A : forallb (fun n => match value64 (nth n b64_chars 0) with Some y => y =? N.of_nat n | None => false end) (seq 0 64) = true) by reflexivity.
  rewrite forallb_forall in A. specialize (A (N.to_nat x)). rewrite in_seq in A. specialize (A ltac:(lia)).
  destruct (value64 (nth (N.to_nat x) b64_chars 0)) as [y|]; [|discriminate]. f_equal. lia.
Qed.

Lemma lor8 v d : v < 2 ^ 32 -> d < 256 -> N.lor (w64 (N.shiftl v 8)) d = v * 256 + d.
Proof.
  intros Hv Hd. rewrite N.shiftl_mul_pow2. unfold w64. rewrite N.mod_small by (unfold two64; lia).
  change (2 ^ 8) with 256. assert (L : N.land (v * 256) d = 0).
  { apply N.bits_inj. intro k. rewrite N.land_spec, N.bits_0. change 256 with (2 ^ 8). rewrite <- N.shiftl_mul_pow2.
    destruct (N.ltb_spec k 8); [rewrite N.shiftl_spec_low by lia; reflexivity|].
    rewrite (N.bits_above_log2 d k); [apply andb_false_r|].
    destruct (N.eq_dec d 0) as [->|]; [cbn; lia|].
    apply N.log2_lt_pow2; [lia|]. apply N.lt_le_trans with (2 ^ 8); [change (2 ^ 8) with 256; lia|apply N.pow_le_mono_r; lia]. }
  rewrite <- N.lxor_lor, <- N.add_nocarry_lxor by exact L. reflexivity.
Qed.

Lemma number64_app a : forall v b, number64 v (a ++ b) = match number64 v a with Some x => number64 x b | None => None end.
Proof. induction a as [|c a IH]; intros v b; cbn [app number64]; [reflexivity|]. destruct (value64 c); [apply IH|reflexivity]. Qed.

Lemma loop_num k : forall raw i acc, List.length raw = (3 * k + 2)%nat -> Forall (fun b => b < 256) raw -> (i mod 3 = 0)%nat ->
  exists l, b64_loop i 0 raw = l ++ [61; 0] /\ List.length l = (4 * k + 3)%nat /\
    number64 acc l = Some (fold_left (fun v b => v * 256 + b) raw acc * 4).
Proof.
  assert (M : forall i, (i mod 3 = 0 -> i mod 3 =? 2 = false /\ S i mod 3 =? 2 = false /\ S (S i) mod 3 =? 2 = true /\ S (S (S i)) mod 3 = 0)%nat).
  { intros i H. pose proof (Nat.div_mod i 3 ltac:(lia)) as E. rewrite H, Nat.add_0_r in E. set (q := (i / 3)%nat) in *. clearbody q.
    assert (A1 : (S i mod 3 = 1)%nat) by (symmetry; apply (Nat.mod_unique _ _ q); lia).
    assert (A2 : (S (S i) mod 3 = 2)%nat) by (symmetry; apply (Nat.mod_unique _ _ q); lia).
    assert (A3 : (S (S (S i)) mod 3 = 0)%nat) by (symmetry; apply (Nat.mod_unique _ _ (S q)); lia).
    rewrite H, A1, A2, A3. auto. }
  induction k as [|k IH]; intros raw i acc L B I; destruct (M i I) as (M1 & M2 & M3 & M4).
  - destruct raw as [|a [|b [|c raw]]]; try (cbn in L; lia).
    inversion B as [|x y Ha B1]; subst. inversion B1 as [|x y Hb _]; subst. cbn [b64_loop]. rewrite M1, M2.
    rewrite (lor8 0 a) by lia. rewrite N.mul_0_l, N.add_0_l. rewrite lor8 by lia.
    eexists [_; _; _]. split; [reflexivity|]. split; [reflexivity|]. cbn [number64 fold_left]. rewrite !b64_value.
    f_equal. rewrite !N.shiftr_div_pow2, N.shiftl_mul_pow2. change (2 ^ 10) with 1024. change (2 ^ 4) with 16. change (2 ^ 2) with 4.
    unfold w64. rewrite (N.mod_small _ two64) by (unfold two64; lia).
    zify. Z.div_mod_to_equations. lia.
  - destruct raw as [|a [|b [|c raw]]]; try (cbn in L; lia).
    inversion B as [|x y Ha B1]; subst. inversion B1 as [|x y Hb B2]; subst. inversion B2 as [|x y Hc B3]; subst.
    cbn [b64_loop]. rewrite M1, M2, M3. rewrite (lor8 0 a) by lia. rewrite N.mul_0_l, N.add_0_l. rewrite (lor8 a b), (lor8 _ c) by lia.
    destruct (IH raw (S (S (S i))) (((acc * 256 + a) * 256 + b) * 256 + c)) as (l & E & Ll & Nl); [cbn in L; lia|assumption|exact M4|].
    rewrite E. eexists ([_; _; _; _] ++ l). split; [rewrite <- app_assoc; reflexivity|]. split; [rewrite app_length, Ll; cbn [List.length]; lia|].
    cbn [fold_left]. rewrite <- Nl. cbn [app number64]. rewrite !b64_value. f_equal.
    rewrite !N.shiftr_div_pow2. change (2 ^ 18) with 262144. change (2 ^ 12) with 4096. change (2 ^ 6) with 64.
    zify. Z.div_mod_to_equations. lia.
Qed.

Lemma base64_text raw : List.length raw = 20%nat -> Forall (fun b => b < 256) raw ->
  exists t, base64_20 raw t /\ List.length t = 28%nat /\ forall room, s3_request_encode_base64 room raw = if (room <? 29)%nat then UB else Ok t.
Proof.
  intros L B. destruct (loop_num 6 raw 0 0 L B eq_refl) as (l & E & Ll & Nl). exists (l ++ [61]). split; [|split].
  - exists l. split; [reflexivity|]. split; [exact Ll|exact Nl].
  - rewrite app_length, Ll. reflexivity.
  - intros room. unfold s3_request_encode_base64. rewrite E, app_length, Ll. cbn [List.length]. change (4 * 6 + 3 + 2)%nat with 29%nat.
    destruct (room <? 29)%nat; [reflexivity|]. f_equal. change [61; 0] with ([61] ++ [0]). rewrite app_assoc, removelast_last. reflexivity.
Qed.

(* requests *)

Lemma dec20_length m : List.length (dec20 m) = 20%nat.
Proof.
  unfold dec20. assert (L : forall k n, List.length (digits k n) = k).
  { induction k; intros n; cbn [digits]; [reflexivity|]. rewrite app_length, IHk. cbn [List.length]. lia. }
  apply L.
Qed.
Lemma resource_length r : (List.length (resource r) <= 58)%nat.
Proof.
  unfold resource. rewrite !app_length, (proj2 (to_string_text _)). destruct (rq_id r); [rewrite app_length, dec20_length|]; cbn [List.length]; lia.
Qed.
Lemma header_sign r date : header_text r date = to_sign (rq_method r) (type_of r) date (resource r).
Proof. unfold header_text, to_sign, type_of, newline, resource. reflexivity. Qed.
Lemma header_short r date : known r -> (List.length date < 64)%nat -> (List.length (header_text r date) <= 256)%nat.
Proof.
  intros K D. rewrite header_sign. unfold to_sign, newline. rewrite !app_length. pose proof (resource_length r).
  assert (A : (List.length (chars (rq_method r)) <= 6 /\ List.length (chars (type_of r)) <= 24)%nat).
  { destruct K as [(u & i & ->)|[(u & i & z & ->)|[(u & i & ->)|[(u & i & z & o & ->)|[(u & ->)|(u & ->)]]]]]; cbn; lia. }
  cbn [List.length]. lia.
Qed.

Section H.
Variable hmac : list byte -> list byte -> list byte.
Hypothesis hmac_20 : forall k m, List.length (hmac k m) = 20%nat /\ Forall (fun b => b < 256) (hmac k m).

Lemma room28 c r date : known r -> (List.length date < 64)%nat -> s3_request hmac 28 c r date = UB.
Proof.
  intros K D. unfold s3_request, s3_request_prepare. rewrite (proj2 (Nat.ltb_ge _ _)) by (apply header_short; assumption).
  destruct (hmac_20 (s3_password c) (header_text r date)) as [A B]. destruct (base64_text _ A B) as (t & _ & _ & E). rewrite E. reflexivity.
Qed.

Lemma room29 c r date : known r -> (List.length date < 64)%nat -> (List.length (s3_url c) <= 965)%nat -> (List.length (s3_login c) <= 222)%nat ->
  exists sign, base64_20 (hmac (s3_password c) (to_sign (rq_method r) (type_of r) date (resource r))) sign /\
    s3_request hmac 29 c r date = Ok (s3_url c ++ resource r, headers r date (chars "AWS " ++ s3_login c ++ chars ":" ++ sign)).
Proof.
  intros K D U G. unfold s3_request, s3_request_prepare. rewrite (proj2 (Nat.ltb_ge _ _)) by (apply header_short; assumption). rewrite header_sign.
  destruct (hmac_20 (s3_password c) (to_sign (rq_method r) (type_of r) date (resource r))) as [A B]. destruct (base64_text _ A B) as (t & T & L & E).
  exists t. split; [exact T|]. rewrite E. change (29 <? 29)%nat with false. cbn [Base.bind]. f_equal. f_equal.
  - unfold url_text. change ([47] ++ uuid_to_string (rq_uuid r) ++ _) with (resource r). apply cut_fits. rewrite app_length.
    pose proof (resource_length r). lia.
  - f_equal. change (chars ":") with [58]. apply cut_fits. rewrite !app_length, L. change (List.length (chars "AWS ")) with 4%nat. change (List.length [58]) with 1%nat. lia.
Qed.
End H.

(* the lines are written whole *)
Lemma dec_n_length k : forall n, (List.length (dec_n k n) <= k)%nat.
Proof.
  induction k as [|k IH]; intros n; cbn [dec_n]; [cbn; lia|]. destruct (n <? 10); [cbn; lia|]. rewrite app_length. cbn [List.length].
  specialize (IH (n / 10)). lia.
Qed.
Lemma headers_whole r date auth : known r -> (List.length date < 64)%nat -> (List.length auth <= 255)%nat -> headers r date auth = lines r date auth.
Proof.
  intros K D A. unfold headers, lines. pose proof (dec_n_length 20 (rq_length r)).
  assert (T : forall t, rq_type r = Some t -> (List.length (chars t) <= 24)%nat).
  { destruct K as [(u & i & ->)|[(u & i & z & ->)|[(u & i & ->)|[(u & i & z & o & ->)|[(u & ->)|(u & ->)]]]]]; cbn [rq_type s3_op_download s3_op_upload s3_op_delete s3_op_read s3_op_create_bucket s3_op_drop_bucket]; intros t E; try discriminate E; injection E as <-; cbn; lia. }
  assert (R : forall g, rq_range r = Some g -> (List.length g <= 127)%nat).
  { destruct K as [(u & i & ->)|[(u & i & z & ->)|[(u & i & ->)|[(u & i & z & o & ->)|[(u & ->)|(u & ->)]]]]]; cbn [rq_range s3_op_download s3_op_upload s3_op_delete s3_op_read s3_op_create_bucket s3_op_drop_bucket]; intros g E; try discriminate E; injection E as <-.
    unfold range_text, cut. rewrite firstn_length. lia. }
  repeat f_equal.
  - apply cut_fits. rewrite app_length. change (List.length (chars "Date: ")) with 6%nat. lia.
  - destruct (rq_type r) as [t|]; [|reflexivity]. specialize (T t eq_refl). f_equal; [|f_equal]; apply cut_fits; rewrite app_length.
    + change (List.length (chars "Content-Type: ")) with 14%nat. lia.
    + change (List.length (chars "Content-Length: ")) with 16%nat. unfold dec_u64. lia.
  - destruct (rq_range r) as [g|]; [|reflexivity]. specialize (R g eq_refl). f_equal. apply cut_fits. rewrite app_length.
    change (List.length (chars "Range: ")) with 7%nat. lia.
  - apply cut_fits. rewrite app_length. change (List.length (chars "Authorization: ")) with 15%nat. lia.
Qed.

(* objects have urls of their own *)
Lemma resource_inj r1 r2 : u_a (rq_uuid r1) < 2 ^ 64 -> u_b (rq_uuid r1) < 2 ^ 64 -> u_a (rq_uuid r2) < 2 ^ 64 -> u_b (rq_uuid r2) < 2 ^ 64 ->
  (forall m, rq_id r1 = Some m -> m < 2 ^ 64) -> (forall m, rq_id r2 = Some m -> m < 2 ^ 64) ->
  resource r1 = resource r2 -> rq_uuid r1 = rq_uuid r2 /\ rq_id r1 = rq_id r2.
Proof.
  intros A1 B1 A2 B2 M1 M2 E. unfold resource in E. apply app_inv_head in E.
  pose proof (proj2 (to_string_text (rq_uuid r1))) as L1. pose proof (proj2 (to_string_text (rq_uuid r2))) as L2.
  assert (E1 : uuid_to_string (rq_uuid r1) = uuid_to_string (rq_uuid r2)).
  { apply (f_equal (firstn 36)) in E. rewrite !firstn_app, L1, L2 in E. change (36 - 36)%nat with 0%nat in E. rewrite !firstn_O, !app_nil_r in E.
    rewrite !firstn_all2 in E by lia. exact E. }
  apply uuid_inj in E1 as Eu; auto. split; [exact Eu|]. rewrite E1 in E. apply app_inv_head in E.
  destruct (rq_id r1) as [m1|], (rq_id r2) as [m2|]; try discriminate E; [|reflexivity]. apply app_inv_head in E.
  f_equal. rewrite <- (proj2 (proj2 (dec20_spec m1 (M1 _ eq_refl)))), <- (proj2 (proj2 (dec20_spec m2 (M2 _ eq_refl)))), E. reflexivity.
Qed.

Lemma urls c r1 r2 : (List.length (s3_url c) <= 965)%nat ->
  u_a (rq_uuid r1) < 2 ^ 64 -> u_b (rq_uuid r1) < 2 ^ 64 -> u_a (rq_uuid r2) < 2 ^ 64 -> u_b (rq_uuid r2) < 2 ^ 64 ->
  (forall m, rq_id r1 = Some m -> m < 2 ^ 64) -> (forall m, rq_id r2 = Some m -> m < 2 ^ 64) ->
  url_text c r1 = url_text c r2 -> rq_uuid r1 = rq_uuid r2 /\ rq_id r1 = rq_id r2.
Proof.
  intros U A1 B1 A2 B2 M1 M2 E. unfold url_text in E.
  change ([47] ++ uuid_to_string (rq_uuid r1) ++ _) with (resource r1) in E. change ([47] ++ uuid_to_string (rq_uuid r2) ++ _) with (resource r2) in E.
  rewrite !cut_fits in E by (rewrite app_length; pose proof (resource_length r1); pose proof (resource_length r2); lia).
  apply app_inv_head in E. apply resource_inj; assumption.
Qed.

Lemma long_url : exists url, forall login password u1 m1 u2 m2,
  let c := mk_s3 url login password in url_text c (s3_op_delete u1 m1) = url_text c (s3_op_delete u2 m2).
Proof.
  exists (repeat 97 1023). intros. unfold url_text, cut. cbn [s3_url c]. change (1024 - 1)%nat with 1023%nat.
  rewrite !firstn_app, !repeat_length, Nat.sub_diag, !firstn_O, !app_nil_r. reflexivity.
Qed.
(* one byte more than fits: the last digit is lost, so ten partitions have one object *)
Lemma long_url_drop : exists url, List.length url = 966%nat /\ forall login password u m1 m2,
  m1 / 10 = m2 / 10 -> let c := mk_s3 url login password in url_text c (s3_op_delete u m1) = url_text c (s3_op_delete u m2).
Proof.
  assert (G : forall url, List.length url = 966%nat -> forall login password u m1 m2,
    m1 / 10 = m2 / 10 -> let c := mk_s3 url login password in url_text c (s3_op_delete u m1) = url_text c (s3_op_delete u m2)).
  { intros url L login password u m1 m2 E c. unfold url_text, cut. cbn [s3_url c rq_id rq_uuid s3_op_delete]. change (1024 - 1)%nat with 1023%nat.
    set (P := url ++ [47] ++ uuid_to_string u ++ [47]).
    assert (LP : List.length P = 1004%nat) by (unfold P; rewrite !app_length, L, (proj2 (to_string_text u)); reflexivity).
    assert (D : forall m, url ++ [47] ++ uuid_to_string u ++ [47] ++ dec20 m = P ++ digits 19 (m / 10) ++ [48 + m mod 10]).
    { intros m. unfold P. rewrite <- !app_assoc. unfold dec20. change (digits 20 m) with (digits 19 (m / 10) ++ [48 + m mod 10]). reflexivity. }
    rewrite !D, E. set (Q := digits 19 (m2 / 10)).
    assert (LQ : List.length Q = 19%nat).
    { assert (F : forall k n, List.length (digits k n) = k); [|apply F]. induction k; intros n; cbn [digits]; [reflexivity|]. rewrite app_length, IHk. cbn [List.length]. lia. }
    rewrite (app_assoc P Q [48 + m1 mod 10]), (app_assoc P Q [48 + m2 mod 10]).
    assert (LPQ : List.length (P ++ Q) = 1023%nat) by (rewrite app_length, LP, LQ; reflexivity).
    rewrite (firstn_app 1023 (P ++ Q) [48 + m1 mod 10]), (firstn_app 1023 (P ++ Q) [48 + m2 mod 10]). rewrite LPQ. change (1023 - 1023)%nat with 0%nat. reflexivity. }
  exists (repeat 97 966). split; [apply repeat_length|]. apply G. apply repeat_length.
Qed.

(* ranges *)
Lemma range_size size offset : 1 <= size -> size < 2 ^ 32 -> offset + size <= 2 ^ 64 -> range_end size offset + 1 - offset = size.
Proof.
  intros A B C. unfold range_end. replace (size + 2 ^ 32 - 1) with (size - 1 + 1 * 2 ^ 32) by lia. rewrite N.mod_add by lia.
  rewrite (N.mod_small (size - 1)) by lia. unfold w64. rewrite N.mod_small by (change two64 with (2 ^ 64); lia). lia.
Qed.
Lemma u64_digits n : n < 2 ^ 64 -> Forall digit (dec_u64 n) /\ number (dec_u64 n) = n /\ dec_u64 n <> [].
Proof.
  intros H. assert (T : 2 ^ 64 < 10 ^ N.of_nat 20) by reflexivity.
  unfold dec_u64. assert (G : forall k n, n < 10 ^ N.of_nat k -> (k <> 0)%nat -> Forall digit (dec_n k n) /\ number (dec_n k n) = n /\ dec_n k n <> []).
    { clear. induction k as [|k IH]; intros n H K; [contradiction|]. cbn [dec_n]. destruct (N.ltb_spec n 10).
      - repeat split; [constructor; [unfold digit; lia|constructor]|unfold number; cbn [fold_left]; lia|discriminate].
      - pose proof (N.div_mod n 10 ltac:(lia)) as E. pose proof (N.mod_lt n 10 ltac:(lia)) as M.
        rewrite Nat2N.inj_succ, N.pow_succ_r' in H. assert (D : n / 10 < 10 ^ N.of_nat k) by (apply N.div_lt_upper_bound; lia).
        assert (k <> 0)%nat by (intros ->; change (10 ^ N.of_nat 0) with 1 in D; assert (n / 10 = 0) by lia; lia).
        destruct (IH _ D H1) as (I1 & I2 & I3). split; [|split].
        + apply Forall_app. split; [exact I1|]. constructor; [unfold digit; lia|constructor].
        + rewrite number_snoc, I2. lia.
        + destruct (dec_n k (n / 10)); discriminate. }
    apply G; [lia|discriminate].
Qed.
Lemma range_says size offset : 1 <= size -> size < 2 ^ 32 -> offset + size <= 2 ^ 64 ->
  exists a b, range_text size offset = chars "bytes=" ++ a ++ chars "-" ++ b /\ Forall digit a /\ Forall digit b /\ a <> [] /\ b <> [] /\
    number a = offset /\ number b + 1 = offset + size.
Proof.
  intros A B C. pose proof (range_size size offset A B C) as R.
  assert (T : 2 ^ 64 < 10 ^ N.of_nat 20) by reflexivity.
  assert (E : range_end size offset < 2 ^ 64) by (unfold range_end, w64; change two64 with (2 ^ 64); apply N.mod_lt; lia).
  pose proof u64_digits as F.
  destruct (F offset ltac:(lia)) as (F1 & F2 & F3). destruct (F _ E) as (G1 & G2 & G3).
  exists (dec_u64 offset), (dec_u64 (range_end size offset)). split.
  - unfold range_text. apply cut_fits. rewrite !app_length. unfold dec_u64. pose proof (dec_n_length 20 offset). pose proof (dec_n_length 20 (range_end size offset)).
    change (List.length (chars "bytes=")) with 6%nat. change (List.length (chars "-")) with 1%nat. change (List.length [45]) with 1%nat. lia.
  - repeat split; try assumption. lia.
Qed.
Lemma read_range object buf size offset : 1 <= size -> size < 2 ^ 32 -> offset + size <= N.of_nat (List.length object) -> offset + size <= 2 ^ 64 ->
  exists part, s3_read Ranges object buf size offset = buf ++ part /\ List.length part = N.to_nat size /\
    forall i, (i < N.to_nat size)%nat -> nth_error part i = nth_error object (N.to_nat offset + i).
Proof.
  intros A B C D. unfold s3_read, sent. rewrite (range_size size offset A B D). eexists. split; [reflexivity|]. split.
  - rewrite firstn_length, skipn_length. lia.
  - intros i H. rewrite nth_firstn by exact H. apply nth_skipn.
Qed.
Lemma read_whole : exists object size offset, 1 <= size /\ offset + size <= N.of_nat (List.length object) /\
  List.length (s3_read Whole object [] size offset) <> N.to_nat size.
Proof. exists [1; 2; 3], 1, 2. vm_compute. repeat split; discriminate. Qed.
Lemma read_none : forall object offset, offset + 2 ^ 32 <= 2 ^ 64 -> N.of_nat (List.length object) <= offset + 2 ^ 32 ->
  s3_read Ranges object [] 0 offset = skipn (N.to_nat offset) object.
Proof.
  intros object offset A B. unfold s3_read, sent, range_end. cbn [app]. change ((0 + 2 ^ 32 - 1) mod 2 ^ 32) with (2 ^ 32 - 1).
  unfold w64. rewrite N.mod_small by (change two64 with (2 ^ 64); lia). apply firstn_all2. rewrite skipn_length. lia.
Qed.

(* transfers *)
Lemma upload_prefix limits : forall s f offset, fd_pos (fl_fd f) = offset -> fl_size f = List.length (fd_data (fl_fd f)) -> (offset <= fl_size f)%nat ->
  exists k, upload_bytes s limits f offset = firstn k (skipn offset (fd_data (fl_fd f))).
Proof.
  induction limits as [|limit limits IH]; intros s f offset P Z O; cbn [upload_bytes].
  - exists 0%nat. reflexivity.
  - set (size := if (fl_size f - offset <? limit)%nat then (fl_size f - offset)%nat else limit).
    assert (Hs : (size <= fl_size f - offset)%nat) by (unfold size; destruct (Nat.ltb_spec (fl_size f - offset) limit); lia). clearbody size.
    pose proof (vfs_read_all s [] (fd_data (fl_fd f)) (fd_pos (fl_fd f)) size) as R.
    destruct (vfs_read_at [] s (fd_data (fl_fd f)) (fd_pos (fl_fd f)) size) as [l t|t|]; [|exists 0%nat; reflexivity..].
    destruct R as (-> & R1 & R2). cbn [app].
    destruct (IH t (mk_file (mk_fd (fd_data (fl_fd f)) (fd_pos (fl_fd f) + size)) (fl_size f)) (offset + size)%nat) as (k & E); cbn [fl_fd fl_size fd_pos fd_data]; [lia|exact Z|lia|].
    rewrite E. cbn [fl_fd fd_data]. exists (size + k)%nat. rewrite P, firstn_add, skipn_skipn. reflexivity.
Qed.
Lemma upload_whole s limits content object : s3_upload s limits content = Ok object -> object = content.
Proof.
  unfold s3_upload. destruct (upload_prefix limits s (Vfs.file_open content) 0 eq_refl eq_refl ltac:(lia)) as (k & ->).
  cbn [Vfs.file_open fl_fd fl_size fd_data skipn]. destruct (Nat.eqb_spec (List.length (firstn (List.length content) (firstn k content))) (List.length content)) as [E|]; [|discriminate].
  intros H. injection H as <-. rewrite firstn_firstn in *. rewrite firstn_length in E. apply firstn_all2. lia.
Qed.

Lemma download_data pieces : forall s f, fd_pos (fl_fd f) = List.length (fd_data (fl_fd f)) ->
  match download_pieces s f pieces with
  | (f', true) => fd_data (fl_fd f') = fd_data (fl_fd f) ++ List.concat pieces
  | (f', false) => exists k, fd_data (fl_fd f') = fd_data (fl_fd f) ++ firstn k (List.concat pieces)
  end.
Proof.
  induction pieces as [|l pieces IH]; intros s f P; cbn [download_pieces List.concat].
  - rewrite app_nil_r. reflexivity.
  - assert (W : forall x, os_write (fl_fd f) x = mk_fd (fd_data (fl_fd f) ++ x) (List.length (fd_data (fl_fd f) ++ x))).
    { intros x. rewrite <- os_write_end, <- P. destruct (fl_fd f); reflexivity. }
    pose proof (file_write_all s f l) as R. destruct (Vfs.file_write s f l) as [f' t|f' t|f'].
    + destruct R as [R _]. rewrite W in R. specialize (IH t f'). rewrite R in IH. cbn [fd_pos fd_data] in IH. specialize (IH eq_refl).
      destruct (download_pieces t f' pieces) as [g []].
      * rewrite IH, app_assoc. reflexivity.
      * destruct IH as (k & ->). exists (List.length l + k)%nat. rewrite firstn_past, app_assoc. reflexivity.
    + destruct R as (j & R & _ & J). rewrite W in R. destruct l as [|x l].
      * rewrite firstn_nil, app_nil_r in R. specialize (IH t f'). rewrite R in IH. cbn [fd_pos fd_data] in IH. specialize (IH eq_refl). cbn [app]. exact IH.
      * exists j. rewrite R. cbn [fd_data]. f_equal. rewrite firstn_app. replace (j - List.length (x :: l))%nat with 0%nat by lia. rewrite firstn_O, app_nil_r. reflexivity.
    + destruct R as (j & R & _ & J). rewrite W in R. exists j. rewrite R. cbn [fd_data]. f_equal. rewrite firstn_app. replace (j - List.length l)%nat with 0%nat by lia. rewrite firstn_O, app_nil_r. reflexivity.
Qed.
Lemma download_whole s pieces content : s3_download s pieces = Ok content -> content = List.concat pieces.
Proof.
  unfold s3_download. pose proof (download_data pieces s (Vfs.file_create None) eq_refl) as D.
  destruct (download_pieces s (Vfs.file_create None) pieces) as [f []]; [|discriminate]. intros H. injection H as <-. exact D.
Qed.

Lemma error_text : forall name text c1 c2, http_error name c1 text = http_error name c2 text.
Proof. reflexivity. Qed.
Lemma error_says : forall name code text, N.of_nat (List.length name) < 2 ^ 64 ->
  exists n, Forall digit n /\ n <> [] /\ number n = N.of_nat (List.length name) /\
    http_error name code text = chars "s3: HTTP " ++ n ++ chars " (" ++ name ++ chars ")".
Proof.
  intros name code text H. destruct (u64_digits _ H) as (A & B & C). exists (dec_u64 (N.of_nat (List.length name))).
  split; [exact A|]. split; [exact C|]. split; [exact B|reflexivity].
Qed.

Lemma asks_lines r method u id middle : known r -> rq_method r = method -> rq_uuid r = u -> rq_id r = id ->
  (forall date auth, lines r date auth = [chars "Date: " ++ date] ++ middle ++ [chars "Authorization: " ++ auth]) ->
  asks r method u id middle.
Proof.
  intros K M U I L. split; [exact M|]. split; [unfold resource; rewrite U, I; reflexivity|].
  intros date auth D A. rewrite headers_whole by assumption. apply L.
Qed.
Lemma operations : forall u id size offset,
  asks (s3_op_download u id) "GET" u (Some id) [] /\
  (size < 2 ^ 64 -> exists n, Forall digit n /\ n <> [] /\ number n = size /\
     asks (s3_op_upload u id size) "PUT" u (Some id) (octet_lines n)) /\
  asks (s3_op_delete u id) "DELETE" u (Some id) [] /\
  (1 <= size -> size < 2 ^ 32 -> offset + size <= 2 ^ 64 ->
     exists a b, Forall digit a /\ Forall digit b /\ a <> [] /\ b <> [] /\ number a = offset /\ number b + 1 = offset + size /\
       asks (s3_op_read u id size offset) "GET" u (Some id) [chars "Range: bytes=" ++ a ++ chars "-" ++ b]) /\
  asks (s3_op_create_bucket u) "PUT" u None (octet_lines (chars "0")) /\
  asks (s3_op_drop_bucket u) "DELETE" u None [].
Proof.
  intros u id size offset.
  split; [apply asks_lines; try reflexivity; left; eauto|].
  split.
  { intros H. destruct (u64_digits _ H) as (A & B & C). exists (dec_u64 size). split; [exact A|]. split; [exact C|]. split; [exact B|].
    apply asks_lines; try reflexivity. right; left; eauto. }
  split; [apply asks_lines; try reflexivity; right; right; left; eauto|].
  split.
  { intros H1 H2 H3. destruct (range_says size offset H1 H2 H3) as (a & b & E & A & B & C & D & F & G).
    exists a, b. repeat (split; [assumption|]). apply asks_lines; try reflexivity.
    - right; right; right; left; eauto 6.
    - intros date auth. unfold lines. cbn [rq_type rq_range s3_op_read]. rewrite E. reflexivity. }
  split; apply asks_lines; try reflexivity; right; right; right; right; eauto.
Qed.
