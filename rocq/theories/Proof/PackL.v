(* Compression and encryption over the libraries. *)
From Coq Require Import NArith ZArith Arith List Bool Lia FinFun.
Import ListNotations.
From Verif Require Import Model.Base Model.Codec Model.Buf Model.Pack Spec.Checksum Spec.Buffers Spec.Packing.
From Verif Require Import Proof.BufL Proof.CodecL.
Local Open Scope Z_scope.

Lemma total_len argv : total argv = len (concat argv).
Proof. induction argv as [|l argv IH]; [reflexivity|]. cbn [total concat fold_right] in *. fold (total argv). rewrite len_app, IH. reflexivity. Qed.
Lemma reserve_empty cap n : 0 <= cap < 2 ^ 30 -> 0 <= n < 2 ^ 31 ->
  buf_reserve (mk_buf [] cap) n = Ok (mk_buf [] (grown cap n)) /\ n <= grown cap n < 2 ^ 31 /\ cap <= grown cap n.
Proof.
  intros Hc Hn. unfold buf_reserve, buf_size_unused, grown, buf_size, buf_capacity. cbn [b_bytes b_cap]. change (len []) with 0.
  rewrite !Z.sub_0_r, !i32_small by lia. destruct (Z.leb_spec n cap); [split; [reflexivity|lia]|].
  rewrite !int_of_ok by lia. cbn [bind]. rewrite Z.add_0_l. destruct (Z.ltb_spec (cap * 2) n); match goal with |- context [?a <? 0] => destruct (Z.ltb_spec a 0) end; try lia; split; try lia; f_equal; f_equal; lia.
Qed.

Section Z.
Variable frame : Z -> list N -> list N.
Variable content : list N -> Z -> option (list N).
Variable magic : N.
Hypothesis K : zstd_ok frame content magic.
Notation compress := (compression_zstd_compress frame).
Notation decompress := (compression_zstd_decompress content).

Lemma zstd_compress checked cap level argv : 0 <= cap < 2 ^ 30 -> len (concat argv) < 2 ^ 31 ->
  let c := grown cap (len (concat argv)) in let f := frame level (concat argv) in
  compress checked (mk_buf [] cap) level argv =
    if len f <=? c then Ok (mk_buf f c) else if checked then UB else Ok (mk_buf (firstn (Z.to_nat c) f) c).
Proof.
  intros Hc Hn c f. subst c. unfold compression_zstd_compress. rewrite total_len. assert (P := len_pos (concat argv)). rewrite i32_small by lia.
  destruct (reserve_empty cap (len (concat argv)) Hc ltac:(lia)) as (E & G1 & G2). rewrite E. cbn [bind].
  set (c := grown cap (len (concat argv))) in *.
  assert (U : buf_size_unused (mk_buf [] c) = c).
  { unfold buf_size_unused. cbn [b_bytes b_cap]. change (len []) with 0. rewrite Z.sub_0_r. apply i32_small. lia. }
  rewrite U. change (frame level (concat argv)) with f. destruct (Z.leb_spec (len f) c).
  - destruct (Z.ltb_spec c (len f)); [lia|]. rewrite andb_false_r. rewrite firstn_all2 by (unfold len in *; lia).
    rewrite advance_ok; [reflexivity|]. cbn [b_bytes b_cap]. change (len []) with 0. lia.
  - destruct (Z.ltb_spec c (len f)); [|lia]. rewrite andb_true_r. destruct checked; [reflexivity|].
    rewrite advance_ok; [reflexivity|]. cbn [b_bytes b_cap]. change (len []) with 0. unfold len in *. rewrite firstn_length. lia.
Qed.
Lemma zstd_back cap level x : bytes x -> 0 <= cap < 2 ^ 30 -> len x < 2 ^ 31 ->
  exists c, decompress (mk_buf [] cap) (frame level x) (len x) = Ok (mk_buf x c).
Proof.
  intros Bx Hc Hn. assert (P := len_pos x). destruct (reserve_empty cap (len x) Hc ltac:(lia)) as (E & G1 & G2).
  unfold compression_zstd_decompress. rewrite E. cbn [bind]. rewrite (zs_content _ _ _ K) by (try assumption; unfold size_of, len; lia).
  rewrite Z.eqb_refl. rewrite advance_ok; [eexists; reflexivity|]. cbn [b_bytes b_cap]. change (len []) with 0. lia.
Qed.
Lemma zstd_cut cap level x k n : 0 <= cap < 2 ^ 30 -> 0 <= n < 2 ^ 31 -> (k < length (frame level x))%nat ->
  decompress (mk_buf [] cap) (firstn k (frame level x)) n = Err.
Proof.
  intros Hc Hn Hk. destruct (reserve_empty cap n Hc Hn) as (E & _). unfold compression_zstd_decompress. rewrite E. cbn [bind].
  now rewrite (zs_cut _ _ _ K).
Qed.
Theorem zstd_pair : forall checked cap cap' level argv, bytes (concat argv) -> 0 <= cap < 2 ^ 30 -> 0 <= cap' < 2 ^ 30 -> len (concat argv) < 2 ^ 31 ->
  let x := concat argv in let c := grown cap (len x) in
  (len (frame level x) <= c ->
    exists z c', compress checked (mk_buf [] cap) level argv = Ok (mk_buf z c) /\ decompress (mk_buf [] cap') z (len x) = Ok (mk_buf x c')) /\
  (c < len (frame level x) ->
    compress true (mk_buf [] cap) level argv = UB /\
    exists z, compress false (mk_buf [] cap) level argv = Ok (mk_buf z c) /\ decompress (mk_buf [] cap') z (len x) = Err).
Proof.
  intros checked cap cap' level argv Hb Hc Hc' Hn x c. pose proof (zstd_compress checked cap level argv Hc Hn) as E.
  pose proof (zstd_compress true cap level argv Hc Hn) as T. pose proof (zstd_compress false cap level argv Hc Hn) as F. cbn zeta in *.
  fold x in E, T, F. fold c in E, T, F. assert (P := len_pos x). destruct (reserve_empty cap (len x) Hc ltac:(split; [exact P|exact Hn])) as (_ & G & _). fold c in G. split; intro H.
  - apply Z.leb_le in H. rewrite H in E. destruct (zstd_back cap' level x Hb Hc' Hn) as [c' B]. exists (frame level x), c'. auto.
  - apply Z.leb_gt in H as H'. rewrite H' in T, F. split; [exact T|]. eexists. split; [exact F|]. apply zstd_cut; [exact Hc'|split; [exact P|exact Hn]|]. unfold len in *. lia.
Qed.

(* any library *)
Section Pigeons.
Variable base : list N.
Hypothesis two : (2 <= length base)%nat.
Hypothesis distinct : NoDup base.
Fixpoint all (n : nat) : list (list N) := match n with O => [[]] | S n => flat_map (fun b => map (cons b) (all n)) base end.
Fixpoint upto (n : nat) : list (list N) := match n with O => [[]] | S n => [] :: flat_map (fun b => map (cons b) (upto n)) base end.
Lemma flat_length (l : list (list N)) bs : length (flat_map (fun b : N => map (cons b) l) bs) = (length bs * length l)%nat.
Proof. induction bs as [|b bs IH]; [reflexivity|]. cbn [flat_map]. rewrite app_length, map_length, IH. reflexivity. Qed.
Lemma all_length n : length (all n) = (length base ^ n)%nat.
Proof. induction n as [|n IH]; [reflexivity|]. cbn [all]. rewrite flat_length, IH. reflexivity. Qed.
Lemma upto_length n : (length (upto n) < length base ^ (S n))%nat.
Proof.
  induction n as [|n IH]; [cbn; lia|]. cbn [upto length]. rewrite flat_length. cbn [Nat.pow] in *. set (p := (length base ^ n)%nat) in *. nia.
Qed.
Lemma in_all n l : In l (all n) <-> length l = n /\ incl l base.
Proof.
  revert l. induction n as [|n IH]; intro l; cbn [all].
  - split; [intros [<-|[]]; split; [reflexivity|intros x []]|intros [H _]; destruct l; [now left|discriminate]].
  - rewrite in_flat_map. split.
    + intros (b & Hb & H). apply in_map_iff in H. destruct H as (m & <- & H). apply IH in H. destruct H as [H1 H2]. split; [cbn; lia|].
      intros y [<-|Hy]; [exact Hb|apply H2, Hy].
    + intros [H1 H2]. destruct l as [|b l]; [discriminate|]. exists b. split; [apply H2; now left|]. apply in_map. apply IH. split; [cbn in H1; lia|]. intros y Hy. apply H2. now right.
Qed.
Lemma in_upto n l : (length l <= n)%nat -> incl l base -> In l (upto n).
Proof.
  revert l. induction n as [|n IH]; intros l H1 H2.
  - destruct l; [now left|cbn in H1; lia].
  - destruct l as [|b l]; [now left|]. right. apply in_flat_map. exists b. split; [apply H2; now left|]. apply in_map, IH; [cbn in H1; lia|]. intros y Hy. apply H2. now right.
Qed.
Lemma nodup_app (a b : list (list N)) : NoDup a -> NoDup b -> (forall x, In x a -> ~ In x b) -> NoDup (a ++ b).
Proof.
  induction a as [|x a IH]; intros Ha Hb D; [exact Hb|]. inversion Ha as [|? ? N1 N2]. subst. cbn. constructor.
  - rewrite in_app_iff. intros [H|H]; [contradiction|]. apply (D x); [now left|exact H].
  - apply IH; [exact N2|exact Hb|]. intros y Hy. apply D. now right.
Qed.
Lemma nodup_flat (l : list (list N)) : NoDup l -> forall bs, NoDup bs -> NoDup (flat_map (fun b : N => map (cons b) l) bs).
Proof.
  intro Hl. induction bs as [|b bs IH]; intro Hb; [constructor|]. inversion Hb as [|? ? N1 N2]. subst. cbn [flat_map]. apply nodup_app; [|apply IH, N2|].
  - clear IH. induction Hl as [|x l H1 H2 IH]; [constructor|]. cbn. constructor; [|exact IH]. rewrite in_map_iff. intros (y & E & Hy). injection E as E. now subst.
  - intros x Hx H. apply in_map_iff in Hx. destruct Hx as (y & <- & _). apply in_flat_map in H. destruct H as (c & Hc & H). apply in_map_iff in H. destruct H as (z & E & _).
    injection E as E _. now subst.
Qed.
Lemma all_nodup n : NoDup (all n).
Proof. induction n as [|n IH]; [constructor; [intros []|constructor]|]. cbn [all]. apply nodup_flat; assumption. Qed.
Lemma same_or_not (f : list N -> list N) : forall l, NoDup l -> (exists x y, In x l /\ In y l /\ x <> y /\ f x = f y) \/ NoDup (map f l).
Proof.
  induction l as [|a l IH]; intro H; [right; constructor|]. inversion H as [|? ? N1 N2]. subst.
  destruct (in_dec (list_eq_dec N.eq_dec) (f a) (map f l)) as [I|I].
  - left. apply in_map_iff in I. destruct I as (y & E & I). exists a, y. split; [now left|]. split; [now right|]. split; [intros ->; contradiction|auto].
  - destruct (IH N2) as [(x & y & Hx & Hy & D & E)|D]; [left; exists x, y; split; [now right|]; split; [now right|]; auto|]. right. cbn. now constructor.
Qed.
Lemma pigeons (f : list N -> list N) m n : In m base ->
  (forall x, length x = S n -> incl x base -> exists r, f x = m :: r /\ (length r <= n)%nat /\ incl r base) ->
  exists x y, length x = S n /\ length y = S n /\ incl x base /\ incl y base /\ x <> y /\ f x = f y.
Proof.
  intros Hm H. destruct (same_or_not f (all (S n)) (all_nodup _)) as [(x & y & Hx & Hy & D & E)|D].
  - apply in_all in Hx, Hy. exists x, y. tauto.
  - exfalso. assert (I : incl (map f (all (S n))) (map (cons m) (upto n))).
    { intros z Hz. apply in_map_iff in Hz. destruct Hz as (x & <- & Hx). apply in_all in Hx. destruct Hx as [L B]. destruct (H x L B) as (r & -> & R1 & R2). apply in_map, in_upto; assumption. }
    pose proof (NoDup_incl_length D I) as L. rewrite !map_length, all_length in L. pose proof (upto_length n). lia.
Qed.
End Pigeons.

Definition every_byte : list N := map N.of_nat (seq 0 256).
Lemma every_byte_in b : In b every_byte <-> (b < 256)%N.
Proof.
  unfold every_byte. rewrite in_map_iff. split.
  - intros (k & <- & H). apply in_seq in H. lia.
  - intro H. exists (N.to_nat b). split; [lia|]. apply in_seq. lia.
Qed.
Lemma every_byte_nodup : NoDup every_byte.
Proof. unfold every_byte. apply Injective_map_NoDup; [intros a b; apply Nat2N.inj|apply seq_NoDup]. Qed.
Lemma incl_bytes l : incl l every_byte <-> bytes l.
Proof.
  unfold bytes. rewrite Forall_forall. split; intros H x Hx; apply every_byte_in, H, Hx.
Qed.

(* of every length there is a content that is not given back *)
Theorem zstd_lost : forall level n, 0 < n < 2 ^ 30 -> exists x, bytes x /\ len x = n /\
  compress true buf_init level [x] = UB /\
  exists z, compress false buf_init level [x] = Ok z /\ decompress buf_init (b_bytes z) n = Err.
Proof.
  intros level n Hn. set (k := Z.to_nat n). assert (Ek : k = S (Nat.pred k)) by (subst k; lia).
  set (f := fun x => firstn k (frame level x)).
  assert (two : (2 <= length every_byte)%nat) by (unfold every_byte; rewrite map_length, seq_length; apply (Nat.leb_le 2 256); reflexivity).
  destruct (zs_magic _ _ _ K level []) as (r0 & E0 & B0). rewrite E0 in B0. inversion B0 as [|? ? Hm _]. subst.
  destruct (pigeons every_byte two every_byte_nodup f magic (Nat.pred k)) as (x & y & Lx & Ly & Bx & By & D & E).
  - apply every_byte_in, Hm.
  - intros x _ _. destruct (zs_magic _ _ _ K level x) as (r & E & B). unfold f. rewrite Ek, E. cbn [firstn Nat.pred]. exists (firstn (Nat.pred k) r). split; [reflexivity|].
    rewrite firstn_length. split; [lia|]. apply incl_bytes. rewrite E in B. inversion B as [|? ? _ Br]. apply Forall_forall. intros b Hb. eapply Forall_forall in Br; [exact Br|].
    clear -Hb. revert Hb. generalize (Nat.pred k). clear. induction r as [|c r IH]; intros [|j] H; cbn in H; try contradiction. destruct H as [H|H]; [now left|right; eapply IH, H].
  - rewrite <- Ek in Lx, Ly. apply incl_bytes in Bx, By.
    assert (W : forall x, length x = k -> len x = n) by (intros z Hz; unfold len; subst k; lia).
    assert (L : n < len (frame level x) \/ n < len (frame level y)).
    { destruct (Z.ltb_spec n (len (frame level x))) as [|Hx]; [now left|]. destruct (Z.ltb_spec n (len (frame level y))) as [|Hy]; [now right|]. exfalso. apply D.
      unfold f in E. rewrite !firstn_all2 in E by (unfold len in *; lia). assert (Q : Some x = Some y); [|now injection Q].
      rewrite <- (zs_content _ _ _ K level x n), <- (zs_content _ _ _ K level y n), E; [reflexivity| | | |]; try assumption; unfold size_of; fold (len x) (len y); rewrite W; auto; lia. }
    assert (G : forall x, bytes x -> length x = k -> n < len (frame level x) -> exists x, bytes x /\ len x = n /\ compress true buf_init level [x] = UB /\
      exists z, compress false buf_init level [x] = Ok z /\ decompress buf_init (b_bytes z) n = Err).
    { clear -K W Hn. intros x Bx Lx H. exists x. split; [exact Bx|]. split; [apply W, Lx|].
      destruct (zstd_pair false 0 0 level [x]) as (_ & P); [cbn [concat]; rewrite app_nil_r; exact Bx|lia|lia|cbn [concat]; rewrite app_nil_r, (W x Lx); lia|].
      cbn [concat] in P. rewrite app_nil_r, (W x Lx) in P. replace (grown 0 n) with n in P by (unfold grown; destruct (Z.leb_spec n 0); lia).
      destruct (P H) as (P1 & z & P2 & P3). split; [exact P1|]. eexists. split; [exact P2|exact P3]. }
    destruct L as [L|L]; [apply (G x)|apply (G y)]; assumption.
Qed.
End Z.

Section L.
Variable bound : Z -> Z -> Z.
Variable start : Z -> list N.
Variable update : Z -> list (list N) -> list N -> list N.
Variable finish : Z -> list (list N) -> list N.
Variable step : list N -> list N -> Z -> option (nat * list N).
Hypothesis K : lz4_ok bound start update finish step.
Definition bounds (level : Z) (argv : list (list N)) : Z := fold_right (fun l n => bound level (len l) + n) 0 argv.
Notation updated := (lz4_updated update).
Lemma frame_updated level argv : lz4_frame start update finish level argv = start level ++ updated level [] argv ++ finish level argv.
Proof. reflexivity. Qed.
Lemma updated_bound level : forall argv past, len (updated level past argv) <= bounds level argv.
Proof.
  induction argv as [|l argv IH]; intro past; [cbn; lia|]. cbn [lz4_updated bounds fold_right]. rewrite len_app. fold (bounds level argv).
  pose proof (lz_update _ _ _ _ _ K level past l) as H. pose proof (IH (past ++ [l])). unfold size_of in H. fold (len (update level past l)) (len l) in H. lia.
Qed.
Lemma updates_ok level : forall argv past b, len (b_bytes b) + bounds level argv <= b_cap b ->
  lz4_updates update b level past argv = Ok (mk_buf (b_bytes b ++ updated level past argv) (b_cap b)).
Proof.
  induction argv as [|l argv IH]; intros past b H; cbn [lz4_updates lz4_updated].
  - rewrite app_nil_r. destruct b; reflexivity.
  - cbn [bounds fold_right] in H. fold (bounds level argv) in H. pose proof (lz_update _ _ _ _ _ K level past l) as U. unfold size_of in U. fold (len (update level past l)) (len l) in U.
    assert (P : 0 <= bounds level argv) by (pose proof (updated_bound level argv []); assert (Q := len_pos (updated level [] argv)); lia).
    rewrite advance_ok by lia. cbn [bind]. rewrite IH; cbn [b_bytes b_cap]; [now rewrite app_assoc|]. rewrite len_app. lia.
Qed.
Lemma lz4_compress cap level argv : 0 <= cap < 2 ^ 30 -> 19 + bound (lz4_level level) 0 + bounds (lz4_level level) argv < 2 ^ 31 ->
  exists c, compression_lz4_compress bound start update finish (mk_buf [] cap) level argv =
    Ok (mk_buf (lz4_frame start update finish (lz4_level level) argv) c).
Proof.
  intros Hc Hb. unfold compression_lz4_compress. fold (bounds (lz4_level level) argv). set (v := lz4_level level) in *. unfold LZ4F_HEADER_SIZE_MAX.
  pose proof (lz_start _ _ _ _ _ K v) as S1. pose proof (lz_finish _ _ _ _ _ K v argv) as S2. pose proof (updated_bound v argv []) as S3.
  unfold size_of in S1, S2. fold (len (start v)) in S1. fold (len (finish v argv)) in S2.
  assert (P1 := len_pos (start v)). assert (P2 := len_pos (finish v argv)). assert (P3 := len_pos (updated v [] argv)).
  rewrite i32_small by lia. destruct (reserve_empty cap (19 + bound v 0 + bounds v argv) Hc ltac:(lia)) as (E & G1 & G2). rewrite E. cbn [bind].
  set (c := grown cap (19 + bound v 0 + bounds v argv)) in *.
  rewrite advance_ok by (cbn [b_bytes b_cap]; change (len []) with 0; lia). cbn [bind b_bytes b_cap app].
  rewrite updates_ok by (cbn [b_bytes b_cap]; lia). cbn [bind b_bytes b_cap].
  rewrite advance_ok by (cbn [b_bytes b_cap]; rewrite len_app; lia). exists c. cbn [b_bytes b_cap]. rewrite frame_updated, app_assoc. reflexivity.
Qed.
Lemma skipn_skipn (l : list N) : forall i n, skipn n (skipn i l) = skipn (i + n) l.
Proof. induction l as [|a l IH]; intros [|i] n; cbn; rewrite ?skipn_nil; auto. Qed.
Lemma loop_ok f x : decodes step f x -> forall cap, len x <= cap < 2 ^ 31 -> forall fuel, (length f <= fuel)%nat ->
  lz4_loop step fuel (mk_buf [] cap) [] f = Ok (mk_buf x cap).
Proof.
  intros (W & W0 & W1 & W2) cap Hc.
  assert (G : forall fuel i j, W i j -> (i <= length f)%nat -> (j <= length x)%nat -> (length f - i <= fuel)%nat ->
    lz4_loop step fuel (mk_buf (firstn j x) cap) (firstn i f) (skipn i f) = Ok (mk_buf x cap)).
  { induction fuel as [|fuel IH]; intros i j Hw Hi Hj Hf.
    - assert (i = length f) by lia. subst i. rewrite skipn_all. apply W2 in Hw. subst j. rewrite firstn_all. reflexivity.
    - destruct (Nat.eq_dec i (length f)) as [->|D].
      + rewrite skipn_all. apply W2 in Hw. subst j. rewrite firstn_all. reflexivity.
      + assert (U : buf_size_unused (mk_buf (firstn j x) cap) = cap - Z.of_nat j).
        { unfold buf_size_unused. cbn [b_bytes b_cap]. unfold len in *. rewrite firstn_length, Nat.min_l by lia. apply i32_small. lia. }
        destruct (W1 i j (cap - Z.of_nat j) Hw ltac:(lia)) as (n & l & E & H1 & H2 & H3 & H4 & H5); [unfold size_of, len in *; lia|].
        destruct (skipn i f) as [|b0 t] eqn:S; [apply (f_equal (@length N)) in S; rewrite skipn_length in S; cbn in S; lia|].
        cbn [lz4_loop]. rewrite U, E. rewrite advance_ok by (cbn [b_bytes b_cap]; unfold len in *; rewrite firstn_length; lia). cbn [bind b_bytes b_cap].
        rewrite <- S. replace (firstn j x ++ l) with (firstn (j + length l) x).
        replace (firstn i f ++ firstn n (skipn i f)) with (firstn (i + n) f). rewrite skipn_skipn.
        apply IH; [exact H5|lia|lia|lia].
        * rewrite <- (firstn_skipn i f) at 1. rewrite firstn_app, firstn_firstn, firstn_length, Nat.min_r by lia.
          replace (i + n - Nat.min i (length f))%nat with n by lia. reflexivity.
        * rewrite <- (firstn_skipn j x) at 1. rewrite firstn_app, firstn_firstn, firstn_length, Nat.min_r by lia.
          replace (j + length l - Nat.min j (length x))%nat with (length l) by lia. rewrite <- H3. reflexivity. }
  intros fuel Hf. exact (G fuel O O W0 ltac:(lia) ltac:(lia) ltac:(lia)).
Qed.
Theorem lz4_pair : forall cap cap' level argv fuel, 0 <= cap < 2 ^ 30 -> 0 <= cap' < 2 ^ 30 -> len (concat argv) < 2 ^ 31 ->
  19 + bound (lz4_level level) 0 + bounds (lz4_level level) argv < 2 ^ 31 ->
  exists z c c', compression_lz4_compress bound start update finish (mk_buf [] cap) level argv = Ok (mk_buf z c) /\
    ((length z <= fuel)%nat -> compression_lz4_decompress step fuel (mk_buf [] cap') z (len (concat argv)) = Ok (mk_buf (concat argv) c')).
Proof.
  intros cap cap' level argv fuel Hc Hc' Hn Hb. destruct (lz4_compress cap level argv Hc Hb) as [c E]. eexists _, c, (grown cap' (len (concat argv))). split; [exact E|].
  intro Hf. unfold compression_lz4_decompress. assert (P := len_pos (concat argv)). destruct (reserve_empty cap' (len (concat argv)) Hc' ltac:(lia)) as (R & G1 & G2). rewrite R. cbn [bind].
  rewrite (loop_ok _ _ (lz_step _ _ _ _ _ K (lz4_level level) argv) _ G1 fuel Hf). cbn [bind]. unfold buf_size. cbn [b_bytes]. rewrite i32_small by lia. now rewrite Z.eqb_refl.
Qed.
End L.

Section A.
Variable seal : list N -> list N -> list N -> list N * list N.
Variable unseal : list N -> list N -> list N -> list N -> option (list N).
Hypothesis K : aes_ok seal unseal.
Theorem aes_pair : forall r1 r2 key cap cap' argv, length key = 32%nat -> 0 <= cap < 2 ^ 30 -> 0 <= cap' < 2 ^ 30 -> len (concat argv) < 2 ^ 31 - 64 ->
  exists z c c', encryption_aes_encrypt seal r1 r2 key (mk_buf [] cap) argv = Ok (mk_buf z c) /\ len z = 32 + len (concat argv) /\
    encryption_aes_decrypt unseal key (mk_buf [] cap') z = Ok (mk_buf (concat argv) c').
Proof.
  intros r1 r2 key cap cap' argv Hk Hc Hc' Hn. assert (P := len_pos (concat argv)). unfold encryption_aes_encrypt, encryption_aes_decrypt, EVP_MAX_BLOCK_LENGTH. rewrite Hk. cbn [Nat.eqb negb]. rewrite total_len.
  rewrite i32_small by lia. destruct (reserve_empty cap (32 + 32 + len (concat argv)) Hc ltac:(lia)) as (E & G1 & G2). rewrite E. cbn [bind].
  set (iv := pack [(8%nat, r1); (8%nat, r2)]). assert (Li : length iv = 16%nat) by (unfold iv; cbn; reflexivity).
  pose proof (ae_size _ _ K key (firstn 12 iv) (concat argv)) as [S1 S2]. pose proof (ae_back _ _ K key (firstn 12 iv) (concat argv)) as B.
  destruct (seal key (firstn 12 iv) (concat argv)) as [c tag] eqn:Es. cbn [fst snd] in S1, S2, B.
  assert (Lz : len (iv ++ tag ++ c) = 32 + len (concat argv)) by (rewrite !len_app; unfold len; lia).
  rewrite advance_ok by (cbn [b_bytes b_cap]; change (len []) with 0; lia). cbn [b_bytes b_cap app].
  destruct (reserve_empty cap' (32 + len (concat argv)) Hc' ltac:(lia)) as (E' & G1' & G2').
  exists (iv ++ tag ++ c), (grown cap (32 + 32 + len (concat argv))), (grown cap' (32 + len (concat argv))). split; [reflexivity|]. split; [exact Lz|].
  rewrite Lz, E'. cbn [bind]. destruct (Z.ltb_spec (32 + len (concat argv)) 32); [lia|].
  assert (F1 : firstn 12 (iv ++ tag ++ c) = firstn 12 iv) by (rewrite firstn_app, Li; change (12 - 16)%nat with O; rewrite firstn_O; apply app_nil_r).
  assert (F2 : firstn 16 (skipn 16 (iv ++ tag ++ c)) = tag).
  { rewrite skipn_app, Li. cbn [Nat.sub]. rewrite skipn_all2 by lia. cbn [app]. change (skipn 0 (tag ++ c)) with (tag ++ c). rewrite firstn_app, S2, Nat.sub_diag, firstn_O, app_nil_r. apply firstn_all2. lia. }
  assert (F3 : skipn 32 (iv ++ tag ++ c) = c).
  { rewrite app_assoc, skipn_app, app_length, Li, S2. cbn [Nat.sub Nat.add]. rewrite skipn_all2 by (rewrite app_length; lia). reflexivity. }
  rewrite F1, F2, F3, B. rewrite advance_ok by (cbn [b_bytes b_cap]; change (len []) with 0; lia). reflexivity.
Qed.
End A.
