(* Files that are compressed and encrypted by the code over the libraries. *)
From Coq Require Import NArith ZArith Arith List Bool Lia.
Import ListNotations.
From Verif Require Import Model.Base Model.Event Model.Codec Model.Buf Model.Pack Model.File Model.Packed
  Spec.Order Spec.Checksum Spec.Files Spec.Buffers Spec.Packing Spec.Packed Spec.Sealed.
From Verif Require Import Proof.BufL Proof.CodecL Proof.PackL Proof.FileL Proof.FileW Proof.FileR Proof.FileC Proof.FileP Proof.PackX.
Local Open Scope Z_scope.

Section P.
Variable frame : Z -> list byte -> list byte.
Variable content : list byte -> Z -> option (list byte).
Variable magic : N.
Variable bound : Z -> Z -> Z.
Variable start : Z -> list byte.
Variable update : Z -> list (list byte) -> list byte -> list byte.
Variable finish : Z -> list (list byte) -> list byte.
Variable step : list byte -> list byte -> Z -> option (nat * list byte).
Variable aes : list byte -> list byte -> list byte -> list byte * list byte.
Variable unaes : list byte -> list byte -> list byte -> list byte -> option (list byte).
Hypothesis KZ : zstd_ok frame content magic.
Hypothesis KL : lz4_ok bound start update finish step.
Hypothesis KA : aes_ok aes unaes.
Hypothesis KB : bytes_ok start update finish aes.
Variables rc re : nat -> Z.
Variables dc de : Z.
Variable pieces : nat -> list byte -> list (list byte).
Variable level : Z.
Variable rnd : nat -> N * N.
Variable key : list byte.
Hypothesis Hrc : rooms_ok rc.
Hypothesis Hre : rooms_ok re.
Hypothesis Hdc : 0 <= dc < 2 ^ 29.
Hypothesis Hde : 0 <= de < 2 ^ 29.
Hypothesis Hp : pieces_ok pieces.
Hypothesis Hk : length key = 32%nat.
Variable s : source.
Hypothesis Hc : (so_compression s <= 2)%N.
Hypothesis He : (so_encryption s <= 1)%N.

Notation compress := (file_compress frame bound start update finish rc pieces level).
Notation decompress := (file_decompress content step dc).
Notation encrypt := (file_encrypt aes re rnd key).
Notation decrypt := (file_decrypt unaes de key).

Lemma bytes_app a b : bytes a -> bytes b -> bytes (a ++ b).
Proof. unfold bytes. intros. apply Forall_app. auto. Qed.
Lemma bytes_firstn k l : bytes l -> bytes (firstn k l).
Proof. unfold bytes. rewrite !Forall_forall. intros H x Hx. apply H. rewrite <- (firstn_skipn k l). apply in_or_app. now left. Qed.
Lemma bytes_nil : bytes [].
Proof. constructor. Qed.
Lemma updated_bytes lv : forall argv past, bytes (concat argv) -> bytes (lz4_updated update lv past argv).
Proof.
  induction argv as [|l argv IH]; intros past H; [constructor|]. cbn [lz4_updated concat] in *. apply Forall_app in H as [H1 H2].
  apply bytes_app; [apply (by_update _ _ _ _ KB), H1|apply IH, H2].
Qed.
Lemma advance_bytes b l b' : bytes (b_bytes b) -> bytes l -> buf_advance b l = Ok b' -> bytes (b_bytes b').
Proof. intros H1 H2. unfold buf_advance. destruct (_ <=? _); [|discriminate]. intro E. injection E as <-. apply bytes_app; assumption. Qed.
Lemma reserve_bytes b n b' : buf_reserve b n = Ok b' -> b_bytes b' = b_bytes b.
Proof.
  unfold buf_reserve. destruct (_ <=? _); [intro E; now injection E as <-|].
  destruct (int_of _); [|discriminate|discriminate]. cbn [bind]. destruct (int_of _); [|discriminate|discriminate]. cbn [bind].
  destruct (_ <? 0); [discriminate|]. intro E. now injection E as <-.
Qed.

Lemma taken_bytes r : (forall b, r = Ok b -> bytes (b_bytes b)) -> bytes (taken r).
Proof. intro H. destruct r as [b| |]; [apply H; reflexivity|constructor|constructor]. Qed.
Lemma updates_bytes lv : forall argv past b b', bytes (b_bytes b) -> bytes (concat argv) -> lz4_updates update b lv past argv = Ok b' -> bytes (b_bytes b').
Proof.
  induction argv as [|l argv IH]; intros past b b' Hb H; cbn [lz4_updates]; [intro E; injection E as <-; exact Hb|].
  cbn [concat] in H. apply Forall_app in H as [H1 H2]. destruct (buf_advance b (update lv past l)) as [b1| |] eqn:E1; cbn [bind]; try discriminate.
  apply advance_bytes in E1; [|exact Hb|apply (by_update _ _ _ _ KB), H1]. apply IH; assumption.
Qed.
Lemma compress_bytes id n b : bytes b -> bytes (compress id n b).
Proof.
  intro H. unfold file_compress. rewrite <- (Hp n b) in H.
  destruct (id =? COMPRESSION_ZSTD)%N; [|destruct (id =? COMPRESSION_LZ4)%N; [|constructor]]; apply taken_bytes; intros x E.
  - unfold compression_zstd_compress in E. destruct (buf_reserve _ _) as [b1| |] eqn:E1; cbn [bind] in E; try discriminate.
    apply reserve_bytes in E1. cbn [andb] in E. apply advance_bytes in E; [exact E|rewrite E1; constructor|].
    apply bytes_firstn. destruct (zs_magic _ _ _ KZ level (concat (pieces n b))) as (r & _ & B). exact B.
  - unfold compression_lz4_compress in E. destruct (buf_reserve _ _) as [b1| |] eqn:E1; cbn [bind] in E; try discriminate. apply reserve_bytes in E1. cbn [b_bytes] in E1.
    destruct (buf_advance b1 _) as [b2| |] eqn:E2; cbn [bind] in E; try discriminate. apply advance_bytes in E2; [|rewrite E1; constructor|apply (by_start _ _ _ _ KB)].
    destruct (lz4_updates _ _ _ _ _) as [b3| |] eqn:E3; cbn [bind] in E; try discriminate. apply updates_bytes in E3; [|exact E2|exact H].
    apply advance_bytes in E; [exact E|exact E3|apply (by_finish _ _ _ _ KB), H].
Qed.
Lemma encrypt_bytes id n b : bytes b -> bytes (encrypt id n b).
Proof.
  intro H. unfold file_encrypt. destruct (id =? ENCRYPTION_AES)%N; [|constructor]. apply taken_bytes. intros x E.
  unfold encryption_aes_encrypt in E. rewrite Hk in E. cbn [Nat.eqb negb] in E.
  destruct (buf_reserve _ _) as [b1| |] eqn:E1; cbn [bind] in E; try discriminate. apply reserve_bytes in E1.
  cbn [concat] in E. rewrite app_nil_r in E. pose proof (by_aes _ _ _ _ KB key (firstn 12 (pack [(8%nat, fst (rnd n)); (8%nat, snd (rnd n))])) b H) as [B1 B2].
  destruct (aes key _ b) as [c tag]. cbn [fst snd] in B1, B2. apply advance_bytes in E; [exact E|rewrite E1; constructor|].
  apply bytes_app; [apply pack_bytes|apply bytes_app; assumption].
Qed.
Lemma packed_bytes : stays_bytes compress encrypt s.
Proof.
  intros n b H. unfold seal. destruct (so_compression s =? 0)%N, (so_encryption s =? 0)%N; auto using compress_bytes, encrypt_bytes.
Qed.

(* encryption gives back *)
Lemma encrypted n z : len z < 2 ^ 31 - 64 -> encrypt 1 n z <> [] /\ decrypt 1 (encrypt 1 n z) = Ok z.
Proof.
  intro Hz. unfold file_encrypt, file_decrypt. cbn [N.eqb ENCRYPTION_AES Pos.eqb].
  assert (B1 : 0 <= re n < 2 ^ 30) by (pose proof (Hre n); lia). assert (B2 : 0 <= de < 2 ^ 30) by lia.
  destruct (aes_pair aes unaes KA (fst (rnd n)) (snd (rnd n)) key (re n) de [z] Hk B1 B2) as (y & c & c' & E1 & E2 & E3).
  { cbn [concat]. rewrite app_nil_r. exact Hz. }
  rewrite E1. cbn [taken b_bytes]. rewrite E3. cbn [given_back b_bytes concat] in *. rewrite app_nil_r in *. split; [|reflexivity].
  intros ->. assert (P := len_pos z). change (len []) with 0 in E2. lia.
Qed.
Lemma outer n (c : list byte) : len c < 2 ^ 31 - 64 -> (c <> [] \/ so_encryption s <> 0%N) ->
  let z := if (so_encryption s =? 0)%N then c else encrypt (so_encryption s) n c in
  z <> [] /\ (if (so_encryption s =? 0)%N then Ok z else decrypt (so_encryption s) z) = Ok c.
Proof.
  intros H Hn. cbv zeta. destruct (N.eqb_spec (so_encryption s) 0) as [E|E].
  - split; [|reflexivity]. destruct Hn; [assumption|contradiction].
  - replace (so_encryption s) with 1%N by lia. apply encrypted, H.
Qed.

(* what compression makes of a content *)
Definition kept (n : nat) (b : list byte) : Prop := so_compression s = 1%N -> fits frame rc level n b.
Lemma zstd_back_in n b : so_compression s = 1%N -> bytes b -> len b <= 2 ^ 30 -> fits frame rc level n b ->
  len (compress 1 n b) <= 2 ^ 30 /\ compress 1 n b <> [] /\ decompress 1 (compress 1 n b) (N.of_nat (length b)) = Ok b.
Proof.
  intros Ec Hb Hl F. unfold fits, size_of in F. fold (len b) (len (frame level b)) in F.
  assert (B1 : 0 <= rc n < 2 ^ 29) by apply Hrc.
  pose proof (zstd_compress frame false (rc n) level (pieces n b) ltac:(lia)) as Q. rewrite Hp in Q. specialize (Q ltac:(lia)). cbv zeta in Q.
  unfold file_compress. cbn [N.eqb COMPRESSION_ZSTD Pos.eqb]. rewrite Q. destruct (Z.leb_spec (len (frame level b)) (grown (rc n) (len b))); [|lia]. cbn [taken b_bytes].
  split; [|split].
  - assert (grown (rc n) (len b) <= 2 ^ 30) by (unfold grown; destruct (_ <=? _); lia). lia.
  - destruct (zs_magic _ _ _ KZ level b) as (r & -> & _). discriminate.
  - unfold file_decompress. cbn [N.eqb COMPRESSION_ZSTD Pos.eqb]. replace (Z.of_N (N.of_nat (length b))) with (len b) by (unfold len; lia).
    destruct (zstd_back frame content magic KZ dc level b Hb ltac:(lia) ltac:(lia)) as [c' ->]. reflexivity.
Qed.
Lemma zstd_cut_in n b : so_compression s = 1%N -> b <> [] -> bytes b -> len b <= 2 ^ 30 -> ~ fits frame rc level n b ->
  len (compress 1 n b) <= 2 ^ 30 /\ compress 1 n b <> [] /\ decompress 1 (compress 1 n b) (N.of_nat (length b)) = Err.
Proof.
  intros Ec Hn Hb Hl F. unfold fits, size_of in F. fold (len b) (len (frame level b)) in F.
  assert (B1 : 0 <= rc n < 2 ^ 29) by apply Hrc.
  pose proof (zstd_compress frame false (rc n) level (pieces n b) ltac:(lia)) as Q. rewrite Hp in Q. specialize (Q ltac:(lia)). cbv zeta in Q.
  unfold file_compress. cbn [N.eqb COMPRESSION_ZSTD Pos.eqb]. rewrite Q. destruct (Z.leb_spec (len (frame level b)) (grown (rc n) (len b))) as [|F']; [lia|]. cbn [taken b_bytes].
  assert (G : 0 < grown (rc n) (len b) <= 2 ^ 30). { assert (0 < len b) by (destruct b; [contradiction|unfold len; cbn [length]; lia]). unfold grown. destruct (Z.leb_spec (len b) (rc n)); lia. }
  set (k := Z.to_nat (grown (rc n) (len b))) in *.
  split; [|split].
  - unfold len. rewrite firstn_length. lia.
  - destruct (zs_magic _ _ _ KZ level b) as (r & -> & _). destruct k eqn:Ek; [lia|]. discriminate.
  - unfold file_decompress. cbn [N.eqb COMPRESSION_ZSTD Pos.eqb]. replace (Z.of_N (N.of_nat (length b))) with (len b) by (unfold len; lia).
    assert (P := len_pos b). rewrite (zstd_cut frame content magic KZ dc level b k (len b)); [reflexivity|lia|lia|]. change (grown (rc n) (len b) < Z.of_nat (length (frame level b))) in F'. lia.
Qed.
Lemma lz4_back_in n b : b <> [] -> size_ok bound level (pieces n b) ->
  len (compress 2 n b) <= 2 ^ 30 /\ compress 2 n b <> [] /\ decompress 2 (compress 2 n b) (N.of_nat (length b)) = Ok b.
Proof.
  intros Hn [S1 S2]. rewrite Hp in S1. unfold size_of in S1. fold (len b) in S1. assert (B1 : 0 <= rc n < 2 ^ 29) by apply Hrc.
  assert (El : Z.max level 0 = lz4_level level) by (unfold lz4_level; destruct (Z.ltb_spec 0 level); lia). cbv zeta in S2. rewrite El in S2.
  change (19 + bound (lz4_level level) 0 + bounds bound (lz4_level level) (pieces n b) <= 2 ^ 30) in S2.
  destruct (lz4_compress bound start update finish step KL (rc n) level (pieces n b) ltac:(lia) ltac:(lia)) as [c0 Ec0].
  destruct (lz4_pair bound start update finish step KL (rc n) dc level (pieces n b) (length (compress 2 n b)) ltac:(lia) ltac:(lia)) as (z & c & c' & E1 & E2).
  { rewrite Hp. lia. } { lia. }
  unfold file_compress in *. cbn [N.eqb COMPRESSION_ZSTD COMPRESSION_LZ4 Pos.eqb] in *. rewrite E1 in *. cbn [taken b_bytes] in *.
  injection Ec0 as Ez Ec0. split; [|split].
  - rewrite Ez. unfold lz4_frame. rewrite !len_app.
    pose proof (lz_start _ _ _ _ _ KL (lz4_level level)) as L1. pose proof (lz_finish _ _ _ _ _ KL (lz4_level level) (pieces n b)) as L2.
    pose proof (updated_bound bound start update finish step KL (lz4_level level) (pieces n b) []) as L3. unfold size_of in L1, L2. unfold len in *. lia.
  - rewrite Ez. pose proof (lz_step _ _ _ _ _ KL (lz4_level level) (pieces n b)) as (W & W0 & _ & W2). rewrite Hp in W2. intro E. rewrite E in W2. apply W2 in W0. destruct b; [contradiction|discriminate].
  - unfold file_decompress. cbn [N.eqb COMPRESSION_ZSTD COMPRESSION_LZ4 Pos.eqb]. replace (Z.of_N (N.of_nat (length b))) with (len b) by (unfold len; lia).
    rewrite Hp in E2. rewrite (E2 (le_n _)). reflexivity.
Qed.
Lemma packed_back n b : b <> [] -> bytes b -> size_ok bound level (pieces n b) -> kept n b -> back compress decompress encrypt decrypt s n b.
Proof.
  intros Hn Hb Hs Hk'. assert (Hl : len b <= 2 ^ 30) by (destruct Hs as [S1 _]; rewrite Hp in S1; exact S1).
  set (c := if (so_compression s =? 0)%N then b else compress (so_compression s) n b).
  assert (C : len c <= 2 ^ 30 /\ c <> [] /\ (if (so_compression s =? 0)%N then Ok c else decompress (so_compression s) c (N.of_nat (length b))) = Ok b).
  { unfold c. destruct (N.eqb_spec (so_compression s) 0) as [E|E]; [auto|]. destruct (N.eq_dec (so_compression s) 1) as [E1|E1].
    - rewrite E1. apply zstd_back_in; auto.
    - replace (so_compression s) with 2%N by lia. apply lz4_back_in; auto. }
  destruct C as (C1 & C2 & C3). destruct (outer n c ltac:(lia) (or_introl C2)) as [O1 O2]. cbv zeta in O1, O2.
  split; [intros _; exact O1|]. unfold undone, seal. fold c. rewrite O2. exact C3.
Qed.
Lemma packed_lost n b : b <> [] -> bytes b -> size_ok bound level (pieces n b) -> so_compression s = 1%N -> ~ fits frame rc level n b ->
  lost compress decompress encrypt decrypt s n b.
Proof.
  intros Hn Hb Hs Hk' F. assert (Hl : len b <= 2 ^ 30) by (destruct Hs as [S1 _]; rewrite Hp in S1; exact S1).
  destruct (zstd_cut_in n b Hk' Hn Hb Hl F) as (C1 & C2 & C3). destruct (outer n (compress 1 n b) ltac:(lia) (or_introl C2)) as [O1 O2]. cbv zeta in O1, O2.
  unfold lost, undone, seal. rewrite Hk'. cbn [N.eqb]. split; [exact O1|]. rewrite O2. exact C3.
Qed.
(* zstd read by the context of lz4 *)
Lemma context_lost n b : (forall z room, step [] (magic :: z) room = None) -> b <> [] -> bytes b -> size_ok bound level (pieces n b) -> so_compression s = 1%N ->
  lost compress (other_context content step dc) encrypt decrypt s n b.
Proof.
  intros KM Hn Hb Hs Hk'. assert (Hl : len b <= 2 ^ 30) by (destruct Hs as [S1 _]; rewrite Hp in S1; exact S1).
  assert (C : len (compress 1 n b) <= 2 ^ 30 /\ compress 1 n b <> [] /\ exists r, compress 1 n b = magic :: r).
  { assert (Hfd : fits frame rc level n b \/ ~ fits frame rc level n b) by (unfold fits; lia).
    assert (C0 : len (compress 1 n b) <= 2 ^ 30 /\ compress 1 n b <> []).
    { destruct Hfd as [F|F]; [destruct (zstd_back_in n b Hk' Hb Hl F) as (C1 & C2 & _)|destruct (zstd_cut_in n b Hk' Hn Hb Hl F) as (C1 & C2 & _)]; auto. }
    destruct C0 as [C1 C2]. split; [exact C1|]. split; [exact C2|].
    assert (B1 : 0 <= rc n < 2 ^ 29) by apply Hrc.
    pose proof (zstd_compress frame false (rc n) level (pieces n b) ltac:(lia)) as Q. rewrite Hp in Q. specialize (Q ltac:(lia)). cbv zeta in Q.
    unfold file_compress in *. cbn [N.eqb COMPRESSION_ZSTD Pos.eqb] in *. rewrite Q in *. destruct (zs_magic _ _ _ KZ level b) as (r & E & _). rewrite E in *.
    destruct (_ <=? _); cbn [taken b_bytes] in *; [eauto|]. destruct (Z.to_nat _) as [|k']; [contradiction|]. cbn [firstn]. eauto. }
  destruct C as (C1 & C2 & r & C3). destruct (outer n (compress 1 n b) ltac:(lia) (or_introl C2)) as [O1 O2]. cbv zeta in O1, O2.
  unfold lost, undone, seal. rewrite Hk'. cbn [N.eqb]. split; [exact O1|]. rewrite O2. rewrite C3.
  unfold other_context, file_decompress. cbn [N.eqb COMPRESSION_ZSTD COMPRESSION_LZ4 Pos.eqb]. unfold compression_lz4_decompress.
  replace (Z.of_N (N.of_nat (length b))) with (len b) by (unfold len; lia). assert (P := len_pos b).
  destruct (reserve_empty dc (len b) ltac:(lia) ltac:(lia)) as (-> & _). cbn [bind length lz4_loop]. rewrite KM. reflexivity.
Qed.
Lemma encode_some l : region_encode l <> [].
Proof. unfold region_encode. intro E. apply (f_equal (@length N)) in E. rewrite !app_length, pack_length in E. discriminate. Qed.
Lemma contents_fine l gs : Forall mev_ok l -> l <> [] -> grouped s l gs ->
  forall n b, nth_error (contents compress encrypt s l gs) n = Some b -> b <> [] /\ bytes b.
Proof.
  intros Hl Hn Hg n b Hb. unfold contents in Hb. apply nth_error_In in Hb. apply in_app_or in Hb as [Hb|[<-|[]]].
  - apply in_map_iff in Hb as (d & <- & Hd). split; [apply encode_some|]. apply encode_bytes. destruct Hg as [Hg _].
    rewrite Forall_forall in *. intros m Hm. apply Hl. rewrite <- Hg. apply in_concat. eauto.
  - split; [|apply iregions_bytes].
    destruct (written compress encrypt s ltac:(lia) ltac:(lia) l) as (ds & w & Ew & Hok & _ & Hcc). rewrite <- Ew. destruct Hok as [_ K2 _ _ _ _ _]. rewrite K2.
    destruct ds as [|d ds]; [cbn in Hcc; congruence|]. cbn [refs flat_map]. unfold iregion_bytes at 1. intro E. apply (f_equal (@length N)) in E. rewrite app_length, pack_length in E. discriminate.
Qed.
Definition all_fit l gs : Prop := forall n b, nth_error (contents compress encrypt s l gs) n = Some b -> fits frame rc level n b.
Theorem packed_file st l gs : stamp_fit st -> Forall mev_ok l -> l <> [] -> small (write_file compress encrypt s st l) (map fst l) -> grouped s l gs ->
  (forall n b, nth_error (contents compress encrypt s l gs) n = Some b -> size_ok bound level (pieces n b)) ->
  (so_compression s <> 1%N \/ all_fit l gs ->
   exists ix, read_file decompress decrypt (write_file compress encrypt s st l) = Ok (ix, map (map fst) gs) /\
     ix_min ix = st_min st /\ ix_max ix = st_max st /\ ix_refreshes ix = st_refreshes st /\
     ix_time_create ix = st_time_create st /\ ix_time_refresh ix = st_time_refresh st /\ ix_lsn ix = st_lsn st) /\
  (so_compression s = 1%N /\ ~ all_fit l gs -> read_file decompress decrypt (write_file compress encrypt s st l) = Err).
Proof.
  intros Hst Hl Hn Hs Hg Hz.
  destruct (read_exact compress decompress encrypt decrypt s packed_bytes ltac:(lia) ltac:(lia) l st gs Hl Hst Hs Hg) as [R1 R2].
  assert (Hfd : forall n b, fits frame rc level n b \/ ~ fits frame rc level n b) by (intros; unfold fits; lia).
  split.
  - intro H. apply R1. intros n b Hb. destruct (contents_fine l gs Hl Hn Hg n b Hb) as [B1 B2].
    apply packed_back; [exact B1|exact B2|apply Hz, Hb|]. intro E. destruct H as [H|H]; [contradiction|apply H, Hb].
  - intros [E H]. apply R2.
    + intros n b Hb. destruct (contents_fine l gs Hl Hn Hg n b Hb) as [B1 B2]. destruct (Hfd n b) as [F|F].
      * left. apply packed_back; [exact B1|exact B2|apply Hz, Hb|]. intro. exact F.
      * right. apply packed_lost; [exact B1|exact B2|apply Hz, Hb|exact E|exact F].
    + assert (X : exists n b, nth_error (contents compress encrypt s l gs) n = Some b /\ ~ fits frame rc level n b).
      { unfold all_fit in H. clear - H Hfd. revert H. generalize (contents compress encrypt s l gs) as cs. intros cs H.
        assert (G : forall cs k, (forall n b, nth_error cs n = Some b -> fits frame rc level (k + n) b) \/ (exists n b, nth_error cs n = Some b /\ ~ fits frame rc level (k + n) b)).
        { clear H cs. induction cs as [|c cs IH]; intro k; [left; intros [|n] b E; discriminate|].
          destruct (Hfd k c) as [F|F]; [|right; exists O, c; rewrite Nat.add_0_r; auto].
          destruct (IH (S k)) as [G|(n & b & G1 & G2)].
          - left. intros [|n] b E; [injection E as <-; rewrite Nat.add_0_r; exact F|]. replace (k + S n)%nat with (S k + n)%nat by lia. apply G, E.
          - right. exists (S n), b. replace (k + S n)%nat with (S k + n)%nat by lia. auto. }
        destruct (G cs O) as [G1|G1]; [contradiction|exact G1]. }
      destruct X as (n & b & Hb & F). exists n, b. split; [exact Hb|]. destruct (contents_fine l gs Hl Hn Hg n b Hb) as [B1 B2].
      apply packed_lost; [exact B1|exact B2|apply Hz, Hb|exact E|exact F].
Qed.
Theorem context_file st l gs : (forall z room, step [] (magic :: z) room = None) -> stamp_fit st -> Forall mev_ok l -> l <> [] -> small (write_file compress encrypt s st l) (map fst l) -> grouped s l gs ->
  (forall n b, nth_error (contents compress encrypt s l gs) n = Some b -> size_ok bound level (pieces n b)) -> so_compression s = 1%N ->
  read_file (other_context content step dc) decrypt (write_file compress encrypt s st l) = Err.
Proof.
  intros KM Hst Hl Hn Hs Hg Hz E.
  destruct (read_exact compress (other_context content step dc) encrypt decrypt s packed_bytes ltac:(lia) ltac:(lia) l st gs Hl Hst Hs Hg) as [_ R2].
  assert (L : forall n b, nth_error (contents compress encrypt s l gs) n = Some b -> lost compress (other_context content step dc) encrypt decrypt s n b).
  { intros n b Hb. destruct (contents_fine l gs Hl Hn Hg n b Hb) as [B1 B2]. apply context_lost; [exact KM|exact B1|exact B2|apply Hz, Hb|exact E]. }
  apply R2; [intros n b Hb; right; apply L, Hb|].
  assert (X : exists b, nth_error (contents compress encrypt s l gs) (length gs) = Some b).
  { unfold contents. rewrite nth_error_app2 by (rewrite map_length; lia). rewrite map_length, Nat.sub_diag. eexists. reflexivity. }
  destruct X as [b X]. exists (length gs), b. split; [exact X|apply L, X].
Qed.
End P.
