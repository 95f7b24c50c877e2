From Coq Require Import NArith ZArith Arith List Bool Lia.
Import ListNotations.
From Verif Require Export Spec.FileLimits.
From Verif Require Import Model.Base Model.Event Model.Crc Model.Codec Model.File Model.Writer
  Spec.Order Spec.Checksum Spec.Regions Spec.Codecs Spec.Sealed Proof.CrcL Proof.CrcP Proof.CodecL Proof.WriterL
  Proof.FileL Proof.FileW.

Local Arguments pack : simpl never.
Local Arguments unpack : simpl never.
Local Arguments region_encode : simpl never.
Local Arguments crc : simpl never.
Local Open Scope res_scope.

Definition index_fit (ix : index) : Prop :=
  (ix_crc ix < 2^32 /\ ix_crc_data ix < 2^32 /\ ix_magic ix < 2^32 /\ ix_version ix < 2^32 /\
   ix_min ix < 2^64 /\ ix_max ix < 2^64 /\ ix_size ix < 2^32 /\ ix_size_origin ix < 2^32 /\
   ix_size_regions ix < 2^64 /\ ix_size_regions_origin ix < 2^64 /\ ix_size_total ix < 2^64 /\
   ix_size_total_origin ix < 2^64 /\ ix_regions ix < 2^32 /\ ix_events ix < 2^64 /\
   ix_time_create ix < 2^64 /\ ix_time_refresh ix < 2^64 /\ ix_refreshes ix < 2^32 /\
   ix_lsn ix < 2^64 /\ ix_compression ix < 256 /\ ix_encryption ix < 256)%N.

Lemma index_load_spec ix : index_fit ix -> index_load (index_bytes ix) = Some ix.
Proof.
  intros H. unfold index_fit in H. unfold index_load, index_bytes.
  match goal with |- context [unpack index_fields (pack ?P)] =>
    change index_fields with (map fst P); rewrite (unpack_pack0 P) end.
  - cbn [map snd]. destruct ix; reflexivity.
  - fits; lia.
Qed.
Lemma index_bytes_length ix : length (index_bytes ix) = 130.
Proof. unfold index_bytes. rewrite pack_length. reflexivity. Qed.

Definition iregion_fit (r : index_region) : Prop :=
  (ir_offset r < 2^32 /\ ir_crc r < 2^32 /\ ir_min r < 2^64 /\ ir_max r < 2^64 /\
   ir_size r < 2^32 /\ ir_size_origin r < 2^32 /\ ir_events r < 2^32)%N.
Lemma iregion_load_spec r : iregion_fit r -> iregion_load (iregion_bytes r) = Some r.
Proof.
  intros H. unfold iregion_fit in H. unfold iregion_load, iregion_bytes.
  match goal with |- context [unpack iregion_fields (pack ?P)] =>
    change iregion_fields with (map fst P); rewrite (unpack_pack0 P) end.
  - cbn [map snd]. destruct r; reflexivity.
  - fits; lia.
Qed.
Lemma iregion_bytes_length r : length (iregion_bytes r) = 52.
Proof. unfold iregion_bytes. rewrite pack_length. reflexivity. Qed.
Lemma iregions_length l : length (flat_map iregion_bytes l) = 52 * length l.
Proof.
  induction l as [|r l IH]; auto. cbn [flat_map]. rewrite app_length, iregion_bytes_length, IH. cbn [length]. lia.
Qed.
Lemma iregions_bytes l : bytes (flat_map iregion_bytes l).
Proof.
  induction l as [|r l IH]; [constructor|]. cbn [flat_map]. apply bytes_app. split; auto. apply pack_bytes.
Qed.

Lemma index_get_spec l i r : nth_error l i = Some r -> iregion_fit r ->
  index_get (flat_map iregion_bytes l) i = Some r.
Proof.
  intros Hi Hf. apply nth_error_split in Hi as (a & b & -> & <-). unfold index_get.
  rewrite flat_map_app. cbn [flat_map].
  rewrite (slice_app (flat_map iregion_bytes a) (iregion_bytes r)).
  - apply iregion_load_spec; auto.
  - rewrite iregions_length. unfold IREGION. lia.
  - apply iregion_bytes_length.
Qed.

Lemma crc_lt l : bytes l -> (crc 0 l < 2^32)%N.
Proof. intros. unfold crc. rewrite crc32_statement by (auto; lia). apply crc32c_lt; auto. lia. Qed.

Lemma index_crc_zero ix : ix_crc ix = 0%N ->
  crc 0 (index_bytes ix) = crc 0 (skipn 4 (index_bytes ix)).
Proof.
  intros H. unfold index_bytes. rewrite H.
  match goal with |- context [pack ((4, 0%N) :: ?P)] =>
    change (pack ((4, 0%N) :: P)) with (repeat 0%N 4 ++ pack P) end.
  rewrite (skipn_app_exact (repeat 0%N 4)) by reflexivity.
  apply crc_leading. apply pack_bytes.
Qed.
Lemma index_crc_skip c ix : skipn 4 (index_bytes ix) =
  skipn 4 (index_bytes (mk_index c (ix_crc_data ix) (ix_magic ix) (ix_version ix) (ix_min ix) (ix_max ix)
    (ix_size ix) (ix_size_origin ix) (ix_size_regions ix) (ix_size_regions_origin ix)
    (ix_size_total ix) (ix_size_total_origin ix) (ix_regions ix) (ix_events ix)
    (ix_time_create ix) (ix_time_refresh ix) (ix_refreshes ix) (ix_lsn ix)
    (ix_compression ix) (ix_encryption ix))).
Proof. reflexivity. Qed.

Lemma pread_app a b c off n : off = N.of_nat (length a) -> n = N.of_nat (length b) ->
  pread off n (a ++ b ++ c) = Ok b.
Proof.
  intros -> ->. unfold pread. rewrite !Nat2N.id, (slice_app a b c) by auto. auto.
Qed.

(* opening a file whose footer is right *)
Lemma index_open_spec pre ix : index_fit ix -> ix_magic ix = INDEX_MAGIC -> ix_version ix = INDEX_VERSION ->
  ix_crc ix = crc 0 (skipn 4 (index_bytes ix)) ->
  ix_size_total ix = N.of_nat (length (pre ++ index_bytes ix)) ->
  index_open (pre ++ index_bytes ix) = Ok ix.
Proof.
  intros Hf Hm Hv Hc Ht. unfold index_open. rewrite <- Ht.
  rewrite app_length, index_bytes_length in Ht.
  replace (ix_size_total ix <? 130)%N with false by (symmetry; apply N.ltb_ge; lia).
  rewrite <- (app_nil_r (index_bytes ix)) at 1.
  rewrite pread_app by (rewrite ?index_bytes_length; lia). cbn [bind].
  rewrite index_load_spec by auto. cbn [of_opt bind].
  rewrite Hm, Hv, <- Hc, !N.eqb_refl. reflexivity.
Qed.

Section R.
Variable compress : N -> nat -> list byte -> list byte.
Variable decompress : N -> list byte -> N -> res (list byte).
Variable encrypt : N -> nat -> list byte -> list byte.
Variable decrypt : N -> list byte -> res (list byte).
Variable s : source.
Hypothesis SB : stays_bytes compress encrypt s.
Hypothesis Hcomp : (so_compression s < 256)%N.
Hypothesis Hencr : (so_encryption s < 256)%N.

Notation seal := (seal compress encrypt s).
Notation fbytes := (fbytes compress encrypt s).
Notation refs := (refs compress encrypt s).
Notation ref_of := (ref_of compress encrypt s).

Lemma refs_nth ds : forall i j off d, nth_error ds i = Some d ->
  nth_error (refs j off ds) i = Some (ref_of (j + i) (off + N.of_nat (length (fbytes j (firstn i ds)))) d) /\
  fbytes j ds = fbytes j (firstn i ds) ++ seal (j + i) (region_encode d) ++ fbytes (S (j + i)) (skipn (S i) ds).
Proof.
  induction ds as [|x ds IH]; intros i j off d Hi; [destruct i; discriminate|].
  destruct i as [|i].
  - inversion Hi; subst. cbn [FileW.refs FileW.fbytes firstn skipn nth_error length app].
    rewrite Nat.add_0_r, N.add_0_r. auto.
  - cbn [nth_error] in Hi. cbn [FileW.refs FileW.fbytes firstn nth_error].
    destruct (IH i (S j) (off + N.of_nat (length (seal j (region_encode x))))%N d Hi) as [E1 E2].
    rewrite E1, E2. replace (S j + i) with (j + S i) by lia. split.
    + rewrite app_length, Nat2N.inj_add. do 2 f_equal. lia.
    + rewrite <- app_assoc. auto.
Qed.

Definition stored_small (i : nat) (ds : list (list mevent)) : Prop :=
  forall j d, nth_error ds j = Some d -> (N.of_nat (length (seal (i + j) (region_encode d))) < 2^32)%N.
Lemma stored_of_length i ds : (N.of_nat (length (fbytes i ds)) < 2^32)%N -> stored_small i ds.
Proof.
  intros H j d Hj. destruct (refs_nth ds j i 0%N d Hj) as [_ E]. rewrite E, !app_length in H. lia.
Qed.

Lemma refs_sum ds : forall i off, Forall mev_ok (concat ds) ->
  Forall (fun d => (mweight d < 2^32)%N) ds -> stored_small i ds ->
  sum ir_size (refs i off ds) = N.of_nat (length (fbytes i ds)).
Proof.
  induction ds as [|d ds IH]; intros i off Hm Hw Hl; auto.
  cbn [FileW.refs FileW.fbytes sum fold_right concat] in *. inversion Hw; subst.
  apply Forall_app in Hm as [Hm1 Hm2]. rewrite app_length, Nat2N.inj_add in *.
  fold (sum ir_size (refs (S i) (off + N.of_nat (length (seal i (region_encode d))))%N ds)).
  rewrite IH; auto.
  - f_equal. unfold FileW.ref_of. cbn [ir_size].
    destruct (plain s) eqn:Ep.
    + rewrite seal_plain by auto. rewrite encode_length by auto. apply writer_size_weight; auto.
    + unfold w32. apply N.mod_small. change two32 with (2^32)%N.
      pose proof (Hl 0 d eq_refl) as X. rewrite Nat.add_0_r in X. exact X.
  - intros j x Hj. replace (S i + j) with (i + S j) by lia. apply Hl. auto.
Qed.

Lemma cut_count limit evs rs : cut limit evs rs -> length rs <= length evs.
Proof.
  intros [H1 H2 _ _]. subst evs. induction rs as [|r rs IH]; auto. inversion H2; subst.
  cbn [concat length]. rewrite app_length. specialize (IH H3). destruct r; [contradiction|]. simpl. lia.
Qed.

Lemma sum_le f g l : (forall r, In r l -> (f r <= g r)%N) -> (sum f l <= sum g l)%N.
Proof.
  induction l as [|a l IH]; intros H; cbn [sum fold_right]; [lia|].
  pose proof (H a (or_introl eq_refl)). specialize (IH (fun r Hr => H r (or_intror Hr))).
  unfold sum in IH. lia.
Qed.

Lemma pow_le a b : (a <= b)%N -> (2^a <= 2^b)%N.
Proof. apply N.pow_le_mono_r. lia. Qed.

Lemma sum_bound f l b : (forall r, In r l -> (f r <= b)%N) -> (sum f l <= b * N.of_nat (length l))%N.
Proof.
  induction l as [|a l IH]; intros H; cbn [sum fold_right length]; [lia|].
  pose proof (H a (or_introl eq_refl)). specialize (IH (fun r Hr => H r (or_intror Hr))).
  unfold sum in IH. lia.
Qed.
Lemma refs_in ds : forall i off r, In r (refs i off ds) -> exists j o d, In d ds /\ r = ref_of j o d.
Proof.
  induction ds as [|d ds IH]; intros i off r H; [contradiction|].
  destruct H as [<-|H]; [exists i, off, d; simpl; auto|].
  destruct (IH _ _ _ H) as (j & o & x & H1 & H2). exists j, o, x. simpl. auto.
Qed.
Lemma w32_lt n : (w32 n < 2^32)%N.
Proof. apply N.mod_lt. discriminate. Qed.
Lemma ids_lt d : Forall mev_ok d -> (first_id d < 2^64 /\ last_id d < 2^64)%N.
Proof.
  intros H. split; [destruct H as [|m d [H _] _]; [reflexivity|apply H]|].
  unfold last_id. destruct (rev d) as [|m t] eqn:E; [reflexivity|].
  rewrite Forall_forall in H. assert (Hm : In m d) by (apply in_rev; rewrite E; left; auto).
  apply (H m Hm).
Qed.
Lemma ref_fit j o d : Forall mev_ok d -> (mweight d < 2^32)%N -> iregion_fit (ref_of j o d).
Proof.
  intros H Hw. destruct (ids_lt d H). unfold iregion_fit, FileW.ref_of.
  cbn [ir_offset ir_crc ir_min ir_max ir_size ir_size_origin ir_events].
  assert (bytes (seal j (region_encode d))).
  { apply SB. apply encode_bytes; auto. }
  repeat split; auto using w32_lt.
  - destruct (so_crc s); [apply crc_lt; auto|reflexivity].
  - destruct (plain s); apply w32_lt.
  - apply w32_lt.
  - unfold mweight, region_weight in Hw. rewrite map_length in Hw. unfold mevent in *. lia.
Qed.

(* what the writer leaves: a footer, an index and regions that are found again *)
Notation back := (back compress decompress encrypt decrypt s).
Notation lost := (lost compress decompress encrypt decrypt s).
Notation undone := (undone decompress decrypt s).
Lemma unseal_undone ix z o : ix_compression ix = so_compression s -> ix_encryption ix = so_encryption s ->
  unseal decompress decrypt ix z o = undone z o.
Proof. intros E1 E2. unfold unseal, Sealed.undone. rewrite E1, E2. destruct (so_encryption s =? 0)%N; reflexivity. Qed.
Lemma opened_any l st ds : Forall mev_ok l -> stamp_fit st ->
  (exists w, w = writer_stop_region compress encrypt s (fold_left (writer_add compress encrypt s) l writer_start) /\
     wok compress encrypt s w ds) -> Forall mev_ok (concat ds) ->
  (forall d, In d ds -> (mweight d < 2^32)%N) -> (52 * N.of_nat (length ds) < 2^32)%N ->
  stored_small 0 ds ->
  (N.of_nat (length (seal (length ds) (flat_map iregion_bytes (refs 0 0 ds)))) < 2^32)%N ->
  (N.of_nat (length (fbytes 0 ds)) < 2^63)%N ->
  exists ix data rest,
    let file := write_file compress encrypt s st l in
    file = fbytes 0 ds ++ rest /\
    data = flat_map iregion_bytes (refs 0 0 ds) /\
    index_open file = Ok ix /\
    index_read decompress decrypt file ix =
      match seal (length ds) data with [] => Ok [] | z => undone z (N.of_nat (length data)) end /\
    ix_min ix = st_min st /\ ix_max ix = st_max st /\ ix_refreshes ix = st_refreshes st /\
    ix_time_create ix = st_time_create st /\ ix_time_refresh ix = st_time_refresh st /\ ix_lsn ix = st_lsn st /\
    ix_regions ix = N.of_nat (length ds) /\
    ix_compression ix = so_compression s /\ ix_encryption ix = so_encryption s /\
    (forall i d, nth_error ds i = Some d ->
       index_get data i = Some (ref_of i (N.of_nat (length (fbytes 0 (firstn i ds)))) d)).
Proof.
  intros Hl Hst (w & Ew & Hok) Hmd Hdw Hn Hst32 Hi32 Hb64.
  unfold write_file, writer_stop in *. rewrite <- Ew in *.
  destruct Hok as [K1 K2 K3 K4 K6 K7 K5]. rewrite K6, K7, K4, K1, K2, K5, K3 in *. clear Ew.
  assert (Hdm : forall d, In d ds -> Forall mev_ok d).
  { intros d Hd. rewrite Forall_forall in *. intros m Hm. apply Hmd. apply in_concat. eauto. }
  set (data := flat_map iregion_bytes (refs 0 0 ds)) in *.
  set (stored := seal (length ds) data) in *.
  assert (Hdl : N.of_nat (length data) = (52 * N.of_nat (length ds))%N).
  { unfold data. rewrite iregions_length, refs_length. lia. }
  assert (Ew32 : w32 (52 * N.of_nat (length ds)) = (52 * N.of_nat (length ds))%N).
  { unfold w32. apply N.mod_small. change two32 with (2^32)%N. lia. }
  rewrite Ew32 in *.
  fold (plain s) in *.
  set (size := if plain s then (52 * N.of_nat (length ds))%N else w32 (N.of_nat (length stored))) in *.
  match goal with |- context [index_bytes (mk_index (crc 0 (index_bytes ?X)) ?b ?c ?d ?e ?f ?g ?h ?i ?j ?k ?m ?n ?o ?p ?q ?r ?s ?t ?u)] =>
    set (ixz := X) in *;
    set (ix := mk_index (crc 0 (index_bytes ixz)) b c d e f g h i j k m n o p q r s t u) in * end.
  set (file := fbytes 0 ds ++ stored ++ index_bytes ix) in *.
  assert (Hfl : N.of_nat (length file) = (N.of_nat (length (fbytes 0 ds)) + N.of_nat (length stored) + 130)%N).
  { unfold file. rewrite !app_length, index_bytes_length. lia. }
  assert (Hsize : size = N.of_nat (length stored)).
  { unfold size. destruct (plain s) eqn:Ep.
    - unfold stored. rewrite seal_plain; auto.
    - unfold w32. apply N.mod_small. change two32 with (2^32)%N. lia. }
  assert (Hsum : sum ir_size (refs 0 0 ds) = N.of_nat (length (fbytes 0 ds))).
  { apply refs_sum; auto. apply Forall_forall; auto. }
  assert (Hdb : bytes data) by apply iregions_bytes.
  assert (Hsb : bytes stored) by (apply SB; auto).
  assert (Hrf : forall r, In r (refs 0 0 ds) -> iregion_fit r).
  { intros r Hr. apply refs_in in Hr as (j & o & d & Hd & ->). apply ref_fit; auto. }
  assert (Hfit : index_fit ix).
  { unfold index_fit, ix. cbn [ix_crc ix_crc_data ix_magic ix_version ix_min ix_max ix_size ix_size_origin
      ix_size_regions ix_size_regions_origin ix_size_total ix_size_total_origin ix_regions ix_events
      ix_time_create ix_time_refresh ix_refreshes ix_lsn ix_compression ix_encryption].
    unfold stamp_fit in Hst. rewrite Hsum, Hsize, refs_length.
    assert (B2 : (sum ir_size_origin (refs 0 0 ds) <= 2^32 * N.of_nat (length ds))%N).
    { rewrite <- (refs_length compress encrypt s ds 0 0%N). apply sum_bound.
      intros r Hr. apply N.lt_le_incl. apply (Hrf r Hr). }
    assert (B3 : (sum ir_events (refs 0 0 ds) <= 2^32 * N.of_nat (length ds))%N).
    { rewrite <- (refs_length compress encrypt s ds 0 0%N). apply sum_bound.
      intros r Hr. apply N.lt_le_incl. apply (Hrf r Hr). }
    pose proof (crc_lt _ Hsb). pose proof (crc_lt (index_bytes ixz) (pack_bytes _)).
    unfold INDEX_MAGIC, INDEX_VERSION.
    repeat split; try tauto; try lia. }
  assert (Hcrc : ix_crc ix = crc 0 (skipn 4 (index_bytes ix))).
  { unfold ix at 1. cbn [ix_crc]. rewrite (index_crc_zero ixz) by reflexivity. f_equal. }
  assert (Hopen : index_open file = Ok ix).
  { unfold file. rewrite app_assoc. apply index_open_spec; auto.
    rewrite <- app_assoc. fold file. rewrite Hfl. unfold ix. cbn [ix_size_total].
    rewrite Hsum, Hsize. auto. }
  assert (Hread : index_read decompress decrypt file ix =
    match stored with [] => Ok [] | x :: z => undone (x :: z) (N.of_nat (length data)) end).
  { unfold index_read. change (ix_size ix) with size. rewrite Hsize.
    destruct (N.eqb_spec (N.of_nat (length stored)) 0) as [E|E].
    - destruct stored; [reflexivity|discriminate].
    - unfold file at 2. rewrite pread_app; auto.
      2: { unfold sub64. rewrite Hfl. change two64 with (2^64)%N. replace (N.of_nat (length (fbytes 0 ds)) + N.of_nat (length stored) + 130 + 2 ^ 64 - (130 + N.of_nat (length stored)))%N with (N.of_nat (length (fbytes 0 ds)) + 1 * 2^64)%N by lia. rewrite N.mod_add by discriminate. apply N.mod_small. lia. }
      cbn [bind]. change (ix_crc_data ix) with (crc 0 stored). rewrite N.eqb_refl. cbn [negb].
      rewrite unseal_undone by reflexivity. change (ix_size_origin ix) with (52 * N.of_nat (length ds))%N. rewrite <- Hdl.
      destruct stored; [contradiction|reflexivity]. }
  assert (Hget : forall i d, nth_error ds i = Some d ->
    index_get data i = Some (ref_of i (N.of_nat (length (fbytes 0 (firstn i ds)))) d)).
  { intros i d Hi. destruct (refs_nth ds i 0 0%N d Hi) as [E _]. cbn [Nat.add] in E.
    rewrite N.add_0_l in E. apply index_get_spec; auto. apply Hrf. eapply nth_error_In; eauto. }
  exists ix, data, (stored ++ index_bytes ix). cbv zeta.
  split; [reflexivity|]. split; [reflexivity|]. split; auto. split; auto. repeat (split; [reflexivity|]).
  split; [unfold ix; cbn [ix_regions]; rewrite refs_length; auto|]. auto.
Qed.

Lemma map_res_err {A B} (f : A -> res B) l : (forall a, In a l -> f a <> UB) -> (exists a, In a l /\ f a = Err) -> map_res f l = Err.
Proof.
  induction l as [|x l IH]; intros H (a & Ha & E); [destruct Ha|]. cbn [map_res].
  assert (Hx := H x (or_introl eq_refl)). destruct (f x) as [y| |] eqn:Ex; cbn [bind]; [|reflexivity|contradiction].
  rewrite IH; [reflexivity|intros b Hb; apply H; now right|]. destruct Ha as [->|Ha]; [congruence|eauto].
Qed.
(* the file by the contents of its regions *)
Lemma read_any l st : Forall mev_ok l -> stamp_fit st ->
  small (write_file compress encrypt s st l) (strip l) ->
  exists ds ix data, concat ds = l /\ map strip ds = cut_regions (limit s) (strip l) /\
    data = flat_map iregion_bytes (w_refs (writer_stop_region compress encrypt s (fold_left (writer_add compress encrypt s) l writer_start))) /\
    index_open (write_file compress encrypt s st l) = Ok ix /\
    index_read decompress decrypt (write_file compress encrypt s st l) ix =
      match seal (length ds) data with [] => Ok [] | z => undone z (N.of_nat (length data)) end /\
    ix_min ix = st_min st /\ ix_max ix = st_max st /\ ix_refreshes ix = st_refreshes st /\
    ix_time_create ix = st_time_create st /\ ix_time_refresh ix = st_time_refresh st /\ ix_lsn ix = st_lsn st /\
    ix_regions ix = N.of_nat (length ds) /\
    (forall i d, nth_error ds i = Some d ->
       exists e, index_get data i = Some e /\ ir_events e = N.of_nat (length d) /\
         ir_min e = match strip d with x :: _ => ev_id x | [] => 0%N end /\ ir_max e = region_last_id (strip d) /\
         (back i (region_encode d) ->
           (do raw <- reader_execute decompress decrypt (write_file compress encrypt s st l) ix e ; region_events raw) = Ok (strip d)) /\
         (lost i (region_encode d) -> reader_execute decompress decrypt (write_file compress encrypt s st l) ix e = Err)).
Proof.
  intros Hl Hst (Hw & Hn & Hfile).
  destruct (written compress encrypt s Hcomp Hencr l) as (ds & w & Ew & Hok & Hds & Hcc).
  assert (Hmd : Forall mev_ok (concat ds)) by (rewrite Hcc; exact Hl).
  destruct (cut_statement (limit s) (strip l) Hw) as [Hcut _]. rewrite <- Hds in Hcut.
  pose proof (cut_count _ _ _ Hcut) as Hcnt. rewrite map_length in Hcnt.
  assert (Hev : length (strip l) = length l) by (unfold strip; apply map_length).
  assert (Hdw : forall d, In d ds -> (mweight d < 2^32)%N).
  { intros d Hd. destruct Hcut as [C1 _ _ _]. unfold mweight.
    eapply N.le_lt_trans; [|exact Hw]. rewrite <- C1. apply weight_concat_le.
    apply in_map_iff. exists d. split; auto. }
  assert (Hdm : forall d, In d ds -> Forall mev_ok d).
  { intros d Hd. rewrite Forall_forall in *. intros m Hm. apply Hmd. apply in_concat. eauto. }
  assert (Hlen0 : exists f, write_file compress encrypt s st l =
    fbytes 0 ds ++ seal (length ds) (flat_map iregion_bytes (refs 0 0 ds)) ++ f).
  { unfold write_file, writer_stop. rewrite <- Ew. destruct Hok as [K1 K2 K3 K4 K6 K7 K5].
    rewrite K1, K2, K5. eexists. reflexivity. }
  destruct Hlen0 as (foot & Elen). pose proof Hfile as Hfile'. rewrite Elen, !app_length in Hfile'.
  destruct (opened_any l st ds Hl Hst (ex_intro _ w (conj Ew Hok)) Hmd Hdw ltac:(lia)
    (stored_of_length 0 ds ltac:(lia)) ltac:(lia) ltac:(lia))
    as (ix & data & rest & Ef & Edata & Hopen & Hread & F1 & F2 & F3 & F4 & F5 & F6 & F7 & F8 & F9 & Hget).
  set (file := write_file compress encrypt s st l) in *.
  assert (Hfl : (N.of_nat (length (fbytes 0 ds)) < 2^32)%N) by lia.
  assert (Hexec : forall i d, nth_error ds i = Some d ->
    reader_execute decompress decrypt file ix (ref_of i (N.of_nat (length (fbytes 0 (firstn i ds)))) d) =
    (do raw <- undone (seal i (region_encode d)) (N.of_nat (length (region_encode d))) ;
     match slice_of 0 8 raw with
     | None => UB
     | Some h =>
       match unpack [4;4] h with
       | [size; events] => if ((size =? region_writer_size d) && (events =? N.of_nat (length d)))%N then Ok raw else Err
       | _ => UB
       end
     end)).
  { intros i d Hi. destruct (refs_nth ds i 0 0%N d Hi) as [_ E]. cbn [Nat.add] in E.
    assert (Hd : In d ds) by (eapply nth_error_In; eauto).
    pose proof (encode_length d (Hdm d Hd)) as Hel. pose proof (writer_size_weight d (Hdw d Hd)) as Hws.
    set (pre := fbytes 0 (firstn i ds)) in *. set (post := fbytes (S i) (skipn (S i) ds)) in *.
    assert (Hlen : N.of_nat (length (fbytes 0 ds)) =
      (N.of_nat (length pre) + N.of_nat (length (seal i (region_encode d))) + N.of_nat (length post))%N).
    { rewrite E, !app_length. lia. }
    unfold reader_execute, FileW.ref_of. cbn [ir_offset ir_size ir_size_origin ir_events].
    rewrite Ef, E, <- !app_assoc.
    rewrite pread_app.
    - cbn [bind]. rewrite unseal_undone by assumption.
      replace (region_writer_size d) with (N.of_nat (length (region_encode d))) at 1; [reflexivity|].
      transitivity (mweight d); [exact Hel|symmetry; exact Hws].
    - unfold w32. apply N.mod_small. change two32 with (2^32)%N. lia.
    - destruct (plain s) eqn:Ep.
      + rewrite seal_plain by auto. lia.
      + unfold w32. apply N.mod_small. change two32 with (2^32)%N. lia. }
  assert (Ehead : forall d, In d ds ->
     match slice_of 0 8 (region_encode d) with
     | None => UB
     | Some h =>
       match unpack [4;4] h with
       | [size; events] => if ((size =? region_writer_size d) && (events =? N.of_nat (length d)))%N then Ok (region_encode d) else Err
       | _ => UB
       end
     end = Ok (region_encode d)).
  { intros d Hd.
    assert (E8 : region_encode d = pack [(4, region_writer_size d); (4, N.of_nat (length d))] ++
         (pack [(4,0%N); (4,0%N); (4,0%N); (4,0%N)] ++
          pack (map (fun o => (4, o)) (region_offsets 0 d)) ++ flat_map event_image d)).
    { unfold region_encode. rewrite app_assoc. reflexivity. }
    rewrite E8 at 1. rewrite slice_start by (rewrite pack_length; reflexivity).
    change [4;4] with (map fst [(4, region_writer_size d); (4, N.of_nat (length d))]).
    rewrite unpack_pack0.
    + cbn [map snd]. rewrite !N.eqb_refl. reflexivity.
    + assert (N.of_nat (length d) < 2^32)%N.
      { pose proof (Hdw d Hd) as Hx. unfold mweight, region_weight in Hx. rewrite map_length in Hx.
        unfold mevent in *. lia. }
      pose proof (w32_lt (24 + 4 * N.of_nat (length d) + data_size d)).
      fits; auto. }
  exists ds, ix, data. split; [exact Hcc|]. split; [exact Hds|].
  split; [rewrite <- Ew; destruct Hok as [_ K2 _ _ _ _ _]; rewrite K2; exact Edata|].
  split; [exact Hopen|]. split; [exact Hread|]. do 6 (split; [assumption|]). split; [exact F7|].
  intros i d Ed. assert (Hd : In d ds) by (eapply nth_error_In; eauto).
  exists (ref_of i (N.of_nat (length (fbytes 0 (firstn i ds)))) d). split; [auto|].
  unfold FileW.ref_of at 1 2 3. cbn [ir_events ir_min ir_max]. split; [reflexivity|].
  split; [destruct d; auto|]. split; [apply last_id_strip; auto|]. split.
  - intros [_ B]. rewrite (Hexec i d Ed), B. cbn [bind]. rewrite (Ehead d Hd). cbn [bind]. apply region_events_spec; auto.
  - intros [_ B]. rewrite (Hexec i d Ed), B. reflexivity.
Qed.
Lemma seq_in n i : In i (seq 0 n) <-> i < n.
Proof. rewrite in_seq. lia. Qed.
Lemma seq_at n i a : nth_error (seq 0 n) i = Some a -> a = i /\ i < n.
Proof.
  intro Hi. assert (Hlt : i < n) by (rewrite <- (seq_length n 0); apply nth_error_Some; congruence).
  rewrite nth_error_nth' with (d := 0) in Hi by (rewrite seq_length; auto).
  rewrite seq_nth in Hi by auto. simpl in Hi. split; congruence.
Qed.
Lemma regions_read l st ds ix data : 
  (forall i d, nth_error ds i = Some d -> back i (region_encode d)) ->
  ix_regions ix = N.of_nat (length ds) ->
  (forall i d, nth_error ds i = Some d ->
     exists e, index_get data i = Some e /\
         (back i (region_encode d) ->
           (do raw <- reader_execute decompress decrypt (write_file compress encrypt s st l) ix e ; region_events raw) = Ok (strip d))) ->
  map_res (fun i => do r <- of_opt (index_get data i);
     do raw <- reader_execute decompress decrypt (write_file compress encrypt s st l) ix r;
     region_events raw) (seq 0 (N.to_nat (ix_regions ix))) = Ok (map strip ds).
Proof.
  intros HB F7 HG. apply map_res_ok.
  - intros i a Hi. rewrite F7, Nat2N.id in Hi. apply seq_at in Hi as [-> Hlt].
    destruct (nth_error ds i) as [d|] eqn:Ed; [|apply nth_error_None in Ed; lia].
    exists (strip d). split; [apply map_nth_error; exact Ed|].
    destruct (HG i d Ed) as (e & Ge & Gx). rewrite Ge. cbn [of_opt bind]. apply Gx, HB, Ed.
  - rewrite F7, Nat2N.id, seq_length, map_length. auto.
Qed.
Lemma index_back n data (r : res (list byte)) : back n data ->
  r = match seal n data with [] => Ok [] | z => undone z (N.of_nat (length data)) end -> r = Ok data.
Proof.
  intros [B1 B2] ->. destruct (seal n data) as [|x z] eqn:Es; [|exact B2].
  destruct data; [reflexivity|]. exfalso. apply B1; [discriminate|reflexivity].
Qed.
Lemma index_lost n data (r : res (list byte)) : lost n data ->
  r = match seal n data with [] => Ok [] | z => undone z (N.of_nat (length data)) end -> r = Err.
Proof.
  intros [B1 B2] ->. destruct (seal n data) as [|x z] eqn:Es; [congruence|exact B2].
Qed.
Lemma groups_one l ds gs : concat ds = l -> map strip ds = cut_regions (limit s) (strip l) -> grouped s l gs -> gs = ds.
Proof.
  intros E1 E2 [G1 G2]. fold (limit s) in G2. change (map (map fst) gs = cut_regions (limit s) (strip l)) in G2.
  assert (E : map (@length _) gs = map (@length _) ds).
  { transitivity (map (@length event) (map strip ds)).
    - rewrite E2, <- G2, map_map. apply map_ext. intro a. now rewrite map_length.
    - rewrite map_map. apply map_ext. intro a. unfold strip. now rewrite map_length. }
  assert (C : concat gs = concat ds) by (rewrite G1, E1; reflexivity).
  clear - E C. revert ds E C. induction gs as [|g gs IH]; intros [|d ds] E C; try discriminate; [reflexivity|].
  cbn in E, C. injection E as El E. assert (Hgd : g = d).
  { apply (f_equal (firstn (length g))) in C. rewrite firstn_app, Nat.sub_diag, firstn_all, firstn_O, app_nil_r in C.
    rewrite El, firstn_app, Nat.sub_diag, firstn_all, firstn_O, app_nil_r in C. exact C. }
  subst d. apply app_inv_head in C. f_equal. auto.
Qed.
Lemma grouped_some l : exists gs, grouped s l gs.
Proof. destruct (written compress encrypt s Hcomp Hencr l) as (ds & w & _ & _ & Hds & Hcc). exists ds. split; [exact Hcc|exact Hds]. Qed.
Lemma read_exact l st gs : Forall mev_ok l -> stamp_fit st ->
  small (write_file compress encrypt s st l) (map fst l) -> grouped s l gs ->
  ((forall n b, nth_error (contents compress encrypt s l gs) n = Some b -> back n b) ->
   exists ix, read_file decompress decrypt (write_file compress encrypt s st l) = Ok (ix, map (map fst) gs) /\
     ix_min ix = st_min st /\ ix_max ix = st_max st /\ ix_refreshes ix = st_refreshes st /\
     ix_time_create ix = st_time_create st /\ ix_time_refresh ix = st_time_refresh st /\ ix_lsn ix = st_lsn st) /\
  ((forall n b, nth_error (contents compress encrypt s l gs) n = Some b -> back n b \/ lost n b) ->
   (exists n b, nth_error (contents compress encrypt s l gs) n = Some b /\ lost n b) ->
   read_file decompress decrypt (write_file compress encrypt s st l) = Err).
Proof.
  intros Hl Hst Hs Hg. change (map fst l) with (strip l) in Hs.
  destruct (read_any l st Hl Hst Hs) as (ds & ix & data & Hcc & Hds & Edata & Hopen & Hread & F1 & F2 & F3 & F4 & F5 & F6 & F7 & Hget).
  apply (groups_one l ds gs Hcc Hds) in Hg. subst gs.
  assert (Hreg : forall i d, nth_error ds i = Some d -> nth_error (contents compress encrypt s l ds) i = Some (region_encode d)).
  { intros i d Hi. unfold contents. rewrite nth_error_app1; [apply map_nth_error, Hi|]. rewrite map_length. apply nth_error_Some. congruence. }
  assert (Hidx : nth_error (contents compress encrypt s l ds) (length ds) = Some data).
  { unfold contents. rewrite nth_error_app2 by (rewrite map_length; lia). rewrite map_length, Nat.sub_diag, Edata. reflexivity. }
  set (file := write_file compress encrypt s st l) in *. split.
  - intro HB. exists ix. split; [|tauto]. unfold read_file. rewrite Hopen. cbn [bind].
    rewrite (index_back _ _ _ (HB _ _ Hidx) Hread). cbn [bind].
    unfold file. rewrite (regions_read l st ds ix data); [reflexivity|intros; apply HB, Hreg; assumption|exact F7|].
    intros i d Hi. destruct (Hget i d Hi) as (e & G1 & _ & _ & _ & G2 & _). exists e. auto.
  - intros HB (n & b & Hn & HL). unfold read_file. rewrite Hopen. cbn [bind].
    destruct (HB _ _ Hidx) as [Bi|Bi]; [|rewrite (index_lost _ _ _ Bi Hread); reflexivity].
    rewrite (index_back _ _ _ Bi Hread). cbn [bind]. rewrite map_res_err; [reflexivity| |].
    + intros i Hi. rewrite F7, Nat2N.id in Hi. apply seq_in in Hi. destruct (nth_error ds i) as [d|] eqn:Ed; [|apply nth_error_None in Ed; lia].
      destruct (Hget i d Ed) as (e & G1 & _ & _ & _ & G2 & G3). rewrite G1. cbn [of_opt bind].
      destruct (HB _ _ (Hreg i d Ed)) as [B|B]; [rewrite (G2 B); discriminate|rewrite (G3 B); discriminate].
    + rewrite F7, Nat2N.id. destruct (Nat.lt_ge_cases n (length ds)) as [Hlt|Hge].
      * exists n. split; [apply seq_in, Hlt|]. destruct (nth_error ds n) as [d|] eqn:Ed; [|apply nth_error_None in Ed; lia].
        destruct (Hget n d Ed) as (e & G1 & _ & _ & _ & G2 & G3). rewrite G1. cbn [of_opt bind].
        rewrite (Hreg n d Ed) in Hn. injection Hn as <-. rewrite (G3 HL). reflexivity.
      * exfalso. assert (n = length ds).
        { assert (Hlt : n < length (contents compress encrypt s l ds)) by (apply nth_error_Some; congruence).
          unfold contents in Hlt. rewrite app_length, map_length in Hlt. simpl in Hlt. lia. }
        subst n. rewrite Hidx in Hn. injection Hn as <-. destruct Bi as [_ B1], HL as [_ B2]. congruence.
Qed.
End R.

(* with codecs that give everything back *)
Section A.
Variable compress : N -> nat -> list byte -> list byte.
Variable decompress : N -> list byte -> N -> res (list byte).
Variable encrypt : N -> nat -> list byte -> list byte.
Variable decrypt : N -> list byte -> res (list byte).
Hypothesis CO : codecs_ok compress decompress encrypt decrypt.
Variable s : source.
Hypothesis Hcomp : (so_compression s < 256)%N.
Hypothesis Hencr : (so_encryption s < 256)%N.
Notation seal := (seal compress encrypt s).
Notation fbytes := (fbytes compress encrypt s).
Notation refs := (refs compress encrypt s).
Notation ref_of := (ref_of compress encrypt s).

Lemma all_bytes : stays_bytes compress encrypt s.
Proof. intros n b H. apply (seal_bytes compress decompress encrypt decrypt CO s n b H). Qed.
Lemma all_back n b : bytes b -> back compress decompress encrypt decrypt s n b.
Proof.
  intro H. split; [apply (seal_some compress decompress encrypt decrypt CO)|].
  set (ix := mk_index 0 0 0 0 0 0 0 0 0 0 0 0 0 0 0 0 0 0 (so_compression s) (so_encryption s)).
  rewrite <- (unseal_undone decompress decrypt s ix) by reflexivity.
  apply (unseal_seal compress decompress encrypt decrypt CO); auto.
Qed.
Lemma opened l st ds : Forall mev_ok l -> stamp_fit st ->
  (exists w, w = writer_stop_region compress encrypt s (fold_left (writer_add compress encrypt s) l writer_start) /\
     wok compress encrypt s w ds) -> Forall mev_ok (concat ds) ->
  (forall d, In d ds -> (mweight d < 2^32)%N) -> (52 * N.of_nat (length ds) < 2^32)%N ->
  stored_small compress encrypt s 0 ds ->
  (N.of_nat (length (seal (length ds) (flat_map iregion_bytes (refs 0 0 ds)))) < 2^32)%N ->
  (N.of_nat (length (fbytes 0 ds)) < 2^63)%N ->
  exists ix data rest,
    let file := write_file compress encrypt s st l in
    file = fbytes 0 ds ++ rest /\
    index_open file = Ok ix /\ index_read decompress decrypt file ix = Ok data /\
    ix_min ix = st_min st /\ ix_max ix = st_max st /\ ix_refreshes ix = st_refreshes st /\
    ix_time_create ix = st_time_create st /\ ix_time_refresh ix = st_time_refresh st /\ ix_lsn ix = st_lsn st /\
    ix_regions ix = N.of_nat (length ds) /\
    ix_compression ix = so_compression s /\ ix_encryption ix = so_encryption s /\
    (forall i d, nth_error ds i = Some d ->
       index_get data i = Some (ref_of i (N.of_nat (length (fbytes 0 (firstn i ds)))) d)).
Proof.
  intros H1 H2 H3 H4 H5 H6 H7 H8 H9.
  destruct (opened_any compress decompress encrypt decrypt s all_bytes Hcomp Hencr l st ds H1 H2 H3 H4 H5 H6 H7 H8 H9) as (ix & data & rest & E1 & E2 & E3 & E4 & E5).
  exists ix, data, rest. cbv zeta. split; [exact E1|]. split; [exact E3|]. split; [|exact E5].
  apply (index_back compress decompress encrypt decrypt s (length ds)); [|exact E4]. apply all_back. rewrite E2. apply iregions_bytes.
Qed.
Lemma read_written l st : Forall mev_ok l -> stamp_fit st ->
  small (write_file compress encrypt s st l) (strip l) ->
  exists ix data,
    read_file decompress decrypt (write_file compress encrypt s st l) = Ok (ix, cut_regions (limit s) (strip l)) /\
    index_open (write_file compress encrypt s st l) = Ok ix /\
    index_read decompress decrypt (write_file compress encrypt s st l) ix = Ok data /\
    ix_min ix = st_min st /\ ix_max ix = st_max st /\ ix_refreshes ix = st_refreshes st /\
    ix_time_create ix = st_time_create st /\ ix_time_refresh ix = st_time_refresh st /\ ix_lsn ix = st_lsn st /\
    ix_regions ix = N.of_nat (length (cut_regions (limit s) (strip l))) /\
    (forall i r, nth_error (cut_regions (limit s) (strip l)) i = Some r ->
       exists e, index_get data i = Some e /\ ir_events e = N.of_nat (length r) /\
         ir_min e = match r with x :: _ => ev_id x | [] => 0%N end /\ ir_max e = region_last_id r).
Proof.
  intros Hl Hst Hs.
  destruct (read_any compress decompress encrypt decrypt s all_bytes Hcomp Hencr l st Hl Hst Hs) as
    (ds & ix & data & Hcc & Hds & Edata & Hopen & Hread & F1 & F2 & F3 & F4 & F5 & F6 & F7 & Hget).
  assert (Hi : index_read decompress decrypt (write_file compress encrypt s st l) ix = Ok data).
  { apply (index_back compress decompress encrypt decrypt s (length ds)); [|exact Hread]. apply all_back. rewrite Edata. apply iregions_bytes. }
  assert (Hb : forall i d, nth_error ds i = Some d -> back compress decompress encrypt decrypt s i (region_encode d)).
  { intros i d Hd. apply all_back. apply encode_bytes. rewrite Forall_forall in *. intros m Hm. apply Hl. rewrite <- Hcc. apply in_concat. exists d.
    split; [eapply nth_error_In; exact Hd|exact Hm]. }
  exists ix, data. rewrite <- Hds. split.
  { unfold read_file. rewrite Hopen. cbn [bind]. rewrite Hi. cbn [bind].
    rewrite (regions_read compress decompress encrypt decrypt s Hcomp Hencr l st ds ix data); [reflexivity|exact Hb|exact F7|].
    intros i d Ed. destruct (Hget i d Ed) as (e & G1 & _ & _ & _ & G2 & _). exists e. auto. }
  split; [exact Hopen|]. split; [exact Hi|]. do 6 (split; [assumption|]).
  split; [rewrite map_length; exact F7|].
  intros i r Hr. destruct (nth_error ds i) as [d|] eqn:Ed.
  2: { apply nth_error_None in Ed. assert (nth_error (map strip ds) i <> None) as X by (intros X; pose proof (eq_trans (eq_sym X) Hr); discriminate).
       apply nth_error_Some in X. rewrite map_length in X. lia. }
  pose proof (eq_trans (eq_sym (map_nth_error strip i ds Ed)) Hr) as Hj. inversion Hj; subst r.
  destruct (Hget i d Ed) as (e & G1 & G2 & G3 & G4 & _). exists e. split; [exact G1|].
  split; [unfold strip; rewrite map_length; exact G2|]. split; [exact G3|exact G4].
Qed.
End A.
