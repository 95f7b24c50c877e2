From Coq Require Import NArith ZArith Arith List Bool Lia.
Import ListNotations.
From Verif Require Import Model.Base Model.Event Model.Crc Model.Codec Model.File Model.Writer
  Spec.Order Spec.Checksum Spec.Regions Proof.CrcL Proof.CrcP Proof.CodecL Proof.WriterL.
From Verif Require Export Spec.FileLimits.

Local Arguments pack : simpl never.
Local Arguments unpack : simpl never.

Definition mweight (l : list mevent) : N := region_weight (map fst l).

Lemma data_size_weight l : data_size l = fold_right (fun e n => event_weight e + n)%N 0%N (map fst l).
Proof. induction l; simpl; auto. rewrite IHl, event_weight_size. auto. Qed.
Lemma writer_size_weight l : (mweight l < 2^32)%N -> region_writer_size l = mweight l.
Proof.
  intros H. unfold region_writer_size, mweight, region_weight, w32 in *. rewrite map_length in *.
  rewrite data_size_weight. apply N.mod_small. exact H.
Qed.
Lemma region_size_bytes l : region_writer_size l = region_bytes (map fst l).
Proof.
  unfold region_writer_size, region_bytes. rewrite map_length, weights, data_size_weight. auto.
Qed.

Lemma event_bytes_bytes e : ev_ok e -> bytes (event_bytes e).
Proof.
  intros (H1 & H2 & H3 & H4 & H5). unfold event_bytes.
  apply bytes_app; split; [apply pack_bytes|]. apply bytes_app; split; auto.
Qed.
Lemma image_bytes m : mev_ok m -> bytes (event_image m).
Proof.
  intros (H1 & H2 & H3). apply bytes_app. split; [apply event_bytes_bytes; auto|apply bytes_firstn; auto].
Qed.
Lemma images_bytes l : Forall mev_ok l -> bytes (flat_map event_image l).
Proof.
  induction 1; cbn [flat_map]; [constructor|]. apply bytes_app. split; auto. apply image_bytes; auto.
Qed.
Lemma images_length l : Forall mev_ok l -> N.of_nat (length (flat_map event_image l)) = data_size l.
Proof.
  induction 1 as [|m l Hm Hl IH]; cbn [flat_map]; auto. rewrite app_length, Nat2N.inj_add, IH.
  rewrite event_image_length by apply Hm. reflexivity.
Qed.
Lemma offsets_length off l : length (region_offsets off l) = length l.
Proof. revert off. induction l; intros; simpl; auto. Qed.
Lemma pack4_length (l : list N) : length (pack (map (fun o => (4, o)) l)) = 4 * length l.
Proof. rewrite pack_length. induction l; simpl in *; lia. Qed.
Lemma encode_length l : Forall mev_ok l -> N.of_nat (length (region_encode l)) = mweight l.
Proof.
  intros H. unfold region_encode. rewrite !app_length, pack_length, pack4_length, offsets_length.
  rewrite !Nat2N.inj_add, (images_length l H), data_size_weight.
  unfold mweight, region_weight. rewrite map_length.
  unfold mevent in *. generalize (fold_right (fun (e : event) (n : N) => event_weight e + n)%N 0%N (map fst l)).
  intros d. cbn [map fst width fold_right Nat.add]. lia.
Qed.
Lemma encode_bytes l : Forall mev_ok l -> bytes (region_encode l).
Proof.
  intros H. unfold region_encode. apply bytes_app; split; [apply pack_bytes|].
  apply bytes_app; split; [apply pack_bytes|apply images_bytes; auto].
Qed.

(* --- reading a region --- *)
Lemma nth_split_len {A} (l : list A) i x : nth_error l i = Some x ->
  exists a b, l = a ++ x :: b /\ length a = i.
Proof. intros H. apply nth_error_split in H as (a & b & H & Ha). eauto. Qed.

Lemma offsets_app off a b : region_offsets off (a ++ b) = region_offsets off a ++ region_offsets (off + data_size a) b.
Proof.
  revert off. induction a; intros; simpl.
  - rewrite N.add_0_r. auto.
  - rewrite IHa. rewrite N.add_assoc. auto.
Qed.
Lemma data_size_app a b : data_size (a ++ b) = (data_size a + data_size b)%N.
Proof. induction a; simpl; auto. rewrite IHa. lia. Qed.

Lemma region_get_spec l i m : Forall mev_ok l -> (mweight l < 2^32)%N -> nth_error l i = Some m ->
  region_get (region_encode l) (length l) i = Ok (fst m).
Proof.
  intros H Hw Hi. apply nth_split_len in Hi as (a & b & -> & <-).
  pose proof (proj1 (Forall_app _ _ _) H) as [Ha Hb]. inversion Hb as [|? ? Hm Hb']; subst.
  set (l := a ++ m :: b) in *.
  assert (Hd : (data_size a < 2^32)%N).
  { unfold mweight, region_weight in Hw. rewrite <- data_size_weight in Hw.
    unfold l in Hw. rewrite data_size_app in Hw. lia. }
  unfold region_get.
  set (H24 := pack [(4, region_writer_size l); (4, N.of_nat (length l)); (4,0%N); (4,0%N); (4,0%N); (4,0%N)]).
  assert (L24 : length H24 = 24) by (unfold H24; rewrite pack_length; reflexivity).
  unfold region_encode. fold H24.
  assert (Eo : pack (map (fun o => (4, o)) (region_offsets 0 l)) =
    pack (map (fun o => (4, o)) (region_offsets 0 a)) ++ le 4 (w32 (data_size a)) ++
    pack (map (fun o => (4, o)) (region_offsets (data_size a + event_size (fst m)) b))).
  { unfold l. rewrite offsets_app. cbn [region_offsets]. rewrite N.add_0_l.
    rewrite map_app. cbn [map].
    assert (P : forall u v, pack (u ++ v) = pack u ++ pack v).
    { induction u as [|[k w] u IH]; intros v; auto. cbn [app]. unfold pack; fold pack. rewrite IH, app_assoc. auto. }
    rewrite P. f_equal. }
  rewrite Eo at 1. rewrite <- !app_assoc.
  rewrite (app_assoc H24).
  rewrite (slice_app (H24 ++ pack (map (fun o => (4, o)) (region_offsets 0 a)))).
  2: { rewrite app_length, L24, pack4_length, offsets_length. auto. }
  2: { apply le_length. }
  rewrite le_value_le.
  2: { change (2 ^ (8 * N.of_nat 4))%N with (2^32)%N. apply N.mod_lt. discriminate. }
  unfold w32. rewrite N.mod_small by exact Hd.
  assert (Esk : skipn (24 + 4 * length l + N.to_nat (data_size a))
     (H24 ++ pack (map (fun o => (4, o)) (region_offsets 0 l)) ++ flat_map event_image l) =
     event_image m ++ flat_map event_image b).
  { unfold l at 3. rewrite flat_map_app. cbn [flat_map].
    rewrite (app_assoc H24), (app_assoc (H24 ++ _)). apply skipn_app_exact.
    rewrite !app_length, L24, pack4_length, offsets_length.
    rewrite <- (images_length a Ha), Nat2N.id. auto. }
  rewrite Esk. unfold event_image. rewrite <- app_assoc.
  rewrite event_load_spec; auto; [apply Hm|].
  unfold mweight, region_weight in Hw. rewrite <- data_size_weight in Hw.
  unfold l in Hw. rewrite data_size_app in Hw. cbn [data_size fold_right] in Hw.
  unfold event_size in Hw. lia.
Qed.

Lemma map_res_ok {A B} (f : A -> res B) l l' :
  (forall i a, nth_error l i = Some a -> exists b, nth_error l' i = Some b /\ f a = Ok b) ->
  length l = length l' -> map_res f l = Ok l'.
Proof.
  revert l'. induction l as [|a l IH]; intros [|b l'] H Hl; try discriminate; auto.
  cbn [map_res]. destruct (H 0 a eq_refl) as (b0 & E & Hf). inversion E; subst. rewrite Hf. cbn [bind].
  rewrite (IH l'); auto. intros i x Hi. apply (H (S i) x Hi).
Qed.

Lemma region_events_spec l : Forall mev_ok l -> (mweight l < 2^32)%N ->
  region_events (region_encode l) = Ok (map fst l).
Proof.
  intros H Hw. unfold region_events.
  assert (Hn : (N.of_nat (length l) < 2^32)%N).
  { unfold mweight, region_weight in Hw. rewrite map_length in Hw. unfold mevent in *. lia. }
  assert (E : region_encode l = le 4 (region_writer_size l) ++ le 4 (N.of_nat (length l)) ++
      (pack [(4,0%N); (4,0%N); (4,0%N); (4,0%N)] ++
       pack (map (fun o => (4, o)) (region_offsets 0 l)) ++ flat_map event_image l)).
  { unfold region_encode. rewrite !app_assoc. do 2 f_equal. }
  rewrite E at 1. rewrite (slice_app (le 4 (region_writer_size l)) (le 4 (N.of_nat (length l)))) by apply le_length.
  rewrite le_value_le by exact Hn. rewrite Nat2N.id.
  apply map_res_ok.
  - intros i a Hi.
    assert (Hlt : i < length l).
    { rewrite <- (seq_length (length l) 0). apply nth_error_Some. congruence. }
    assert (a = i).
    { rewrite nth_error_nth' with (d := 0) in Hi by (rewrite seq_length; auto).
      rewrite seq_nth in Hi by auto. simpl in Hi. congruence. }
    subst a. destruct (nth_error l i) as [m|] eqn:Em; [|apply nth_error_None in Em; lia].
    exists (fst m). split; [apply map_nth_error; exact Em|]. apply region_get_spec; auto.
  - rewrite seq_length, map_length. auto.
Qed.
