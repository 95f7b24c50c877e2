From Coq Require Import NArith ZArith Arith List Bool Lia.
Import ListNotations.
From Verif Require Import Model.Base Model.Event Model.Crc Model.Codec Model.File Model.Writer
  Spec.Order Spec.Checksum Spec.Regions Spec.Codecs Proof.CrcL Proof.CrcP Proof.CodecL Proof.WriterL Proof.FileL.

Local Arguments pack : simpl never.
Local Arguments unpack : simpl never.
Local Arguments region_encode : simpl never.

Section W.
Variable compress : N -> nat -> list byte -> list byte.
Variable decompress : N -> list byte -> N -> res (list byte).
Variable encrypt : N -> nat -> list byte -> list byte.
Variable decrypt : N -> list byte -> res (list byte).
Hypothesis CO : codecs_ok compress decompress encrypt decrypt.
Variable s : source.
Hypothesis Hcomp : (so_compression s < 256)%N.
Hypothesis Hencr : (so_encryption s < 256)%N.

Notation seal := (seal compress encrypt s).
Notation stop_region := (writer_stop_region compress encrypt s).
Notation wadd := (writer_add compress encrypt s).
Definition plain : bool := ((so_encryption s =? 0) && (so_compression s =? 0))%N.

Lemma seal_bytes n b : bytes b -> bytes (seal n b).
Proof.
  intros H. unfold File.seal.
  destruct (so_compression s =? 0)%N, (so_encryption s =? 0)%N; auto;
    repeat first [apply (co_encrypt_bytes _ _ _ _ CO) | apply (co_compress_bytes _ _ _ _ CO)]; auto.
Qed.
Lemma seal_some n b : b <> [] -> seal n b <> [].
Proof.
  intros H. unfold File.seal.
  destruct (so_compression s =? 0)%N, (so_encryption s =? 0)%N; auto;
    repeat first [apply (co_encrypt_some _ _ _ _ CO) | apply (co_compress_some _ _ _ _ CO)]; auto.
Qed.
Lemma seal_plain n b : plain = true -> seal n b = b.
Proof.
  unfold plain, File.seal. destruct (so_compression s =? 0)%N, (so_encryption s =? 0)%N; auto; discriminate.
Qed.
Lemma unseal_seal ix n b o : bytes b -> ix_compression ix = so_compression s ->
  ix_encryption ix = so_encryption s -> o = N.of_nat (length b) ->
  unseal decompress decrypt ix (seal n b) o = Ok b.
Proof.
  intros H Ec Ee ->. unfold unseal, File.seal. rewrite Ec, Ee.
  destruct (so_compression s =? 0)%N, (so_encryption s =? 0)%N; cbn [bind]; auto;
    rewrite ?(co_decrypt _ _ _ _ CO), ?(co_decompress _ _ _ _ CO);
    auto; cbn [bind]; rewrite ?(co_decompress _ _ _ _ CO); auto.
  apply (co_compress_bytes _ _ _ _ CO); auto.
Qed.

(* the file made of finished regions *)
Fixpoint fbytes (i : nat) (ds : list (list mevent)) : list byte :=
  match ds with
  | [] => []
  | l :: t => seal i (region_encode l) ++ fbytes (S i) t
  end.
Definition ref_of (i : nat) (off : N) (l : list mevent) : index_region :=
  let stored := seal i (region_encode l) in
  mk_iregion (w32 off) (if so_crc s then crc 0 stored else 0%N) (first_id l) (last_id l)
    (if plain then region_writer_size l else w32 (N.of_nat (length stored)))
    (region_writer_size l) (N.of_nat (length l)).
Fixpoint refs (i : nat) (off : N) (ds : list (list mevent)) : list index_region :=
  match ds with
  | [] => []
  | l :: t => ref_of i off l :: refs (S i) (off + N.of_nat (length (seal i (region_encode l)))) t
  end.
Lemma fbytes_snoc ds l : forall i, fbytes i (ds ++ [l]) = fbytes i ds ++ seal (i + length ds) (region_encode l).
Proof.
  induction ds as [|d ds IH]; intros i; simpl.
  - rewrite app_nil_r, Nat.add_0_r. auto.
  - rewrite IH, app_assoc. do 2 f_equal. simpl. lia.
Qed.
Lemma refs_snoc ds l : forall i off, refs i off (ds ++ [l]) =
  refs i off ds ++ [ref_of (i + length ds) (off + N.of_nat (length (fbytes i ds))) l].
Proof.
  induction ds as [|d ds IH]; intros i off; simpl.
  - rewrite Nat.add_0_r, N.add_0_r. auto.
  - rewrite IH. f_equal. f_equal. f_equal.
    + replace (S i + length ds) with (i + S (length ds)) by lia. f_equal.
      rewrite app_length, Nat2N.inj_add. lia.
Qed.
Lemma refs_length ds : forall i off, length (refs i off ds) = length ds.
Proof. induction ds; intros; simpl; auto. Qed.

Definition sum (f : index_region -> N) (l : list index_region) : N := fold_right (fun r n => f r + n)%N 0%N l.
Lemma sum_snoc f l r : sum f (l ++ [r]) = (sum f l + f r)%N.
Proof. unfold sum. induction l; simpl; lia. Qed.

Record wok (w : writer) (ds : list (list mevent)) : Prop := {
  wk_file : w_file w = fbytes 0 ds;
  wk_refs : w_refs w = refs 0 0 ds;
  wk_size : w_size w = w32 (52 * N.of_nat (length ds));
  wk_sr : w_size_regions w = sum ir_size (w_refs w);
  wk_sro : w_size_regions_origin w = sum ir_size_origin (w_refs w);
  wk_events : w_events w = sum ir_events (w_refs w);
  wk_calls : w_calls w = length ds
}.

Lemma w32_add a b : w32 (w32 a + b) = w32 (a + b).
Proof. unfold w32. rewrite N.add_mod_idemp_l by discriminate. auto. Qed.

Lemma stop_ok w ds l : wok w ds -> w_region w = Some l -> wok (stop_region w) (ds ++ [l]).
Proof.
  intros [H1 H2 H3 H4 H6 H7 H5] Hr. unfold writer_stop_region. rewrite Hr.
  constructor; cbn [w_file w_refs w_size w_size_regions w_size_regions_origin w_events w_calls].
  - rewrite fbytes_snoc, H1, H5. auto.
  - rewrite refs_snoc, H2, H5. f_equal. unfold ref_of. rewrite H1, N.add_0_l. reflexivity.
  - rewrite H3, w32_add. f_equal. rewrite app_length, Nat2N.inj_add. simpl (length [l]). lia.
  - rewrite H4, sum_snoc. reflexivity.
  - rewrite H6, sum_snoc. reflexivity.
  - rewrite H7, sum_snoc. reflexivity.
  - rewrite H5, app_length. simpl. lia.
Qed.

(* the same cuts as without bytes *)
Definition limit : N := Z.to_N (so_region_size s mod 2 ^ 32).
Definition strip (l : list mevent) : list event := map fst l.

Lemma last_id_strip l : last_id l = region_last_id (strip l).
Proof.
  unfold last_id, region_last_id, strip, mevent in *. rewrite <- map_rev. destruct (rev l); auto.
Qed.

Definition given (r : option (list mevent)) : list mevent := match r with Some l => l | None => [] end.
Lemma add_ok w ds m : wok w ds -> exists ds', wok (wadd w m) ds' /\
  cut_add limit (map strip ds, option_map strip (w_region w)) (fst m) =
    (map strip ds', option_map strip (w_region (wadd w m))) /\
  w_region (wadd w m) <> None /\
  concat ds' ++ given (w_region (wadd w m)) = concat ds ++ given (w_region w) ++ [m].
Proof.
  intros H. unfold writer_add, writer_is_region_limit. destruct (w_region w) as [l|] eqn:Er.
  - fold limit. rewrite region_size_bytes. unfold cut_add. cbn [fst snd option_map].
    fold (strip l). rewrite last_id_strip.
    assert (Hadd : wok (region_writer_add w m) ds).
    { destruct H. constructor; auto. }
    destruct (limit <=? region_bytes (strip l))%N.
    + destruct (region_last_id (strip l) =? ev_id (fst m))%N.
      * exists ds. split; auto. unfold region_writer_add. cbn [w_region]. rewrite Er.
        cbn [option_map].
        split; [unfold strip; rewrite map_app; auto|]. split; [discriminate|].
        reflexivity.
      * exists (ds ++ [l]). pose proof (stop_ok w ds l H Er) as Hs.
        split; [destruct Hs; constructor; auto|]. cbn [region_writer_add w_region option_map].
        split; [rewrite map_app; auto|]. split; [discriminate|].
        rewrite concat_app. cbn [concat given]. rewrite app_nil_r, <- app_assoc. reflexivity.
    + exists ds. split; auto. unfold region_writer_add. cbn [w_region]. rewrite Er.
      cbn [option_map]. split; [unfold strip; rewrite map_app; auto|]. split; [discriminate|].
      reflexivity.
  - exists ds. unfold writer_stop_region. rewrite Er.
    split; [destruct H; constructor; auto|]. cbn [region_writer_add w_region option_map cut_add snd fst].
    split; auto. split; [discriminate|]. reflexivity.
Qed.

Lemma fold_ok l : forall w ds, wok w ds ->
  exists ds', wok (fold_left wadd l w) ds' /\
    fold_left (cut_add limit) (strip l) (map strip ds, option_map strip (w_region w)) =
      (map strip ds', option_map strip (w_region (fold_left wadd l w))) /\
    concat ds' ++ given (w_region (fold_left wadd l w)) = concat ds ++ given (w_region w) ++ l.
Proof.
  induction l as [|m l IH]; intros w ds H; cbn [fold_left strip map].
  - exists ds. rewrite app_nil_r. auto.
  - destruct (add_ok w ds m H) as (ds1 & H1 & E1 & _ & G1).
    destruct (IH (wadd w m) ds1 H1) as (ds' & K1 & K2 & K3). exists ds'.
    split; auto. split; [rewrite E1; exact K2|]. rewrite K3, app_assoc, G1, <- !app_assoc. reflexivity.
Qed.

(* everything written, and the regions are the cuts *)
Lemma written l : exists ds w,
  w = stop_region (fold_left wadd l writer_start) /\ wok w ds /\
  map strip ds = cut_regions limit (strip l) /\ concat ds = l.
Proof.
  destruct (fold_ok l writer_start []) as (ds & H1 & H2 & H3); [constructor; auto|].
  cbn [concat given writer_start w_region app] in H3.
  cbn [map option_map writer_start w_region] in H2.
  assert (E : cut_regions limit (strip l) = cut_stop (map strip ds, option_map strip (w_region (fold_left wadd l writer_start)))).
  { unfold cut_regions. f_equal. exact H2. }
  rewrite E. unfold cut_stop. cbn [fst snd].
  destruct (w_region (fold_left wadd l writer_start)) as [r|] eqn:Er; cbn [option_map].
  - exists (ds ++ [r]), (stop_region (fold_left wadd l writer_start)). split; auto.
    split; [apply stop_ok; auto|]. split; [rewrite map_app; auto|].
    rewrite concat_app. cbn [concat]. rewrite app_nil_r. exact H3.
  - exists ds, (stop_region (fold_left wadd l writer_start)). split; auto.
    cbn [given] in H3. rewrite app_nil_r in H3. split; [|auto]. unfold writer_stop_region. rewrite Er. auto.
Qed.
End W.
