(* A file of more than 4 GiB: the 32-bit offset of a region wraps. *)
From Coq Require Import NArith ZArith Arith List Bool Lia.
Import ListNotations.
From Verif Require Import Model.Base Model.Event Model.Crc Model.Codec Model.File Model.Writer
  Spec.Order Spec.Checksum Spec.Files Spec.Regions Spec.Codecs Proof.OrderL Proof.PartIterL Proof.CrcL Proof.CodecL
  Proof.WriterL Proof.FileL Proof.FileW Proof.FileR Proof.FileP.

Local Arguments pack : simpl never.
Local Arguments unpack : simpl never.
Local Arguments region_encode : simpl never.
Local Arguments crc : simpl never.

Definition big_source : source := mk_source 1 0 0 true.
Definition big_stamp : stamp := mk_stamp 0 10 1 0 0 0.
Definition big (id : N) (v : list byte) : mevent := (mk_event id 0 [] v, []).

Section X.
Variable compress : N -> nat -> list byte -> list byte.
Variable decompress : N -> list byte -> N -> res (list byte).
Variable encrypt : N -> nat -> list byte -> list byte.
Variable decrypt : N -> list byte -> res (list byte).
Hypothesis CO : codecs_ok compress decompress encrypt decrypt.
Variable v : list byte.
Hypothesis Hv : bytes v.
Hypothesis Hlen : N.of_nat (length v) = (2^31 - 42)%N.
Notation s := big_source.

Lemma big_ok id : (id < 2^64)%N -> mev_ok (big id v).
Proof. intros H. repeat split; simpl; auto; try lia; constructor. Qed.
Lemma big_weight id : mweight [big id v] = (2^31)%N.
Proof.
  unfold mweight, region_weight, event_weight, big. cbn [map fst fold_right ev_key ev_val length].
  rewrite Hlen. reflexivity.
Qed.
Lemma big_events : Forall mev_ok [big 1 v; big 2 v; big 3 v].
Proof. repeat (apply Forall_cons; [apply big_ok; lia|]). constructor. Qed.
Lemma big_bytes id : region_bytes (strip [big id v]) = (2^31)%N.
Proof. unfold strip. rewrite region_bytes_weight; fold (mweight [big id v]); rewrite big_weight; reflexivity. Qed.

Lemma big_seal n l : seal compress encrypt s n l = l.
Proof. reflexivity. Qed.
Lemma big_encode id : (id < 2^64)%N -> N.of_nat (length (region_encode [big id v])) = (2^31)%N.
Proof.
  intros H. rewrite encode_length by (constructor; [apply big_ok; auto|constructor]). apply big_weight.
Qed.

Lemma big_cut : cut_regions (limit s) (strip [big 1 v; big 2 v; big 3 v]) =
  map strip [[big 1 v]; [big 2 v]; [big 3 v]].
Proof.
  unfold cut_regions. change (limit s) with 1%N.
  change (strip [big 1 v; big 2 v; big 3 v]) with [fst (big 1 v); fst (big 2 v); fst (big 3 v)].
  cbn [fold_left].
  unfold cut_add at 3. cbn [snd fst].
  unfold cut_add at 2. cbn [snd fst].
  change [fst (big 1 v)] with (strip [big 1 v]). rewrite big_bytes.
  replace (1 <=? 2 ^ 31)%N with true by reflexivity.
  change (region_last_id (strip [big 1 v]) =? ev_id (fst (big 2 v)))%N with false.
  cbn [app]. unfold cut_add. cbn [snd fst].
  change [fst (big 2 v)] with (strip [big 2 v]). rewrite big_bytes.
  replace (1 <=? 2 ^ 31)%N with true by reflexivity.
  change (region_last_id (strip [big 2 v]) =? ev_id (fst (big 3 v)))%N with false.
  reflexivity.
Qed.

Lemma strip_inj_big ds : map strip ds = map strip [[big 1 v]; [big 2 v]; [big 3 v]] ->
  Forall mev_ok (concat ds) -> exists a b c, ds = [[(fst (big 1 v), a)]; [(fst (big 2 v), b)]; [(fst (big 3 v), c)]].
Proof.
  intros E _. unfold strip in E. cbn [map] in E.
  destruct ds as [|d1 [|d2 [|d3 [|d4 ds]]]]; try discriminate. cbn [map] in E. inversion E as [[E1 E2 E3]].
  destruct d1 as [|[e1 j1] [|? ?]]; try discriminate. destruct d2 as [|[e2 j2] [|? ?]]; try discriminate.
  destruct d3 as [|[e3 j3] [|? ?]]; try discriminate. cbn [map fst] in *.
  inversion E1; inversion E2; inversion E3; subst. eauto.
Qed.

Lemma any_junk id a : region_encode [(fst (big id v), a)] = region_encode [big id v].
Proof. reflexivity. Qed.
Lemma any_weight id a : mweight [(fst (big id v), a)] = (2^31)%N.
Proof. apply (big_weight id). Qed.

Lemma fb0 a b c : fbytes compress encrypt s 0 [[(fst (big 1 v), a)]; [(fst (big 2 v), b)]; [(fst (big 3 v), c)]] =
  region_encode [big 1 v] ++ region_encode [big 2 v] ++ region_encode [big 3 v].
Proof. cbn [fbytes]. rewrite !big_seal, !any_junk, app_nil_r. reflexivity. Qed.

Lemma over_4gib : exists ix regions,
  read_file decompress decrypt (write_file compress encrypt s big_stamp [big 1 v; big 2 v; big 3 v]) = Ok (ix, regions) /\
  concat regions = [mk_event 1 0 [] v; mk_event 2 0 [] v; mk_event 1 0 [] v].
Proof.
  set (l := [big 1 v; big 2 v; big 3 v]).
  destruct (written compress encrypt s eq_refl eq_refl l) as (ds & w & Ew & Hok & Hds & Hcc).
  assert (Hmd : Forall mev_ok (concat ds)) by (rewrite Hcc; exact big_events).
  unfold l in Hds. rewrite big_cut in Hds.
  destruct (strip_inj_big ds Hds Hmd) as (a & b & c & Eds).
  assert (Hw : forall d, In d ds -> mweight d = (2^31)%N).
  { intros d Hd. rewrite Eds in Hd. destruct Hd as [<-|[<-|[<-|[]]]]; apply any_weight. }
  assert (Hdm : forall d, In d ds -> Forall mev_ok d).
  { intros d Hd. rewrite Forall_forall in *. intros m Hm. apply Hmd. apply in_concat. eauto. }
  assert (H3 : length ds = 3) by (rewrite Eds; reflexivity).
  assert (Hst : stored_small compress encrypt s 0 ds).
  { intros j d Hj. apply nth_error_In in Hj. rewrite big_seal, encode_length by auto.
    rewrite Hw by auto. reflexivity. }
  assert (Hidx : N.of_nat (length (seal compress encrypt s (length ds) (flat_map iregion_bytes (refs compress encrypt s 0 0 ds)))) = 156%N).
  { rewrite big_seal, iregions_length, refs_length, H3. reflexivity. }
  assert (L1 := big_encode 1 eq_refl). assert (L2 := big_encode 2 eq_refl). assert (L3 := big_encode 3 eq_refl).
  assert (Hfb : fbytes compress encrypt s 0 ds = region_encode [big 1 v] ++ region_encode [big 2 v] ++ region_encode [big 3 v]).
  { rewrite Eds. apply fb0. }
  destruct (opened compress decompress encrypt decrypt CO s eq_refl eq_refl l big_stamp ds big_events) as
    (ix & data & rest & Ef & Hopen & Hread & F1 & F2 & F3 & F4 & F5 & F6 & F7 & F8 & F9 & Hget).
  { repeat split; simpl; lia. }
  { exists w. auto. }
  { auto. }
  { intros d Hd. rewrite Hw by auto. reflexivity. }
  { rewrite H3. reflexivity. }
  { auto. }
  { rewrite Hidx. reflexivity. }
  { rewrite Hfb, !app_length, !Nat2N.inj_add, L1, L2, L3. reflexivity. }
  set (file := write_file compress encrypt s big_stamp l) in *.
  assert (Hexec : forall x y e pre post, file = pre ++ region_encode [e] ++ post ->
    mev_ok e -> mweight [e] = (2^31)%N -> ir_offset x = N.of_nat (length pre) ->
    ir_size x = (2^31)%N -> ir_size_origin x = (2^31)%N -> ir_events x = 1%N -> y = [fst e] ->
    bind (reader_execute decompress decrypt file ix x) (fun raw => region_events raw) = Ok y).
  { intros x y e pre post E He We X1 X2 X3 X4 ->.
    assert (He1 : Forall mev_ok [e]) by (constructor; auto).
    assert (Hsz : region_writer_size [e] = (2^31)%N).
    { rewrite writer_size_weight; auto. rewrite We. reflexivity. }
    unfold reader_execute. rewrite E, pread_app; [|auto|rewrite encode_length by auto; rewrite We; auto].
    cbn [bind]. unfold unseal. rewrite F8, F9. change (so_compression s =? 0)%N with true.
    change (so_encryption s =? 0)%N with true. cbn [bind].
    assert (E8 : region_encode [e] = pack [(4, region_writer_size [e]); (4, 1%N)] ++
       (pack [(4,0%N); (4,0%N); (4,0%N); (4,0%N)] ++
        pack (map (fun o => (4, o)) (region_offsets 0 [e])) ++ flat_map event_image [e])).
    { unfold region_encode. rewrite app_assoc. reflexivity. }
    rewrite E8 at 1. rewrite slice_start by (rewrite pack_length; reflexivity).
    change [4;4] with (map fst [(4, region_writer_size [e]); (4, 1%N)]).
    rewrite unpack_pack0 by (rewrite Hsz; fits; reflexivity).
    cbn [map snd]. rewrite Hsz, X3, X4. rewrite !N.eqb_refl. cbn [andb bind].
    apply (region_events_spec [e]); auto. rewrite We. reflexivity. }
  exists ix, [[mk_event 1 0 [] v]; [mk_event 2 0 [] v]; [mk_event 1 0 [] v]]. split; [|reflexivity].
  unfold read_file. rewrite Hopen. cbn [bind]. rewrite Hread. cbn [bind].
  rewrite F7, H3. change (seq 0 (N.to_nat (N.of_nat 3))) with [0; 1; 2].
  rewrite Hfb in Ef.
  assert (G : forall i d o, nth_error ds i = Some d -> In d ds -> N.of_nat (length (fbytes compress encrypt s 0 (firstn i ds))) = o ->
    exists x, index_get data i = Some x /\ ir_offset x = w32 o /\ ir_size x = (2^31)%N /\
      ir_size_origin x = (2^31)%N /\ ir_events x = N.of_nat (length d)).
  { intros i d o Hi Hd Ho. eexists. split; [apply Hget; exact Hi|]. rewrite Ho. unfold ref_of.
    cbn [ir_offset ir_size ir_size_origin ir_events].
    change (plain s) with true. rewrite (writer_size_weight d) by (rewrite (Hw d Hd); reflexivity).
    rewrite (Hw d Hd). auto. }
  cbn [map_res].
  destruct (G 0 [(fst (big 1 v), a)] 0%N) as (x0 & E0 & A0 & B0 & C0 & D0); [rewrite Eds; reflexivity|rewrite Eds; left; auto|reflexivity|].
  destruct (G 1 [(fst (big 2 v), b)] (2^31)%N) as (x1 & E1 & A1 & B1 & C1 & D1); [rewrite Eds; reflexivity|rewrite Eds; right; left; auto| |].
  { rewrite Eds. cbn [firstn fbytes]. rewrite big_seal, any_junk, app_nil_r. exact L1. }
  destruct (G 2 [(fst (big 3 v), c)] (2^32)%N) as (x2 & E2 & A2 & B2 & C2 & D2); [rewrite Eds; reflexivity|rewrite Eds; right; right; left; auto| |].
  { rewrite Eds. cbn [firstn fbytes]. rewrite !big_seal, !any_junk, app_nil_r, app_length, Nat2N.inj_add, L1, L2. reflexivity. }
  rewrite E0, E1, E2. cbn [of_opt bind].
  rewrite (Hexec x0 [mk_event 1 0 [] v] (big 1 v) [] ((region_encode [big 2 v] ++ region_encode [big 3 v]) ++ rest));
    auto using big_weight; [|rewrite Ef, <- !app_assoc; reflexivity|apply big_ok; lia].
  cbn [bind].
  rewrite (Hexec x1 [mk_event 2 0 [] v] (big 2 v) (region_encode [big 1 v]) (region_encode [big 3 v] ++ rest));
    auto using big_weight; [|rewrite Ef, <- !app_assoc; reflexivity|apply big_ok; lia|rewrite A1, L1; reflexivity].
  cbn [bind].
  rewrite (Hexec x2 [mk_event 1 0 [] v] (big 1 v) [] ((region_encode [big 2 v] ++ region_encode [big 3 v]) ++ rest));
    auto using big_weight;
    try (rewrite Ef, <- !app_assoc; reflexivity); try (apply big_ok; lia); try (rewrite A2; reflexivity).

Qed.
End X.

Lemma over_4gib_refuted c d e k : codecs_ok c d e k ->
  exists s st l, Forall mev_ok l /\ ascending (map fst l) /\ stamp_fit st /\ settings_ok s /\
    (forall m, In m l -> (region_weight [fst m] < 2^32)%N) /\
    exists ix regions, read_file d k (write_file c e s st l) = Ok (ix, regions) /\
      concat regions <> map fst l.
Proof.
  intros CO. set (v := repeat 0%N (N.to_nat (2^31 - 42))).
  assert (Hv : bytes v) by (apply Forall_forall; intros x Hx; apply repeat_spec in Hx; subst; lia).
  assert (Hl : N.of_nat (length v) = (2^31 - 42)%N) by (unfold v; rewrite repeat_length, N2Nat.id; reflexivity).
  generalize dependent v. intros v Hv Hl.
  exists big_source, big_stamp, [big 1 v; big 2 v; big 3 v].
  split; [apply big_events; auto|]. split.
  { unfold ascending. repeat constructor; reflexivity. }
  split; [repeat split; simpl; lia|]. split; [split; reflexivity|]. split.
  { intros m [<-|[<-|[<-|[]]]]; change (mweight [big 1 v] < 2^32)%N || change (mweight [big 2 v] < 2^32)%N || change (mweight [big 3 v] < 2^32)%N;
      rewrite big_weight; auto; reflexivity. }
  destruct (over_4gib c d e k CO v Hv Hl) as (ix & rs & R & E). exists ix, rs. split; auto.
  rewrite E. discriminate.
Qed.
