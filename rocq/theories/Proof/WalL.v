From Coq Require Import NArith ZArith Arith List Bool Lia Sorted.
Import ListNotations.
From Verif Require Import Model.Base Model.Event Model.Crc Model.Codec Model.File Model.Wal
  Spec.Order Spec.Checksum Spec.Log Proof.CrcL Proof.CrcP Proof.CodecL Proof.FileR Proof.FileC.
Local Opaque crc_bits.
Local Arguments N.add : simpl never.
Local Arguments N.mul : simpl never.

Lemma crc_app a b : bytes (a ++ b) -> crc (crc 0 a) b = crc 0 (a ++ b).
Proof.
  intros H. unfold crc. rewrite <- (crc_incremental true true 0 0 0 0 a b); auto. reflexivity.
Qed.

Lemma crc_fold l : forall c, (c < 2^32)%N -> Forall bytes l ->
  fold_left crc l c = crc c (concat l).
Proof.
  induction l as [|x l IH]; intros c Hc Hl; simpl.
  - unfold crc. rewrite crc32_statement; auto. constructor.
  - inversion Hl; subst. rewrite IH; auto.
    + unfold crc. rewrite <- (crc_incremental true true 0 0 0 c x (concat l)); auto.
      apply bytes_app. split; auto. clear - H2. induction H2; simpl; [constructor|]. apply bytes_app; auto.
    + unfold crc. rewrite crc32_statement; auto. apply crc32c_lt; auto.
Qed.

Lemma event_bytes_bytes e : ev_ok e -> bytes (event_bytes e).
Proof.
  intros (H1 & H2 & H3 & H4 & H5). unfold event_bytes. apply bytes_app. split; [apply pack_bytes|].
  apply bytes_app. split; auto.
Qed.
Lemma image_bytes e j : ev_ok e -> bytes j -> bytes (event_image (e, j)).
Proof.
  intros. unfold event_image. apply bytes_app. split; [apply event_bytes_bytes; auto|]. apply bytes_firstn; auto.
Qed.

Definition image_w (x : lentry) : list byte := event_image (le_event x, le_written x).
Local Arguments image_w : simpl never.
Definition image_a (x : lentry) : list byte := event_image (le_event x, le_added x).

Lemma image_w_len x : entry_ok x -> N.of_nat (length (image_w x)) = event_size (le_event x).
Proof. intros (H & _ & _ & _ & Hl). unfold image_w. rewrite event_image_length; auto. Qed.
Lemma image_stable x : stable x -> image_a x = image_w x.
Proof. intros H. unfold image_a, image_w, event_image. cbn [fst snd]. rewrite H. auto. Qed.

Lemma event_size_ge e : (14 <= event_size e)%N.
Proof. unfold event_size. lia. Qed.

Lemma batch_size_count l : (14 * N.of_nat (length l) <= batch_size l)%N.
Proof.
  induction l as [|x l IH]; simpl; [lia|]. pose proof (event_size_ge (le_event x)). fold (batch_size l). lia.
Qed.
Lemma batch_size_app a b : batch_size (a ++ b) = (batch_size a + batch_size b)%N.
Proof. induction a; simpl; auto. fold (batch_size (a0 ++ b)) (batch_size a0). rewrite IHa. lia. Qed.
Lemma batch_size_len l : Forall entry_ok l -> N.of_nat (length (flat_map image_w l)) = batch_size l.
Proof.
  induction 1; auto. cbn [flat_map batch_size fold_right]. rewrite app_length. fold (batch_size l).
  pose proof (image_w_len _ H). lia.
Qed.

(* the header after a batch was added *)
Lemma log_header on l : l <> [] -> Forall entry_ok l -> (21 + batch_size l < 2^31)%N ->
  fold_left (log_add_event on) l log_write_init =
  mk_lwrite (if on then fold_left crc (map image_a l) 0%N else 0%N) 0 LOG_WRITE
            (N.of_nat (length l)) (21 + batch_size l).
Proof.
  intros Hn Hl Hs.
  assert (forall a b, l = a ++ b -> a <> [] ->
    fold_left (log_add_event on) a log_write_init =
    mk_lwrite (if on then fold_left crc (map image_a a) 0%N else 0%N) 0 LOG_WRITE
            (N.of_nat (length a)) (21 + batch_size a)).
  2: { apply (H l []); auto. rewrite app_nil_r; auto. }
  intros a. induction a as [|x a IH] using rev_ind; intros b Hab Ha; [tauto|].
  rewrite fold_left_app. cbn [fold_left].
  rewrite Hab in Hs. rewrite !batch_size_app in Hs.
  pose proof (batch_size_count a) as Hc. pose proof (batch_size_count b) as Hcb.
  cbn [batch_size fold_right] in Hs. unfold batch_size in Hs at 2. cbn [fold_right] in Hs.
  assert (H32 : (2^31 < two32)%N) by reflexivity.
  destruct a as [|y a'] eqn:Ea.
  - cbn [fold_left app map length]. unfold log_add_event. cbn [lw_count lw_size lw_crc lw_lsn lw_type log_write_init].
    change (w32 (0 + 1)) with 1%N. cbn [N.eqb Pos.eqb]. change (w32 (0+21)) with 21%N.
    unfold batch_size in *. cbn [fold_right] in *. unfold w32. rewrite N.mod_small by lia.
    rewrite N.add_0_r. destruct on; reflexivity.
  - rewrite <- Ea in *. rewrite (IH ([x] ++ b)); [|rewrite Hab, <- app_assoc; auto|rewrite Ea; discriminate].
    unfold log_add_event. cbn [lw_count lw_size lw_crc lw_lsn lw_type].
    rewrite app_length. cbn [length].
    assert (length a <> 0) by (rewrite Ea; discriminate).
    assert (Hw : w32 (N.of_nat (length a) + 1) = N.of_nat (length a + 1)).
    { unfold w32. rewrite N.mod_small; lia. }
    rewrite Hw. destruct (N.of_nat (length a + 1) =? 1)%N eqn:E; [apply N.eqb_eq in E; lia|].
    rewrite batch_size_app. replace (batch_size [x]) with (event_size (le_event x)) by (unfold batch_size; cbn [fold_right]; lia).
    unfold w32 at 1. rewrite N.mod_small by lia.
    rewrite map_app, fold_left_app. cbn [map fold_left].
    f_equal; [destruct on; reflexivity|lia].
Qed.

Lemma lwrite_length w : length (lwrite_bytes w) = 21.
Proof. unfold lwrite_bytes. rewrite pack_length. reflexivity. Qed.
Lemma lwrite_is_bytes w : bytes (lwrite_bytes w).
Proof. apply pack_bytes. Qed.
Definition lwrite_fit (w : log_write) : Prop :=
  (lw_crc w < 2^32 /\ lw_lsn w < 2^64 /\ lw_type w < 256 /\ lw_count w < 2^32 /\ lw_size w < 2^32)%N.
Lemma lwrite_load_spec w : lwrite_fit w -> lwrite_load (lwrite_bytes w) = Some w.
Proof.
  intros (H1 & H2 & H3 & H4 & H5). unfold lwrite_load, lwrite_bytes.
  set (P := [(4, lw_crc w); (8, lw_lsn w); (1, lw_type w); (4, lw_count w); (4, lw_size w)]).
  change lwrite_fields with (map fst P). rewrite unpack_pack0.
  - cbn [map snd P]. destruct w; auto.
  - fits; auto.
Qed.
Lemma seal_skip on w : skipn 4 (lwrite_bytes (log_write_seal on w)) = skipn 4 (lwrite_bytes w).
Proof.
  unfold log_write_seal. destruct on; [|reflexivity]. unfold lwrite_bytes. cbn [lw_crc lw_lsn lw_type lw_count lw_size pack].
  rewrite !skipn_app_exact by (rewrite le_length; auto). auto.
Qed.
Lemma seal_size on w : lw_size (log_write_seal on w) = lw_size w.
Proof. destruct on; auto. Qed.
Lemma seal_lsn on w : lw_lsn (log_write_seal on w) = lw_lsn w.
Proof. destruct on; auto. Qed.
Lemma seal_type on w : lw_type (log_write_seal on w) = lw_type w.
Proof. destruct on; auto. Qed.
Lemma crc_lt_from c l : (c < 2^32)%N -> bytes l -> (crc c l < 2^32)%N.
Proof. intros. unfold crc. rewrite crc32_statement by auto. apply crc32c_lt; auto. Qed.
Lemma seal_fit on w : lwrite_fit w -> lwrite_fit (log_write_seal on w).
Proof.
  intros H. destruct on; auto. destruct H as (H1 & H2 & H3 & H4 & H5).
  unfold lwrite_fit, log_write_seal. cbn [lw_crc lw_lsn lw_type lw_count lw_size].
  split; auto. apply crc_lt_from; auto. apply bytes_skipn, lwrite_is_bytes.
Qed.

(* a record: header and body *)
Definition framed (on : bool) (r : list byte) (w : log_write) (body : list byte) : Prop :=
  r = lwrite_bytes w ++ body /\ lwrite_fit w /\ bytes body /\ body <> [] /\
  lw_size w = (21 + N.of_nat (length body))%N /\ (lw_size w < 2^31)%N /\
  (on = true -> lw_crc w = crc (crc 0 body) (skipn 4 (lwrite_bytes w))).

Lemma images_bytes_w l : Forall entry_ok l -> Forall bytes (map image_w l).
Proof. induction 1; constructor; auto. destruct H as (? & ? & ? & _). apply image_bytes; auto. Qed.
Lemma flat_concat l : flat_map image_w l = concat (map image_w l).
Proof. apply flat_map_concat_map. Qed.
Lemma bytes_concat l : Forall bytes l -> bytes (concat l).
Proof. induction 1; simpl; [constructor|]. apply bytes_app; auto. Qed.

Lemma log_events_spec l : forall fuel, l <> [] -> Forall entry_ok l -> (batch_size l < 2^31)%N ->
  length l < fuel -> log_events fuel (flat_map image_w l) = Ok (map le_event l).
Proof.
  induction l as [|x l IH]; intros fuel Hn Hl Hs Hf; [tauto|].
  inversion Hl; subst. destruct fuel as [|fuel]; [simpl in Hf; lia|].
  cbn [batch_size fold_right] in Hs. fold (batch_size l) in Hs.
  cbn [log_events flat_map].
  assert (Hld : event_load (image_w x ++ flat_map image_w l) = Some (le_event x)).
  { unfold image_w, event_image. rewrite <- app_assoc. cbn [fst snd].
    destruct H1 as (He & _). apply event_load_spec; auto. unfold event_size in Hs. lia. }
  rewrite Hld. pose proof (image_w_len _ H1) as Hil.
  rewrite app_length.
  assert (Hnn : N.to_nat (event_size (le_event x)) = length (image_w x)) by lia.
  rewrite Hnn. destruct l as [|y l].
  - simpl flat_map. cbn [length]. replace (length (image_w x) + 0 <=? length (image_w x)) with true
      by (symmetry; apply Nat.leb_le; lia). auto.
  - assert (length (flat_map image_w (y :: l)) <> 0).
    { pose proof (batch_size_len _ H2). pose proof (batch_size_count (y :: l)).
      cbn [length] in H0. lia. }
    destruct (length (image_w x) + length (flat_map image_w (y :: l)) <=? length (image_w x)) eqn:E;
      [apply Nat.leb_le in E; lia|].
    rewrite skipn_app_exact by auto. rewrite IH; auto; [discriminate|lia|simpl in Hf |- *; lia].
Qed.

Lemma rec_framed on r : rec_ok on r ->
  exists w body, framed on (rec_bytes on r) w body /\ log_decode w body = Ok (rec_logged r) /\
                 lw_lsn w = rec_lsn r.
Proof.
  destruct r as [n l|n id]; simpl rec_ok; intros H.
  - destruct H as (Hn & (Hne & Hl & Hs) & Hst).
    pose proof (images_bytes_w l Hl) as Hib.
    pose proof (batch_size_count l) as Hcnt.
    exists (log_write_seal on (set_lsn (fold_left (log_add_event on) l log_write_init) n)), (flat_map image_w l).
    rewrite log_header by auto. unfold set_lsn. cbn [lw_crc lw_lsn lw_type lw_count lw_size].
    set (c := if on then fold_left crc (map image_a l) 0%N else 0%N).
    assert (Hc : on = true -> c = crc 0 (flat_map image_w l)).
    { intros ->. unfold c. rewrite flat_concat, <- crc_fold by (auto; reflexivity).
      f_equal. apply map_ext_in. intros x Hx. apply image_stable.
      pose proof (Hst eq_refl) as Hst'. rewrite Forall_forall in Hst'. auto. }
    assert (Hb : bytes (flat_map image_w l)) by (rewrite flat_concat; apply bytes_concat; auto).
    assert (Hc32 : (c < 2^32)%N).
    { destruct on eqn:Eo; [rewrite Hc by auto; apply crc_lt; auto|unfold c; reflexivity]. }
    assert (Hfit : lwrite_fit (mk_lwrite c n LOG_WRITE (N.of_nat (length l)) (21 + batch_size l))).
    { unfold lwrite_fit. cbn [lw_crc lw_lsn lw_type lw_count lw_size]. unfold LOG_WRITE. repeat split; auto; lia. }
    split; [|split].
    + refine (conj _ (conj (seal_fit _ _ Hfit) (conj Hb (conj _ (conj _ (conj _ _)))))).
      * unfold rec_bytes, log_record. destruct l; [tauto|]. rewrite log_header by auto. reflexivity.
      * intros E. pose proof (batch_size_len l Hl) as Hbl. rewrite E in Hbl. cbn in Hbl.
        destruct l; [tauto|]. cbn [length] in Hcnt. lia.
      * rewrite seal_size. cbn. rewrite batch_size_len; auto.
      * rewrite seal_size. cbn. auto.
      * intros ->. cbn [log_write_seal lw_crc lw_lsn lw_type lw_count lw_size]. rewrite <- Hc by auto.
        exact (f_equal (crc _) (eq_sym (seal_skip true _))).
    + unfold log_decode. rewrite seal_type, seal_lsn. cbn [lw_type lw_lsn].
      change (LOG_WRITE =? LOG_WRITE)%N with true. cbn iota.
      pose proof (batch_size_len l Hl) as Hbl.
      assert (He : log_events (S (length (flat_map image_w l))) (flat_map image_w l) = Ok (map le_event l)).
      { apply log_events_spec; auto; lia. }
      rewrite He. reflexivity.
    + rewrite seal_lsn. auto.
  - destruct H as (Hn & Hid).
    set (c := if on then crc 0 (le 8 id) else 0%N).
    assert (Hb : bytes (le 8 id)) by apply le_bytes.
    assert (Hc32 : (c < 2^32)%N).
    { unfold c. destruct on; [apply crc_lt; auto|reflexivity]. }
    assert (Hfit : lwrite_fit (mk_lwrite c n LOG_DROP 0 29)).
    { unfold lwrite_fit. cbn [lw_crc lw_lsn lw_type lw_count lw_size]. unfold LOG_DROP. repeat split; auto; reflexivity. }
    exists (log_write_seal on (mk_lwrite c n LOG_DROP 0 29)), (le 8 id). split; [|split].
    + refine (conj eq_refl (conj (seal_fit _ _ Hfit) (conj Hb (conj _ (conj _ (conj _ _)))))).
      * discriminate.
      * rewrite seal_size, le_length. reflexivity.
      * rewrite seal_size. reflexivity.
      * intros ->. cbn [log_write_seal lw_crc lw_lsn lw_type lw_count lw_size].
        exact (f_equal (crc _) (eq_sym (seal_skip true _))).
    + unfold log_decode. rewrite seal_type, seal_lsn. cbn [lw_type lw_lsn].
      change (LOG_DROP =? LOG_WRITE)%N with false. change (LOG_DROP =? LOG_DROP)%N with true. cbn iota.
      unfold slice_of. rewrite le_length. change (0 + 8 <=? 8) with true. cbn iota.
      rewrite skipn_O. rewrite firstn_all2 by (rewrite le_length; lia).
      rewrite le_value_le; auto.
    + rewrite seal_lsn. auto.
Qed.

(* ---------------------------------------------------------------- *)
(* reading one file *)

Lemma pread_buf_app a b c : b <> [] -> (N.of_nat (length b) < 2^31)%N ->
  pread_buf (N.of_nat (length a)) (N.of_nat (length b)) (a ++ b ++ c) = Ok b.
Proof.
  intros Hb Hl. unfold pread_buf. destruct b as [|b b0]; [tauto|]. destruct (N.of_nat (length (b :: b0)) =? 0)%N eqn:E.
  { apply N.eqb_eq in E. cbn [length] in E. lia. }
  destruct (2^31 <=? N.of_nat (length (b :: b0)))%N eqn:E2; [apply N.leb_le in E2; lia|].
  apply pread_app; auto.
Qed.

Lemma eof_small size off n : (off + n < 2^32)%N -> wal_file_eof size off n = (size <? off + n)%N.
Proof.
  intros H. unfold wal_file_eof, w32, two32. rewrite (N.mod_small off), (N.mod_small n) by lia.
  rewrite N.mod_small by lia. auto.
Qed.

Lemma eof_inside size off n : (off + n <= size)%N -> wal_file_eof size off n = false.
Proof.
  intros H. unfold wal_file_eof, w32. apply N.ltb_ge. rewrite <- N.add_mod by discriminate.
  assert (H2 : two32 <> 0%N) by discriminate. pose proof (N.mod_le (off + n) two32 H2). lia.
Qed.

Lemma read_record on pre r post w body : framed on r w body ->
  wal_file_pread on (pre ++ r ++ post) (N.of_nat (length pre)) = Ok (Some (w, body)).
Proof.
  intros (-> & Hfit & Hb & Hbn & Hsz & Hlt & Hcrc). unfold wal_file_pread.
  rewrite eof_inside by (rewrite !app_length, lwrite_length; lia).
  rewrite <- !app_assoc. replace 21%N with (N.of_nat (length (lwrite_bytes w))) at 1 by (rewrite lwrite_length; auto).
  rewrite pread_buf_app.
  2: { intros E2. pose proof (lwrite_length w) as E3. rewrite E2 in E3. discriminate. }
  2: { rewrite lwrite_length. reflexivity. }
  cbn [bind]. rewrite lwrite_load_spec by auto. cbn [of_opt bind].
  rewrite eof_inside by (rewrite Hsz, !app_length, lwrite_length; lia).
  replace (w32 (lw_size w + two32 - 21)) with (N.of_nat (length body)).
  2: { unfold w32. rewrite Hsz. replace (21 + N.of_nat (length body) + two32 - 21)%N with (N.of_nat (length body) + 1 * two32)%N by lia.
       rewrite N.mod_add by discriminate. rewrite N.mod_small; auto. unfold two32. lia. }
  replace (N.of_nat (length pre) + 21)%N with (N.of_nat (length (pre ++ lwrite_bytes w)))
    by (rewrite app_length, lwrite_length; lia).
  rewrite (app_assoc pre). rewrite pread_buf_app; auto; [|lia]. cbn [bind].
  destruct on; cbn [andb].
  - rewrite <- Hcrc by auto. rewrite N.eqb_refl. reflexivity.
  - reflexivity.
Qed.

(* a cut record is not read *)
Lemma read_cut on pre r tail w body : framed on r w body ->
  (exists rest, r = tail ++ rest /\ rest <> []) ->
  (N.of_nat (length (pre ++ r)) < 2^32)%N ->
  wal_file_pread on (pre ++ tail) (N.of_nat (length pre)) = Ok None.
Proof.
  intros (-> & Hfit & Hb & Hbn & Hsz & Hlt & Hcrc) (rest & Hr & Hrest) Hl. unfold wal_file_pread.
  rewrite !app_length, lwrite_length in *. rewrite eof_small by lia.
  destruct (N.of_nat (length pre + length tail) <? N.of_nat (length pre) + 21)%N eqn:E; auto.
  apply N.ltb_ge in E.
  assert (Hlen : 21 + length body = length tail + length rest).
  { rewrite <- (lwrite_length w), <- !app_length. congruence. }
  assert (length rest <> 0) by (destruct rest; [tauto|discriminate]).
  destruct (split_at 21 tail) as (h & t & -> & Hh); [lia|].
  assert (h = lwrite_bytes w).
  { rewrite <- app_assoc in Hr. apply (f_equal (firstn 21)) in Hr.
    rewrite !firstn_app_exact in Hr by (auto; apply lwrite_length). auto. }
  subst h. rewrite app_assoc. rewrite <- app_assoc.
  replace 21%N with (N.of_nat (length (lwrite_bytes w))) at 1 by (rewrite lwrite_length; auto).
  rewrite pread_buf_app.
  2: { intros E2. pose proof (lwrite_length w) as E3. rewrite E2 in E3. discriminate. }
  2: { rewrite lwrite_length. reflexivity. }
  cbn [bind]. rewrite lwrite_load_spec by auto. cbn [of_opt bind].
  rewrite eof_small by lia. rewrite app_length in Hlen.
  match goal with |- context [(?a <? ?b)%N] => destruct (a <? b)%N eqn:E2; auto end.
  apply N.ltb_ge in E2. rewrite ?app_length in E2. rewrite lwrite_length in *. lia.
Qed.

Lemma read_end on pre : (N.of_nat (length pre) + 21 < 2^32)%N ->
  wal_file_pread on pre (N.of_nat (length pre)) = Ok None.
Proof.
  intros Hl. unfold wal_file_pread. rewrite eof_small by lia.
  destruct (N.of_nat (length pre) <? N.of_nat (length pre) + 21)%N eqn:E; auto. apply N.ltb_ge in E. lia.
Qed.
