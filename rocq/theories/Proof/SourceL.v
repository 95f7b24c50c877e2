(* The settings of storages, clouds and tiers as bytes. *)
From Coq Require Import NArith ZArith Arith String List Bool Lia.
Import ListNotations.
From Verif Require Import Model.Base Model.Data Model.Lex Model.Uuid Model.Source Model.Catalog.
From Verif Require Import Spec.Value Spec.JsonText Spec.Catalog.
From Verif Require Import Proof.CodecL Proof.DataL Proof.UuidL.

Definition field_of (k : kind) (v : value) : option field :=
  match k, v with
  | KUuid, VStr s => Some (FString s)
  | KString, VStr s => Some (FString s)
  | KInt, VInt z => Some (FInt z)
  | KBool, VBool b => Some (FBool b)
  | _, _ => None
  end.

Lemma decode_field_enc w k v f r : value_ok v -> field_of k v = Some f -> decode_field k (enc w v ++ r) = Ok (f, r).
Proof.
  intros Hv Hf. rewrite enc_simple by (intros l E; subst; destruct k; discriminate).
  destruct Hv as [|b|z Hz|d Hd|s Hs|l Hl Hl'|l Hl Hl']; destruct k; try discriminate; cbn in Hf; injection Hf as <-; cbn [encode].
  - destruct b; reflexivity.
  - pose proof (read_integer z r Hz) as E. destruct (write_int_head (Z.to_N (z mod 2 ^ 64)) r) as (t & u & Ht & Hr).
    rewrite Ht in *. unfold decode_field. unfold is_int. rewrite (proj2 (N.leb_le 5 t)), (proj2 (N.leb_le t 41)) by lia.
    cbn [andb]. rewrite E. reflexivity.
  - pose proof (read_raw s r Hs) as E. unfold data_write_raw in *. rewrite <- app_assoc in *.
    destruct (write_len_head MN_STRINGV0 (N.of_nat (length s)) (s ++ r)) as (t & u & Ht & Hr).
    rewrite Ht in *. unfold decode_field. unfold is_string. unfold MN_STRINGV0 in Hr. rewrite (proj2 (N.leb_le 114 t)), (proj2 (N.leb_le t 149)) by lia.
    cbn [andb]. rewrite E. reflexivity.
  - pose proof (read_raw s r Hs) as E. unfold data_write_raw in *. rewrite <- app_assoc in *.
    destruct (write_len_head MN_STRINGV0 (N.of_nat (length s)) (s ++ r)) as (t & u & Ht & Hr).
    rewrite Ht in *. unfold decode_field. unfold is_string. unfold MN_STRINGV0 in Hr. rewrite (proj2 (N.leb_le 114 t)), (proj2 (N.leb_le t 149)) by lia.
    cbn [andb]. rewrite E. reflexivity.
Qed.

(* a key with its kind, the value and the field it is read as *)
Record item := mk_item { it_key : list byte; it_kind : kind; it_value : value; it_field : field }.
Definition item_ok (i : item) : Prop :=
  (N.of_nat (length (it_key i)) < 2 ^ 31)%N /\ value_ok (it_value i) /\ field_of (it_kind i) (it_value i) = Some (it_field i).
Definition item_pair (i : item) : value * value := (VStr (it_key i), it_value i).
Definition item_empty (i : item) : list byte * kind * option field := (it_key i, it_kind i, None).
Definition item_full (i : item) : list byte * kind * option field := (it_key i, it_kind i, Some (it_field i)).
Definition entry_key (e : list byte * kind * option field) : list byte := fst (fst e).

Lemma decode_key_at done i rest w r : ~ In (it_key i) (map entry_key done) -> item_ok i ->
  decode_key (done ++ item_empty i :: rest) (it_key i) (enc w (it_value i) ++ r) = Ok (Some (done ++ item_full i :: rest, r)).
Proof.
  intros Hn (_ & Hv & Hf). induction done as [|[[k kd] v] done IH]; cbn [app decode_key].
  - unfold item_empty at 1. rewrite same_bytes_refl. rewrite (decode_field_enc w _ _ _ r Hv Hf). reflexivity.
  - cbn in Hn. rewrite (proj2 (same_bytes_neq _ _)) by (intro E; apply Hn; left; symmetry; exact E).
    rewrite IH by (intro H; apply Hn; right; exact H). reflexivity.
Qed.

Lemma decode_loop_items w : forall l done r, NoDup (map entry_key done ++ map it_key l) -> Forall item_ok l ->
  decode_loop (length l) (done ++ map item_empty l) (flat_map (fun p => enc w (fst p) ++ enc w (snd p)) (map item_pair l) ++ r)
  = Ok (done ++ map item_full l, r).
Proof.
  induction l as [|i l IH]; intros done r Hn Hok; cbn [map length decode_loop flat_map app]; [reflexivity|].
  inversion Hok as [|x y Hi Hl]; subst. cbn [item_pair fst snd].
  replace ((enc w (VStr (it_key i)) ++ enc w (it_value i)) ++ flat_map (fun p => enc w (fst p) ++ enc w (snd p)) (map item_pair l))
    with (data_write_raw (it_key i) ++ (enc w (it_value i) ++ flat_map (fun p => enc w (fst p) ++ enc w (snd p)) (map item_pair l)))
    by (rewrite <- app_assoc; f_equal; destruct w; reflexivity).
  rewrite <- !app_assoc. rewrite read_raw by apply Hi. cbn [bind].
  cbn [map] in Hn. pose proof (NoDup_remove_2 _ _ _ Hn) as Hno.
  rewrite decode_key_at; [|intro H; apply Hno; apply in_or_app; left; exact H|exact Hi]. cbn [bind].
  specialize (IH (done ++ [item_full i]) r). rewrite map_app, <- !app_assoc in IH. cbn [app map] in IH.
  apply IH; [|exact Hl]. exact Hn.
Qed.

Lemma decode_map_items w l r : (N.of_nat (length l) < 2 ^ 31)%N -> NoDup (map it_key l) -> Forall item_ok l ->
  decode_map (map (fun i => (it_key i, it_kind i)) l) (enc w (VMap (map item_pair l)) ++ r) = Ok (map item_full l, r).
Proof.
  intros Hn Hd Hok. unfold decode_map. rewrite enc_map, <- app_assoc, any_len_read by (rewrite map_length; exact Hn).
  cbn [bind]. rewrite map_map. rewrite nat_N_Z, Nat2Z.id, map_length.
  change (map (fun x => (it_key x, it_kind x, None)) l) with (([] : table) ++ map item_empty l).
  rewrite decode_loop_items by assumption. cbn [bind app].
  replace (forallb found (map item_full l)) with true; [reflexivity|].
  symmetry. apply forallb_forall. intros e He. apply in_map_iff in He. destruct He as (i & <- & _). reflexivity.
Qed.

Lemma chars_short k : (N.of_nat (length (chars k)) <? 2 ^ 31)%N = true -> (N.of_nat (length (chars k)) < 2 ^ 31)%N.
Proof. apply N.ltb_lt. Qed.

Ltac items := repeat (apply Forall_cons; [split; [vm_compute; reflexivity|split; [assumption|reflexivity]]|]); apply Forall_nil.
Ltac distinct := repeat (apply NoDup_cons; [cbn [map In]; intro; repeat match goal with H : _ \/ _ |- _ => destruct H as [H|H] end; try discriminate; try contradiction|]); apply NoDup_nil.

Lemma map_values l : value_ok (VMap l) -> Forall (fun p => value_ok (snd p)) l.
Proof. intro H. inversion H as [| | | | | |x Hx Hl]; subst. revert Hl. apply Forall_impl. intros p Hp. apply Hp. Qed.

Ltac values H := apply map_values in H;
  repeat match type of H with Forall _ (_ :: _) => let H' := fresh "Hv" in apply Forall_cons_iff in H; destruct H as [H' H]; cbn [snd pair] in H' end.

Lemma source_read_enc w s r : value_ok (source_value s) -> (u_a (so_uuid s) < 2 ^ 64)%N -> (u_b (so_uuid s) < 2 ^ 64)%N ->
  source_read (enc w (source_value s) ++ r) = Ok (s, r).
Proof.
  intros H Ha Hb. unfold source_read.
  pose (l := [ mk_item (chars "uuid") KUuid (VStr (uuid_to_string (so_uuid s))) (FString (uuid_to_string (so_uuid s)));
    mk_item (chars "name") KString (VStr (so_name s)) (FString (so_name s));
    mk_item (chars "path") KString (VStr (so_path s)) (FString (so_path s));
    mk_item (chars "cloud") KString (VStr (so_cloud s)) (FString (so_cloud s));
    mk_item (chars "cloud_drop_local") KBool (VBool (so_drop_local s)) (FBool (so_drop_local s));
    mk_item (chars "sync") KBool (VBool (so_sync s)) (FBool (so_sync s));
    mk_item (chars "crc") KBool (VBool (so_crc s)) (FBool (so_crc s));
    mk_item (chars "refresh_wm") KInt (VInt (so_refresh_wm s)) (FInt (so_refresh_wm s));
    mk_item (chars "region_size") KInt (VInt (so_region_size s)) (FInt (so_region_size s));
    mk_item (chars "compression") KString (VStr (so_compression s)) (FString (so_compression s));
    mk_item (chars "compression_level") KInt (VInt (so_level s)) (FInt (so_level s));
    mk_item (chars "encryption") KString (VStr (so_encryption s)) (FString (so_encryption s));
    mk_item (chars "encryption_key") KString (VStr (so_key s)) (FString (so_key s)) ]).
  change source_keys with (map (fun i => (it_key i, it_kind i)) l).
  change (source_value s) with (VMap (map item_pair l)) in *.
  rewrite decode_map_items.
  - pose proof (uuid_round _ [] Ha Hb) as E. rewrite app_nil_r in E. cbn [bind map l item_full snd it_key it_kind it_field].
    rewrite E. destruct s. reflexivity.
  - vm_compute. reflexivity.
  - cbn [l map it_key]. distinct.
  - cbn [l map item_pair it_key it_value] in H. values H. unfold l. items.
Qed.

Lemma cloudc_read_enc w c r : value_ok (cloud_value c) -> cloudc_read (enc w (cloud_value c) ++ r) = Ok (c, r).
Proof.
  intros H. unfold cloudc_read.
  pose (l := [ mk_item (chars "name") KString (VStr (cc_name c)) (FString (cc_name c));
    mk_item (chars "type") KString (VStr (cc_type c)) (FString (cc_type c));
    mk_item (chars "login") KString (VStr (cc_login c)) (FString (cc_login c));
    mk_item (chars "password") KString (VStr (cc_password c)) (FString (cc_password c));
    mk_item (chars "url") KString (VStr (cc_url c)) (FString (cc_url c));
    mk_item (chars "debug") KBool (VBool (cc_debug c)) (FBool (cc_debug c)) ]).
  change cloudc_keys with (map (fun i => (it_key i, it_kind i)) l).
  change (cloud_value c) with (VMap (map item_pair l)) in *.
  rewrite decode_map_items.
  - cbn [bind map l item_full snd]. destruct c. reflexivity.
  - vm_compute. reflexivity.
  - cbn [l map it_key]. distinct.
  - cbn [l map item_pair it_key it_value] in H. values H. unfold l. items.
Qed.

Lemma tierc_read_enc w c r : value_ok (tier_value c) -> tierc_read (enc w (tier_value c) ++ r) = Ok (c, r).
Proof.
  intros H. unfold tierc_read.
  pose (l := [ mk_item (chars "name") KString (VStr (tc_name c)) (FString (tc_name c));
    mk_item (chars "partitions") KInt (VInt (tc_partitions c)) (FInt (tc_partitions c));
    mk_item (chars "size") KInt (VInt (tc_size c)) (FInt (tc_size c));
    mk_item (chars "events") KInt (VInt (tc_events c)) (FInt (tc_events c));
    mk_item (chars "duration") KInt (VInt (tc_duration c)) (FInt (tc_duration c)) ]).
  change tierc_keys with (map (fun i => (it_key i, it_kind i)) l).
  change (tier_value c) with (VMap (map item_pair l)) in *.
  rewrite decode_map_items.
  - cbn [bind map l item_full snd]. destruct c. reflexivity.
  - vm_compute. reflexivity.
  - cbn [l map it_key]. distinct.
  - cbn [l map item_pair it_key it_value] in H. values H. unfold l. items.
Qed.

(* the writers write the values *)
Lemma source_write_value s : source_write false false s = encode (source_value s).
Proof. unfold source_write, source_value, put, put_int. cbn [encode pair flat_map fst snd]. rewrite <- !app_assoc, app_nil_r. reflexivity. Qed.
Lemma cloudc_write_value c : cloudc_write false c = encode (cloud_value c).
Proof. unfold cloudc_write, cloud_value, put, put_int. cbn [encode pair flat_map fst snd]. rewrite <- !app_assoc, app_nil_r. reflexivity. Qed.
Lemma tierc_write_value c : tierc_write c = encode (tier_value c).
Proof. unfold tierc_write, tier_value, put, put_int. cbn [encode pair flat_map fst snd]. rewrite <- !app_assoc, app_nil_r. reflexivity. Qed.

Lemma dump_value {A} (write : A -> list byte) (val : A -> value) l : (forall a, write a = encode (val a)) ->
  dump write l = encode (VArr (map val l)).
Proof.
  intro H. unfold dump. cbn [encode]. rewrite map_length. f_equal.
  induction l as [|a l IH]; cbn [flat_map map]; [reflexivity|]. rewrite H, IH. reflexivity.
Qed.

(* 32 bits *)
Lemma narrow_kept z : narrow z = kept_int z.
Proof.
  unfold narrow, i32_of_z, kept_int. cbv zeta. change (2 ^ 32)%Z with 4294967296%Z. change (2 ^ 31)%Z with 2147483648%Z.
  pose proof (Z.div_mod z 4294967296 ltac:(lia)) as E. pose proof (Z.mod_pos_bound z 4294967296 ltac:(lia)) as B.
  set (q := (z / 4294967296)%Z) in *. set (m := (z mod 4294967296)%Z) in *. clearbody q m.
  destruct (Z.ltb_spec m 2147483648).
  - rewrite <- (Z.mod_unique (z + 2147483648) 4294967296 q (m + 2147483648)) by lia. lia.
  - rewrite <- (Z.mod_unique (z + 2147483648) 4294967296 (q + 1) (m - 2147483648)) by lia. lia.
Qed.
Lemma kept_kept z : kept_int (kept_int z) = kept_int z.
Proof.
  unfold kept_int. change (2 ^ 32)%Z with 4294967296%Z. change (2 ^ 31)%Z with 2147483648%Z.
  rewrite Z.sub_add. rewrite Z.mod_mod by lia. reflexivity.
Qed.
Lemma source_copy_created s : source_copy s = as_created s.
Proof. unfold source_copy, as_created. rewrite !narrow_kept. reflexivity. Qed.
Lemma created_created s : as_created (as_created s) = as_created s.
Proof. unfold as_created. cbn. rewrite !kept_kept. reflexivity. Qed.
Lemma source_alter_altered s a : source_alter s a = altered a s.
Proof.
  unfold source_alter, altered. destruct a as [? ? ? ? ? w g ? v ? ?]. cbn.
  destruct w, g, v; cbn [pick option_map int_or]; rewrite ?narrow_kept; reflexivity.
Qed.
Lemma created_altered a s : as_created s = s -> as_created (altered a s) = altered a s.
Proof.
  intro H. destruct s as [u n p c d sy cr w g m v e k]. unfold as_created in H. cbn in H. injection H as Hw Hg Hv.
  unfold as_created, altered. cbn [so_uuid so_name so_path so_cloud so_drop_local so_sync so_crc so_refresh_wm so_region_size so_compression so_level so_encryption so_key].
  f_equal; unfold int_or; [destruct (al_refresh_wm a)|destruct (al_region_size a)|destruct (al_level a)]; rewrite ?kept_kept; congruence.
Qed.
Lemma cloudc_alter_altered k a : cloudc_alter k a = cloud_altered a k.
Proof. reflexivity. Qed.

(* a uuid that was read has 64 bits twice *)
Definition bits_ok (b : uuid_bits) : Prop :=
  (b_a b < 2 ^ 32 /\ b_b b < 2 ^ 16 /\ b_c b < 2 ^ 16 /\ b_d b < 2 ^ 16 /\ b_e b < 2 ^ 16 /\ b_f b < 2 ^ 32)%N.
Lemma uuid_step_ok i b v c b' v' : bits_ok b -> uuid_step i b v c = Some (b', v') -> bits_ok b'.
Proof.
  intros (A & B & C & D & E & F) H. 
  assert (M16 : forall x, (x mod 2 ^ 16 < 2 ^ 16)%N) by (intro; apply N.mod_lt; discriminate).
  assert (M32 : forall x, (x mod 2 ^ 32 < 2 ^ 32)%N) by (intro; apply N.mod_lt; discriminate).
  assert (G : b' = b \/ (exists x, b' = set_a b x) \/ (exists x, b' = set_b b x) \/ (exists x, b' = set_c b x) \/ (exists x, b' = set_d b x) \/ (exists x, b' = set_e b x)).
  { unfold uuid_step in H.
    repeat match type of H with
    | (match ?x with _ => _ end) = _ => destruct x; try discriminate
    end; injection H as <- <-; eauto 10. }
  unfold bits_ok. destruct G as [->|[[x ->]|[[x ->]|[[x ->]|[[x ->]|[x ->]]]]]]; unfold set_a, set_b, set_c, set_d, set_e; cbn [b_a b_b b_c b_d b_e b_f]; repeat split; auto.
Qed.
Lemma uuid_loop_ok : forall l i b v b' v', bits_ok b -> uuid_loop i b v l = Some (b', v') -> bits_ok b'.
Proof.
  induction l as [|c l IH]; intros i b v b' v' Hb H; cbn [uuid_loop] in H; [congruence|].
  destruct (uuid_step i b v c) as [[b1 v1]|] eqn:E; [|discriminate]. eapply IH; [|exact H]. eapply uuid_step_ok; eassumption.
Qed.
Lemma uuid_bits s u : uuid_from_string s = Some u -> (u_a u < 2 ^ 64)%N /\ (u_b u < 2 ^ 64)%N.
Proof.
  unfold uuid_from_string. destruct (_ <? _); [discriminate|].
  destruct (uuid_loop _ _ _ _) as [[b v]|] eqn:E; [|discriminate]. intro H. injection H as <-.
  assert (Hb : bits_ok b) by (eapply uuid_loop_ok; [|exact E]; vm_compute; repeat split).
  destruct Hb as (A & B & C & D & G & F). unfold uuid_of, set_f. cbn [u_a u_b b_a b_b b_c b_d b_e b_f].
  assert (M32 : (v mod 2 ^ 32 < 2 ^ 32)%N) by (apply N.mod_lt; discriminate).
  change (2 ^ 64)%N with 18446744073709551616%N. change (2 ^ 48)%N with 281474976710656%N.
  change (2 ^ 32)%N with 4294967296%N in *. change (2 ^ 16)%N with 65536%N in *. lia.
Qed.
