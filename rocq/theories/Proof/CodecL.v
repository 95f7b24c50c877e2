From Coq Require Import NArith Arith List Bool Lia.
Import ListNotations.
From Verif Require Import Model.Base Model.Event Model.Crc Model.Codec Spec.Order Spec.Checksum Proof.CrcL.

Lemma le_length k : forall n, length (le k n) = k.
Proof. induction k; intros; simpl; auto. Qed.
Lemma le_bytes k : forall n, bytes (le k n).
Proof. induction k; intros; simpl; constructor; auto. apply N.mod_lt. lia. apply IHk. Qed.
Definition fit (p : nat * N) : Prop := (snd p < 2 ^ (8 * N.of_nat (fst p)))%N.
Ltac fit1 := unfold fit; cbn [fst snd];
  match goal with |- (?x < 2 ^ (8 * N.of_nat ?k))%N =>
    let v := eval vm_compute in (2 ^ (8 * N.of_nat k))%N in change (x < v)%N end.
Ltac fits := repeat (apply Forall_cons; [fit1|]); [..|apply Forall_nil].
Lemma le_value_le k : forall n, (n < 2 ^ (8 * N.of_nat k))%N -> le_value (le k n) = n.
Proof.
  induction k; intros n H.
  - simpl in *. lia.
  - cbn [le le_value]. rewrite IHk.
    + rewrite (N.div_mod n 256) at 3 by lia. lia.
    + apply N.div_lt_upper_bound; [lia|].
      replace (8 * N.of_nat (S k))%N with (8 + 8 * N.of_nat k)%N in H by lia.
      rewrite N.pow_add_r in H. exact H.
Qed.
Lemma pack_length l : length (pack l) = width (map fst l).
Proof. induction l as [|[k v] l IH]; simpl; auto. rewrite app_length, le_length, IH. auto. Qed.
Lemma pack_bytes l : bytes (pack l).
Proof.
  induction l as [|[k v] l IH]; simpl; [constructor|]. apply bytes_app. split; auto. apply le_bytes.
Qed.
Lemma firstn_app_exact {A} (a b : list A) n : length a = n -> firstn n (a ++ b) = a.
Proof. intros <-. rewrite firstn_app, Nat.sub_diag, firstn_all, firstn_O, app_nil_r. auto. Qed.
Lemma skipn_app_exact {A} (a b : list A) n : length a = n -> skipn n (a ++ b) = b.
Proof. intros <-. rewrite skipn_app, Nat.sub_diag, skipn_all. auto. Qed.
Lemma unpack_pack l : forall rest, Forall fit l -> unpack (map fst l) (pack l ++ rest) = map snd l.
Proof.
  induction l as [|[k v] l IH]; intros rest H; auto. inversion H; subst.
  cbn [map pack unpack fst snd]. rewrite <- app_assoc.
  rewrite firstn_app_exact, skipn_app_exact by apply le_length. rewrite IH by auto.
  rewrite le_value_le by exact H2. auto.
Qed.
Lemma unpack_pack0 l : Forall fit l -> unpack (map fst l) (pack l) = map snd l.
Proof. intros H. rewrite <- (app_nil_r (pack l)). apply unpack_pack; auto. Qed.

Lemma slice_app a b c n off : length a = off -> length b = n -> slice_of off n (a ++ b ++ c) = Some b.
Proof.
  intros Ha Hb. unfold slice_of. rewrite !app_length, Ha, Hb.
  replace (off + n <=? off + (n + length c))%nat with true by (symmetry; apply Nat.leb_le; lia).
  rewrite skipn_app_exact by auto. rewrite firstn_app_exact by auto. auto.
Qed.
Lemma slice_end a b n off : length a = off -> length b = n -> slice_of off n (a ++ b) = Some b.
Proof. intros. rewrite <- (app_nil_r b). rewrite (slice_app a b [] n off); auto. rewrite app_nil_r; auto. Qed.
Lemma slice_start a b n : length a = n -> slice_of 0 n (a ++ b) = Some a.
Proof. intros. apply (slice_app [] a b); auto. Qed.

Lemma event_bytes_length e : length (event_bytes e) = 14 + length (ev_key e) + length (ev_val e).
Proof.
  unfold event_bytes. rewrite !app_length, pack_length. reflexivity.
Qed.
Lemma event_image_length m : length (ev_key (fst m)) <= length (snd m) ->
  N.of_nat (length (event_image m)) = event_size (fst m).
Proof.
  intros H. unfold event_image, event_size. rewrite app_length, event_bytes_length, firstn_length_le by auto. lia.
Qed.

Lemma event_load_spec e rest : ev_ok e -> (N.of_nat (length (ev_key e) + length (ev_val e)) < 2^32)%N ->
  event_load (event_bytes e ++ rest) = Some e.
Proof.
  intros (H1 & H2 & H3 & H4 & H5) Hs. unfold event_load, event_bytes.
  set (P := [(8, ev_id e); (1, ev_flags e); (1, N.of_nat (length (ev_key e)));
             (4, N.of_nat (length (ev_key e) + length (ev_val e)))]).
  assert (Hl : length (pack P) = 14) by (rewrite pack_length; reflexivity).
  rewrite <- !app_assoc. rewrite slice_start by auto.
  change event_fields with (map fst P). rewrite unpack_pack0.
  2: { fits; lia. }
  cbn [map snd P]. rewrite !Nat2N.id.
  rewrite (app_assoc (ev_key e)). rewrite (slice_app (pack P)); auto.
  2: { rewrite app_length. auto. }
  rewrite firstn_app_exact, skipn_app_exact by auto. destruct e; auto.
Qed.
