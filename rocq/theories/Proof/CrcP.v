From Coq Require Import NArith Arith List Bool Lia.
Import ListNotations.
From Verif Require Import Model.Base Model.Crc Spec.Checksum Proof.CrcL.

Lemma crc_incremental hw hw' al al' al'' c a b : (c < 2^32)%N -> bytes (a ++ b) ->
  crc32 hw al c (a ++ b) = crc32 hw' al' (crc32 hw al'' c a) b.
Proof.
  intros Hc H. pose proof H as H'. apply bytes_app in H' as [Ha Hb].
  rewrite (crc32_statement hw al), (crc32_statement hw al'') by auto.
  rewrite crc32_statement; auto using crc32c_lt. apply crc32c_app.
Qed.

Lemma crc_leading hw al al' n l : bytes l -> crc32 hw al 0 (repeat 0%N n ++ l) = crc32 hw al' 0 l.
Proof.
  intros H.
  assert (Hr : bytes (repeat 0%N n ++ l)).
  { apply bytes_app. split; auto. apply Forall_forall. intros x Hx. apply repeat_spec in Hx. subst. lia. }
  rewrite !crc32_statement by (auto; lia). rewrite crc32c_app, crc32c_zeros. auto.
Qed.

Lemma crc_detects hw hw' al al' c pre x y post : (c < 2^32)%N -> bytes (pre ++ x ++ post) -> bytes y ->
  length x = length y -> length x <= 4 -> x <> y ->
  crc32 hw al c (pre ++ x ++ post) <> crc32 hw' al' c (pre ++ y ++ post).
Proof.
  intros Hc Hb Hy Hl H4 Hn E. apply Hn. rewrite !crc32_statement in E; auto.
  - eapply detect; eauto.
  - apply bytes_app in Hb as [H1 Hb]. apply bytes_app in Hb as [H2 H3].
    repeat (apply bytes_app; split); auto.
Qed.

Lemma crc_sample : (7 < 2^32)%N /\ bytes ([1;2;3] ++ [255;0;9])%N.
Proof. split; [reflexivity|]. repeat constructor. Qed.
Lemma crc_known : crc32 false 1 4294967295 [49;50;51;52;53;54;55;56;57]%N = N.lxor 3808858755 4294967295.
Proof. reflexivity. Qed.
Lemma crc_five : exists x y, bytes x /\ bytes y /\ length x = 5 /\ length y = 5 /\ x <> y /\
  forall hw al c, (c < 2^32)%N -> crc32 hw al c x = crc32 hw al c y.
Proof.
  exists [0;0;0;0;0]%N, [241;118;236;5;1]%N.
  assert (H1 : bytes [0;0;0;0;0]%N) by (repeat constructor).
  assert (H2 : bytes [241;118;236;5;1]%N) by (repeat constructor).
  repeat split; auto; try discriminate.
  intros. rewrite !crc32_statement by auto. rewrite !crc32c_block by auto.
  rewrite !crc_bits_lxor. f_equal. 
Qed.
