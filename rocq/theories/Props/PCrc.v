(* C14, C15: checksums. *)
From Coq Require Import NArith List Bool.
Import ListNotations.
From Verif Require Import Model.Base Model.Crc Spec.Checksum Proof.CrcL Proof.CrcP.

(* C14: on either path and at every alignment the CRC-32C of the bytes *)
Theorem C14_crc32c : forall hw align c l, (c < 2^32)%N -> bytes l -> crc32 hw align c l = crc32c c l.
Proof. exact crc32_statement. Qed.
Print Assumptions C14_crc32c.
Example C14_example : (7 < 2^32)%N /\ bytes ([1;2;3] ++ [255;0;9])%N.
Proof. exact crc_sample. Qed.
(* the published check value of CRC-32C for "123456789", with its inversions *)
Example C14_known : crc32 false 1 4294967295 [49;50;51;52;53;54;55;56;57]%N = N.lxor 3808858755 4294967295.
Proof. exact crc_known. Qed.

Theorem C14_incremental : forall hw hw' al al' al'' c a b, (c < 2^32)%N -> bytes (a ++ b) ->
  crc32 hw al c (a ++ b) = crc32 hw' al' (crc32 hw al'' c a) b.
Proof. exact crc_incremental. Qed.
Print Assumptions C14_incremental.

Theorem C14_leading_zeros : forall hw al al' n l, bytes l ->
  crc32 hw al 0 (repeat 0%N n ++ l) = crc32 hw al' 0 l.
Proof. exact crc_leading. Qed.
Print Assumptions C14_leading_zeros.

(* C15 *)
Theorem C15_detects : forall hw hw' al al' c pre x y post, (c < 2^32)%N ->
  bytes (pre ++ x ++ post) -> bytes y -> length x = length y -> length x <= 4 -> x <> y ->
  crc32 hw al c (pre ++ x ++ post) <> crc32 hw' al' c (pre ++ y ++ post).
Proof. exact crc_detects. Qed.
Print Assumptions C15_detects.
Example C15_example : (7 < 2^32)%N /\ bytes ([1;2;3] ++ [255;0;9])%N.
Proof. exact crc_sample. Qed.

(* five bytes are not always enough apart *)
Theorem C15_five_refuted : exists x y, bytes x /\ bytes y /\ length x = 5 /\ length y = 5 /\ x <> y /\
  forall hw al c, (c < 2^32)%N -> crc32 hw al c x = crc32 hw al c y.
Proof. exact crc_five. Qed.
Print Assumptions C15_five_refuted.
