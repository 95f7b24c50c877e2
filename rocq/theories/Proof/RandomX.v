(* Random numbers: examples and counterexamples. *)
From Coq Require Import NArith Arith List Bool Lia.
Import ListNotations.
From Verif Require Import Model.Base Model.Uuid Model.Codec Model.Random Spec.Random Proof.RandomL.
Local Open Scope N_scope.

Definition seed1 : random := mk_random 81985529216486895 18364758544493064720.
Definition uuid1 : uuid := mk_uuid 5411125452199041287 5411125573960050055.
Definition iv1 : list byte := [7; 25; 102; 237; 237; 45; 24; 75; 135; 165; 235; 70; 10; 46; 24; 75].
(* 8hCGOFeQMvCWE0tMC9YSZpOZJk5iTehF *)
Definition key1 : list byte := [56; 104; 67; 71; 79; 70; 101; 81; 77; 118; 67; 87; 69; 48; 116; 77; 67; 57; 89; 83; 90; 112; 79; 90; 74;
  107; 53; 105; 84; 101; 104; 70].
Definition last1 : random := mk_random 13815395560785867110 9739509839659751726.
Lemma seed1_fine : good seed1 /\ seed1 <> zero.
Proof. split; [split; reflexivity|discriminate]. Qed.
Lemma seed1_step : good seed1 /\
  random_generate seed1 = (5411125452199041287, mk_random 18364758544493064720 5493110981415528183).
Proof. split; [exact (proj1 seed1_fine)|vm_compute; reflexivity]. Qed.
Lemma seed1_period : (good seed1 /\ seed1 <> zero) /\ (after 2 seed1 = mk_random 5493110981415528183 18364758666254073488 /\ 2 < states).
Proof. split; [exact seed1_fine|]. split; [vm_compute; reflexivity|reflexivity]. Qed.
Lemma seed1_share : (good seed1 /\ seed1 <> zero) /\
  number 1 seed1 = 5411125573960050055 /\ rn_a (after (1 + 1) seed1) = 5493110981415528183.
Proof. split; [exact seed1_fine|]. vm_compute. auto. Qed.
Lemma seed1_key : (good (after 2 seed1) /\ after 2 seed1 <> zero /\ (0 < 32)%nat) /\
  random_generate_alnum 15 (after 2 seed1) 32 = Err /\ random_generate_alnum 16 (after 2 seed1) 32 = Ok (key1, last1).
Proof.
  split; [|vm_compute; auto]. split; [split; vm_compute; reflexivity|]. split; [vm_compute; discriminate|]. apply Nat.ltb_lt. reflexivity.
Qed.
Lemma seed1_made : uuid_generate seed1 = (uuid1, after 2 seed1) /\ aes_iv seed1 = (iv1, after 2 seed1).
Proof. vm_compute. auto. Qed.
Lemma seed1_secrets : good seed1 /\ storage_secrets 16 seed1 = Ok (uuid1, key1, last1).
Proof. split; [exact (proj1 seed1_fine)|vm_compute; reflexivity]. Qed.
(* without the device: another process, one second later *)
Lemma same_seeds : exists pid uid sec nsec pid' sec',
  pid <> pid' /\ sec' = sec + 1 /\ forall fuel r1 r2,
  random_open (0, 0) pid uid sec nsec r1 r2 = random_open (0, 0) pid' uid sec' nsec r1 r2 /\
  storage_secrets fuel (random_open (0, 0) pid uid sec nsec r1 r2) = storage_secrets fuel (random_open (0, 0) pid' uid sec' nsec r1 r2) /\
  aes_iv (random_open (0, 0) pid uid sec nsec r1 r2) = aes_iv (random_open (0, 0) pid' uid sec' nsec r1 r2).
Proof.
  exists 1000, 0, 86400, 123456789, 1001, 86401. split; [discriminate|]. split; [reflexivity|]. intros fuel r1 r2.
  assert (E : random_open (0, 0) 1000 0 86400 123456789 r1 r2 = random_open (0, 0) 1001 0 86401 123456789 r1 r2) by reflexivity.
  rewrite E. auto.
Qed.
Lemma zero_key : forall pid uid sec nsec r1 r2, word r1 -> word r2 ->
  exists d, word (fst d) /\ word (snd d) /\
  (forall k, number k (random_open d pid uid sec nsec r1 r2) = 0) /\
  forall fuel, storage_secrets fuel (random_open d pid uid sec nsec r1 r2) = Err.
Proof.
  intros pid uid sec nsec r1 r2 A B. destruct (zero_seed pid uid sec nsec r1 r2 A B) as (d1 & d2 & C & D & E).
  exists (d1, d2). rewrite E. split; auto. split; auto. split; [|intros fuel; apply zero_secrets].
  intros k. unfold number. assert (Z : after k zero = zero).
  { unfold after. induction k as [|k IH] using N.peano_ind; [reflexivity|]. rewrite N.iter_succ, IH. reflexivity. }
  rewrite Z. reflexivity.
Qed.
Lemma seed1_opened : (good seed1 /\ word 1804289383 /\ word 846930886) /\
  random_open (81985530756732917, 18364758543639613099) 1000 0 86400 123456789 1804289383 846930886 = seed1.
Proof. split; [split; [exact (proj1 seed1_fine)|split; reflexivity]|vm_compute; reflexivity]. Qed.
