(* C95: random numbers, and the uuids, keys and initialization vectors made of them. *)
From Coq Require Import NArith List Bool.
Import ListNotations.
From Verif Require Import Model.Base Model.Uuid Model.Random Spec.Random Proof.RandomL Proof.RandomX.
Local Open Scope N_scope.

(* C95: one number: the sum of the two words after the step *)
Theorem C95_step : forall s, good s -> exists c, word c /\ next_word (rn_a s) (rn_b s) c /\
  random_generate s = ((rn_b s + c) mod 18446744073709551616, mk_random (rn_b s) c).
Proof. exact generate_ok. Qed.
Print Assumptions C95_step.
Example C95_step_example : good seed1 /\
  random_generate seed1 = (5411125452199041287, mk_random 18364758544493064720 5493110981415528183).
Proof. exact seed1_step. Qed.

(* from every seed but zero: 2^128 - 1 numbers before a state comes again, every state but zero is met, zero never *)
Theorem C95_period : forall s, good s -> s <> zero ->
  after states s = s /\ (forall k, good (after k s) /\ after k s <> zero) /\
  (forall i j, i < j -> j < states -> after i s <> after j s) /\
  (forall t, good t -> t <> zero -> exists k, k < states /\ after k s = t).
Proof. exact period_all. Qed.
Print Assumptions C95_period.
Example C95_period_example : (good seed1 /\ seed1 <> zero) /\
  (after 2 seed1 = mk_random 5493110981415528183 18364758666254073488 /\ 2 < states).
Proof. exact seed1_period. Qed.

(* in a period every number comes once with each value of the word that is left behind; zero comes once less *)
Theorem C95_share : forall s v w, good s -> s <> zero -> word v -> word w -> (v <> 0 \/ w <> 0) ->
  exists k, (k < states /\ number k s = v /\ rn_a (after (k + 1) s) = w) /\
    forall i, i < states -> number i s = v -> rn_a (after (i + 1) s) = w -> i = k.
Proof. exact equal_share. Qed.
Print Assumptions C95_share.
Example C95_share_example : (good seed1 /\ seed1 <> zero) /\
  number 1 seed1 = 5411125573960050055 /\ rn_a (after (1 + 1) seed1) = 5493110981415528183.
Proof. exact seed1_share. Qed.

(* a state comes from one state only *)
Theorem C95_previous : forall s t, good s -> good t -> snd (random_generate s) = snd (random_generate t) -> s = t.
Proof. exact previous. Qed.
Print Assumptions C95_previous.
Example C95_previous_example : good seed1 /\ seed1 <> zero.
Proof. exact seed1_fine. Qed.

(* a key: the first digits and letters among the bytes of the numbers; from every seed but zero it is complete some time *)
Theorem C95_key : forall s size, good s -> s <> zero -> (0 < size)%nat ->
  exists key t fuel, length key = size /\ Forall (fun b => In b letters) key /\
    (exists n, key = firstn size (filter is_letter (drawn n s)) /\ t = after (N.of_nat n) s) /\
    forall more, (fuel <= more)%nat -> random_generate_alnum more s size = Ok (key, t).
Proof. exact key_ends. Qed.
Print Assumptions C95_key.
Example C95_key_example : (good (after 2 seed1) /\ after 2 seed1 <> zero /\ (0 < 32)%nat) /\
  random_generate_alnum 15 (after 2 seed1) 32 = Err /\ random_generate_alnum 16 (after 2 seed1) 32 = Ok (key1, last1).
Proof. exact seed1_key. Qed.

(* uuids and initialization vectors: two numbers each *)
Theorem C95_made : forall s, fst (uuid_generate s) = mk_uuid (number 0 s) (number 1 s) /\ snd (uuid_generate s) = after 2 s /\
  fst (aes_iv s) = octets (number 0 s) ++ octets (number 1 s) /\ snd (aes_iv s) = after 2 s.
Proof. exact made. Qed.
Print Assumptions C95_made.
Example C95_made_example : uuid_generate seed1 = (uuid1, after 2 seed1) /\ aes_iv seed1 = (iv1, after 2 seed1).
Proof. exact seed1_made. Qed.

(* whatever clock, process, user and rand() are: each seed comes from one answer of /dev/urandom *)
Theorem C95_open : forall s pid uid sec nsec r1 r2, good s -> word r1 -> word r2 ->
  exists d, (word (fst d) /\ word (snd d) /\ random_open d pid uid sec nsec r1 r2 = s) /\
    forall e, random_open e pid uid sec nsec r1 r2 = s -> e = d.
Proof. exact open_onto. Qed.
Print Assumptions C95_open.
Example C95_open_example : (good seed1 /\ word 1804289383 /\ word 846930886) /\
  random_open (81985530756732917, 18364758543639613099) 1000 0 86400 123456789 1804289383 846930886 = seed1.
Proof. exact seed1_opened. Qed.

(* false: CREATE STORAGE ends for every answer of /dev/urandom; with the seed zero all numbers are zero and no key is found *)
Theorem C95_zero_refuted : forall pid uid sec nsec r1 r2, word r1 -> word r2 ->
  exists d, word (fst d) /\ word (snd d) /\
  (forall k, number k (random_open d pid uid sec nsec r1 r2) = 0) /\
  forall fuel, storage_secrets fuel (random_open d pid uid sec nsec r1 r2) = Err.
Proof. exact zero_key. Qed.
Print Assumptions C95_zero_refuted.

(* false: 62^32 keys have to be tried; who knows the uuid of the storage tries 2^64 *)
Theorem C95_guess_refuted : 18446744073709551616 ^ 2 < 62 ^ 32 /\
  exists f : nat -> uuid -> N -> res (list byte * random), forall fuel s u key t, good s ->
  storage_secrets fuel s = Ok (u, key, t) -> exists x, word x /\ f fuel u x = Ok (key, t).
Proof. exact key_guess_many. Qed.
Print Assumptions C95_guess_refuted.
Example C95_guess_example : good seed1 /\ storage_secrets 16 seed1 = Ok (uuid1, key1, last1).
Proof. exact seed1_secrets. Qed.
(* the same for who knows one initialization vector, which is stored in front of what is encrypted: all that follows *)
Theorem C95_iv_refuted : exists f : list byte -> N -> random, forall s iv t, good s ->
  aes_iv s = (iv, t) -> exists x, word x /\ t = f iv x.
Proof. exact iv_guess. Qed.
Print Assumptions C95_iv_refuted.

(* false: two runs have different keys also without /dev/urandom *)
Theorem C95_same_refuted : exists pid uid sec nsec pid' sec',
  pid <> pid' /\ sec' = sec + 1 /\ forall fuel r1 r2,
  random_open (0, 0) pid uid sec nsec r1 r2 = random_open (0, 0) pid' uid sec' nsec r1 r2 /\
  storage_secrets fuel (random_open (0, 0) pid uid sec nsec r1 r2) = storage_secrets fuel (random_open (0, 0) pid' uid sec' nsec r1 r2) /\
  aes_iv (random_open (0, 0) pid uid sec nsec r1 r2) = aes_iv (random_open (0, 0) pid' uid sec' nsec r1 r2).
Proof. exact same_seeds. Qed.
Print Assumptions C95_same_refuted.
