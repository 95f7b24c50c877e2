(* Random numbers: what the generator and what is made from it should be. *)
From Coq Require Import NArith List Bool String Ascii.
Import ListNotations.
From Verif Require Import Model.Random.
Local Open Scope N_scope.

(* the shift register of 128 bits, bit by bit: two words of 64 bits, the next word from the two before *)
Definition bit_of (a i : N) : bool := (i <? 64) && N.testbit a i.
Definition mixed (a i : N) : bool := xorb (bit_of a i) ((23 <=? i) && bit_of a (i - 23)).
Definition next_bit (a b i : N) : bool :=
  (i <? 64) && xorb (xorb (mixed a i) (bit_of b i)) (xorb ((i + 17 <? 64) && mixed a (i + 17)) (bit_of b (i + 26))).
Definition next_word (a b c : N) : Prop := forall i, N.testbit c i = next_bit a b i.

Definition word (a : N) : Prop := a < 18446744073709551616.
(* nonzero states *)
Definition states : N := 340282366920938463463374607431768211455.

Definition letters : list N :=
  map (fun c => N.of_nat (nat_of_ascii c))
    (list_ascii_of_string "0123456789ABCDEFGHIJKLMNOPQRSTUVWXYZabcdefghijklmnopqrstuvwxyz").
Definition is_letter (b : N) : bool := existsb (N.eqb b) letters.

(* the bytes of a word, lowest first *)
Definition octets (v : N) : list N := map (fun i => N.shiftr v (8 * i) mod 256) [0; 1; 2; 3; 4; 5; 6; 7].

Definition good (s : random) : Prop := word (rn_a s) /\ word (rn_b s).
Definition zero : random := mk_random 0 0.
(* the state after [k] numbers, and the number that is drawn then *)
Definition after (k : N) (s : random) : random := N.iter k (fun s => snd (random_generate s)) s.
Definition number (k : N) (s : random) : N := fst (random_generate (after k s)).
(* the bytes of the first [n] numbers *)
Fixpoint drawn (n : nat) (s : random) : list N :=
  match n with
  | O => []
  | S n => octets (number 0 s) ++ drawn n (after 1 s)
  end.
