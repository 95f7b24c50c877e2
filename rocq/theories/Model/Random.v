(* Random numbers: /repo/monotone/runtime/lib/random.c, uuid.c:37-42, and their use in parse_storage.c:186-213
   and encryption_aes.c:80-83.
   Simplifications: one draw is one step (it is made under the lock of the generator); what /dev/urandom, the clock, getpid, getuid
   and rand() give are arguments; isalnum is that of the C locale. *)
From Coq Require Import NArith List Bool.
Import ListNotations.
From Verif Require Import Model.Base Model.Uuid Model.Codec.
Local Open Scope N_scope.

(* random.h: seed[2] *)
Record random := mk_random { rn_a : N; rn_b : N }.

(* random.c:30-54: [dev] is what was read, zeros when /dev/urandom could not be opened *)
Definition random_open (dev : N * N) (pid uid sec nsec rand1 rand2 : N) : random :=
  let seed := w64 (N.lxor (N.lxor (N.lxor pid uid) sec) nsec) in
  mk_random (N.lxor (fst dev) (N.lxor seed rand1)) (N.lxor (snd dev) (N.lxor seed rand2)).

(* random.c:56-65 *)
Definition random_xorshift128plus (s : random) : N * random :=
  let a := rn_a s in
  let b := rn_b s in
  let a := N.lxor a (w64 (N.shiftl a 23)) in
  let c := N.lxor (N.lxor (N.lxor a b) (N.shiftr a 17)) (N.shiftr b 26) in
  (add64 c b, mk_random b c).
(* random.c:67-74 *)
Definition random_generate (s : random) : N * random := random_xorshift128plus s.

Definition isalnum (b : byte) : bool :=
  ((48 <=? b) && (b <=? 57)) || ((65 <=? b) && (b <=? 90)) || ((97 <=? b) && (b <=? 122)).
(* random.c:83-92: the bytes of one number; true: there are enough *)
Fixpoint alnum_bytes (l data : list byte) (size : nat) : list byte * bool :=
  match l with
  | [] => (data, false)
  | b :: l =>
    if isalnum b then
      let data := data ++ [b] in
      if Nat.eqb (length data) size then (data, true) else alnum_bytes l data size
    else alnum_bytes l data size
  end.
(* random.c:76-95; Err: still going after that many numbers *)
Fixpoint alnum_loop (fuel : nat) (s : random) (data : list byte) (size : nat) : res (list byte * random) :=
  match fuel with
  | O => Err
  | S fuel =>
    let (v, s) := random_generate s in
    let (data, full) := alnum_bytes (pack [(8%nat, v)]) data size in
    if full then Ok (data, s) else alnum_loop fuel s data size
  end.
Definition random_generate_alnum (fuel : nat) (s : random) (size : nat) : res (list byte * random) := alnum_loop fuel s [] size.

(* uuid.c:37-42 *)
Definition uuid_generate (s : random) : uuid * random :=
  let (a, s) := random_generate s in
  let (b, s) := random_generate s in
  (mk_uuid a b, s).
(* encryption_aes.c:80-83 *)
Definition aes_iv (s : random) : list byte * random :=
  let (a, s) := random_generate s in
  let (b, s) := random_generate s in
  (pack [(8%nat, a); (8%nat, b)], s).
(* parse_storage.c:186-213: CREATE STORAGE with encryption and without a key, no other thread drawing in between *)
Definition storage_secrets (fuel : nat) (s : random) : res (uuid * list byte * random) :=
  let (u, s) := uuid_generate s in
  match random_generate_alnum fuel s 32 with
  | Ok (key, s) => Ok (u, key, s)
  | Err => Err
  | UB => UB
  end.
