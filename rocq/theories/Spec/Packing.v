(* What is said of the libraries. *)
From Coq Require Import NArith ZArith List.
Import ListNotations.
From Verif Require Import Model.Base Spec.Checksum.
Local Open Scope Z_scope.

Definition size_of (l : list N) : Z := Z.of_nat (length l).

(* zstd: the content of a frame is given back where there is room for it; a frame begins with a
   fixed byte (of four); a frame that is cut has no content *)
Record zstd_ok (frame : Z -> list N -> list N) (content : list N -> Z -> option (list N)) (magic : N) : Prop := {
  zs_content : forall level x n, bytes x -> size_of x <= n -> content (frame level x) n = Some x;
  zs_magic   : forall level x, exists r, frame level x = magic :: r /\ bytes (frame level x);
  zs_cut     : forall level x k n, (k < length (frame level x))%nat -> content (firstn k (frame level x)) n = None
}.

(* lz4: no call writes more than its bound. The frame of the chunks is what all calls write. *)
Fixpoint lz4_updated (update : Z -> list (list N) -> list N -> list N) (level : Z) (before argv : list (list N)) : list N :=
  match argv with [] => [] | l :: argv => update level before l ++ lz4_updated update level (before ++ [l]) argv end.
Definition lz4_frame (start : Z -> list N) (update : Z -> list (list N) -> list N -> list N) (finish : Z -> list (list N) -> list N)
  (level : Z) (argv : list (list N)) : list N :=
  start level ++ lz4_updated update level [] argv ++ finish level argv.
(* taking the bytes of a frame, in pieces of its choice, the library writes the bytes of the content
   in order and all of them; with room for what is left it takes or writes something *)
Definition decodes (step : list N -> list N -> Z -> option (nat * list N)) (f x : list N) : Prop :=
  exists written : nat -> nat -> Prop,
    written O O /\
    (forall i j room, written i j -> (i < length f)%nat -> size_of x - Z.of_nat j <= room ->
      exists n l, step (firstn i f) (skipn i f) room = Some (n, l) /\ (n <= length f - i)%nat /\ (0 < n)%nat /\
        l = firstn (length l) (skipn j x) /\ (j + length l <= length x)%nat /\ written (i + n)%nat (j + length l)%nat) /\
    (forall j, written (length f) j -> j = length x).
Record lz4_ok (bound : Z -> Z -> Z) (start : Z -> list N) (update : Z -> list (list N) -> list N -> list N)
  (finish : Z -> list (list N) -> list N) (step : list N -> list N -> Z -> option (nat * list N)) : Prop := {
  lz_start  : forall level, size_of (start level) <= 19;
  lz_update : forall level before l, size_of (update level before l) <= bound level (size_of l);
  lz_finish : forall level argv, size_of (finish level argv) <= bound level 0;
  lz_step   : forall level argv, decodes step (lz4_frame start update finish level argv) (concat argv)
}.

(* AES-GCM: as many bytes as there were, a tag of 16, and back *)
Record aes_ok (seal : list N -> list N -> list N -> list N * list N) (unseal : list N -> list N -> list N -> list N -> option (list N)) : Prop := {
  ae_size : forall k iv x, length (fst (seal k iv x)) = length x /\ length (snd (seal k iv x)) = 16%nat;
  ae_back : forall k iv x, unseal k iv (snd (seal k iv x)) (fst (seal k iv x)) = Some x
}.
