(* Compression and encryption of the contents of one file. *)
From Coq Require Import NArith ZArith List.
Import ListNotations.
From Verif Require Import Model.Base Model.Event Model.Codec Model.File Model.Writer Spec.Checksum.

Section S.
Variable compress : N -> nat -> list N -> list N.
Variable decompress : N -> list N -> N -> res (list N).
Variable encrypt : N -> nat -> list N -> list N.
Variable decrypt : N -> list N -> res (list N).
Variable s : source.

(* what is given to compression and encryption: the regions in order, then the entries of the index;
   [groups] are the events of each region *)
Definition contents (l : list mevent) (groups : list (list mevent)) : list (list N) :=
  map region_encode groups ++
  [flat_map iregion_bytes (w_refs (writer_stop_region compress encrypt s (fold_left (writer_add compress encrypt s) l writer_start)))].
Definition grouped (l : list mevent) (groups : list (list mevent)) : Prop :=
  concat groups = l /\ map (map fst) groups = cut_regions (Z.to_N (so_region_size s mod 2 ^ 32)) (map fst l).

(* decrypted, then decompressed *)
Definition undone (z : list N) (size : N) : res (list N) :=
  match (if (so_encryption s =? 0)%N then Ok z else decrypt (so_encryption s) z) with
  | Ok c => if (so_compression s =? 0)%N then Ok c else decompress (so_compression s) c size
  | Err => Err
  | UB => UB
  end.
(* as the n-th content of the file *)
Definition back (n : nat) (b : list N) : Prop :=
  (b <> [] -> seal compress encrypt s n b <> []) /\ undone (seal compress encrypt s n b) (N.of_nat (length b)) = Ok b.
Definition lost (n : nat) (b : list N) : Prop :=
  seal compress encrypt s n b <> [] /\ undone (seal compress encrypt s n b) (N.of_nat (length b)) = Err.
Definition stays_bytes : Prop := forall n b, bytes b -> bytes (seal compress encrypt s n b).
End S.
