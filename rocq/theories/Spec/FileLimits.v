(* What every statement about partition files assumes. *)
From Coq Require Import NArith ZArith List.
Import ListNotations.
From Verif Require Import Model.Base Model.Event Model.Codec Model.File Spec.Order Spec.Checksum Spec.Regions.

(* an event that fits its fields, with enough memory behind it *)
Definition mev_ok (m : mevent) : Prop :=
  ev_ok (fst m) /\ length (ev_key (fst m)) <= length (snd m) /\ bytes (snd m).
(* the fields of a footer *)
Definition stamp_fit (st : stamp) : Prop :=
  (st_min st < 2^64 /\ st_max st < 2^64 /\ st_refreshes st < 2^32 /\ st_time_create st < 2^64 /\
   st_time_refresh st < 2^64 /\ st_lsn st < 2^64)%N.
(* sizes that fit in 32 bits *)
Definition small (file : list byte) (evs : list event) : Prop :=
  (region_weight evs < 2^32 /\ 52 * N.of_nat (length evs) < 2^32 /\ N.of_nat (length file) < 2^32)%N.
Definition settings_ok (s : source) : Prop := (so_compression s < 256)%N /\ (so_encryption s < 256)%N.
