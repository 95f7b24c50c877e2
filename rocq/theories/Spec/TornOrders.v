(* Texts stopped inside of one of the things that they do: limits, and what may be missing after it. *)
From Coq Require Import NArith ZArith List Bool.
Import ListNotations.
From Verif Require Import Model.Base Model.Parse.
From Verif Require Import Model.Event Model.Memtable Model.Mapping Model.PartIter Model.Codec Model.Scan Model.File Model.Wal
  Model.Engine Spec.Order Spec.Layout Spec.Regions Spec.View Spec.Engine Spec.FileLimits Spec.Log.
From Verif Require Import Model.Crash Model.Orders Spec.Crash Spec.Drops Spec.Orders Model.Whole Spec.Whole
  Model.WholeDrops Spec.WholeDrops Model.WholeOrders Spec.WholeOrders Spec.TornDrops.

Section TEXTS.
Variable compress : N -> nat -> list byte -> list byte.
Variable decompress : N -> list byte -> N -> res (list byte).
Variable encrypt : N -> nat -> list byte -> list byte.
Variable decrypt : N -> list byte -> res (list byte).
Variable src : source.
Variable wal_crc : bool.
Variable names : list byte -> option N.
Variable strtod : list byte -> option (N * nat).
Variable e : env.
Let op_fine := eop_fine compress decompress encrypt decrypt src wal_crc.

(* what is done next in a text *)
Definition next_act (w : whole) (x : N -> extra) (text : list byte) (n : nat) : option bact :=
  match btell compress decompress encrypt decrypt src wal_crc names strtod e x w text with
  | Ok r => nth_error (bp_acts r) n
  | _ => None
  end.
(* a stop is within the limits of C97 and C99 *)
Definition inside_fine (lo : N) (R : list range) (w : whole) (a : option bact) (k : nat) (cuts : list nat) (ids : list N) : Prop :=
  match a with
  | Some (BDo (EDrop id)) =>
      (29 <= k -> ehist_fine compress decompress encrypt decrypt src wal_crc lo R w [EDrop id; EStop [] ids]) /\
      (k < 29 -> op_fine lo R w (EStop [] ids) /\ drop_stop_fine decompress decrypt wal_crc lo R w id /\ log_room w 29 /\
                 (k = 0 \/ drops_last wal_crc w))
  | Some (BDo (EDo (WStep ref _))) => op_fine lo R w (EStop cuts ids) /\ op_fine lo R (begun w ref) (EStop cuts ids)
  | _ => op_fine lo R w (EStop cuts ids)
  end.
(* the interval of the partition that is being dropped *)
Definition inside_lost (w : whole) (a : option bact) : list range :=
  match a with Some (BDo (EDrop id)) => edropped w (EDrop id) | _ => [] end.
End TEXTS.
