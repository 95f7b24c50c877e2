(* Texts about partitions in a database whose log and partition files are bytes: limits, and what is
   acknowledged and not dropped. *)
From Coq Require Import NArith ZArith List Bool.
Import ListNotations.
From Verif Require Import Model.Base Model.Lex Model.Parse Spec.Units Spec.Command.
From Verif Require Import Model.Event Model.Memtable Model.Mapping Model.PartIter Model.Codec Model.Scan Model.File Model.Wal
  Model.Engine Spec.Order Spec.Layout Spec.Regions Spec.View Spec.Engine Spec.FileLimits Spec.Log.
From Verif Require Import Model.Crash Model.Orders Spec.Crash Spec.Drops Spec.Orders Model.Whole Spec.Whole
  Model.WholeDrops Spec.WholeDrops Model.WholeOrders.

Section TEXTS.
Variable compress : N -> nat -> list byte -> list byte.
Variable decompress : N -> list byte -> N -> res (list byte).
Variable encrypt : N -> nat -> list byte -> list byte.
Variable decrypt : N -> list byte -> res (list byte).
Variable src : source.
Variable wal_crc : bool.
Variable names : list byte -> option N.
Variable strtod : list byte -> option (N * nat).
Variable e : env.
Let step := bstep compress decompress encrypt decrypt src wal_crc.
Notation rd := (eread decompress decrypt wal_crc).
Notation told := (tell names strtod e).
Notation tstep := (tstep compress decompress encrypt decrypt src wal_crc names strtod e).
Notation btell := (btell compress decompress encrypt decrypt src wal_crc names strtod e).

(* what a database with bytes is taken for: partitions, storages, refreshes, and the files as they read back *)
Definition shows (w : whole) (b : db) : Prop :=
  db_en b = wh_en w /\ db_storages b = wh_storages w /\ db_home b = wh_home w /\
  db_dir b = dir_content decompress decrypt (wh_dir w) /\ db_jobs b = wh_jobs w.

(* the limits of bytes for each thing that a text does: a new partition file, a record of the log *)
Definition as_bytes (x : N -> extra) (a : act) : option bact :=
  match a with
  | Do (CBegin id to) => Some (BDo (EDo (WBegin id to)))
  | Do (CStep ref) => Some (BDo (EDo (WStep ref (x ref))))
  | Do (CDrop id) => Some (BDo (EDrop id))
  | Do (CCreate mn mx) => Some (BDo (EDo (WCreate mn mx)))
  | Offload id => Some (BOffload id)
  | Do _ => None
  end.
Definition act_fine (w : whole) (a : bact) : Prop :=
  match a with
  | BDo (EDo (WStep ref x)) =>
      forall j, find (fun j => (jb_ref j =? ref)%N) (wh_jobs w) = Some j -> jb_stage j = 1 -> new_fine compress encrypt src w ref x
  | BDo (EDrop _) => lsn_room w
  | _ => True
  end.
Fixpoint acts_fine (x : N -> extra) (w : whole) (l : list act) : Prop :=
  match l with
  | [] => True
  | a :: t =>
      match as_bytes x a with
      | Some a => act_fine w a /\ match step w a with Ok w' => acts_fine x w' t | _ => True end
      | None => True
      end
  end.
(* the limits of Spec/Orders.v on the database as it reads back, and those of bytes *)
Definition btext_fine (lo : N) (R : list range) (w : whole) (x : N -> extra) (text : list byte) : Prop :=
  files_short (wh_wal w) /\ text_fine names strtod e lo R (rd w) text /\
  forall r, told (rd w) text = Ok r -> acts_fine x w (rp_acts r).

(* partitions of w that are not in w' *)
Definition missed (w w' : whole) : list range :=
  filter (fun r => negb (existsb (range_eqb r) (ranges (en_map (wh_en w'))))) (ranges (en_map (wh_en w))).
(* the database when the process stops in a text *)
Definition bstopped (w : whole) (x : N -> extra) (text : list byte) (n : nat) : res whole :=
  match btell x w text with
  | Ok r => brun compress decompress encrypt decrypt src wal_crc w (firstn n (bp_acts r))
  | Err => Err
  | UB => UB
  end.
Definition tlost (w : whole) (h : top) : list range :=
  match h with
  | TSay _ _ => match tstep w h with Ok w' => missed w w' | _ => [] end
  | TStop x text n _ _ => match bstopped w x text n with Ok w' => missed w w' | _ => [] end
  | TElse o => match step w (BDo o) with Ok _ => edropped w o | _ => [] end
  end.
Definition top_fine (lo : N) (R : list range) (w : whole) (h : top) : Prop :=
  match h with
  | TSay x text => btext_fine lo R w x text
  | TStop x text n cuts ids => btext_fine lo R w x text /\
      match bstopped w x text n with
      | Ok w' => eop_fine compress decompress encrypt decrypt src wal_crc lo (missed w w' ++ R) w' (EStop cuts ids)
      | _ => True
      end
  | TElse o => eop_fine compress decompress encrypt decrypt src wal_crc lo R w o
  end.
Fixpoint thist_fine (lo : N) (R : list range) (w : whole) (l : list top) : Prop :=
  match l with
  | [] => True
  | h :: t => top_fine lo R w h /\ match tstep w h with Ok w' => thist_fine lo (tlost w h ++ R) w' t | _ => True end
  end.
(* acknowledged events that are not dropped *)
Definition tack (w : whole) (h : top) (l : list event) : list event :=
  match h with TElse o => eack_step w o l | _ => l end.
Fixpoint tacked (w : whole) (l : list top) (h : list event) : list event :=
  match l with
  | [] => h
  | o :: t =>
      match tstep w o with
      | Ok w' => tacked w' t (filter (fun x => negb (gone (tlost w o) (ev_id x))) (tack w o h))
      | _ => h
      end
  end.
Fixpoint all_missed (R : list range) (w : whole) (l : list top) : list range :=
  match l with
  | [] => R
  | o :: t => match tstep w o with Ok w' => all_missed (tlost w o ++ R) w' t | _ => R end
  end.
Definition breachable (lo : N) (R : list range) (w : whole) (h : list event) : Prop :=
  exists storages iv serial page ops,
    limits lo iv /\ storages_ok storages /\
    thist_fine lo [] (whole_new src storages iv serial page) ops /\
    trun compress decompress encrypt decrypt src wal_crc names strtod e (whole_new src storages iv serial page) ops = Ok w /\
    R = all_missed [] (whole_new src storages iv serial page) ops /\
    h = tacked (whole_new src storages iv serial page) ops [].
End TEXTS.
