(* Storages, tiers and what a rebalance should do. *)
From Coq Require Import NArith ZArith Arith List Bool.
Import ListNotations.
From Verif Require Import Model.Base Model.Show Model.Tiering.

(* the partitions of a storage: how many, and what their files hold *)
Definition sum {A} (f : A -> Z) (l : list A) : Z := fold_right (fun a n => f a + n)%Z 0%Z l.
Definition filed (p : tpart) : bool := negb (tp_state p =? 0)%N.
Definition on (d : tdb) (s : nat) : list tpart := filter (fun p => tp_storage p =? s) (d_parts d).
Definition count_on (d : tdb) (s : nat) : Z := Z.of_nat (length (on d s)).
Definition size_on (d : tdb) (s : nat) : Z := sum (fun p => if filed p then Z.of_N (tp_size p) else 0%Z) (on d s).
Definition events_on (d : tdb) (s : nat) : Z := sum (fun p => if filed p then Z.of_N (tp_events p) else 0%Z) (on d s).

(* the counters are the sums, and something that was not taken away ([lost], size and events) *)
Definition counted (lost : nat -> Z * Z) (d : tdb) : Prop :=
  forall x, In x (d_storages d) ->
    ts_count x = count_on d (ts_id x) /\
    ts_size x = i64 (size_on d (ts_id x) + fst (lost (ts_id x))) /\
    ts_events x = i64 (events_on d (ts_id x) + snd (lost (ts_id x))).
Definition exact : tdb -> Prop := counted (fun _ => (0, 0))%Z.

(* intervals do not overlap; files are here, on the cloud, both or none; storages exist *)
Definition apart (p q : tpart) : Prop := (tp_max p < tp_min q \/ tp_max q < tp_min p)%N.
Definition part_ok (d : tdb) (p : tpart) : Prop :=
  (tp_min p <= tp_max p)%N /\ In (tp_state p) [0; 1; 8; 9]%N /\
  exists x, In x (d_storages d) /\ ts_id x = tp_storage p /\ (tp_has p ID_CLOUD = true -> ts_cloud x = true).
Definition wf (d : tdb) : Prop :=
  Forall (part_ok d) (d_parts d) /\ ForallOrdPairs apart (d_parts d) /\ NoDup (map ts_id (d_storages d)) /\
  d_storages d <> [] /\ Forall (fun t => In (tt_storage t) (map ts_id (d_storages d))) (d_tiers d).

(* a limit of a tier is exceeded; a negative limit is none *)
Definition exceeded (now : N) (d : tdb) (t : ttier) : Prop :=
  let s := tt_storage t in
  (0 <= tt_partitions t < count_on d s \/ 0 <= tt_size t < size_on d s \/ 0 <= tt_events t < events_on d s \/
   0 <= tt_duration t /\ exists p, In p (on d s) /\ tt_duration t <= Z.of_N now - Z.of_N (tp_created p))%Z.
Definition oldest (l : list tpart) (p : tpart) : Prop := In p l /\ forall q, In q l -> (tp_created p <= tp_created q)%N.
(* work on the oldest partition of the tier was already ordered *)
Definition waiting (d : tdb) (t : ttier) : Prop := exists p, oldest (on d (tt_storage t)) p /\ tp_refresh p = true.

(* the counters do not overflow, the clock did not go back *)
Definition fits (lost : nat -> Z * Z) (now : N) (d : tdb) : Prop :=
  (forall s, size_on d s + fst (lost s) < 2 ^ 63 /\ events_on d s + snd (lost s) < 2 ^ 63)%Z /\
  Forall (fun p => tp_created p <= now)%N (d_parts d) /\ (now < 2 ^ 64)%N.
Definition gains (lost : nat -> Z * Z) : Prop := forall i, (0 <= fst (lost i) /\ 0 <= snd (lost i))%Z.
(* the counters a tier has limits for are the sums *)
Definition reliable (lost : nat -> Z * Z) (t : ttier) : Prop :=
  lost (tt_storage t) = (0, 0)%Z \/ (tt_size t < 0 /\ tt_events t < 0)%Z.

(* everything outside works *)
Definition lucky (k : luck) : Prop :=
  lk_download k = true /\ lk_upload k = true /\ lk_drop_cloud k = true /\ lk_drop_local k = true /\ lk_merge k <> None /\ lk_end k = true.
Definition idle (d : tdb) : Prop := Forall (fun p => tp_refresh p = false) (d_parts d).

(* the operations of a history *)
Inductive top :=
| TCreate (min max now : N)
| TDrop (id : N) (if_exists : bool) (mask : N) (k : luck)
| TDropUploaded (id : N) (k : luck)
| TDownload (id : N) (if_exists if_cloud : bool) (k : luck)
| TUpload (id : N) (if_exists if_cloud : bool) (k : luck)
| TRefresh (id : N) (if_exists : bool) (k : luck)
| TMove (id : N) (target : option nat) (if_exists : bool) (k : luck)
| TRebalance (fuel : nat) (ws : nat -> N * luck)
| TRestart (found : list tpart).
Definition run (d : tdb) (o : top) : tdb :=
  match o with
  | TCreate min max now => engine_create d min max now
  | TDrop id e mask k => fst (engine_drop d id e mask k)
  | TDropUploaded id k => fst (engine_drop_file d id true true ID k)
  | TDownload id e c k => fst (engine_download d id e c k)
  | TUpload id e c k => fst (engine_upload d id e c k)
  | TRefresh id e k => fst (refresh_run d id None e k)
  | TMove id t e k => fst (engine_refresh d id t e k)
  | TRebalance n ws => fst (fst (engine_rebalance n ws d))
  | TRestart l => engine_recover d l
  end.
Fixpoint runs (d : tdb) (l : list top) : tdb := match l with [] => d | o :: l => runs (run d o) l end.
(* a new interval is free; what is found at the start is a possible set of partitions *)
Definition possible (d : tdb) (o : top) : Prop :=
  match o with
  | TCreate min max _ => (min <= max)%N /\ Forall (fun q => (max < tp_min q \/ tp_max q < min)%N) (d_parts d)
  | TRestart l => wf (mk_tdb (d_storages d) (d_tiers d) l) /\ Forall (fun p => filed p = true) l
  | _ => True
  end.
Fixpoint all_possible (d : tdb) (l : list top) : Prop :=
  match l with [] => True | o :: l => possible d o /\ all_possible (run d o) l end.
(* no partition loses its last file *)
Definition keeps (d : tdb) (o : top) : Prop :=
  match o with
  | TDrop id _ mask _ => forall p, In p (d_parts d) -> (tp_min p <= id <= tp_max p)%N -> filed p = true -> N.ldiff (tp_state p) mask <> 0%N
  | TRebalance n ws => Forall (fun a => snd a <> None) (snd (fst (engine_rebalance n ws d)))
  | _ => True
  end.
Fixpoint all_keep (d : tdb) (l : list top) : Prop :=
  match l with [] => True | o :: l => keeps d o /\ all_keep (run d o) l end.
