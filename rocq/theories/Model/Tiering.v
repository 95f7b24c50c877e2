(* Storages with their counters, DROP, REFRESH, MOVE, upload and download of a partition, and the
   rebalance: /repo/monotone/engine/storage/storage.h, engine/engine/op.c, engine/engine/refresh.c,
   the end of engine/engine/engine_recover.c.
   Simplified: the partitions are one list with the storage they are on; the list of a storage is
   the part of it with that storage, in order (list_append and list_unlink). Events in memory are
   left out (Engine.v has them): of the new file of a refresh the size and the number of events are
   given. Storages are numbers instead of names. One operation runs at a time. What the file system
   and the cloud do is given for each operation ([luck]). *)
From Coq Require Import NArith ZArith Arith List Bool.
Import ListNotations.
From Verif Require Import Model.Base Model.Show.

(* conversion to int64_t *)
Definition i64 (z : Z) : Z := ((z + 2 ^ 63) mod 2 ^ 64 - 2 ^ 63)%Z.

(* part.h:18-35 *)
Record tpart := mk_tpart {
  tp_min : N; tp_max : N; tp_created : N; tp_state : N; tp_refresh : bool;
  tp_size : N;      (* index.size_regions *)
  tp_events : N;    (* index.events *)
  tp_storage : nat }.
Definition tp_has (p : tpart) (mask : N) : bool := (0 <? N.land (tp_state p) mask)%N.
(* storage.h:19-29 *)
Record tstorage := mk_tstorage {
  ts_id : nat; ts_cloud : bool; ts_drop_local : bool; ts_count : Z; ts_size : Z; ts_events : Z }.
(* tier_config.h:18-26 *)
Record ttier := mk_ttier { tt_storage : nat; tt_partitions : Z; tt_size : Z; tt_events : Z; tt_duration : Z }.
Record tdb := mk_tdb { d_storages : list tstorage; d_tiers : list ttier; d_parts : list tpart }.

Definition parts_of (d : tdb) (s : nat) : list tpart := filter (fun p => tp_storage p =? s) (d_parts d).
(* mapping_match *)
Definition part_at (d : tdb) (id : N) : option tpart :=
  find (fun p => (tp_min p <=? id) && (id <=? tp_max p))%N (d_parts d).
Definition storage_at (d : tdb) (s : nat) : option tstorage := find (fun x => ts_id x =? s) (d_storages d).
Definition put_part (d : tdb) (p : tpart) : tdb :=
  mk_tdb (d_storages d) (d_tiers d) (map (fun q => if (tp_min q =? tp_min p)%N then p else q) (d_parts d)).
Definition set_state (p : tpart) (n : N) : tpart :=
  mk_tpart (tp_min p) (tp_max p) (tp_created p) n (tp_refresh p) (tp_size p) (tp_events p) (tp_storage p).
Definition set_refresh (p : tpart) : tpart :=
  mk_tpart (tp_min p) (tp_max p) (tp_created p) (tp_state p) true (tp_size p) (tp_events p) (tp_storage p).
(* index_init *)
Definition reset_index (p : tpart) : tpart :=
  mk_tpart (tp_min p) (tp_max p) (tp_created p) (tp_state p) (tp_refresh p) 0 0 (tp_storage p).

Definition on_storage (d : tdb) (s : nat) (f : tstorage -> tstorage) : tdb :=
  mk_tdb (map (fun x => if ts_id x =? s then f x else x) (d_storages d)) (d_tiers d) (d_parts d).
(* storage.h:67-74 *)
Definition storage_add_metrics (p : tpart) (x : tstorage) : tstorage :=
  if (tp_state p =? 0)%N then x else
  mk_tstorage (ts_id x) (ts_cloud x) (ts_drop_local x) (ts_count x)
    (i64 (ts_size x + Z.of_N (tp_size p))) (i64 (ts_events x + Z.of_N (tp_events p))).
(* storage.h:76-83 *)
Definition storage_remove_metrics (p : tpart) (x : tstorage) : tstorage :=
  if (tp_state p =? 0)%N then x else
  mk_tstorage (ts_id x) (ts_cloud x) (ts_drop_local x) (ts_count x)
    (i64 (ts_size x - Z.of_N (tp_size p))) (i64 (ts_events x - Z.of_N (tp_events p))).
Definition count_by (n : Z) (x : tstorage) : tstorage :=
  mk_tstorage (ts_id x) (ts_cloud x) (ts_drop_local x) (ts_count x + n)%Z (ts_size x) (ts_events x).
(* storage.h:85-92 *)
Definition storage_add (d : tdb) (p : tpart) : tdb :=
  let d := mk_tdb (d_storages d) (d_tiers d) (d_parts d ++ [p]) in
  on_storage d (tp_storage p) (fun x => storage_add_metrics p (count_by 1 x)).
(* storage.h:94-102 *)
Definition storage_remove (d : tdb) (p : tpart) : tdb :=
  let d := mk_tdb (d_storages d) (d_tiers d) (filter (fun q => negb (tp_min q =? tp_min p)%N) (d_parts d)) in
  on_storage d (tp_storage p) (fun x => storage_remove_metrics p (count_by (-1) x)).
(* storage.h:117-131 *)
Definition storage_oldest (l : list tpart) : option tpart :=
  fold_left (fun m p => match m with
                        | None => Some p
                        | Some m => if (tp_created p <? tp_created m)%N then Some p else Some m
                        end) l None.

(* what happens outside: the cloud, the file system; the merge writes a file of this size with so
   many events *)
Record luck := mk_luck {
  lk_download : bool; lk_upload : bool; lk_drop_cloud : bool; lk_drop_local : bool; lk_merge : option (N * N); lk_end : bool }.
(* returned true, returned false, error *)
Inductive outcome := Yes | No | Failed.
Definition andthen (r : tdb * outcome) (k : tdb -> tdb * outcome) : tdb * outcome :=
  match r with (d, Failed) => (d, Failed) | (d, _) => k d end.

(* op.c:24-65; mapping_add has refused an interval that is there *)
Definition engine_create (d : tdb) (min max now : N) : tdb :=
  let s := match d_tiers d with
           | t :: _ => tt_storage t
           | [] => match d_storages d with x :: _ => ts_id x | [] => 0 end
           end in
  storage_add d (mk_tpart min max now 0 false 0 0 s).

(* op.c:164-236. storage_remove_metrics is called with the state already 0. *)
Definition engine_drop_file (d : tdb) (id : N) (if_exists drop_local : bool) (mask : N) (k : luck) : tdb * outcome :=
  match part_at d id with
  | None => (d, if if_exists then No else Failed)
  | Some p =>
    let allowed := match storage_at d (tp_storage p) with Some x => ts_drop_local x | None => false end in
    if drop_local && (negb allowed || negb (tp_has p ID_CLOUD)) then (d, No) else
    let cloud := (0 <? N.land mask ID_CLOUD)%N && tp_has p ID_CLOUD in
    if cloud && negb (lk_drop_cloud k) then (d, Failed) else
    let p1 := if cloud then set_state p (N.ldiff (tp_state p) ID_CLOUD) else p in
    let d1 := put_part d p1 in
    let here := (0 <? N.land mask ID)%N && tp_has p1 ID in
    if here && negb (lk_drop_local k) then (d1, Failed) else
    let p2 := if here then set_state p1 (N.ldiff (tp_state p1) ID) else p1 in
    let d2 := put_part d1 p2 in
    if (tp_state p2 =? 0)%N then
      (put_part (on_storage d2 (tp_storage p2) (storage_remove_metrics p2)) (reset_index p2), Yes)
    else (d2, Yes)
  end.
(* op.c:238-285; the log is left out *)
Definition engine_drop_reference (d : tdb) (id : N) : tdb * bool :=
  match part_at d id with
  | None => (d, true)
  | Some p => if (tp_state p =? 0)%N then (storage_remove d p, true) else (d, false)
  end.
(* op.c:290-315; None: still trying *)
Fixpoint drop_loop (fuel : nat) (d : tdb) (id : N) (if_exists : bool) (mask : N) (k : luck) : option (tdb * outcome) :=
  match fuel with
  | 0 => None
  | S f =>
    match engine_drop_file d id if_exists false mask k with
    | (d1, Yes) => match engine_drop_reference d1 id with
                   | (d2, true) => Some (d2, Yes)
                   | (d2, false) => drop_loop f d2 id if_exists mask k
                   end
    | r => Some r
    end
  end.
Definition engine_drop (d : tdb) (id : N) (if_exists : bool) (mask : N) (k : luck) : tdb * outcome :=
  if (mask =? ID + ID_CLOUD)%N then
    match drop_loop 2 d id if_exists mask k with Some r => r | None => (d, Failed) end
  else engine_drop_file d id if_exists false mask k.

Definition has_cloud (d : tdb) (p : tpart) : bool :=
  match storage_at d (tp_storage p) with Some x => ts_cloud x | None => false end.
(* op.c:325-384 *)
Definition engine_download (d : tdb) (id : N) (if_exists if_cloud : bool) (k : luck) : tdb * outcome :=
  match part_at d id with
  | None => (d, if if_exists then No else Failed)
  | Some p =>
    if negb (has_cloud d p) then (d, if if_cloud then No else Failed) else
    if tp_has p ID || negb (tp_has p ID_CLOUD) then (d, No) else
    if lk_download k then (put_part d (set_state p (N.lor (tp_state p) ID)), Yes) else (d, Failed)
  end.
(* op.c:394-453 *)
Definition engine_upload (d : tdb) (id : N) (if_exists if_cloud : bool) (k : luck) : tdb * outcome :=
  match part_at d id with
  | None => (d, if if_exists then No else Failed)
  | Some p =>
    if negb (has_cloud d p) then (d, if if_cloud then No else Failed) else
    if tp_has p ID_CLOUD then (d, No) else
    if negb (tp_has p ID) then (d, Failed) else
    if lk_upload k then (put_part d (set_state p (N.lor (tp_state p) ID_CLOUD)), Yes) else (d, Failed)
  end.
(* refresh.c:55-237: begin, merge, apply, end *)
Definition refresh_run (d : tdb) (id : N) (target : option nat) (if_exists : bool) (k : luck) : tdb * outcome :=
  match part_at d id with
  | None => (d, if if_exists then No else Failed)
  | Some p =>
    if tp_has p ID_CLOUD then (d, Failed) else
    let go (s : nat) :=
      match lk_merge k with
      | None => (d, Failed)
      | Some (size, events) =>
        let new := mk_tpart (tp_min p) (tp_max p) (tp_created p) ID_INCOMPLETE false size events s in
        let d1 := storage_add (storage_remove d p) new in
        let d2 := put_part d1 (set_state new (N.lor (N.ldiff ID_INCOMPLETE ID_INCOMPLETE) ID)) in
        (d2, if lk_end k then Yes else Failed)
      end in
    match target with
    | Some s => match storage_at d s with
                | None => (d, Failed)
                | Some _ => if s =? tp_storage p then (d, No) else go s
                end
    | None => go (tp_storage p)
    end
  end.
(* op.c:464-483 *)
Definition engine_refresh (d : tdb) (id : N) (target : option nat) (if_exists : bool) (k : luck) : tdb * outcome :=
  andthen (engine_download d id if_exists true k) (fun d =>
  andthen (engine_drop d id if_exists ID_CLOUD k) (fun d =>
  andthen (refresh_run d id target if_exists k) (fun d =>
  andthen (engine_upload d id true true k) (fun d =>
  engine_drop_file d id if_exists true ID k)))).

(* op.c:494-524 *)
Definition engine_rebalance_tier_next (d : tdb) (t : ttier) (now : N) : option tpart :=
  match storage_at d (tt_storage t) with
  | None => None
  | Some x =>
    let oldest := storage_oldest (parts_of d (ts_id x)) in
    if (0 <=? tt_partitions t) && (tt_partitions t <? ts_count x) then oldest
    else if (0 <=? tt_size t) && (tt_size t <? ts_size x) then oldest
    else if (0 <=? tt_events t) && (tt_events t <? ts_events x) then oldest
    else if 0 <=? tt_duration t then
      match oldest with
      | None => None
      | Some p => if tt_duration t <=? Z.of_N (sub64 now (tp_created p)) then Some p else None
      end
    else None
  end%Z.
(* op.c:526-576. [storage] is set by a tier and kept when its partition is skipped. *)
Fixpoint engine_rebalance_next (d : tdb) (l : list ttier) (storage : option nat) (now : N) : option (tdb * N * option nat) :=
  match l with
  | [] => None
  | t :: r =>
    match engine_rebalance_tier_next d t now with
    | None => engine_rebalance_next d r storage now
    | Some p =>
      let storage := match r with [] => storage | next :: _ => Some (tt_storage next) end in
      if tp_refresh p then engine_rebalance_next d r storage now
      else Some (put_part d (set_refresh p), tp_min p, storage)
    end
  end.
(* op.c:578-594; [ws]: the time and what happens in each round *)
Inductive rend := Finished | Errored | Running.
Fixpoint engine_rebalance (fuel : nat) (ws : nat -> N * luck) (d : tdb) : tdb * list (N * option nat) * rend :=
  match fuel with
  | 0 => (d, [], Running)
  | S f =>
    match engine_rebalance_next d (d_tiers d) None (fst (ws 0)) with
    | None => (d, [], Finished)
    | Some (d1, min, storage) =>
      let k := snd (ws 0) in
      match (match storage with
             | None => engine_drop d1 min true (ID + ID_CLOUD) k
             | Some s => engine_refresh d1 min (Some s) true k
             end) with
      | (d2, Failed) => (d2, [(min, storage)], Errored)
      | (d2, _) => let '(d3, l, e) := engine_rebalance f (fun n => ws (S n)) d2 in (d3, (min, storage) :: l, e)
      end
    end
  end.

(* engine_recover.c:202-251: the partitions found, with their index, are added again *)
Definition engine_recover (d : tdb) (l : list tpart) : tdb :=
  fold_left (fun d p => on_storage (put_part (storage_add d (set_state p 0)) p) (tp_storage p) (storage_add_metrics p)) l
            (mk_tdb (map (fun x => mk_tstorage (ts_id x) (ts_cloud x) (ts_drop_local x) 0 0 0) (d_storages d)) (d_tiers d) []).
