(* C97: DROP PARTITION in a database whose log and partition files are bytes. *)
From Coq Require Import NArith ZArith List Bool Sorted.
Import ListNotations.
From Verif Require Import Model.Base Model.Event Model.Memtable Model.Mapping Model.Merge
  Model.PartIter Model.Scan Model.Codec Model.File Model.Wal Model.Engine
  Spec.Order Spec.Codecs Spec.Layout Spec.Merged Spec.Files Spec.Regions Spec.View Spec.Engine Spec.FileLimits
  Proof.FileP Proof.EngineX Proof.WholeX Proof.WholeDropsT Proof.WholeDropsX.
From Verif Require Import Model.Crash Spec.Crash Spec.Drops Model.Whole Spec.Whole Model.WholeDrops Spec.WholeDrops.

(* after any history with drops, stops and starts the database opens and shows exactly the acknowledged events
   that were not dropped *)
Theorem C97_history : forall compress decompress encrypt decrypt, codecs_ok compress decompress encrypt decrypt ->
  forall src, settings_ok src -> forall wal_crc lo storages iv serial page ops,
  limits lo iv -> storages_ok storages ->
  ehist_fine compress decompress encrypt decrypt src wal_crc lo [] (whole_new src storages iv serial page) ops ->
  exists w, erun compress decompress encrypt decrypt src wal_crc (whole_new src storages iv serial page) ops = Ok w /\
    (forall e, wsees w e <->
       current (eacked compress decompress encrypt decrypt src wal_crc (whole_new src storages iv serial page) ops []) e) /\
    forall key, start_fine lo key ->
    exists out n, (forall fuel, n < fuel -> monotone_scan fuel (en_map (wh_en w)) key = Ok (Some out)) /\
      ascending out /\
      forall e, In e out <->
        current (eacked compress decompress encrypt decrypt src wal_crc (whole_new src storages iv serial page) ops []) e /\
        from key e.
Proof. exact wdrops_history. Qed.
Print Assumptions C97_history.
Example C97_example : (limits 0 10 /\ storages_ok [0; 1]%N /\ codecs_ok tagged un1 tagged un2 /\ settings_ok src0) /\
  ehist_fine tagged un1 tagged un2 src0 true 0 [] w0 eretain /\ escan eretain = Ok (Some eretained) /\
  all_gone tagged un1 tagged un2 src0 true [] w0 eretain = [(20, 29); (10, 19); (0, 9)]%N.
Proof. exact eretain_fine. Qed.

(* nothing of a dropped interval is seen again, and no partition covers any of it *)
Theorem C97_gone : forall compress decompress encrypt decrypt, codecs_ok compress decompress encrypt decrypt ->
  forall src, settings_ok src -> forall wal_crc lo R w h,
  ereachable compress decompress encrypt decrypt src wal_crc lo R w h ->
  (forall e, wsees w e -> gone R (ev_id e) = false) /\
  (forall s r, In s (mapping_list (en_map (wh_en w))) -> In r R -> forall x, in_range x r -> ~ in_range x (range_of s)).
Proof. exact wdrops_gone. Qed.
Print Assumptions C97_gone.
Example C97_gone_example : ereachable tagged un1 tagged un2 src0 true 0 [(0, 9)]%N (estate ekept)
  [mk_event 14 0 [] [2]; mk_event 25 0 [] [3]; mk_event 15 0 [] [4]]%N.
Proof. exact ekept_reach. Qed.

(* stops and starts repeated any number of times *)
Theorem C97_repeat : forall compress decompress encrypt decrypt, codecs_ok compress decompress encrypt decrypt ->
  forall src, settings_ok src -> forall wal_crc lo R w h l,
  ereachable compress decompress encrypt decrypt src wal_crc lo R w h ->
  ehist_fine compress decompress encrypt decrypt src wal_crc lo R w l -> Forall estop_op l ->
  exists w', erun compress decompress encrypt decrypt src wal_crc w l = Ok w' /\ forall e, wsees w' e <-> wsees w e.
Proof. exact wdrops_repeat. Qed.
Print Assumptions C97_repeat.
Example C97_repeat_example : ehist_fine tagged un1 tagged un2 src0 true 0 [(0, 9)]%N (estate ekept) three_stops /\
  Forall estop_op three_stops.
Proof. exact ekept_stops. Qed.

(* what a start adds to the log: records of drops of dropped intervals, at most one for each that it read *)
Theorem C97_log : forall compress decompress encrypt decrypt, codecs_ok compress decompress encrypt decrypt ->
  forall src, settings_ok src -> forall wal_crc lo R w h cuts ids,
  ereachable compress decompress encrypt decrypt src wal_crc lo R w h ->
  eop_fine compress decompress encrypt decrypt src wal_crc lo R w (EStop cuts ids) ->
  exists w' l, estep compress decompress encrypt decrypt src wal_crc w (EStop cuts ids) = Ok w' /\
    tidy (dir_content decompress decrypt (wh_dir w')) /\
    log_read wal_crc w' = log_read wal_crc w ++ l /\
    Forall (fun r => exists n id, r = Wal.LDrop n id /\ gone R id = true) l /\
    length l <= length (filter is_drop (log_read wal_crc w)).
Proof. exact wdrops_log. Qed.
Print Assumptions C97_log.
Example C97_log_example : eop_fine tagged un1 tagged un2 src0 true 0 [(0, 9)]%N (estate ekept) (EStop [1] [3; 1]%N) /\
  length (filter is_drop (log_read true (estate ekept))) = 1.
Proof. exact ekept_stop. Qed.

(* one DROP takes its partition and nothing else, also after any number of stops *)
Theorem C97_drop : forall compress decompress encrypt decrypt, codecs_ok compress decompress encrypt decrypt ->
  forall src, settings_ok src -> forall wal_crc lo R w h id l,
  ereachable compress decompress encrypt decrypt src wal_crc lo R w h ->
  ehist_fine compress decompress encrypt decrypt src wal_crc lo R w (EDrop id :: l) -> Forall estop_op l ->
  match estep compress decompress encrypt decrypt src wal_crc w (EDrop id) with
  | Ok w1 => (forall e, wsees w1 e <-> wsees w e /\ gone (edropped w (EDrop id)) (ev_id e) = false) /\
      exists w2, erun compress decompress encrypt decrypt src wal_crc w1 l = Ok w2 /\ forall e, wsees w2 e <-> wsees w1 e
  | Err => exists j s, In j (wh_jobs w) /\ In s (mapping_list (en_map (wh_en w))) /\ in_range id (range_of s) /\ jb_ref j = s_min s
  | UB => False
  end.
Proof. exact wdrops_drop. Qed.
Print Assumptions C97_drop.
Example C97_drop_example : ehist_fine tagged un1 tagged un2 src0 true 0 [(0, 9)]%N (estate ekept) (EDrop 14 :: three_stops) /\
  edropped (estate ekept) (EDrop 14) = [(10, 19)]%N /\
  escan (ekept ++ EDrop 14 :: three_stops) = Ok (Some [mk_event 25 0 [] [3%N]]).
Proof. exact ekept_drop. Qed.

(* the log begins with a record of a DROP and is rotated after a start: the database does not open again *)
Theorem C97_rotate_refuted : exists ops,
  ops = [ew [put_ev 1 1]; EDo (WRotate 0); EDo (WBegin 1 None)] ++ map (fun _ => EDo (WStep 0 ex0)) (seq 0 6) ++
    [EDo WGc; EDrop 1; EStop [] [2%N]; ew [put_ev 11 2]; EDo (WRotate 0); ew [put_ev 12 3]] /\
  escan ops = Ok (Some [mk_event 11 0 [] [2%N]; mk_event 12 0 [] [3%N]]) /\
  elog (firstn 13 ops) = [(2%N, [Wal.LDrop 2 1; Wal.LWrite 1 [mk_event 11 0 [] [2%N]]])] /\
  elog ops = [(2%N, [Wal.LWrite 2 [mk_event 12 0 [] [3%N]]])] /\
  escan (ops ++ [EStop [] [2%N]]) = Err.
Proof. exact (ex_intro _ drop_rotate (conj eq_refl drop_rotates)). Qed.
Print Assumptions C97_rotate_refuted.

(* an acknowledged event in an interval that was dropped before a rotation is lost at the first start *)
Theorem C97_reuse_refuted : exists ops,
  ops = [ew [put_ev 1 1]; EDrop 1; EDo (WRotate 0); ew [put_ev 1 2]] /\
  escan ops = Ok (Some [mk_event 1 0 [] [2%N]]) /\
  escan (ops ++ [EStop [] [1; 3]%N]) = Ok (Some []) /\
  elog (ops ++ [EStop [] [1; 3]%N]) =
    [(1%N, [Wal.LWrite 1 [mk_event 1 0 [] [1%N]]; Wal.LDrop 2 1]);
     (3%N, [Wal.LWrite 3 [mk_event 1 0 [] [2%N]]; Wal.LDrop 2 1; Wal.LDrop 4 1])].
Proof. exact (ex_intro _ reuse (conj eq_refl reuse_lost)). Qed.
Print Assumptions C97_reuse_refuted.
