(* C99: a database with drops that is stopped inside of a record of the log, of a DROP or of a new file. *)
From Coq Require Import NArith ZArith List Bool Sorted.
Import ListNotations.
From Verif Require Import Model.Base Model.Event Model.Memtable Model.Mapping Model.Merge
  Model.PartIter Model.Scan Model.Codec Model.File Model.Wal Model.Engine
  Spec.Order Spec.Codecs Spec.Layout Spec.Merged Spec.Files Spec.Regions Spec.View Spec.Engine Spec.FileLimits
  Proof.FileP Proof.EngineX Proof.WholeX Proof.WholeDropsX Proof.TornDropsT Proof.TornDropsX.
From Verif Require Import Model.Crash Spec.Crash Spec.Drops Model.Whole Spec.Whole Model.WholeDrops Spec.WholeDrops
  Model.TornDrops Spec.TornDrops.

(* a part of the record of a batch is written: the database opens and shows what it did before, when nothing of
   the record is there or no earlier file of the log has a drop *)
Theorem C99_batch : forall compress decompress encrypt decrypt, codecs_ok compress decompress encrypt decrypt ->
  forall src, settings_ok src -> forall wal_crc lo R w h l m n ids,
  ereachable compress decompress encrypt decrypt src wal_crc lo R w h ->
  eop_fine compress decompress encrypt decrypt src wal_crc lo R w (EDo (WWrite l m None)) ->
  eop_fine compress decompress encrypt decrypt src wal_crc lo R w (EStop [] ids) ->
  log_room w (length (the_record wal_crc w l m)) ->
  n < length (the_record wal_crc w l m) -> n = 0 \/ drops_last wal_crc w ->
  exists w', stop_batch decompress decrypt wal_crc w l m n ids = Ok w' /\ forall e, wsees w' e <-> wsees w e.
Proof. exact stopped_batch. Qed.
Print Assumptions C99_batch.
Example C99_example : ereachable tagged un1 tagged un2 src0 true 0 [(0, 9)]%N (estate etorn)
  [mk_event 14 0 [] [2]; mk_event 25 0 [] [3]; mk_event 15 0 [] [4]]%N.
Proof. exact etorn_reach. Qed.
Example C99_batch_example :
  eop_fine tagged un1 tagged un2 src0 true 0 [(0, 9)]%N (estate etorn) (EDo (WWrite [put_ev 16 7] [] None)) /\
  eop_fine tagged un1 tagged un2 src0 true 0 [(0, 9)]%N (estate etorn) (EStop [] [2; 1]%N) /\
  log_room (estate etorn) (length (the_record true (estate etorn) [put_ev 16 7] [])) /\
  30 < length (the_record true (estate etorn) [put_ev 16 7] []) /\ drops_last true (estate etorn) /\
  seen (batch0 etorn [put_ev 16 7] 30 [2; 1]%N) = Ok (Some etorn_seen).
Proof. exact etorn_batch. Qed.

(* all of the record is written: as a stop after the batch *)
Theorem C99_batch_whole : forall compress decompress encrypt decrypt, codecs_ok compress decompress encrypt decrypt ->
  forall src, settings_ok src -> forall wal_crc lo R w h l m n ids,
  ereachable compress decompress encrypt decrypt src wal_crc lo R w h ->
  ehist_fine compress decompress encrypt decrypt src wal_crc lo R w [EDo (WWrite l m None); EStop [] ids] ->
  length (the_record wal_crc w l m) <= n ->
  exists w1 w', estep compress decompress encrypt decrypt src wal_crc w (EDo (WWrite l m None)) = Ok w1 /\
    estep compress decompress encrypt decrypt src wal_crc w1 (EStop [] ids) = Ok w' /\
    stop_batch decompress decrypt wal_crc w l m n ids = Ok w' /\ forall e, wsees w' e <-> wsees w1 e.
Proof. exact stopped_after. Qed.
Print Assumptions C99_batch_whole.
Example C99_batch_whole_example :
  ehist_fine tagged un1 tagged un2 src0 true 0 [(0, 9)]%N (estate etorn) [EDo (WWrite [put_ev 16 7] [] None); EStop [] [2; 1]%N] /\
  length (the_record true (estate etorn) [put_ev 16 7] []) <= 50 /\
  seen (batch0 etorn [put_ev 16 7] 50 [2; 1]%N) =
    Ok (Some [mk_event 14 0 [] [2]; mk_event 15 0 [] [4]; mk_event 16 0 [] [7]; mk_event 25 0 [] [3]]%N).
Proof. exact etorn_after. Qed.

(* the file of a partition is removed and a part of the record of the DROP is written: what is not of the
   partition is there, and nothing that was not seen before *)
Theorem C99_drop : forall compress decompress encrypt decrypt, codecs_ok compress decompress encrypt decrypt ->
  forall src, settings_ok src -> forall wal_crc lo R w h id n ids,
  ereachable compress decompress encrypt decrypt src wal_crc lo R w h ->
  drop_stop_fine decompress decrypt wal_crc lo R w id -> elog_fine wal_crc w ids -> log_room w 29 ->
  n < 29 -> n = 0 \/ drops_last wal_crc w -> part_slice (en_map (wh_en w)) id <> None ->
  exists w', stop_drop decompress decrypt wal_crc w id n ids = Ok w' /\
    forall e, (wsees w' e -> wsees w e) /\
      (gone (edropped w (EDrop id)) (ev_id e) = false -> wsees w e -> wsees w' e).
Proof. exact stopped_drop. Qed.
Print Assumptions C99_drop.
Example C99_drop_example :
  drop_stop_fine un1 un2 true 0 [(0, 9)]%N (estate etorn) 14 /\ elog_fine true (estate etorn) [2; 1]%N /\
  log_room (estate etorn) 29 /\ drops_last true (estate etorn) /\ part_slice (en_map (wh_en (estate etorn))) 14 <> None /\
  seen (drop0 etorn 14 10 [2; 1]%N) = Ok (Some etorn_seen).
Proof. exact etorn_drop. Qed.

(* all of the record of the DROP is written: the partition is gone and nothing else *)
Theorem C99_drop_whole : forall compress decompress encrypt decrypt, codecs_ok compress decompress encrypt decrypt ->
  forall src, settings_ok src -> forall wal_crc lo R w h id n ids w1,
  ereachable compress decompress encrypt decrypt src wal_crc lo R w h ->
  ehist_fine compress decompress encrypt decrypt src wal_crc lo R w [EDrop id; EStop [] ids] ->
  estep compress decompress encrypt decrypt src wal_crc w (EDrop id) = Ok w1 -> 29 <= n ->
  exists w', estep compress decompress encrypt decrypt src wal_crc w1 (EStop [] ids) = Ok w' /\
    stop_drop decompress decrypt wal_crc w id n ids = Ok w' /\
    forall e, wsees w' e <-> wsees w e /\ gone (edropped w (EDrop id)) (ev_id e) = false.
Proof. exact stopped_dropped. Qed.
Print Assumptions C99_drop_whole.
Example C99_drop_whole_example :
  ehist_fine tagged un1 tagged un2 src0 true 0 [(0, 9)]%N (estate etorn) [EDrop 14; EStop [] [2; 1]%N] /\
  match estep tagged un1 tagged un2 src0 true (estate etorn) (EDrop 14) with Ok _ => true | _ => false end = true /\
  seen (drop0 etorn 14 29 [2; 1]%N) = Ok (Some [mk_event 25 0 [] [3%N]]).
Proof. exact etorn_dropped. Qed.

(* any number of bytes of the new file of a refresh is written: as if none of them was; the file is not kept and
   nothing else changes *)
Theorem C99_file : forall compress decompress encrypt decrypt, codecs_ok compress decompress encrypt decrypt ->
  forall src, settings_ok src -> forall wal_crc lo R w h j ref x n cuts ids,
  ereachable compress decompress encrypt decrypt src wal_crc lo R w h ->
  find (fun j => (jb_ref j =? ref)%N) (wh_jobs w) = Some j -> jb_stage j = 1 ->
  eop_fine compress decompress encrypt decrypt src wal_crc lo R (begun w ref) (EStop cuts ids) ->
  exists w', stop_file compress decompress encrypt decrypt src wal_crc w ref x n cuts ids = Ok w' /\
    estep compress decompress encrypt decrypt src wal_crc (begun w ref) (EStop cuts ids) = Ok w' /\
    tidy (dir_content decompress decrypt (wh_dir w')) /\ forall e, wsees w' e <-> wsees w e.
Proof. exact stopped_file. Qed.
Print Assumptions C99_file.
Example C99_file_example : map (fun j => (jb_ref j, jb_stage j)) (wh_jobs (estate etorn)) = [(20%N, 1)] /\
  eop_fine tagged un1 tagged un2 src0 true 0 [(0, 9)]%N (begun (estate etorn) 20) (EStop [1] [2; 1]%N) /\
  seen (file0 etorn 20 10 [1] [2; 1]%N) = Ok (Some etorn_seen).
Proof. exact etorn_file. Qed.

(* an earlier file of the log has a drop: with a part of a record in the last file the database does not open *)
Theorem C99_two_files_refuted : exists ops,
  ops = [ew [put_ev 1 1; put_ev 11 1]; EDrop 1; EDo (WRotate 0)] /\
  ehist_fineb tagged un1 tagged un2 src0 true 0 [] w0 ops = true /\
  seen (erun tagged un1 tagged un2 src0 true w0 ops) = Ok (Some [mk_event 11 0 [] [1%N]]) /\
  batch0 ops [put_ev 12 7] 10 [1; 3]%N = Err /\
  seen (batch0 ops [put_ev 12 7] 0 [1; 3]%N) = Ok (Some [mk_event 11 0 [] [1%N]]).
Proof. exact (ex_intro _ two_files (conj eq_refl two_files_fail)). Qed.
Print Assumptions C99_two_files_refuted.

(* the drop is in the file with the part of a record: the database opens once, but not a second time *)
Theorem C99_twice_refuted : exists ops,
  ops = [ew [put_ev 1 1; put_ev 11 1]; EDrop 1] /\
  ehist_fineb tagged un1 tagged un2 src0 true 0 [] w0 ops = true /\
  seen (batch0 ops [put_ev 12 7] 10 [1%N]) = Ok (Some [mk_event 11 0 [] [1%N]]) /\
  after (batch0 ops [put_ev 12 7] 10 [1%N]) [EStop [] [1%N]] = Err /\
  after (drop0 ops 11 10 [1%N]) [EStop [] [1%N]] = Err.
Proof. exact (ex_intro _ one_file (conj eq_refl one_file_fails)). Qed.
Print Assumptions C99_twice_refuted.

(* a DROP is not all or nothing: stopped before its record is written, a part of the events of the partition is
   gone, for good *)
Theorem C99_half_refuted : exists ops,
  ops = [ew [put_ev 1 1; put_ev 2 2]; EDo (WRotate 0); EDo (WBegin 1 None)] ++ map (fun _ => EDo (WStep 0 ex0)) (seq 0 6) ++
    [EDo WGc; ew [put_ev 2 3]] /\
  ehist_fineb tagged un1 tagged un2 src0 true 0 [] w0 ops = true /\
  seen (erun tagged un1 tagged un2 src0 true w0 ops) = Ok (Some [mk_event 1 0 [] [1%N]; mk_event 2 0 [] [3%N]]) /\
  seen (drop0 ops 1 0 [2%N]) = Ok (Some [mk_event 2 0 [] [3%N]]) /\
  seen (after (drop0 ops 1 0 [2%N]) [EStop [] [2%N]]) = Ok (Some [mk_event 2 0 [] [3%N]]) /\
  seen (drop0 ops 1 29 [2%N]) = Ok (Some []).
Proof. exact (ex_intro _ half (conj eq_refl half_dropped)). Qed.
Print Assumptions C99_half_refuted.
