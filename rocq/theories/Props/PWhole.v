(* C90: a database whose log and partition files are bytes. *)
From Coq Require Import NArith ZArith List Bool Sorted.
Import ListNotations.
From Verif Require Import Model.Base Model.Event Model.Memtable Model.Mapping Model.Merge
  Model.PartIter Model.Scan Model.Codec Model.File Model.Wal Model.Engine
  Spec.Order Spec.Codecs Spec.Layout Spec.Merged Spec.Files Spec.Regions Spec.View Spec.Engine Spec.FileLimits
  Proof.FileP Proof.EngineX Proof.WholeT Proof.WholeX.
From Verif Require Import Model.Crash Spec.Crash Model.Whole Spec.Whole.

(* after any history with stops and starts the database opens and shows exactly the acknowledged
   events, and those of batches whose records are complete in the log *)
Theorem C90_history : forall compress decompress encrypt decrypt, codecs_ok compress decompress encrypt decrypt ->
  forall src, settings_ok src -> forall wal_crc lo storages iv serial page ops,
  limits lo iv -> storages_ok storages ->
  whist_fine compress decompress encrypt decrypt src wal_crc lo (whole_new src storages iv serial page) true ops ->
  exists w, wrun compress decompress encrypt decrypt src wal_crc (whole_new src storages iv serial page) ops = Ok w /\
    (forall e, wsees w e <->
       current (wacked compress decompress encrypt decrypt src wal_crc (whole_new src storages iv serial page) ops []) e) /\
    forall key, start_fine lo key ->
    exists out n, (forall fuel, n < fuel -> monotone_scan fuel (en_map (wh_en w)) key = Ok (Some out)) /\
      ascending out /\
      forall e, In e out <->
        current (wacked compress decompress encrypt decrypt src wal_crc (whole_new src storages iv serial page) ops []) e /\
        from key e.
Proof. exact whole_history. Qed.
Print Assumptions C90_history.
Example C90_example : (limits 0 10 /\ storages_ok [0; 1]%N /\ codecs_ok tagged un1 tagged un2 /\ settings_ok src0) /\
  whist_fine tagged un1 tagged un2 src0 true 0 w0 true sample_wops /\ wscan w0 sample_wops = Ok (Some sample_wnow).
Proof. exact sample_wfine. Qed.

(* a stop when any number of bytes of the record of a batch are in the log *)
Theorem C90_atomic : forall compress decompress encrypt decrypt, codecs_ok compress decompress encrypt decrypt ->
  forall src, settings_ok src -> forall wal_crc lo w h l m n ids,
  wreachable compress decompress encrypt decrypt src wal_crc lo w true h ->
  wop_fine compress decompress encrypt decrypt src wal_crc lo w true (WCrashIn l m n ids) ->
  exists w', wstep compress decompress encrypt decrypt src wal_crc w (WCrashIn l m n ids) = Ok w' /\
    match engine_write (wh_en w) l true with
    | Ok (_, Some evs) =>
        if length (log_record wal_crc (w64 (en_lsn (wh_en w) + 1)) (entries evs m)) <=? n
        then forall e, wsees w' e <-> current evs e \/ (last_write evs e = None /\ wsees w e)
        else forall e, wsees w' e <-> wsees w e
    | _ => forall e, wsees w' e <-> wsees w e
    end.
Proof. exact whole_atomic. Qed.
Print Assumptions C90_atomic.
Example C90_atomic_example :
  wreachable tagged un1 tagged un2 src0 true 0 (wstate some_wops) true (wacked tagged un1 tagged un2 src0 true w0 some_wops []) /\
  length (the_record true (wstate some_wops) one_batch []) = 65 /\
  Forall (fun n => wop_fine tagged un1 tagged un2 src0 true 0 (wstate some_wops) true (WCrashIn one_batch [] n [2; 1]%N)) (seq 0 67).
Proof. exact (conj some_wreach some_cut). Qed.

(* starts repeated any number of times, each stopped any number of times on the way, also when the
   log ends in a part of a record *)
Theorem C90_repeat : forall compress decompress encrypt decrypt, codecs_ok compress decompress encrypt decrypt ->
  forall src, settings_ok src -> forall wal_crc lo w clean h l,
  wreachable compress decompress encrypt decrypt src wal_crc lo w clean h ->
  whist_fine compress decompress encrypt decrypt src wal_crc lo w clean l -> Forall wrestart_op l ->
  exists w', wrun compress decompress encrypt decrypt src wal_crc w l = Ok w' /\ forall e, wsees w' e <-> wsees w e.
Proof. exact whole_repeat. Qed.
Print Assumptions C90_repeat.
Example C90_repeat_example :
  wreachable tagged un1 tagged un2 src0 true 0 (wstate torn_wops) false (wacked tagged un1 tagged un2 src0 true w0 torn_wops []) /\
  whist_fine tagged un1 tagged un2 src0 true 0 (wstate torn_wops) false
    [WCrash [] [1; 2]%N; WCrash [1] [2; 1]%N; WCrash [] [1; 2]%N].
Proof. exact torn_wreach. Qed.

(* a refresh or a move to another storage, stopped between any two of its steps *)
Theorem C90_refresh : forall compress decompress encrypt decrypt, codecs_ok compress decompress encrypt decrypt ->
  forall src, settings_ok src -> forall wal_crc lo w clean h id to ref xs cuts ids,
  wreachable compress decompress encrypt decrypt src wal_crc lo w clean h ->
  whist_fine compress decompress encrypt decrypt src wal_crc lo w clean
    (WBegin id to :: map (WStep ref) xs ++ [WCrash cuts ids]) ->
  exists w', wrun compress decompress encrypt decrypt src wal_crc w
      (WBegin id to :: map (WStep ref) xs ++ [WCrash cuts ids]) = Ok w' /\
    forall e, wsees w' e <-> wsees w e.
Proof. exact whole_refresh. Qed.
Print Assumptions C90_refresh.
Example C90_refresh_example :
  Forall (fun n => whist_fine tagged un1 tagged un2 src0 true 0 (wstate some_wops) true
    (WBegin 4 None :: map (WStep 0) (repeat ex0 n) ++ [WCrash [1] [1; 2]%N])) (seq 0 7) /\
  Forall (fun n => whist_fine tagged un1 tagged un2 src0 true 0 (wstate some_wops) true
    (WBegin 4 (Some 1%N) :: map (WStep 0) (repeat ex0 n) ++ [WCrash [1] [1; 2]%N])) (seq 0 7).
Proof. exact some_wrefresh. Qed.

(* ... and when any number of bytes of the new file are written *)
Theorem C90_file : forall compress decompress encrypt decrypt, codecs_ok compress decompress encrypt decrypt ->
  forall src, settings_ok src -> forall wal_crc lo w clean h id to ref x x' n cuts ids,
  wreachable compress decompress encrypt decrypt src wal_crc lo w clean h ->
  whist_fine compress decompress encrypt decrypt src wal_crc lo w clean
    [WBegin id to; WStep ref x; WCrashFile ref x' n cuts ids] ->
  exists w', wrun compress decompress encrypt decrypt src wal_crc w
      [WBegin id to; WStep ref x; WCrashFile ref x' n cuts ids] = Ok w' /\
    forall e, wsees w' e <-> wsees w e.
Proof. exact whole_file. Qed.
Print Assumptions C90_file.
Example C90_file_example :
  Forall (fun n => whist_fine tagged un1 tagged un2 src0 true 0 (wstate some_wops) true (cut_file n)) [0; 1; 50; 100; 1000].
Proof. exact some_wfile. Qed.

(* a batch that is acknowledged behind a part of a record is lost by the next start, or there is none *)
Theorem C90_torn_refuted : exists ops ops',
  ops = [ww [put_ev 1 1]; WCrashIn [put_ev 2 2] [] 5 [1%N]; ww [put_ev 3 3]] /\
  ops' = [ww [put_ev 1 1]; WCrashIn [put_ev 2 2] [] 30 [1%N]; ww [put_ev 3 3]] /\
  wscan w0 ops = Ok (Some [mk_event 1 0 [] [1%N]; mk_event 3 0 [] [3%N]]) /\
  wscan w0 (ops ++ [WCrash [] [1%N]]) = Ok (Some [mk_event 1 0 [] [1%N]]) /\
  wscan w0 ops' = Ok (Some [mk_event 1 0 [] [1%N]; mk_event 3 0 [] [3%N]]) /\
  wscan w0 (ops' ++ [WCrash [] [1%N]]) = Err.
Proof. exact (ex_intro _ (torn_then 5) (ex_intro _ (torn_then 30) (conj eq_refl (conj eq_refl torn_loses)))). Qed.
Print Assumptions C90_torn_refuted.

(* a batch of no events, a new log file, a start: later batches are written over *)
Theorem C90_empty_refuted : exists ops,
  ops = [ww [put_ev 1 1]; WWrite [] [] None; WRotate 0; WCrash [] [1; 3]%N; ww [put_ev 2 2]; WRotate 0; ww [put_ev 3 3]] /\
  wscan w0 ops = Ok (Some [mk_event 1 0 [] [1%N]; mk_event 2 0 [] [2%N]; mk_event 3 0 [] [3%N]]) /\
  wscan w0 (ops ++ [WCrash [] [1; 3]%N]) = Ok (Some [mk_event 1 0 [] [1%N]; mk_event 3 0 [] [3%N]]).
Proof. exact (ex_intro _ empty_then (conj eq_refl empty_loses)). Qed.
Print Assumptions C90_empty_refuted.
