(* C103: restarts with memory tables of any number of pages. *)
From Coq Require Import NArith ZArith List Bool Sorted.
Import ListNotations.
From Verif Require Import Model.Base Model.Event Model.Memtable Model.Mapping Model.Merge
  Model.PartIter Model.Scan Model.Engine Spec.Order Spec.Layout Spec.Merged Spec.Files Spec.Regions
  Spec.View Spec.Engine Spec.Grow Proof.MemtableX Proof.RefillT Proof.RefillX.
From Verif Require Import Model.Crash Spec.Crash Spec.Refill.

(* writes, refreshes, moves and stops, when a batch or a record of the log has room in the page of a
   partition or comes behind its table: what is acknowledged is what is shown *)
Theorem C103_history : forall lo storages iv serial page region ops, limits lo iv -> storages_ok storages ->
  (lo + 2^31 < 2^63)%N ->
  rhist_fine lo (db_new storages iv serial page region) ops ->
  exists b, crun (db_new storages iv serial page region) ops = Ok b /\
    (forall e, sees b e <-> current (cacked (db_new storages iv serial page region) ops []) e) /\
    exists out n, (forall fuel, n < fuel -> monotone_scan fuel (en_map (db_en b)) None = Ok (Some out)) /\
      ascending out /\
      forall e, In e out <-> current (cacked (db_new storages iv serial page region) ops []) e.
Proof. exact refill_history. Qed.
Print Assumptions C103_history.
Example C103_history_example : (limits 0 5000 /\ storages_ok [0; 1]%N) /\ rhist_fine 0 b1 refill_ops.
Proof. exact (conj b1_limits refill_ops_hist). Qed.

(* with a start, when the tables are of one page again *)
Theorem C103_start : forall lo b h key, refilled lo b h -> start_fine lo key ->
  small_tables (db_en b) -> one_page (db_en b) ->
  exists out n, (forall fuel, n < fuel -> monotone_scan fuel (en_map (db_en b)) key = Ok (Some out)) /\
    ascending out /\ forall e, In e out <-> current h e /\ from key e.
Proof. exact refill_keyed. Qed.
Print Assumptions C103_start.
Example C103_start_example : exists b h, refilled 0 b h /\ start_fine 0 (Some (ev_of 1100)) /\
  small_tables (db_en b) /\ one_page (db_en b) /\ length h = N.to_nat 514.
Proof. exact done_small. Qed.

(* a stop, interrupted starts and a start change nothing *)
Theorem C103_restart : forall lo b h cuts, refilled lo b h -> rop_fine lo b (CCrash cuts) ->
  exists b', cstep b (CCrash cuts) = Ok b' /\ tidy (db_dir b') /\ forall e, sees b' e <-> sees b e.
Proof. exact crash_same. Qed.
Print Assumptions C103_restart.
Example C103_restart_example : refilled 0 (rstate mid_ops) (cacked b1 mid_ops []) /\
  rop_fine 0 (rstate mid_ops) (CCrash [1]).
Proof. exact (conj mid_refilled (proj1 mid_stop)). Qed.

(* a stop while a batch is logged: all of it or nothing *)
Theorem C103_atomic : forall lo b h l whole, refilled lo b h -> rop_fine lo b (CCrashIn l whole) ->
  exists b', cstep b (CCrashIn l whole) = Ok b' /\
    match engine_write (db_en b) l true with
    | Ok (_, Some evs) =>
        if whole then forall e, sees b' e <-> current evs e \/ (last_write evs e = None /\ sees b e)
        else forall e, sees b' e <-> sees b e
    | _ => forall e, sees b' e <-> sees b e
    end.
Proof. exact crash_in_write. Qed.
Print Assumptions C103_atomic.
Example C103_atomic_example : refilled 0 (rstate mid_ops) (cacked b1 mid_ops []) /\
  rop_fine 0 (rstate mid_ops) (CCrashIn (wargs (ids 4990 20)) true) /\
  rop_fine 0 (rstate mid_ops) (CCrashIn (wargs (ids 4990 20)) false).
Proof. exact (conj mid_refilled (proj2 mid_stop)). Qed.

(* a stop between any two steps of a refresh or move *)
Theorem C103_refresh : forall lo b h id to ref n cuts, refilled lo b h ->
  rhist_fine lo b (CBegin id to :: repeat (CStep ref) n ++ [CCrash cuts]) ->
  exists b', crun b (CBegin id to :: repeat (CStep ref) n ++ [CCrash cuts]) = Ok b' /\
    tidy (db_dir b') /\ forall e, sees b' e <-> sees b e.
Proof. exact refresh_crash. Qed.
Print Assumptions C103_refresh.
Example C103_refresh_example : refilled 0 (rstate [cput (ids 1000 514)]) (cacked b1 [cput (ids 1000 514)] []) /\
  Forall (fun n => rhist_fine 0 (rstate [cput (ids 1000 514)])
    (CBegin 1000 None :: repeat (CStep 0) n ++ [CCrash [1]])) [0; 2; 3; 5].
Proof. exact (conj first_refilled mid_steps). Qed.

(* late events during a refresh of more than a page: every state before the stop is within the limits, all
   is shown, and after a stop and a start an acknowledged event is gone *)
Theorem C103_late_refuted : exists ops e out1 out2, rhist_fine 0 b1 ops /\
  rscan ops = Ok (Some out1) /\ In e out1 /\
  rscan (ops ++ [CCrash []]) = Ok (Some out2) /\ ~ In e out2.
Proof. exact behind_lost. Qed.
Print Assumptions C103_late_refuted.
