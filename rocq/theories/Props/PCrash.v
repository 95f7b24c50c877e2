(* C29-C32, C34-C36, C61, C63-C66: restarts, recovery, refreshes with their files, DROP. *)
From Coq Require Import NArith ZArith List Bool Sorted.
Import ListNotations.
From Verif Require Import Model.Base Model.Event Model.Memtable Model.Mapping Model.Merge
  Model.PartIter Model.Scan Model.Engine
  Spec.Order Spec.Layout Spec.Merged Spec.Files Spec.Regions Spec.View Spec.Engine
  Proof.EngineX Proof.CrashT Proof.CrashX.
From Verif Require Import Model.Crash Spec.Crash.

(* C29: after any history with stops and starts the database opens and shows exactly the
   acknowledged events *)
Theorem C29_history : forall lo storages iv serial page region ops, limits lo iv -> storages_ok storages ->
  chist_fine lo (db_new storages iv serial page region) ops ->
  exists b, crun (db_new storages iv serial page region) ops = Ok b /\
    (forall e, sees b e <-> current (cacked (db_new storages iv serial page region) ops []) e) /\
    forall key, start_fine lo key ->
    exists out n, (forall fuel, n < fuel -> monotone_scan fuel (en_map (db_en b)) key = Ok (Some out)) /\
      ascending out /\
      forall e, In e out <-> current (cacked (db_new storages iv serial page region) ops []) e /\ from key e.
Proof. exact crash_history. Qed.
Print Assumptions C29_history.
Example C29_example : (limits 0 10 /\ storages_ok [0; 1; 2]%N) /\ chist_fine 0 b0 sample_cops /\
  cscan b0 sample_cops = Ok (Some sample_cnow).
Proof. exact sample_cfine. Qed.

Theorem C29_restart : forall lo b h cuts, reachable lo b h -> cop_fine lo b (CCrash cuts) ->
  exists b', cstep b (CCrash cuts) = Ok b' /\ tidy (db_dir b') /\ forall e, sees b' e <-> sees b e.
Proof. exact crash_same. Qed.
Print Assumptions C29_restart.
Example C29_restart_example : reachable 0 (state some_cops) (cacked b0 some_cops []) /\
  cop_fine 0 (state some_cops) (CCrash [1; 0]).
Proof. exact (conj some_reach (proj1 some_restart)). Qed.

(* C30: a stop while a batch is logged: all of it or nothing *)
Theorem C30_atomic : forall lo b h l whole, reachable lo b h -> cop_fine lo b (CCrashIn l whole) ->
  exists b', cstep b (CCrashIn l whole) = Ok b' /\
    match engine_write (db_en b) l true with
    | Ok (_, Some evs) =>
        if whole then forall e, sees b' e <-> current evs e \/ (last_write evs e = None /\ sees b e)
        else forall e, sees b' e <-> sees b e
    | _ => forall e, sees b' e <-> sees b e
    end.
Proof. exact crash_in_write. Qed.
Print Assumptions C30_atomic.
Example C30_example : reachable 0 (state some_cops) (cacked b0 some_cops []) /\
  cop_fine 0 (state some_cops) (CCrashIn [put_ev 3 9; del_ev 22; put_ev 55 3] true) /\
  cop_fine 0 (state some_cops) (CCrashIn [put_ev 3 9; del_ev 22; put_ev 55 3] false).
Proof. exact (conj some_reach some_write). Qed.

(* C31: starts repeated any number of times, each stopped any number of times on the way *)
Theorem C31_repeat : forall lo b h l, reachable lo b h -> chist_fine lo b l -> Forall restart_op l ->
  exists b', crun b l = Ok b' /\ forall e, sees b' e <-> sees b e.
Proof. exact crash_repeat. Qed.
Print Assumptions C31_repeat.
Example C31_example : reachable 0 (state some_cops) (cacked b0 some_cops []) /\
  chist_fine 0 (state some_cops) [CCrash []; CCrash [1]; CCrash []].
Proof. exact (conj some_reach (proj2 some_restart)). Qed.

(* C32: C29_history is the case without DROP. With DROP the second start loses later writes *)
Theorem C32_drop_refuted : exists ops, ops = [CWrite [put_ev 1 1] true; CDrop 1; CWrite [put_ev 1 2] true] /\
  cscan b0 ops = Ok (Some [mk_event 1 0 [] [2%N]]) /\
  cscan b0 (ops ++ [CCrash []]) = Ok (Some [mk_event 1 0 [] [2%N]]) /\
  cscan b0 (ops ++ [CCrash []; CCrash []]) = Ok (Some []).
Proof. exact (ex_intro _ drop_ops (conj eq_refl drop_loses)). Qed.
Print Assumptions C32_drop_refuted.

(* C34: a stop between any two steps of a refresh in place *)
Theorem C34_refresh : forall lo b h id ref n cuts, reachable lo b h ->
  chist_fine lo b (CBegin id None :: repeat (CStep ref) n ++ [CCrash cuts]) ->
  exists b', crun b (CBegin id None :: repeat (CStep ref) n ++ [CCrash cuts]) = Ok b' /\
    tidy (db_dir b') /\ forall e, sees b' e <-> sees b e.
Proof. exact (fun lo b h id => refresh_crash lo b h id None). Qed.
Print Assumptions C34_refresh.
Example C34_example : reachable 0 (state some_cops) (cacked b0 some_cops []) /\
  Forall (fun n => chist_fine 0 (state some_cops) (CBegin 4 None :: steps 0 n ++ [CCrash [1]])) (seq 0 7).
Proof. exact (conj some_reach (proj1 some_refresh)). Qed.

(* C35: a stop between any two steps of a move to another storage *)
Theorem C35_move : forall lo b h id st ref n cuts, reachable lo b h ->
  chist_fine lo b (CBegin id (Some st) :: repeat (CStep ref) n ++ [CCrash cuts]) ->
  exists b', crun b (CBegin id (Some st) :: repeat (CStep ref) n ++ [CCrash cuts]) = Ok b' /\
    tidy (db_dir b') /\ forall e, sees b' e <-> sees b e.
Proof. exact (fun lo b h id st => refresh_crash lo b h id (Some st)). Qed.
Print Assumptions C35_move.
Example C35_example : reachable 0 (state some_cops) (cacked b0 some_cops []) /\
  Forall (fun n => chist_fine 0 (state some_cops) (CBegin 4 (Some 2%N) :: steps 0 n ++ [CCrash [1]])) (seq 0 7).
Proof. exact (conj some_reach (proj2 some_refresh)). Qed.

(* C36: a refresh that fails before the new partition is used, and a start *)
Theorem C36_failed_restart : forall lo b h id to ref n cuts, reachable lo b h ->
  chist_fine lo b (CBegin id to :: repeat (CStep ref) n ++ [CFail ref; CCrash cuts]) ->
  exists b', crun b (CBegin id to :: repeat (CStep ref) n ++ [CFail ref; CCrash cuts]) = Ok b' /\
    forall e, sees b' e <-> sees b e.
Proof. exact failed_crash. Qed.
Print Assumptions C36_failed_restart.
Example C36_failed_restart_example : reachable 0 (state some_cops) (cacked b0 some_cops []) /\
  Forall (fun n => chist_fine 0 (state some_cops) (CBegin 4 None :: steps 0 n ++ [CFail 0; CCrash [1]])) (seq 0 3).
Proof. exact (conj some_reach some_failed). Qed.
(* a failed refresh, a write, a second refresh, a start: the first write is lost *)
Theorem C36_restart_refuted : exists ops, ops =
    [CWrite [put_ev 1 1] true; CBegin 1 None; CFail 0; CWrite [put_ev 2 2] true; CBegin 1 None] ++ repeat (CStep 0) 6 /\
  cscan b0 ops = Ok (Some [mk_event 1 0 [] [1%N]; mk_event 2 0 [] [2%N]]) /\
  cscan b0 (ops ++ [CCrash []]) = Ok (Some [mk_event 2 0 [] [2%N]]).
Proof. exact (ex_intro _ retry_ops (conj eq_refl retry_loses)). Qed.
Print Assumptions C36_restart_refuted.

(* C61: a record of events that fit in a page with their key counted twice is loaded *)
Theorem C61_load : forall lo b h lsn evs, reachable lo b h -> (en_lsn (db_en b) < lsn)%N ->
  Forall (loadable lo (db_en b)) evs -> room (en_map (db_en b)) (length evs) ->
  exists en', engine_write_replay (db_en b) lsn evs = Ok en' /\
    forall e, visible (parts en') e <-> current evs e \/ (last_write evs e = None /\ sees b e).
Proof. exact load_all. Qed.
Print Assumptions C61_load.
Example C61_example : reachable 0 (state some_cops) (cacked b0 some_cops []) /\
  Forall (loadable 0 (db_en (state some_cops))) [mk_event 3 0 [1; 2]%N [3%N]; mk_event 99 0 [] [1%N]] /\
  room (en_map (db_en (state some_cops))) 2 /\ (en_lsn (db_en (state some_cops)) < 7)%N.
Proof. exact (conj some_reach some_load). Qed.

(* C63: log collection while no refresh is between the use of its partition and the removal of
   the old file *)
Theorem C63_gc : forall lo b h k cuts, reachable lo b h -> chist_fine lo b [CGc k; CCrash cuts] ->
  exists b', crun b [CGc k; CCrash cuts] = Ok b' /\ forall e, sees b' e <-> sees b e.
Proof. exact gc_crash. Qed.
Print Assumptions C63_gc.
Example C63_example : reachable 0 (state gc_cops) (cacked b0 gc_cops []) /\
  chist_fine 0 (state gc_cops) [CGc 2; CCrash []] /\ exists b, db_gc (state gc_cops) 2 = Ok b /\ db_log b = [].
Proof. exact some_gc. Qed.
Theorem C63_refuted : exists ops, ops =
    [CWrite [put_ev 1 1] true; CBegin 1 None] ++ repeat (CStep 0) 3 ++ [CGc 1; CCrash []] /\
  cacked b0 ops [] = [mk_event 1 0 [] [1%N]] /\ cscan b0 ops = Ok (Some []) /\
  cscan b0 (removelast ops) = Ok (Some [mk_event 1 0 [] [1%N]]).
Proof. exact (ex_intro _ gc_lost (conj eq_refl gc_loses)). Qed.
Print Assumptions C63_refuted.

(* C64: after a start, DROP of one partition has removed events of another *)
Theorem C64_interval_refuted : exists ops, ops =
    [CWrite [put_ev 5 1] true; CWrite [put_ev 15 2] true; CDrop 10; CInterval 100] /\
  cscan b0 ops = Ok (Some [mk_event 5 0 [] [1%N]]) /\ cscan b0 (ops ++ [CCrash []]) = Ok (Some []).
Proof. exact (ex_intro _ drop_interval (conj eq_refl (conj (proj1 drop_ranges) (proj1 (proj2 drop_ranges))))). Qed.
Print Assumptions C64_interval_refuted.
Theorem C64_created_refuted : exists ops, ops =
    [CCreate 10 14; CWrite [put_ev 12 1] true; CWrite [put_ev 17 2] true; CDrop 10] /\
  cscan b0 ops = Ok (Some [mk_event 17 0 [] [2%N]]) /\ cscan b0 (ops ++ [CCrash []]) = Ok (Some []).
Proof. exact (ex_intro _ drop_created (conj eq_refl (proj2 (proj2 drop_ranges)))). Qed.
Print Assumptions C64_created_refuted.

(* C65: after an error in a refresh or move, a later one and a stop, the database does not open *)
Theorem C65_refuted : exists end_fails move_fails stale_move,
  end_fails = [CWrite [put_ev 1 1] true; CBegin 1 None] ++ repeat (CStep 0) 4 ++ [CFail 0; CBegin 1 None; CStep 0; CCrash []] /\
  move_fails = [CWrite [put_ev 1 1] true; CBegin 1 None] ++ repeat (CStep 0) 6 ++ [CBegin 1 (Some 1%N)] ++ repeat (CStep 0) 4 ++
    [CFail 0; CBegin 1 None] ++ repeat (CStep 0) 6 ++ [CCrash []] /\
  stale_move = [CWrite [put_ev 1 1] true; CBegin 1 (Some 2%N); CStep 0; CFail 0; CBegin 1 (Some 1%N)] ++ repeat (CStep 0) 5 ++ [CCrash []] /\
  crun b0 end_fails = Err /\ crun b0 move_fails = UB /\ crun b0 stale_move = Err /\
  cacked b0 end_fails [] = [mk_event 1 0 [] [1%N]] /\ cacked b0 move_fails [] = [mk_event 1 0 [] [1%N]] /\
  cacked b0 stale_move [] = [mk_event 1 0 [] [1%N]].
Proof. exact (ex_intro _ end_fails (ex_intro _ move_fails (ex_intro _ stale_move
  (conj eq_refl (conj eq_refl (conj eq_refl no_start)))))). Qed.
Print Assumptions C65_refuted.

(* C66: a stop in DROP leaves part of the partition *)
Theorem C66_refuted : exists ops, ops =
    [CWrite [put_ev 1 1; put_ev 2 1] true; CBegin 1 None] ++ repeat (CStep 0) 6 ++ [CGc 1; CWrite [put_ev 2 2] true; CCrashDrop 1] /\
  cscan b0 (removelast ops) = Ok (Some [mk_event 1 0 [] [1%N]; mk_event 2 0 [] [2%N]]) /\
  cscan b0 ops = Ok (Some [mk_event 2 0 [] [2%N]]).
Proof. exact (ex_intro _ drop_half (conj eq_refl drop_partial)). Qed.
Print Assumptions C66_refuted.
