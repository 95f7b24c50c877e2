(* C94: runs with and without the log. *)
From Coq Require Import NArith ZArith List Bool Sorted.
Import ListNotations.
From Verif Require Import Model.Base Model.Event Model.Memtable Model.Mapping Model.Merge
  Model.PartIter Model.Scan Model.Engine
  Spec.Order Spec.Layout Spec.Merged Spec.Files Spec.Regions Spec.View Spec.Engine
  Proof.EngineX Proof.CrashX Proof.LoglessT Proof.LoglessX.
From Verif Require Import Model.Crash Spec.Crash Model.Logless Spec.Logless.

(* C94: without the log every start opens the database, keeps what is in complete refreshes and of each partition the
   first of the acknowledged events up to some of them; with the log on at both ends of a stop all of them are kept *)
Theorem C94_history : forall lo wal storages iv serial page region ops, limits lo iv -> storages_ok storages ->
  whist_fine lo (wnew wal storages iv serial page region) ops ->
  exists w M, wrun (wnew wal storages iv serial page region) ops = Ok w /\
    wmoves (wnew wal storages iv serial page region) [] ops w M /\
    (forall e, sees (w_db w) e <-> current (map fst M) e) /\
    forall key, start_fine lo key ->
    exists out n, (forall fuel, n < fuel -> monotone_scan fuel (en_map (db_en (w_db w))) key = Ok (Some out)) /\
      ascending out /\ forall e, In e out <-> current (map fst M) e /\ from key e.
Proof. exact logless_history. Qed.
Print Assumptions C94_history.
Example C94_example : (limits 0 10 /\ storages_ok [0; 1; 2]%N) /\ whist_fine 0 w_off loose /\
  wscan w_off loose = Ok (Some loose_left).
Proof. exact loose_fine. Qed.

(* when every event is in a complete refresh a stop changes nothing *)
Theorem C94_safe : forall lo wal storages iv serial page region ops w, limits lo iv -> storages_ok storages ->
  whist_fine lo (wnew wal storages iv serial page region) ops ->
  wrun (wnew wal storages iv serial page region) ops = Ok w ->
  exists M, wmoves (wnew wal storages iv serial page region) [] ops w M /\
    (forall e, sees (w_db w) e <-> current (map fst M) e) /\
    (Forall (fun x => snd x = Safe) M -> forall cuts wal', wop_fine lo w (WStart cuts wal') ->
     exists w', wstep w (WStart cuts wal') = Ok w' /\ forall e, sees (w_db w') e <-> sees (w_db w) e).
Proof. exact logless_safe. Qed.
Print Assumptions C94_safe.
Example C94_safe_example : (limits 0 10 /\ storages_ok [0; 1; 2]%N) /\ whist_fine 0 w_off snug /\
  (forall w M, wmoves w_off [] snug w M ->
     M = [(mk_event 3 0 [] [1%N], Safe); (mk_event 14 0 [] [2%N], Safe); (mk_event 3 1 [] [], Safe)]) /\
  wop_fine 0 (wstate w_off snug) (WStart [1] false) /\
  wscan w_off (snug ++ [WStart [1] false]) = Ok (Some [mk_event 14 0 [] [2%N]]).
Proof. exact snug_fine. Qed.

(* an acknowledged event that was only in memory is lost *)
Theorem C94_memory_refuted : exists ops, whist_fine 0 w_off (ops ++ [WStart [] false]) /\
  wscan w_off ops = Ok (Some [mk_event 3 0 [] [1%N]]) /\ wscan w_off (ops ++ [WStart [] false]) = Ok (Some []).
Proof. exact (ex_intro _ lost_ops lost_memory). Qed.
Print Assumptions C94_memory_refuted.
(* the log off and on again: a logged event comes back, unless its partition was refreshed meanwhile *)
Theorem C94_switch_refuted : exists ops more, whist_fine 0 w_on (ops ++ more) /\
  cop_fine 0 (w_db (wstate w_on (ops ++ more))) (CCrash []) /\
  wscan w_on (ops ++ [WStart [] true]) = Ok (Some [mk_event 3 0 [] [1%N]]) /\
  wscan w_on (ops ++ more ++ [WStart [] true]) = Ok (Some [mk_event 4 0 [] [2%N]]).
Proof. exact (ex_intro _ switch_ops (ex_intro _ switch_more switch_lost)). Qed.
Print Assumptions C94_switch_refuted.
(* and an older value of the log takes the place of a newer one in a file *)
Theorem C94_older_refuted : exists ops, whist_fine 0 w_on ops /\
  cop_fine 0 (w_db (wstate w_on ops)) (CCrash []) /\
  wscan w_on ops = Ok (Some [mk_event 5 0 [] [2%N]]) /\
  wscan w_on (ops ++ [WStart [] false]) = Ok (Some [mk_event 5 0 [] [2%N]]) /\
  wscan w_on (ops ++ [WStart [] true]) = Ok (Some [mk_event 5 0 [] [1%N]; mk_event 21 0 [] [0%N]; mk_event 22 0 [] [0%N]]).
Proof. exact (ex_intro _ older_ops older_shows). Qed.
Print Assumptions C94_older_refuted.
