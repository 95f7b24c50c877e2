(* C93: DROP PARTITION with stops and starts. *)
From Coq Require Import NArith ZArith List Bool Sorted.
Import ListNotations.
From Verif Require Import Model.Base Model.Event Model.Memtable Model.Mapping Model.Merge
  Model.PartIter Model.Scan Model.Engine
  Spec.Order Spec.Layout Spec.Merged Spec.Files Spec.Regions Spec.View Spec.Engine
  Proof.EngineX Proof.CrashX Proof.DropsT Proof.DropsX.
From Verif Require Import Model.Crash Spec.Crash Spec.Drops.

(* C93: intervals that are dropped and not used again: after any history with stops and starts the database
   opens and shows the acknowledged events that were not dropped *)
Theorem C93_history : forall lo storages iv serial page region ops, limits lo iv -> storages_ok storages ->
  dhist_fine lo [] (db_new storages iv serial page region) ops ->
  exists b, crun (db_new storages iv serial page region) ops = Ok b /\
    (forall e, sees b e <-> current (dacked (db_new storages iv serial page region) ops []) e) /\
    forall key, start_fine lo key ->
    exists out n, (forall fuel, n < fuel -> monotone_scan fuel (en_map (db_en b)) key = Ok (Some out)) /\
      ascending out /\
      forall e, In e out <-> current (dacked (db_new storages iv serial page region) ops []) e /\ from key e.
Proof. exact drops_history. Qed.
Print Assumptions C93_history.
Example C93_example : (limits 0 10 /\ storages_ok [0; 1; 2]%N) /\ dhist_fine 0 [] b0 retain /\
  cscan b0 retain = Ok (Some retained) /\ all_dropped [] b0 retain = [(20, 29); (10, 19); (0, 9)]%N.
Proof. exact retain_fine. Qed.

(* nothing of a dropped interval is seen again, and no partition covers any of it *)
Theorem C93_gone : forall lo R b h, dreachable lo R b h ->
  (forall e, sees b e -> gone R (ev_id e) = false) /\
  (forall s r, In s (mapping_list (en_map (db_en b))) -> In r R -> forall x, in_range x r -> ~ in_range x (range_of s)).
Proof. exact drops_gone. Qed.
Print Assumptions C93_gone.
Example C93_gone_example : dreachable 0 (all_dropped [] b0 kept) (state kept) (dacked b0 kept []) /\
  all_dropped [] b0 kept = [(0, 9)]%N /\
  dacked b0 kept [] = [mk_event 14 0 [] [2]; mk_event 25 0 [] [3]; mk_event 15 0 [] [9]]%N.
Proof. exact (conj kept_reach kept_is). Qed.

Theorem C93_restart : forall lo R b h cuts, dreachable lo R b h -> dop_fine lo R b (CCrash cuts) ->
  exists b', cstep b (CCrash cuts) = Ok b' /\ tidy (db_dir b') /\ forall e, sees b' e <-> sees b e.
Proof. exact drops_restart. Qed.
Print Assumptions C93_restart.
Example C93_restart_example : dreachable 0 (all_dropped [] b0 kept) (state kept) (dacked b0 kept []) /\
  dop_fine 0 (all_dropped [] b0 kept) (state kept) (CCrash [1; 0]).
Proof. exact (conj kept_reach kept_restart). Qed.

(* one DROP takes its partition and nothing else, also after a stop *)
Theorem C93_drop : forall lo R b h id cuts, dreachable lo R b h ->
  dhist_fine lo R b [CDrop id; CCrash cuts] ->
  match cstep b (CDrop id) with
  | Ok b1 => (forall e, sees b1 e <-> sees b e /\ gone (dropped b (CDrop id)) (ev_id e) = false) /\
      exists b2, cstep b1 (CCrash cuts) = Ok b2 /\ tidy (db_dir b2) /\ forall e, sees b2 e <-> sees b1 e
  | Err => exists j s, In j (db_jobs b) /\ In s (mapping_list (en_map (db_en b))) /\ in_range id (range_of s) /\ jb_ref j = s_min s
  | UB => False
  end.
Proof. exact drops_drop. Qed.
Print Assumptions C93_drop.
Example C93_drop_example : dreachable 0 (all_dropped [] b0 kept) (state kept) (dacked b0 kept []) /\
  dhist_fine 0 (all_dropped [] b0 kept) (state kept) [CDrop 14; CCrash [1]] /\
  dropped (state kept) (CDrop 14) = [(10, 19)]%N /\
  cscan b0 (kept ++ [CDrop 14; CCrash [1]]) = Ok (Some [mk_event 25 0 [] [3%N]]).
Proof. exact (conj kept_reach kept_drop). Qed.

(* the record of a DROP is written once more at every start *)
Theorem C93_grows_refuted : exists ops, ops = [CWrite [put_ev 1 1] true; CDrop 1] /\
  dlog ops = [LWrite 1 [mk_event 1 0 [] [1%N]]; LDrop 2 1] /\
  dlog (ops ++ [CCrash []; CCrash []; CCrash []]) = [LWrite 1 [mk_event 1 0 [] [1%N]]; LDrop 2 1; LDrop 2 1; LDrop 2 1; LDrop 2 1].
Proof. exact (ex_intro _ drop_again (conj eq_refl drop_grows)). Qed.
Print Assumptions C93_grows_refuted.
(* a number of the log is given to two records *)
Theorem C93_number_refuted : exists ops, dhist_fine 0 [] b0 ops /\
  dlog ops = [LDrop 2 1; LWrite 1 [mk_event 11 0 [] [2%N]]; LWrite 2 [mk_event 12 0 [] [3%N]]].
Proof. exact (ex_intro _ drop_number drop_numbers). Qed.
Print Assumptions C93_number_refuted.
