(* C104: ingestion in order with restarts and memory tables of any number of pages. *)
From Coq Require Import NArith ZArith List Bool Sorted.
Import ListNotations.
From Verif Require Import Model.Base Model.Event Model.Memtable Model.Mapping Model.Merge
  Model.PartIter Model.Scan Model.Engine Spec.Order Spec.Layout Spec.Merged Spec.Files Spec.Regions
  Spec.View Spec.Engine Spec.Grow Proof.MemtableX Proof.GrowS Proof.RefillS Proof.RefillX Proof.RefillY Proof.ResumeL.
From Verif Require Import Model.Crash Spec.Crash Spec.Refill Spec.Resume.

(* every batch behind all that is acknowledged, stops anywhere, also within the record of a batch: a scan
   delivers what is acknowledged, in its order, without what is marked as a delete *)
Theorem C104_scan : forall lo storages iv serial page region ops, limits lo iv -> storages_ok storages ->
  (lo + 2^31 < 2^63)%N -> flow_hist lo (db_new storages iv serial page region) [] ops ->
  exists b n, crun (db_new storages iv serial page region) ops = Ok b /\
    forall fuel, n < fuel -> monotone_scan fuel (en_map (db_en b)) None =
      Ok (Some (shown (cacked (db_new storages iv serial page region) ops []))).
Proof. exact flow_scan. Qed.
Print Assumptions C104_scan.
Example C104_scan_example : (limits 0 5000 /\ storages_ok [0; 1]%N) /\ flow_hist 0 b1 [] flow_ops /\
  length (shown (cacked b1 flow_ops [])) = N.to_nat 555.
Proof. exact (conj b1_limits (conj flow_ops_hist flow_ops_shown)). Qed.

(* a stop, with any interrupted starts, at the end of any such history: the next scan is the same *)
Theorem C104_stop : forall lo storages iv serial page region ops cuts, limits lo iv -> storages_ok storages ->
  (lo + 2^31 < 2^63)%N -> flow_hist lo (db_new storages iv serial page region) [] ops ->
  exists b b' n, crun (db_new storages iv serial page region) ops = Ok b /\
    crun (db_new storages iv serial page region) (ops ++ [CCrash cuts]) = Ok b' /\
    forall fuel, n < fuel -> monotone_scan fuel (en_map (db_en b')) None = monotone_scan fuel (en_map (db_en b)) None.
Proof. exact flow_stop. Qed.
Print Assumptions C104_stop.
Example C104_stop_example : (limits 0 5000 /\ storages_ok [0; 1]%N) /\ flow_hist 0 b1 [] flow_ops.
Proof. exact (conj b1_limits flow_ops_hist). Qed.

(* scans with a start, when the tables are of one page again *)
Theorem C104_start : forall lo storages iv serial page region ops, limits lo iv -> storages_ok storages ->
  flow_hist lo (db_new storages iv serial page region) [] ops ->
  exists b, crun (db_new storages iv serial page region) ops = Ok b /\
    forall key, start_fine lo key -> small_tables (db_en b) -> one_page (db_en b) ->
    exists out n, (forall fuel, n < fuel -> monotone_scan fuel (en_map (db_en b)) key = Ok (Some out)) /\
      ascending out /\
      forall e, In e out <-> In e (shown (cacked (db_new storages iv serial page region) ops [])) /\ from key e.
Proof. exact flow_keyed. Qed.
Print Assumptions C104_start.
Example C104_start_example : exists ops b, flow_hist 0 b1 [] ops /\ crun b1 ops = Ok b /\
  start_fine 0 (Some (ev_of 1100)) /\ small_tables (db_en b) /\ one_page (db_en b) /\
  length (cacked b1 ops []) = N.to_nat 514.
Proof. exact done_flow. Qed.

(* a client that always goes on behind what is acknowledged delivers a prefix of its source: nothing is
   missing within it and nothing comes twice, whatever is refused or lost in stops *)
Theorem C104_resume : forall lo storages iv serial page region src ops, limits lo iv -> storages_ok storages ->
  (lo + 2^31 < 2^63)%N -> flow_hist lo (db_new storages iv serial page region) [] ops ->
  resume_hist src (db_new storages iv serial page region) [] ops ->
  exists b n, crun (db_new storages iv serial page region) ops = Ok b /\
    forall fuel, n < fuel -> monotone_scan fuel (en_map (db_en b)) None =
      Ok (Some (shown (firstn (length (cacked (db_new storages iv serial page region) ops [])) src))).
Proof. exact resume_scan. Qed.
Print Assumptions C104_resume.
Example C104_resume_example : (limits 0 5000 /\ storages_ok [0; 1]%N) /\
  flow_hist 0 b1 [] resume_ops /\ resume_hist resume_src b1 [] resume_ops.
Proof. exact (conj b1_limits resume_ops_hist). Qed.
