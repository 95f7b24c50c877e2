(* C101: memory tables of any number of pages. *)
From Coq Require Import NArith ZArith List Bool Sorted.
Import ListNotations.
From Verif Require Import Model.Base Model.Event Model.Memtable Model.Mapping Model.Merge
  Model.PartIter Model.Scan Model.Engine Spec.Order Spec.Layout Spec.Merged Spec.Files Spec.Regions
  Spec.View Spec.Engine Spec.Grow Proof.GrowL Proof.GrowS Proof.GrowX.

(* ingestion in order, with refreshes at any time: a scan returns all of it that is no delete *)
Theorem C101_stream : forall lo iv page region ops, limits lo iv -> (lo + 2^31 < 2^63)%N ->
  ascending (loaded ops) -> Forall (event_near lo (engine_new iv false page region)) (loaded ops) ->
  (region_weight (loaded ops) < 2^32)%N ->
  (forall id, In (Fresh id) ops -> (lo <= id < lo + 2^31)%N) ->
  exists en n, erun (engine_new iv false page region) (map load_op_of ops) = Ok en /\
    forall fuel, n < fuel -> monotone_scan fuel (en_map en) None = Ok (Some (shown (loaded ops))).
Proof. exact stream_scan. Qed.
Print Assumptions C101_stream.
Example C101_stream_example : limits 0 5000 /\ (0 + 2^31 < 2^63)%N /\ ascending (loaded stream_ops) /\
  Forall (event_near 0 en1) (loaded stream_ops) /\ (region_weight (loaded stream_ops) < 2^32)%N /\
  (forall id, In (Fresh id) stream_ops -> (0 <= id < 0 + 2^31)%N).
Proof. exact stream_ops_fine. Qed.

(* any history in which a batch has room in the page of a partition or comes behind its table *)
Theorem C101_history : forall lo iv serial page region ops, limits lo iv -> (lo + 2^31 < 2^63)%N ->
  load_hist lo (engine_new iv serial page region) ops ->
  exists en, erun (engine_new iv serial page region) ops = Ok en /\
    exists out n, (forall fuel, n < fuel -> monotone_scan fuel (en_map en) None = Ok (Some out)) /\
      ascending out /\
      forall e, In e out <-> current (acked (engine_new iv serial page region) ops []) e.
Proof. exact load_scan. Qed.
Print Assumptions C101_history.
Example C101_history_example : limits 0 5000 /\ (0 + 2^31 < 2^63)%N /\ load_hist 0 en1 load_ops.
Proof. exact load_ops_fine. Qed.

(* with a start, when the tables are of one page again *)
Theorem C101_start : forall lo iv serial page region ops, limits lo iv ->
  load_hist lo (engine_new iv serial page region) ops ->
  exists en, erun (engine_new iv serial page region) ops = Ok en /\
    forall key, start_fine lo key -> small_tables en ->
    exists out n, (forall fuel, n < fuel -> monotone_scan fuel (en_map en) key = Ok (Some out)) /\
      ascending out /\
      forall e, In e out <-> current (acked (engine_new iv serial page region) ops []) e /\ from key e.
Proof. exact load_keyed. Qed.
Print Assumptions C101_start.
Example C101_start_example : exists en, erun en1 load_ops = Ok en /\ small_tables en.
Proof. exact load_ops_small. Qed.

(* late events behind more than a page: an acknowledged one is not shown *)
Theorem C101_late_refuted : exists ops e out, acked en1 ops [] = flat_map
    (fun o => match o with EWrite l true => map wa_event l | _ => [] end) ops /\
  Forall (event_near 0 en1) (acked en1 ops []) /\
  current (acked en1 ops []) e /\ scan_run ops None = Ok (Some out) /\ ~ In e out.
Proof. exact late_lost. Qed.
Print Assumptions C101_late_refuted.

(* in order, with a start at an acknowledged event: it is not shown *)
Theorem C101_start_refuted : exists ops k out, load_hist 0 en1 ops /\ start_fine 0 (Some k) /\
  current (acked en1 ops []) k /\ scan_run ops (Some k) = Ok (Some out) /\ ~ In k out.
Proof. exact start_lost. Qed.
Print Assumptions C101_start_refuted.

(* a batch that is refused takes an event away from readers *)
Theorem C101_refused_refuted : exists ops l k out1 out2, load_hist 0 en1 ops /\ start_fine 0 (Some k) /\
  acked en1 (ops ++ [refused l]) [] = acked en1 ops [] /\
  current (acked en1 ops []) k /\
  scan_run ops (Some k) = Ok (Some out1) /\ In k out1 /\
  scan_run (ops ++ [refused l]) (Some k) = Ok (Some out2) /\ ~ In k out2.
Proof. exact refused_seen. Qed.
Print Assumptions C101_refused_refuted.

(* and lets a later write of an event be shown twice *)
Theorem C101_twice_refuted : exists ops l e out, load_hist 0 en1 (ops ++ [put [e]]) /\
  scan_run (ops ++ [refused l; put [e]]) None = Ok (Some out) /\
  length (filter (fun x => (ev_id x =? ev_id e)%N) out) = 2.
Proof. exact refused_twice. Qed.
Print Assumptions C101_twice_refuted.
