(* C05, C08, C33, C36, C39, C42, C58, C61, C62: histories of engine calls. *)
From Coq Require Import NArith ZArith List Bool Sorted.
Import ListNotations.
From Verif Require Import Model.Base Model.Event Model.Memtable Model.Mapping Model.Merge
  Model.PartIter Model.Scan Model.Engine
  Spec.Order Spec.Layout Spec.Merged Spec.Files Spec.Regions Spec.View Spec.Engine
  Proof.EngineP Proof.EngineX.

(* C05: a batch that is not acknowledged changes no partition *)
Theorem C05_engine : forall lo iv serial page region ops en l logged, limits lo iv ->
  hist_fine lo (engine_new iv serial page region) ops ->
  erun (engine_new iv serial page region) ops = Ok en -> batch_fine lo en l ->
  exists en' r, engine_write en l logged = Ok (en', r) /\
    (logged = false -> r = None) /\
    (Exists (fun a => 255 < length (ev_key (wa_event a))) l -> r = None) /\
    (r = None -> same_data en en' /\ forall e, visible (parts en') e <-> visible (parts en) e).
Proof. exact failed_batch. Qed.
Print Assumptions C05_engine.
Example C05_engine_example : (limits 0 10 /\ hist_fine 0 en0 sample_ops) /\
  erun en0 sample_ops = Ok sample_en /\ batch_fine 0 sample_en bad_batch.
Proof. exact (conj sample_fine (conj sample_run (proj1 sample_batch))). Qed.
Example C05_top_example : limits (u64_max - 2^31) 3000000 /\ hist_fine (u64_max - 2^31) en_top [] /\
  batch_fine (u64_max - 2^31) en_top [put_ev (u64_max - 10000000) 1; put_ev (u64_max - 1) 2].
Proof. exact top_batch. Qed.

(* C08: a scan after any history returns the acknowledged live events from its start on *)
Theorem C08_scan : forall lo iv serial page region ops, limits lo iv ->
  hist_fine lo (engine_new iv serial page region) ops ->
  exists en, erun (engine_new iv serial page region) ops = Ok en /\
    forall key, start_fine lo key ->
    exists out n, (forall fuel, n < fuel -> monotone_scan fuel (en_map en) key = Ok (Some out)) /\
      ascending out /\
      forall e, In e out <-> current (acked (engine_new iv serial page region) ops []) e /\ from key e.
Proof. exact scan_history. Qed.
Print Assumptions C08_scan.
Example C08_example : (limits 0 10 /\ hist_fine 0 en0 sample_ops) /\
  scan_all en0 sample_ops None = Ok (Some sample_now).
Proof. exact (conj sample_fine (proj1 sample_scan)). Qed.
Example C08_example_start : start_fine 0 None /\ start_fine 0 (Some (mk_event 4 0 [] [])).
Proof. exact sample_start. Qed.

(* a start with a key part that is not past the stored keys of its id *)
Theorem C08_keyed : forall lo iv serial page region ops, limits lo iv ->
  hist_fine lo (engine_new iv serial page region) ops ->
  exists en, erun (engine_new iv serial page region) ops = Ok en /\
    forall k, ev_ok k -> win lo k ->
    (forall p, In p (parts en) -> ~ past_keys (file_events p) k) ->
    exists out n, (forall fuel, n < fuel -> monotone_scan fuel (en_map en) (Some k) = Ok (Some out)) /\
      ascending out /\
      forall e, In e out <-> current (acked (engine_new iv serial page region) ops []) e /\ ev_le k e.
Proof. exact scan_history_keyed. Qed.
Print Assumptions C08_keyed.
Example C08_keyed_example : erun en0 sample_ops = Ok sample_en /\
  forall p, In p (parts sample_en) -> ~ past_keys (file_events p) (mk_event 3 0 [5%N] []).
Proof. exact (conj sample_run (proj2 (proj2 sample_keyed))). Qed.

(* a start 2^31 or more below an acknowledged event does not find it *)
Theorem C08_far_refuted : exists ops e k, limits (2^31) 10 /\ hist_fine (2^31) en0 ops /\
  current (acked en0 ops []) e /\ ev_ok k /\ ev_key k = [] /\ ev_le k e /\
  scan_all en0 ops (Some k) = Ok (Some []).
Proof. exact far_start_lost. Qed.
Print Assumptions C08_far_refuted.

(* C33: a refresh changes nothing for readers, also when writing the file fails *)
Theorem C33_refresh : forall lo iv serial page region ops en id fails, limits lo iv ->
  hist_fine lo (engine_new iv serial page region) ops ->
  erun (engine_new iv serial page region) ops = Ok en -> op_fine lo en (ERefresh id fails) ->
  (exists e en', engine_refresh en id fails = Ok (en', e) /\ e = negb fails /\
     forall e, visible (parts en') e <-> visible (parts en) e) \/
  (engine_refresh en id fails = Err /\ ~ covered (ranges (en_map en)) id).
Proof. exact refresh_visible. Qed.
Print Assumptions C33_refresh.
Example C33_example : erun en0 sample_ops = Ok sample_en /\
  op_fine 0 sample_en (ERefresh 14 false) /\ op_fine 0 sample_en (ERefresh 29 true).
Proof. exact (conj sample_run sample_refresh). Qed.

(* writes between the stages of a refresh (EBegin, EApply) included *)
Theorem C33_history : forall lo iv serial page region ops, limits lo iv ->
  hist_fine lo (engine_new iv serial page region) ops ->
  exists en, erun (engine_new iv serial page region) ops = Ok en /\
  forall e, visible (parts en) e <-> current (acked (engine_new iv serial page region) ops []) e.
Proof. exact refresh_history. Qed.
Print Assumptions C33_history.
Example C33_history_example : limits 0 10 /\ hist_fine 0 en0 sample_ops.
Proof. exact sample_fine. Qed.

(* the new file: the newest versions in the previous table and the old file, without deletes *)
Theorem C33_file : forall lo iv serial page region ops en s size, limits lo iv ->
  hist_fine lo (engine_new iv serial page region) ops ->
  erun (engine_new iv serial page region) ops = Ok en -> In s (mapping_list (en_map en)) ->
  (region_weight (concat (contents (s_data s))) < 2^32)%N ->
  exists p, refresh_part size (s_data s) = Ok p /\
    contents p = [mt_events (pt_mem (s_data s)); []; file_events p] /\
    file_ok (match pt_file p with Some f => f | None => [] end) /\ pt_file p <> None /\
    forall e, In e (file_events p) <->
      event_is_delete e = false /\ newest [mt_events (pt_prev (s_data s)); file_events (s_data s)] e.
Proof. exact refresh_file. Qed.
Print Assumptions C33_file.
Example C33_file_example : erun en0 sample_ops = Ok sample_en /\
  exists s, In s (mapping_list (en_map sample_en)) /\
  mt_events (pt_prev (s_data s)) <> [] /\ file_events (s_data s) <> [] /\
  (region_weight (concat (contents (s_data s))) < 2^32)%N.
Proof. exact (conj sample_run sample_slice). Qed.

(* C36: after a failed refresh another one brings the older value back *)
Theorem C36_retry_refuted : exists ops e e',
  acked en0 ops [] = [e; e'] /\ same_key e e' /\ e <> e' /\ event_is_delete e = false /\
  ops = [EWrite [put_ev 1 1] true; ERefresh 1 true; EWrite [put_ev 1 2] true; ERefresh 1 false] /\
  scan_all en0 ops None = Ok (Some [e]).
Proof. exact retry_shadows. Qed.
Print Assumptions C36_retry_refuted.

(* the failed refresh itself is not seen *)
Theorem C36_failed : forall lo iv serial page region ops en id, limits lo iv ->
  hist_fine lo (engine_new iv serial page region) ops ->
  erun (engine_new iv serial page region) ops = Ok en -> op_fine lo en (ERefresh id true) ->
  (exists e en', engine_refresh en id true = Ok (en', e) /\ e = negb true /\
     forall e, visible (parts en') e <-> visible (parts en) e) \/
  (engine_refresh en id true = Err /\ ~ covered (ranges (en_map en)) id).
Proof. exact (fun lo iv serial page region ops en id =>
  refresh_visible lo iv serial page region ops en id true). Qed.
Print Assumptions C36_failed.
Example C36_failed_example : op_fine 0 sample_en (ERefresh 29 true).
Proof. exact (proj2 sample_refresh). Qed.

(* C39: ids handed out in one run increase *)
Theorem C39_run : forall lo iv serial page region ops, limits lo iv ->
  hist_fine lo (engine_new iv serial page region) ops ->
  StronglySorted N.lt (handed_out (engine_new iv serial page region) ops).
Proof. exact serial_increasing. Qed.
Print Assumptions C39_run.
Example C39_run_example : limits 0 10 /\ hist_fine 0 en_s serial_ops /\
  handed_out en_s serial_ops = [0; 1; 3; 4]%N.
Proof. exact serial_fine. Qed.

(* they continue above all stored ids when the last partition holds an event *)
Theorem C39_restart : forall lo iv serial page region ops en l s, limits lo iv ->
  hist_fine lo (engine_new iv serial page region) ops ->
  erun (engine_new iv serial page region) ops = Ok en ->
  mapping_list (en_map en) = l ++ [s] ->
  mt_events (pt_prev (s_data s)) = [] ->
  mt_events (pt_mem (s_data s)) <> [] \/ file_events (s_data s) <> [] ->
  forall p e, In p (parts en) -> In e (concat (contents p)) ->
    (ev_id e < en_ssn (engine_set_serial en))%N.
Proof. exact serial_restart. Qed.
Print Assumptions C39_restart.
Example C39_restart_example : exists l s, erun en_s serial_ops = Ok serial_en /\
  mapping_list (en_map serial_en) = l ++ [s] /\ mt_events (pt_prev (s_data s)) = [] /\
  (mt_events (pt_mem (s_data s)) <> [] \/ file_events (s_data s) <> []) /\
  en_ssn (engine_set_serial serial_en) = 51%N.
Proof. exact serial_last. Qed.

(* otherwise they start at 0 again *)
Theorem C39_empty_refuted : exists ops en p e, limits 0 10 /\ hist_fine 0 en_s ops /\ erun en_s ops = Ok en /\
  In p (parts en) /\ In e (concat (contents p)) /\ event_is_delete e = false /\
  (forall q, In q (parts en) -> mt_events (pt_mem q) = [] /\ mt_events (pt_prev q) = []) /\
  en_ssn (engine_set_serial en) = 0%N.
Proof. exact serial_reused. Qed.
Print Assumptions C39_empty_refuted.

(* C42: an acknowledged batch shows its last version of every key it has *)
Theorem C42_batch : forall lo iv serial page region ops en l logged en' evs, limits lo iv ->
  hist_fine lo (engine_new iv serial page region) ops ->
  erun (engine_new iv serial page region) ops = Ok en -> batch_fine lo en l ->
  engine_write en l logged = Ok (en', Some evs) ->
  evs = assigned (en_serial en) (en_ssn en) l /\ length evs = length l /\
  forall e, visible (parts en') e <->
    current evs e \/ (last_write evs e = None /\ visible (parts en) e).
Proof. exact EngineP.good_batch. Qed.
Print Assumptions C42_batch.
Example C42_example : erun en0 sample_ops = Ok sample_en /\ batch_fine 0 sample_en EngineX.good_batch /\
  exists en' evs, engine_write sample_en EngineX.good_batch true = Ok (en', Some evs).
Proof. exact (conj sample_run (proj2 sample_batch)). Qed.

(* C58: the first event of a batch has a long key *)
Theorem C58_first_refuted : exists en a, length (ev_key (wa_event a)) = 256 /\ wa_mem a = MemOk /\
  engine_write en [a] true = UB.
Proof. exact first_key_crash. Qed.
Print Assumptions C58_first_refuted.

(* a later one is refused and nothing changes *)
Theorem C58_later : forall lo iv serial page region ops en l logged, limits lo iv ->
  hist_fine lo (engine_new iv serial page region) ops ->
  erun (engine_new iv serial page region) ops = Ok en -> batch_fine lo en l ->
  exists en' r, engine_write en l logged = Ok (en', r) /\
    (logged = false -> r = None) /\
    (Exists (fun a => 255 < length (ev_key (wa_event a))) l -> r = None) /\
    (r = None -> same_data en en' /\ forall e, visible (parts en') e <-> visible (parts en) e).
Proof. exact failed_batch. Qed.
Print Assumptions C58_later.
Example C58_later_example : batch_fine 0 sample_en bad_batch /\
  Exists (fun a => 255 < length (ev_key (wa_event a))) bad_batch.
Proof. exact (conj (proj1 sample_batch) bad_batch_long). Qed.

(* C61: a keyed event accepted by a write makes recovery write through a null pointer *)
Theorem C61_replay_refuted : exists en e en', limits 0 10 /\ batch_fine 0 en [mk_warg e MemOk] /\
  engine_write en [mk_warg e MemOk] true = Ok (en', Some [e]) /\
  engine_write_replay en 1 [e] = UB.
Proof. exact replay_crash. Qed.
Print Assumptions C61_replay_refuted.

(* C62: a write refused by the memory limit *)
Theorem C62_limit_refuted : exists en e, ev_ok e /\
  engine_write en [mk_warg e MemEvent] true = UB /\ engine_write en [mk_warg e MemTable] true = UB.
Proof. exact memory_crash. Qed.
Print Assumptions C62_limit_refuted.
(* for every batch that would be acknowledged with memory for its last event *)
Theorem C62_always : forall en l e evs en' t logged,
  engine_write en (l ++ [mk_warg e MemOk]) true = Ok (en', Some evs) ->
  engine_write en (l ++ mk_warg e MemEvent :: t) logged = UB.
Proof. exact refused_event. Qed.
Print Assumptions C62_always.
Example C62_always_example : exists en' evs,
  engine_write sample_en (EngineX.good_batch ++ [put_ev 40 1]) true = Ok (en', Some evs).
Proof. exact refused_sample. Qed.
(* and one larger than a page *)
Theorem C62_size_refuted : exists en e, ev_ok e /\ engine_write en [mk_warg e MemOk] true = UB.
Proof. exact oversize_crash. Qed.
Print Assumptions C62_size_refuted.
