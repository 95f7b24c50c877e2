(* C21-C28, C59: the write-ahead log. *)
From Coq Require Import NArith ZArith List Bool Permutation.
Import ListNotations.
From Verif Require Import Model.Base Model.Event Model.Crc Model.Codec Model.Wal Model.Gc
  Spec.Order Spec.Checksum Spec.Log
  Proof.WalP Proof.WalQ Proof.WalX.
Local Open Scope N_scope.

(* C21: recovery reads what was logged; [gone] are the records of collected files *)
Theorem C21_read_back : forall wal_crc s all, hist wal_crc s all -> wl_lsn s + 2 < 2^64 -> files_short s ->
  exists gone kept, all = gone ++ kept /\
    wal_read wal_crc (wl_files s) (wl_list s) = (map rec_logged kept, Ok tt).
Proof. exact read_back. Qed.
Print Assumptions C21_read_back.
Theorem C21_read_all : forall wal_crc s all, plain_hist wal_crc s all -> wl_lsn s + 2 < 2^64 -> files_short s ->
  wal_read wal_crc (wl_files s) (wl_list s) = (map rec_logged all, Ok tt).
Proof. exact read_all. Qed.
Print Assumptions C21_read_all.
Example C21_example : plain_hist true (run_wal true sample_ops)
    [RWrite 1 batch1; RWrite 2 batch2; RWrite 3 batch3] /\
  wl_lsn (run_wal true sample_ops) + 2 < 2^64 /\ files_short (run_wal true sample_ops) /\
  wl_list (run_wal true sample_ops) = [1; 3].
Proof. exact sample_hist. Qed.
Example C21_computed : wal_read true (wl_files sw4) (wl_list sw4) =
  ([LWrite 1 [wev 5 [] [1;2;3]; wev 7 [65] [4]]; LWrite 2 [wev 6 [66] [1;2;3]]; LWrite 3 [wev 8 [] [7]; wev 9 [] []]], Ok tt).
Proof. exact sample_read. Qed.
Example C21_hist_example : hist true hw6 [RWrite 1 batch1; RDrop 2 5; RWrite 3 batch2] /\
  wl_lsn hw6 + 2 < 2^64 /\ files_short hw6 /\ wl_list hw6 = [3].
Proof. exact hist_example. Qed.

(* C22: the current file cut at any byte *)
Theorem C22_cut : forall wal_crc s all, plain_hist wal_crc s all -> wl_lsn s + 2 < 2^64 -> files_short s ->
  exists fs id b, wl_files s = fs ++ [(id, b)] /\
  forall k, exists m, wal_read wal_crc (fs ++ [(id, firstn k b)]) (wl_list s) = (map rec_logged (firstn m all), Ok tt) /\
    (length b <= k -> m = length all)%nat /\
    exists rs, b = flat_map (rec_bytes wal_crc) rs /\ firstn m all ++ skipn (length (complete wal_crc k rs)) rs = all.
Proof. exact cut_current. Qed.
Print Assumptions C22_cut.
Example C22_example : plain_hist true (run_wal true sample_ops)
    [RWrite 1 batch1; RWrite 2 batch2; RWrite 3 batch3] /\
  wl_lsn (run_wal true sample_ops) + 2 < 2^64 /\ files_short (run_wal true sample_ops) /\
  wl_list (run_wal true sample_ops) = [1; 3].
Proof. exact sample_hist. Qed.

(* C23: after a crash at a record boundary, later writes are recovered with the surviving ones *)
Theorem C23_boundary : forall wal_crc s all fs id pre rs m dir base ls s1,
  plain_hist wal_crc s all -> wl_lsn s + 2 < 2^64 -> files_short s ->
  wl_files s = fs ++ [(id, flat_map (rec_bytes wal_crc) rs)] -> all = pre ++ rs -> (m <= length rs)%nat ->
  wl_files s1 = fs ++ [(id, flat_map (rec_bytes wal_crc) (firstn m rs))] -> Permutation dir (wl_list s) ->
  base <= last (map rec_lsn (pre ++ firstn m rs)) 0 ->
  Forall batch_ok ls -> (wal_crc = true -> Forall (Forall stable) ls) -> wl_lsn s + N.of_nat (length ls) + 2 < 2^64 ->
  exists s2 s3 new, wal_restart wal_crc s1 dir base = Ok s2 /\
    wal_run wal_crc s2 (map (fun l => OpWrite l None) ls) = Ok s3 /\
    map rec_logged new = map (fun p => LWrite (fst p) (map le_event (snd p)))
      (combine (map (fun i => wl_lsn s2 + N.of_nat i) (seq 1 (length ls))) ls) /\
    (files_short s3 -> wal_read wal_crc (wl_files s3) (wl_list s3) = (map rec_logged (pre ++ firstn m rs ++ new), Ok tt)).
Proof. exact boundary_survives. Qed.
Print Assumptions C23_boundary.

(* C23: behind a record cut after its header, writes shorter than what is missing are all lost,
   and recovery reports no error *)
Theorem C23_torn_loses : forall wal_crc s all fs id pre rs r post t dir base ls s1,
  plain_hist wal_crc s all -> wl_lsn s + 2 < 2^64 -> files_short s ->
  wl_files s = fs ++ [(id, flat_map (rec_bytes wal_crc) (rs ++ r :: post))] -> all = pre ++ rs ++ r :: post ->
  (21 <= t < length (rec_bytes wal_crc r))%nat ->
  wl_files s1 = fs ++ [(id, flat_map (rec_bytes wal_crc) rs ++ firstn t (rec_bytes wal_crc r))] ->
  Permutation dir (wl_list s) ->
  Forall batch_ok ls -> batches_size ls < N.of_nat (length (rec_bytes wal_crc r) - t) ->
  exists s2 s3, wal_restart wal_crc s1 dir base = Ok s2 /\
    wal_run wal_crc s2 (map (fun l => OpWrite l None) ls) = Ok s3 /\
    wal_read wal_crc (wl_files s3) (wl_list s3) = (map rec_logged (pre ++ rs), Ok tt).
Proof. exact torn_loses. Qed.
Print Assumptions C23_torn_loses.
Example C23_example :
  plain_hist true lw2 ([] ++ [RWrite 1 batch1] ++ RWrite 2 long_batch :: []) /\
  wl_lsn lw2 + 2 < 2^64 /\ files_short lw2 /\
  wl_files lw2 = [] ++ [(1, flat_map (rec_bytes true) ([RWrite 1 batch1] ++ RWrite 2 long_batch :: []))] /\
  (21 <= 40 < length (rec_bytes true (RWrite 2 long_batch)))%nat /\ Permutation [1] (wl_list lw2) /\
  Forall batch_ok [batch3] /\ batches_size [batch3] < N.of_nat (length (rec_bytes true (RWrite 2 long_batch)) - 40).
Proof. exact torn_example. Qed.

(* C23: false in general *)
Theorem C23_refuted : exists s s2, after_torn true long_batch 95 = Ok (s, true) /\ wl_lsn s = 2 /\
  wal_restart true s [1] 0 = Ok s2 /\
  wal_read true (wl_files s) (wl_list s) = ([LWrite 1 (map le_event batch1)], Ok tt).
Proof. exact torn_silent. Qed.
Print Assumptions C23_refuted.
Theorem C23_error_refuted : exists s, after_torn true batch2 85 = Ok (s, true) /\ wal_restart true s [1] 0 = Err.
Proof. exact torn_error. Qed.
Print Assumptions C23_error_refuted.
Theorem C23_overrun_refuted : exists s, after_torn false batch2 85 = Ok (s, true) /\ wal_restart false s [1] 0 = UB.
Proof. exact torn_overrun. Qed.
Print Assumptions C23_overrun_refuted.

(* C24: batches where at most the last event has a key are accepted *)
Theorem C24_accepted : forall mem l lsn, batch_ok (heap_batch mem l) -> lsn < 2^64 ->
  Forall (fun e => ev_key e = []) (removelast l) ->
  exists w body, wal_file_pread true (log_record true lsn (heap_batch mem l)) 0 = Ok (Some (w, body)) /\
    lw_lsn w = lsn /\ log_decode w body = Ok (LWrite lsn l).
Proof. exact heap_accepted. Qed.
Print Assumptions C24_accepted.
Example C24_example : batch_ok (heap_batch heap_mem [wev 5 [] [1]; wev 6 [66] [2]]) /\
  Forall (fun e => ev_key e = []) (removelast [wev 5 [] [1]; wev 6 [66] [2]]).
Proof. exact keyed_last_ok. Qed.
(* C24: if the bytes behind one event (key of 1 to 4 bytes) changed, the record is rejected *)
Theorem C24_rejected : forall lsn l1 x l2, batch_ok (l1 ++ x :: l2) -> lsn < 2^64 ->
  Forall stable l1 -> Forall stable l2 -> ~ stable x -> (length (ev_key (le_event x)) <= 4)%nat ->
  wal_file_pread true (log_record true lsn (l1 ++ x :: l2)) 0 = Err.
Proof. exact bad_rejected. Qed.
Print Assumptions C24_rejected.
Example C24_rejected_example : batch_ok two_keyed /\ exists l1 x l2, two_keyed = l1 ++ x :: l2 /\
  Forall stable l1 /\ Forall stable l2 /\ ~ stable x /\ (length (ev_key (le_event x)) <= 4)%nat.
Proof. exact (conj two_keyed_ok unstable_example). Qed.
Theorem C24_refuted : exists b, b = heap_batch (repeat 0 200) [wev 5 [65] [1]; wev 6 [66] [2]] /\ batch_ok b /\
  wal_file_pread true (log_record true 1 b) 0 = Err /\
  (exists w body, wal_file_pread false (log_record false 1 b) 0 = Ok (Some (w, body)) /\
     log_decode w body = Ok (LWrite 1 [wev 5 [65] [1]; wev 6 [66] [2]])) /\
  (exists s, wal_write true (wal_rotate wal_init 0) b None = Ok (s, true) /\ wal_restart true s [1] 0 = Err).
Proof. exact (ex_intro _ two_keyed (conj eq_refl (conj two_keyed_ok two_keyed_read))). Qed.
Print Assumptions C24_refuted.

(* C25: collection removes a prefix of files with records below the given lsn, never the current file *)
Theorem C25_gc : forall wal_crc s all m, hist wal_crc s all -> wl_lsn s + 2 < 2^64 -> files_short s ->
  exists s' gone old kept, wal_gc s m = Ok s' /\ all = gone ++ old ++ kept /\
    wal_read wal_crc (wl_files s) (wl_list s) = (map rec_logged (old ++ kept), Ok tt) /\
    wal_read wal_crc (wl_files s') (wl_list s') = (map rec_logged kept, Ok tt) /\
    Forall (fun r => rec_lsn r < m) old /\
    wl_current s' = wl_current s /\ wl_list s' <> [] /\ wal_id_max (wl_list s') = wal_id_max (wl_list s) /\
    (exists l, wl_list s = l ++ wl_list s') /\ map fst (wl_files s') = wl_list s' /\
    (exists f, wl_files s = f ++ wl_files s').
Proof. exact gc_hist. Qed.
Print Assumptions C25_gc.
Example C25_example : wal_gc sw4 3 = Ok after_gc /\ wl_list after_gc = [3] /\ wal_gc sw4 2 = Ok sw4 /\
  wal_read true (wl_files after_gc) (wl_list after_gc) = ([LWrite 3 (map le_event batch3)], Ok tt).
Proof. exact gc_example. Qed.

(* C26: safe when collection is one step and no logged write waits for its mark *)
Theorem C26_quiet : forall wal_crc s all, quiet wal_crc s all ->
  wl_lsn (g_wal s) + 2 < 2^64 -> files_short (g_wal s) ->
  forall n, outstanding s n -> exists l, In (RWrite n l) all /\
    In (LWrite n (map le_event l)) (fst (wal_read wal_crc (wl_files (g_wal s)) (wl_list (g_wal s)))) /\
    (forall l', In (RWrite n l') all -> l' = l).
Proof. exact quiet_safe. Qed.
Print Assumptions C26_quiet.
Example C26_example : quiet true gq8 [RWrite 1 batch1; RWrite 2 batch2] /\
  wl_lsn (g_wal gq8) + 2 < 2^64 /\ files_short (g_wal gq8) /\ outstanding gq8 2 /\ wl_list (g_wal gq8) = [2].
Proof. exact quiet_example. Qed.
(* C26: collection between the log write and the mark; the write is acknowledged after it *)
Theorem C26_mark_refuted : exists s,
  grun true ginit [GWrite batch1; GRotate 0; GWrite batch2; GRotate 0; GScan; GRun; GMark 1] = Ok s /\
  outstanding s 1 /\ wal_read true (wl_files (g_wal s)) (wl_list (g_wal s)) = ([], Ok tt).
Proof. exact gc_between_write_and_mark. Qed.
Print Assumptions C26_mark_refuted.
(* C26: the scan was made before the write *)
Theorem C26_scan_refuted : exists s,
  grun true ginit [GScan; GWrite batch1; GMark 1; GRotate 0; GRun] = Ok s /\
  g_pending s = [] /\ outstanding s 1 /\ wal_read true (wl_files (g_wal s)) (wl_list (g_wal s)) = ([], Ok tt).
Proof. exact gc_after_old_scan. Qed.
Print Assumptions C26_scan_refuted.

(* C27 *)
Theorem C27_order : forall wal_crc s all, hist wal_crc s all ->
  increasing (map rec_lsn all) /\ Forall (fun r => rec_lsn r <= wl_lsn s) all /\
  exists gone a, all = gone ++ log_recs a /\ wl_files s = log_files wal_crc a /\ wl_list s = log_ids a /\ ordered a.
Proof. exact lsn_order. Qed.
Print Assumptions C27_order.
Theorem C27_plain : forall wal_crc s all, plain_hist wal_crc s all -> hist wal_crc s all /\ wl_lsn s = last (map rec_lsn all) 0.
Proof. exact (fun c s all h => conj (proj1 (plain_hist_spec c s all h)) (last_lsn c s all h)). Qed.
Print Assumptions C27_plain.
Example C27_example : hist true hw6 [RWrite 1 batch1; RDrop 2 5; RWrite 3 batch2] /\
  wl_lsn hw6 + 2 < 2^64 /\ files_short hw6 /\ wl_list hw6 = [3].
Proof. exact hist_example. Qed.
(* C27: a DROP as the last record before a restart: its number is used again *)
Theorem C27_drop_refuted : exists s,
  wal_run true (wal_rotate wal_init 0) [OpWrite batch1 None; OpDrop 5 None; OpRestart [1] 0; OpWrite batch2 None] = Ok s /\
  wal_read true (wl_files s) (wl_list s) =
    ([LWrite 1 (map le_event batch1); LDrop 2 5; LWrite 2 (map le_event batch2)], Ok tt).
Proof. exact drop_reuses. Qed.
Print Assumptions C27_drop_refuted.
(* C27: the partitions were dropped, the older files collected and the database started again: the numbers begin at 1 below
   the name of the file that is there. A write that was acknowledged is overwritten by the next one... *)
Theorem C27_overwritten_refuted : exists s,
  wal_run true (wal_rotate wal_init 0)
    [OpWrite batch1 None; OpRotate 0; OpGc u64_max; OpDrop 5 None; OpRestart [2] 0;
     OpWrite batch2 None; OpRotate 0; OpWrite batch3 None] = Ok s /\
  wal_read true (wl_files s) (wl_list s) = ([LWrite 2 (map le_event batch3)], Ok tt).
Proof. exact reset_overwrites. Qed.
Print Assumptions C27_overwritten_refuted.
(* ... or the log is read with the newest record first, before the DROP and the write that came before it *)
Theorem C27_reordered_refuted : exists s,
  wal_run true (wal_rotate wal_init 0)
    [OpWrite batch1 None; OpWrite batch1 None; OpRotate 0; OpGc u64_max; OpDrop 5 None; OpRestart [3] 0;
     OpWrite batch2 None; OpRotate 0; OpWrite batch3 None] = Ok s /\
  wal_read true (wl_files s) (wl_list s) =
    ([LWrite 2 (map le_event batch3); LDrop 3 5; LWrite 1 (map le_event batch2)], Ok tt).
Proof. exact reset_reorders. Qed.
Print Assumptions C27_reordered_refuted.

(* C28 *)
Theorem C28_sorted : forall l, id_list l -> increasing l /\ NoDup l.
Proof. exact (fun l h => conj (id_list_sorted l h) (increasing_nodup l (id_list_sorted l h))). Qed.
Print Assumptions C28_sorted.
Theorem C28_members :
  (forall dir x, NoDup dir -> (In x (wal_recover dir) <-> In x dir)) /\
  (forall l x y, id_list l -> (In y (wal_id_add x l) <-> y = x \/ In y l)) /\
  (forall l x y, id_list l -> (In y (wal_id_delete x l) <-> In y l /\ y <> x)) /\
  (forall l m, id_list l -> l = fst (wal_id_gc_between m l) ++ snd (wal_id_gc_between m l)).
Proof. exact id_members. Qed.
Print Assumptions C28_members.
Theorem C28_queries : forall l v, id_list l ->
  least_above v l (wal_id_next v l) /\ greatest_upto v l (wal_id_find v l) /\
  wal_id_copy v l = filter (fun x => x <=? v) l /\
  (l = [] -> wal_id_min l = u64_max /\ wal_id_max l = u64_max) /\
  (l <> [] -> In (wal_id_min l) l /\ In (wal_id_max l) l /\
     forall y, In y l -> wal_id_min l <= y <= wal_id_max l).
Proof. exact id_queries. Qed.
Print Assumptions C28_queries.
Example C28_example : id_list [2; 5; 9] /\ wal_recover [9; 2; 5] = [2; 5; 9] /\ wal_id_add 7 [2; 5; 9] = [2; 5; 7; 9] /\
  wal_id_gc_between 6 [2; 5; 7; 9] = ([2], [5; 7; 9]) /\ wal_id_find 6 [2; 5; 9] = 5.
Proof. exact id_list_example. Qed.
(* C28: the first write to a file fails half way, rotation then adds the same id again *)
Theorem C28_duplicate_refuted : exists s,
  wal_run true (wal_rotate wal_init 0) [OpWrite batch1 (Some 5%nat); OpRotate 0] = Ok s /\
  wl_list s = [1; 1] /\ wl_current s = Some (1, 0) /\ file_of 1 (wl_files s) <> Some [].
Proof. exact duplicate_id. Qed.
Print Assumptions C28_duplicate_refuted.

(* C59: a file of 4 GiB - 21 bytes or more: all records are read, then recovery fails
   (below that size, C21) *)
Theorem C59_below : forall wal_crc s all, plain_hist wal_crc s all -> wl_lsn s + 2 < 2^64 ->
  Forall (fun f => N.of_nat (length (snd f)) + 21 < 2 ^ 32) (wl_files s) ->
  wal_read wal_crc (wl_files s) (wl_list s) = (map rec_logged all, Ok tt).
Proof. exact read_all. Qed.
Print Assumptions C59_below.
Theorem C59_above : forall wal_crc id rs, id < u64_max -> Forall (rec_ok wal_crc) rs ->
  2^32 <= N.of_nat (length (flat_map (rec_bytes wal_crc) rs)) + 21 ->
  wal_read wal_crc [(id, flat_map (rec_bytes wal_crc) rs)] [id] = (map rec_logged rs, Err).
Proof. exact over_read. Qed.
Print Assumptions C59_above.
Theorem C59_refuted : forall wal_crc, exists rs, Forall (rec_ok wal_crc) rs /\
  2^32 <= N.of_nat (length (flat_map (rec_bytes wal_crc) rs)) + 21 /\
  wal_read wal_crc [(1, flat_map (rec_bytes wal_crc) rs)] [1] = (map rec_logged rs, Err).
Proof. exact over_exists. Qed.
Print Assumptions C59_refuted.
