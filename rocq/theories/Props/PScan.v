(* C07, C09, C11: merged views, file cursors, region index. *)
From Coq Require Import NArith ZArith List Bool Sorted.
Import ListNotations.
From Verif Require Import Model.Base Model.Event Model.Memtable Model.Merge Model.PartIter
  Spec.Order Spec.Merged Spec.Files Proof.PartIterL Proof.ScanX.

(* C07: every key once, ascending, from the newest source that has it *)
Theorem C07_merge : forall lo srcs, Forall ascending srcs ->
  Forall (fun e => ev_ok e /\ win lo e) (concat srcs) ->
  merged srcs (merge_all srcs) /\ forall e, In e (merge_all srcs) <-> newest srcs e.
Proof. exact merge_statement. Qed.
Print Assumptions C07_merge.
Example C07_example : Forall ascending sample_srcs /\
  Forall (fun e => ev_ok e /\ win 0 e) (concat sample_srcs).
Proof. exact sample_srcs_ok. Qed.

(* C09: from a start that is not past all stored keys of its id, exactly the events not below it *)
Theorem C09_file_cursor : forall lo (f : pfile) k, file_ok f -> ids_apart f ->
  Forall (fun e => ev_ok e /\ win lo e) (concat f) -> ev_ok k /\ win lo k ->
  ~ past_keys (concat f) k ->
  file_scan f (Some k) = filter (geb k) (concat f).
Proof. exact file_scan_statement. Qed.
Print Assumptions C09_file_cursor.
Example C09_example : file_ok edge_file /\ ids_apart edge_file /\
  Forall (fun e => ev_ok e /\ win 0 e) (concat edge_file).
Proof. exact edge_file_ok. Qed.
Example C09_example_key : ~ past_keys (concat edge_file) (mk_event 1 0 [97%N] []).
Proof. exact edge_key. Qed.

(* a start without key part is never past the stored keys *)
Theorem C09_keyless : forall evs k, ev_key k = [] -> ~ past_keys evs k.
Proof. exact past_keys_keyless. Qed.
Print Assumptions C09_keyless.

(* a cursor without start reads the whole file *)
Theorem C09_all : forall f : pfile, Forall (fun r => r <> []) f -> file_scan f None = concat f.
Proof. exact file_scan_none. Qed.
Print Assumptions C09_all.
Example C09_all_example : Forall (fun r : region => r <> []) edge_file.
Proof. exact (proj2 (proj1 edge_file_ok)). Qed.

(* past the stored keys of the last id of a region the other regions are skipped *)
Theorem C09_edge_refuted : exists (f : pfile) k, file_ok f /\ ids_apart f /\
  Forall (fun e => ev_ok e /\ win 0 e) (concat f) /\ (ev_ok k /\ win 0 k) /\
  filter (geb k) (concat f) <> [] /\ file_scan f (Some k) = [].
Proof. exact edge_lost. Qed.
Print Assumptions C09_edge_refuted.

(* C11: the first region that has an id not below the looked-up one *)
Theorem C11_index : forall lo (f : pfile) k, file_ok f -> near_ids lo f ->
  (lo <= ev_id k < lo + 2^31 /\ ev_id k < 2^64)%N ->
  match index_iterator_open f (Some k) with
  | Some p => exists r, nth_error f p = Some r /\ (exists e, In e r /\ (ev_id k <= ev_id e)%N) /\
      forall i r' e, i < p -> nth_error f i = Some r' -> In e r' -> (ev_id e < ev_id k)%N
  | None => forall r e, In r f -> In e r -> (ev_id e < ev_id k)%N
  end.
Proof. exact index_statement. Qed.
Print Assumptions C11_index.
Example C11_example : file_ok edge_file /\ near_ids 0 edge_file.
Proof. exact sample_index_ok. Qed.

(* 2^31 below the data the lookup finds nothing *)
Theorem C11_far_refuted : exists (f : pfile) k,
  file_ok f /\ ids_apart f /\ Forall ev_ok (concat f) /\ ev_ok k /\
  (exists e, In e (concat f) /\ (ev_id k <= ev_id e)%N) /\ index_iterator_open f (Some k) = None.
Proof. exact index_far. Qed.
Print Assumptions C11_far_refuted.
