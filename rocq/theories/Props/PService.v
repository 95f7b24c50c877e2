(* C41: background work. *)
From Coq Require Import NArith ZArith Arith List Bool Permutation.
Import ListNotations.
From Verif Require Import Model.Base Model.Service Spec.Service Proof.ServiceL Proof.ServiceT Proof.ServiceX.

(* every request ever made is in one place: the queue, the hands of one worker, or ended; numbers are
   given in the order of the requests *)
Theorem C41_accounted ws y : all_ready ws -> reached ws y ->
  Permutation (map rq_no (sv_list (y_service y)) ++ map rq_no (in_hands y) ++ ended (y_log y)) (seq 0 (y_next y)) /\
  map (fun x => fst (fst x)) (added (y_log y)) = rev (seq 0 (y_next y)).
Proof. exact (accounted ws y). Qed.
Print Assumptions C41_accounted.
(* its actions are done once each and in order, up to its end or to the one that failed *)
Theorem C41_in_order ws y : all_ready ws -> reached ws y ->
  Forall (fun r => In (Added (rq_no r) (rq_id r) (rq_actions r)) (y_log y) /\ done (rq_no r) (y_log y) = firstn (rq_current r) (rq_actions r)) (sv_list (y_service y) ++ in_hands y) /\
  (forall n, In (Ended n) (y_log y) -> exists id a, In (Added n id a) (y_log y) /\ done n (y_log y) = a) /\
  (forall n b, In (Failed n b) (y_log y) -> exists id a k, In (Added n id a) (y_log y) /\ nth_error a k = Some b /\ done n (y_log y) = firstn k a).
Proof. exact (in_order ws y). Qed.
Print Assumptions C41_in_order.
Example C41_in_order_example : let y := at_end (worker_mgr 1 1) [Add 3%N Upload [DropOnStorage; Gc]; Want 7%N true; Work 1 fine; Work 1 fine; Work 0 fine; Work 0 fine; Work 0 fine; Work 1 fine] in
  reached (worker_mgr 1 1) y /\ map rq_no (in_hands y) = [1] /\ map rq_no (sv_list (y_service y)) = [0] /\ done 0 (y_log y) = [Upload] /\ done 1 (y_log y) = [Rebalance; Download].
Proof. split; [eapply at_end_reached; vm_compute; reflexivity|]. repeat split; vm_compute; reflexivity. Qed.
(* a worker gets the oldest request it may take, and nothing only when there is none *)
Theorem C41_oldest ws y f : all_ready ws -> reached ws y ->
  (service_fetch (y_service y) f = Ok (None, y_service y) /\ Forall (fun x => service_filter x f = false) (sv_list (y_service y))) \/
  exists r s', service_fetch (y_service y) f = Ok (Some r, s') /\ oldest_for f (sv_list (y_service y)) r (sv_list s').
Proof. exact (fetched ws y f). Qed.
Print Assumptions C41_oldest.
(* the counters of the queue are exact, and no worker ever pops from an empty queue *)
Theorem C41_counters ws y : all_ready ws -> reached ws y ->
  sv_count (y_service y) = Z.of_nat (length (sv_list (y_service y))) /\ sv_count_upload (y_service y) = Z.of_nat (uploads (sv_list (y_service y))).
Proof. exact (counters ws y). Qed.
Print Assumptions C41_counters.
Theorem C41_never_wild ws l : all_ready ws -> exists y, moves (start ws) l = Ok y.
Proof. exact (never_wild ws l). Qed.
Print Assumptions C41_never_wild.
(* a worker sleeps only when there is nothing for it *)
Theorem C41_awake ws y k : all_ready ws -> reached ws y -> In k (y_workers y) -> wk_state k = Asleep ->
  sv_shutdown (y_service y) = false /\ Forall (fun r => service_filter r (wk_filter k) = false) (sv_list (y_service y)).
Proof. exact (nobody_sleeps ws y k). Qed.
Print Assumptions C41_awake.
(* with workers for every kind of work, all requests can be brought to their end *)
Theorem C41_served ws y : all_ready ws -> manned ws -> reached ws y -> sv_shutdown (y_service y) = false ->
  exists l z, moves y (map (fun w => Work w fine) l) = Ok z /\ idle z /\ y_next z = y_next y /\ Permutation (ended (y_log z)) (seq 0 (y_next y)).
Proof. exact (all_served ws y). Qed.
Print Assumptions C41_served.
Theorem C41_manned workers uploads : 0 < workers -> all_ready (worker_mgr workers uploads) /\ manned (worker_mgr workers uploads).
Proof. exact (fun h => conj (mgr_ready workers uploads) (mgr_manned workers uploads h)). Qed.
Print Assumptions C41_manned.
(* between two requests made for a full partition it was replaced *)
Theorem C41_once ws y p : reached ws y -> no_two (about p (y_log y)).
Proof. exact (asked_once ws y p). Qed.
Print Assumptions C41_once.
(* once it was replaced by a refresh the next request is taken *)
Theorem C41_again y z u w k r o cloud :
  nth_error (y_workers y) w = Some k -> wk_state k = Busy r -> current_action r = Some Refresh ->
  service_filter r (wk_filter k) = true -> o_replaced o = true -> moved y (Work w o) = Ok z ->
  moved z (Want (rq_id r) cloud) = Ok u ->
  y_next u = S (y_next z) /\ In (mk_req (y_next z) (rq_id r) (refresh_actions cloud) 0) (sv_list (y_service u)).
Proof. exact (asked_again y z u w k r o cloud). Qed.
Print Assumptions C41_again.
Example C41_again_example : let y := at_end (worker_mgr 1 0) [Want 7%N false; Work 0 fine; Work 0 fine] in
  exists k r z, reached (worker_mgr 1 0) y /\ nth_error (y_workers y) 0 = Some k /\ wk_state k = Busy r /\ current_action r = Some Refresh /\
    service_filter r (wk_filter k) = true /\ o_replaced fine = true /\ moved y (Work 0 fine) = Ok z.
Proof. eexists _, _, _. split; [eapply at_end_reached; vm_compute; reflexivity|]. repeat split; vm_compute; reflexivity. Qed.
(* a partition that is marked and has no request is not refreshed any more, however full it gets *)
Theorem C41_forgotten ws y z l p : all_ready ws -> reached ws y -> forgotten y p -> Forall (leaves p) l -> moves y l = Ok z -> forgotten z p.
Proof. exact (stays_forgotten ws y z l p). Qed.
Print Assumptions C41_forgotten.
(* this is what one failure does: the request is gone, the mark stays *)
Theorem C41_refuted : exists y p, reached (worker_mgr 3 1) y /\ idle y /\ about p (y_log y) = [true] /\ ~ In Refresh (done 0 (y_log y)) /\
  forall l z, Forall (leaves p) l -> moves y l = Ok z -> forgotten z p.
Proof.
  exact (let '(conj a (conj b (conj c (conj _ (conj e f))))) := lost_forgotten in
         ex_intro _ _ (ex_intro _ 7%N (conj a (conj c (conj e (conj f (fun l z H M => stays_forgotten _ _ z l 7%N (mgr_ready 3 1) a b H M))))))).
Qed.
Print Assumptions C41_refuted.
(* the same work can be in the queue twice *)
Theorem C41_twice_refuted : exists y a b, reached (worker_mgr 3 1) y /\ sv_list (y_service y) = [a; b] /\ rq_id a = rq_id b /\ rq_actions a = rq_actions b /\ rq_current a = rq_current b.
Proof. exact (let '(conj r (ex_intro _ a (ex_intro _ b h))) := doubled_twice in ex_intro _ _ (ex_intro _ a (ex_intro _ b (conj r h)))). Qed.
Print Assumptions C41_twice_refuted.
(* with workers = 0 and workers_upload > 0 a request to refresh stays in the queue *)
Theorem C41_unmanned_refuted uploads l y : moves (start (worker_mgr 0 (S uploads))) (Want 7%N false :: l) = Ok y -> ~ idle y.
Proof. exact (unmanned uploads l y). Qed.
Print Assumptions C41_unmanned_refuted.
