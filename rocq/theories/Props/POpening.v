(* C87: handles, the directories they open and the lock of a directory. *)
From Coq Require Import List NArith.
Import ListNotations.
From Verif Require Import Model.Base Model.Opening Spec.Opening Proof.OpeningI Proof.OpeningC Proof.OpeningK Proof.OpeningW Proof.OpeningX.
Local Open Scope N_scope.

(* whatever is called, by any number of processes: one directory is open through one handle at most *)
Theorem C87_exclusive : forall dirs l w t h k d, run (start dirs) l = Ok (w, t) ->
  open_in t h d -> open_in t k d -> h = k.
Proof. exact exclusive. Qed.
Print Assumptions C87_exclusive.
Example C87_example_run : run (start here) calm_calls = Ok (world_of calm_calls, trace_of calm_calls).
Proof. exact calm_runs. Qed.
Example C87_example_open : open_in (trace_of calm_calls) 10 1 /\ open_in (trace_of calm_calls) 21 2.
Proof. exact calm_open. Qed.

(* an opening of a directory that is open answers -1, through any handle, and leaves the directories as they are *)
Theorem C87_refused : forall dirs l w t h d k u f w' r, run (start dirs) l = Ok (w, t) -> open_in t h d ->
  step w (Open k d u f) = Ok (w', r) ->
  r <> Done /\ w_dirs w' = w_dirs w /\ (f = None -> r = Refused).
Proof. exact refused. Qed.
Print Assumptions C87_refused.
Example C87_example_answers : answers calm_calls =
  [Done; Done; Done; Done; Done; Done; Refused; Done; Done; Done; Done; Done; Done; Done].
Proof. exact calm_answers. Qed.

(* with care (a handle is opened once, and used only after that was answered by 0): what is in a directory is changed
   only through the handle that has it open *)
Theorem C87_kept : forall dirs l w t c w' r h d, run (start dirs) l = Ok (w, t) -> step w c = Ok (w', r) ->
  careful (t ++ [(c, r)]) -> open_in t h d -> caller c <> Some h -> get d (w_dirs w') = get d (w_dirs w).
Proof. exact kept. Qed.
Print Assumptions C87_kept.
Example C87_example_careful : careful (trace_of calm_calls).
Proof. exact calm_careful. Qed.

(* with care: who is refused is refused by a handle that is in use *)
Theorem C87_released : forall dirs l w t h d u f w', run (start dirs) l = Ok (w, t) -> careful t ->
  step w (Open h d u f) = Ok (w', Refused) ->
  exists k p r, history t k = Some (p, [(d, r)]) /\ r <> Refused.
Proof. exact released. Qed.
Print Assumptions C87_released.

(* with care: what a handle shows is what config.json says, each name once *)
Theorem C87_shown : forall dirs l w t h d, run (start dirs) l = Ok (w, t) -> careful t -> open_in t h d ->
  (forall k f, get k dirs = Some f -> tidy f) ->
  exists e f c, get h (w_envs w) = Some e /\ get d (w_dirs w) = Some f /\ f_conf f = Some c /\ agrees e c /\
    NoDup (e_clouds e) /\ NoDup (e_storages e).
Proof. exact shown. Qed.
Print Assumptions C87_shown.
Example C87_example_tidy : forall k f, get k here = Some f -> tidy f.
Proof. exact calm_tidy. Qed.
Example C87_example_shows : exists e, get 10 (w_envs (world_of calm_calls)) = Some e /\
  e_uuid e = Some 7 /\ e_clouds e = [3; 4] /\ e_storages e = [0; 2; 5] /\ e_lsn e = 4.
Proof. exact calm_shows. Qed.

(* with care, and without collection: no record of any WAL is lost, whoever opens the directory after whom; names of
   files are not ahead of the records *)
Theorem C87_records : forall dirs l w t d, (forall k f x, get k dirs = Some f -> f_wal f = Some x -> in_step x) ->
  run (start dirs) l = Ok (w, t) -> careful t -> (forall c, In c l -> ~ is_gc c) ->
  extends (wal_of (start dirs) d) (wal_of w d) /\ in_step (wal_of w d).
Proof. exact records. Qed.
Print Assumptions C87_records.
(* and a write answered by 0 is there, under the number after the last *)
Theorem C87_written : forall dirs l w t h d w' r, (forall k f x, get k dirs = Some f -> f_wal f = Some x -> in_step x) ->
  run (start dirs) l = Ok (w, t) -> careful t -> (forall c, In c l -> ~ is_gc c) -> open_in t h d ->
  step w (Write h) = Ok (w', r) ->
  r = Done /\ exists e id b, get h (w_envs w') = Some e /\ In (id, b) (wal_of w' d) /\ In (e_lsn e) b /\ e_lsn e = top (wal_of w d) + 1.
Proof. exact written. Qed.
Print Assumptions C87_written.
Example C87_example_in_step : forall k f x, get k here = Some f -> f_wal f = Some x -> in_step x.
Proof. exact here_in_step. Qed.
Example C87_example_log_run : run (start here) log_calls = Ok (world_of log_calls, trace_of log_calls).
Proof. exact log_runs. Qed.
Example C87_example_log : careful (trace_of log_calls) /\ (forall c, In c log_calls -> ~ is_gc c) /\ open_in (trace_of log_calls) 20 1.
Proof. exact log_careful. Qed.
Example C87_example_files : wal_of (world_of log_calls) 1 = [(1, [1; 2; 3]); (4, [4; 5])].
Proof. exact log_files. Qed.
(* not so when the name of the last file is ahead of the records (all partitions dropped, the files before collected) *)
Theorem C87_records_refuted : exists w t, run (start ahead) ahead_calls = Ok (w, t) /\ careful t /\
  map snd t = [Done; Done; Done; Done; Done; Done] /\ wal_of w 1 = [(3, [3; 2])].
Proof. exact ahead_lost. Qed.
Print Assumptions C87_records_refuted.

(* with care: a database keeps its uuid, and with it the place of its partitions *)
Theorem C87_uuid : forall dirs l w t d f c, run (start dirs) l = Ok (w, t) -> careful t ->
  get d dirs = Some f -> f_conf f = Some c ->
  exists f' c', get d (w_dirs w) = Some f' /\ f_conf f' = Some c' /\ c_uuid c' = c_uuid c.
Proof. exact uuid_kept. Qed.
Print Assumptions C87_uuid.
Example C87_example_dirs :
  get 1 (w_dirs (world_of calm_calls)) = Some (mk_folder (Some (mk_conf 7 [3; 4] [0; 2; 5])) (Some [(4, [4])])) /\
  get 2 (w_dirs (world_of calm_calls)) = Some (mk_folder (Some (mk_conf 52 [] [])) (Some [(1, [1])])).
Proof. exact calm_dirs. Qed.

(* with care: no call meets an object that is not there *)
Theorem C87_safe : forall dirs l w t c, run (start dirs) l = Ok (w, t) -> careful t -> careful_call (history t) c ->
  match c with
  | Init _ h => history t h = None
  | Free h => history t h <> None
  | _ => True
  end -> exists w' r, step w c = Ok (w', r).
Proof. exact safe. Qed.
Print Assumptions C87_safe.

(* a second opening through a handle that has a directory open, of any directory and whatever it answers: until the
   process ends the first directory is not to be opened, also when every handle is freed *)
Theorem C87_leak : forall dirs l w t h p d j d2 u w1 r l2 w2 t2 k v w3 r3, run (start dirs) l = Ok (w, t) ->
  history t h = Some (p, (d, Done) :: j) -> step w (Open h d2 u None) = Ok (w1, r) ->
  run w1 l2 = Ok (w2, t2) -> ~ In (Exit p) l2 ->
  step w2 (Open k d v None) = Ok (w3, r3) -> r3 = Refused.
Proof. exact leak. Qed.
Print Assumptions C87_leak.

(* an opening that failed with the lock taken cannot be tried again *)
Theorem C87_retry : forall dirs l w t h d u f w1 k v w2 r, run (start dirs) l = Ok (w, t) ->
  f = F_conf \/ f = F_recover \/ f = F_wal \/ f = F_late ->
  step w (Open h d u (Some f)) = Ok (w1, Failed) -> step w1 (Open k d v None) = Ok (w2, r) -> r = Refused.
Proof. exact retry. Qed.
Print Assumptions C87_retry.
Example C87_example_failing : answers failing_calls = [Done; Failed; Refused; Done; Done; Refused].
Proof. exact failing. Qed.

(* without care: a handle that was refused writes config.json of the database that is open *)
Theorem C87_kept_refuted : exists w' r f c, run (start here) thief_calls = Ok (world_of thief_calls, trace_of thief_calls) /\
  open_in (trace_of thief_calls) 10 1 /\ step (world_of thief_calls) (Cloud 20 9) = Ok (w', r) /\ r = Done /\
  get 1 (w_dirs w') = Some f /\ f_conf f = Some c /\ c_uuid c = 51 /\ c_clouds c = [9] /\ c_storages c = [].
Proof. exact thief. Qed.
Print Assumptions C87_kept_refuted.

(* without care: a refused second opening makes a database unlink files of the WAL of another *)
Theorem C87_moved_refuted : exists w' r, run (start here) moved_calls = Ok (world_of moved_calls, trace_of moved_calls) /\
  open_in (trace_of moved_calls) 10 1 /\ ~ open_in (trace_of moved_calls) 20 1 /\
  step (world_of moved_calls) (Gc 20 2) = Ok (w', r) /\ r = Done /\
  get 1 (w_dirs (world_of moved_calls)) = Some (mk_folder (Some (mk_conf 7 [3] [0; 2])) (Some [(1, [1; 2])])) /\
  get 1 (w_dirs w') = Some (mk_folder (Some (mk_conf 7 [3] [0; 2])) (Some [])).
Proof. exact moved. Qed.
Print Assumptions C87_moved_refuted.

(* without care: in use by nobody *)
Theorem C87_released_refuted : exists w', run (start here) stuck_calls = Ok (world_of stuck_calls, trace_of stuck_calls) /\
  (forall k, k <> 11 -> history (trace_of stuck_calls) k = None) /\
  history (trace_of stuck_calls) 11 = Some (1, []) /\
  step (world_of stuck_calls) (Open 11 1 53 None) = Ok (w', Refused).
Proof. exact stuck. Qed.
Print Assumptions C87_released_refuted.

(* without care: a cloud twice, storages twice, a uuid in two directories *)
Theorem C87_shown_refuted : exists e, run (start here) twice_calls = Ok (world_of twice_calls, trace_of twice_calls) /\
  answers twice_calls = [Done; Failed; Done] /\ open_in (trace_of twice_calls) 10 2 /\
  get 10 (w_envs (world_of twice_calls)) = Some e /\ e_clouds e = [9; 9].
Proof. exact twice. Qed.
Print Assumptions C87_shown_refuted.
Theorem C87_copied_refuted : exists e f, run (start here) copied_calls = Ok (world_of copied_calls, trace_of copied_calls) /\
  answers copied_calls = [Done; Done; Failed] /\
  get 10 (w_envs (world_of copied_calls)) = Some e /\ e_storages e = [0; 2; 0; 2] /\
  get 2 (w_dirs (world_of copied_calls)) = Some f /\ f_conf f = Some (mk_conf 7 [3] [0; 2]).
Proof. exact copied. Qed.
Print Assumptions C87_copied_refuted.

(* without care: a write before the opening has no storage to go to *)
Theorem C87_early_refuted : run (start here) [Init 1 10; Write 10] = UB.
Proof. exact early_write. Qed.
Print Assumptions C87_early_refuted.
