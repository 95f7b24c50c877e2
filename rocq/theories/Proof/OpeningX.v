(* Openings: cases and counterexamples. *)
From Coq Require Import List NArith Bool.
From Verif Require Import Model.Base Model.Wal Model.Opening Spec.Opening.
Import ListNotations.
Local Open Scope N_scope.

(* directory 1: a database of uuid 7 with a cloud 3, the storages main and 2, and a file of the WAL with two records *)
Definition here : list (N * folder) := [(1, mk_folder (Some (mk_conf 7 [3] [0; 2])) (Some [(1, [1; 2])]))].

Definition ends (l : list call) : option (world * list (call * ret)) :=
  match run (start here) l with Ok x => Some x | _ => None end.
Definition world_of (l : list call) : world :=
  match run (start here) l with Ok (w, _) => w | _ => start [] end.
Definition trace_of (l : list call) : list (call * ret) :=
  match run (start here) l with Ok (_, t) => t | _ => [] end.
Definition answers (l : list call) : list ret := map snd (trace_of l).

(* two processes, two databases, commands and files of the WAL; the second is turned away from the directory of the first *)
Definition calm_calls : list call :=
  [Init 1 10; Open 10 1 50 None; Write 10; Cloud 10 4; Storage 10 5;
   Init 2 20; Open 20 1 51 None; Free 20; Init 2 21; Open 21 2 52 None; Write 21; Rotate 10; Write 10; Gc 10 4].

Lemma calm_runs : run (start here) calm_calls = Ok (world_of calm_calls, trace_of calm_calls).
Proof. vm_compute. reflexivity. Qed.
Lemma calm_answers : answers calm_calls =
  [Done; Done; Done; Done; Done; Done; Refused; Done; Done; Done; Done; Done; Done; Done].
Proof. vm_compute. reflexivity. Qed.
Lemma calm_careful : careful (trace_of calm_calls).
Proof.
  unfold careful. vm_compute.
  repeat match goal with |- _ /\ _ => split | |- True => exact I end; eexists; try eexists; reflexivity.
Qed.
Lemma calm_open : open_in (trace_of calm_calls) 10 1 /\ open_in (trace_of calm_calls) 21 2.
Proof. split; do 2 eexists; vm_compute; reflexivity. Qed.
Lemma calm_tidy : forall k f, get k here = Some f -> tidy f.
Proof.
  intros k f H. unfold here in H. cbn [get] in H. destruct (1 =? k); [|discriminate H]. injection H as <-. cbn.
  split; repeat constructor; cbn; [intros []|intros [X|[]]; discriminate X|intros []].
Qed.
Lemma calm_shows : exists e, get 10 (w_envs (world_of calm_calls)) = Some e /\
  e_uuid e = Some 7 /\ e_clouds e = [3; 4] /\ e_storages e = [0; 2; 5] /\ e_lsn e = 4.
Proof. eexists. vm_compute. repeat split. Qed.
Lemma calm_dirs : get 1 (w_dirs (world_of calm_calls)) = Some (mk_folder (Some (mk_conf 7 [3; 4] [0; 2; 5])) (Some [(4, [4])])) /\
  get 2 (w_dirs (world_of calm_calls)) = Some (mk_folder (Some (mk_conf 52 [] [])) (Some [(1, [1])])).
Proof. vm_compute. split; reflexivity. Qed.

(* a handle that was turned away still takes commands: CREATE CLOUD writes config.json of the other database, with a uuid
   of its own *)
Definition thief_calls : list call := [Init 1 10; Open 10 1 50 None; Init 2 20; Open 20 1 51 None].
Lemma thief : exists w' r f c, run (start here) thief_calls = Ok (world_of thief_calls, trace_of thief_calls) /\
  open_in (trace_of thief_calls) 10 1 /\ step (world_of thief_calls) (Cloud 20 9) = Ok (w', r) /\ r = Done /\
  get 1 (w_dirs w') = Some f /\ f_conf f = Some c /\ c_uuid c = 51 /\ c_clouds c = [9] /\ c_storages c = [].
Proof.
  do 4 eexists. split; [vm_compute; reflexivity|]. split; [do 2 eexists; vm_compute; reflexivity|].
  split; [vm_compute; reflexivity|]. split; [reflexivity|]. split; [vm_compute; reflexivity|].
  split; [reflexivity|]. repeat split.
Qed.

(* a second opening that is turned away moves the directory of a database that is open: its collection of old files
   unlinks a file of the other database, with records that are nowhere else *)
Definition moved_calls : list call :=
  [Init 1 10; Open 10 1 50 None; Init 2 20; Open 20 2 51 None; Write 20; Rotate 20; Write 20;
   Open 20 1 52 None].
Lemma moved : exists w' r, run (start here) moved_calls = Ok (world_of moved_calls, trace_of moved_calls) /\
  open_in (trace_of moved_calls) 10 1 /\ ~ open_in (trace_of moved_calls) 20 1 /\
  step (world_of moved_calls) (Gc 20 2) = Ok (w', r) /\ r = Done /\
  get 1 (w_dirs (world_of moved_calls)) = Some (mk_folder (Some (mk_conf 7 [3] [0; 2])) (Some [(1, [1; 2])])) /\
  get 1 (w_dirs w') = Some (mk_folder (Some (mk_conf 7 [3] [0; 2])) (Some [])).
Proof.
  do 2 eexists. split; [vm_compute; reflexivity|]. split; [do 2 eexists; vm_compute; reflexivity|].
  split. { intros (p & l & H). vm_compute in H. discriminate H. }
  split; [vm_compute; reflexivity|]. split; [reflexivity|]. split; vm_compute; reflexivity.
Qed.

(* no handle in use, and the directory is in use *)
Definition stuck_calls : list call :=
  [Init 1 10; Open 10 1 50 None; Open 10 1 51 None; Free 10; Init 1 11].
Lemma stuck : exists w', run (start here) stuck_calls = Ok (world_of stuck_calls, trace_of stuck_calls) /\
  (forall k, k <> 11 -> history (trace_of stuck_calls) k = None) /\
  history (trace_of stuck_calls) 11 = Some (1, []) /\
  step (world_of stuck_calls) (Open 11 1 53 None) = Ok (w', Refused).
Proof.
  eexists. split; [vm_compute; reflexivity|]. split.
  { intros k n. unfold history.
    assert (T : trace_of stuck_calls =
      [(Init 1 10, Done); (Open 10 1 50 None, Done); (Open 10 1 51 None, Refused); (Free 10, Done); (Init 1 11, Done)])
      by (vm_compute; reflexivity). rewrite T.
    cbn [fold_left note]. unfold set_past. destruct (N.eq_dec k 11); [congruence|]. destruct (N.eq_dec k 10); reflexivity. }
  split; vm_compute; reflexivity.
Qed.

(* CREATE CLOUD before the opening answers -1 and leaves the cloud behind: the opening makes it once more *)
Definition twice_calls : list call := [Init 1 10; Cloud 10 9; Open 10 2 50 None].
Lemma twice : exists e, run (start here) twice_calls = Ok (world_of twice_calls, trace_of twice_calls) /\
  answers twice_calls = [Done; Failed; Done] /\ open_in (trace_of twice_calls) 10 2 /\
  get 10 (w_envs (world_of twice_calls)) = Some e /\ e_clouds e = [9; 9].
Proof.
  eexists. split; [vm_compute; reflexivity|]. split; [vm_compute; reflexivity|].
  split; [do 2 eexists; vm_compute; reflexivity|]. split; [vm_compute; reflexivity|]. reflexivity.
Qed.

(* a second opening takes the variables of the first along: config.json with the uuid of the first, every storage twice;
   it fails for the files of the WAL of the first, and the handle stays open *)
Definition copied_calls : list call := [Init 1 10; Open 10 1 50 None; Open 10 2 51 None].
Lemma copied : exists e f, run (start here) copied_calls = Ok (world_of copied_calls, trace_of copied_calls) /\
  answers copied_calls = [Done; Done; Failed] /\
  get 10 (w_envs (world_of copied_calls)) = Some e /\ e_storages e = [0; 2; 0; 2] /\
  get 2 (w_dirs (world_of copied_calls)) = Some f /\ f_conf f = Some (mk_conf 7 [3] [0; 2]).
Proof.
  do 2 eexists. split; [vm_compute; reflexivity|]. split; [vm_compute; reflexivity|].
  split; [vm_compute; reflexivity|]. split; [reflexivity|]. split; [vm_compute; reflexivity|]. reflexivity.
Qed.

(* writing through a handle that is not open *)
Lemma early_write : run (start here) [Init 1 10; Write 10] = UB.
Proof. vm_compute. reflexivity. Qed.

Definition failing_calls : list call := [Init 1 10; Open 10 1 50 (Some F_recover); Open 10 1 51 None; Free 10; Init 1 11; Open 11 1 52 None].
Lemma failing : answers failing_calls = [Done; Failed; Refused; Done; Done; Refused].
Proof. vm_compute. reflexivity. Qed.

(* two handles after each other, no collection *)
Definition log_calls : list call :=
  [Init 1 10; Open 10 1 50 None; Write 10; Rotate 10; Write 10; Free 10; Init 2 20; Open 20 1 51 None; Write 20].
Lemma log_runs : run (start here) log_calls = Ok (world_of log_calls, trace_of log_calls).
Proof. vm_compute. reflexivity. Qed.
Lemma log_careful : careful (trace_of log_calls) /\ (forall c, In c log_calls -> ~ is_gc c) /\ open_in (trace_of log_calls) 20 1.
Proof.
  split; [|split].
  - vm_compute. repeat split; eauto.
  - intros c H. repeat (destruct H as [<-|H]; [exact (fun x => x)|]). destruct H.
  - do 2 eexists. vm_compute. reflexivity.
Qed.
Lemma log_files : wal_of (world_of log_calls) 1 = [(1, [1; 2; 3]); (4, [4; 5])].
Proof. vm_compute. reflexivity. Qed.
Lemma here_in_step : forall k f x, get k here = Some f -> f_wal f = Some x -> in_step x.
Proof.
  intros k f x. unfold here; cbn [get]. destruct (1 =? k); [|discriminate]. intro E. injection E as <-. cbn. intro E. injection E as <-.
  split; [repeat constructor; auto|]. intros id b [E|[]]. injection E as <- <-. vm_compute. split; discriminate.
Qed.

(* names ahead of the records: the file is written from its start again *)
Definition ahead : list (N * folder) := [(1, mk_folder (Some (mk_conf 7 [] [0])) (Some [(3, [])]))].
Definition ahead_calls : list call := [Init 1 10; Open 10 1 50 None; Write 10; Write 10; Rotate 10; Write 10].
Lemma ahead_lost : exists w t, run (start ahead) ahead_calls = Ok (w, t) /\ careful t /\
  map snd t = [Done; Done; Done; Done; Done; Done] /\ wal_of w 1 = [(3, [3; 2])].
Proof.
  do 2 eexists. split; [vm_compute; reflexivity|]. split; [vm_compute; repeat split; eauto|]. split; vm_compute; reflexivity.
Qed.
