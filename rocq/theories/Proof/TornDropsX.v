(* Samples of stops inside of records, of drops and of new files, and counterexamples. *)
From Coq Require Import NArith ZArith List Bool Lia Arith Permutation Sorted.
Import ListNotations.
From Verif Require Import Model.Base Model.Rbtree Model.Event Model.Memtable Model.Mapping Model.PartIter Model.Merge Model.Scan Model.Codec
  Model.File Model.Wal Model.Engine Spec.Order Spec.Checksum Spec.Codecs Spec.Layout Spec.Regions Spec.Files
  Spec.View Spec.Engine Spec.Log Spec.FileLimits
  Proof.FileP Proof.EngineX Proof.CrashX Proof.DropsX Proof.WholeX Proof.WholeDropsT Proof.WholeDropsX.
From Verif Require Import Model.Crash Spec.Crash Spec.Drops Model.Whole Spec.Whole Model.WholeDrops Spec.WholeDrops
  Model.TornDrops Spec.TornDrops.
Local Open Scope N_scope.

Definition drops_lastb (w : whole) : bool :=
  forallb (fun f => (fst f =? wal_id_max (wl_list (wh_wal w))) || negb (existsb is_drop (fst (wal_read true [f] [fst f]))))%bool
    (wl_files (wh_wal w)).
Definition log_roomb (w : whole) (k : nat) : bool :=
  forallb (fun f => N.of_nat (length (snd f) + k) + 21 <? 2 ^ 32) (wl_files (wh_wal w)).
Definition drop_stop_fineb (lo : N) (R : list range) (w : whole) (id : N) : bool :=
  (dop_fineb lo R (eread un1 un2 true w) (CDrop id) &&
   match part_slice (en_map (wh_en w)) id with
   | Some s => forallb (fun j => negb (jb_ref j =? s_min s)) (wh_jobs w) &&
       drestart_fineb lo (eread un1 un2 true w) (dir_content un1 un2 (without w s)) (db_log (eread un1 un2 true w))
   | None => true
   end)%bool.
Lemma drops_lastb_ok w : drops_lastb w = true -> drops_last true w.
Proof.
  unfold drops_lastb, drops_last. rewrite forallb_forall, Forall_forall. intros H x Hx. specialize (H x Hx).
  apply orb_true_iff in H as [H|H]; [left; apply N.eqb_eq; auto|right; apply negb_true_iff; auto].
Qed.
Lemma log_roomb_ok w k : log_roomb w k = true -> log_room w k.
Proof. unfold log_roomb, log_room. rewrite forallb_forall, Forall_forall. intros H x Hx. apply N.ltb_lt. apply H. auto. Qed.
Lemma drop_stop_fineb_ok lo R w id : drop_stop_fineb lo R w id = true -> drop_stop_fine un1 un2 true lo R w id.
Proof.
  unfold drop_stop_fineb, drop_stop_fine. intros H. apply andb_true_iff in H as [H1 H2]. split; [apply dop_fineb_ok; auto|].
  intros s E. rewrite E in H2. apply andb_true_iff in H2 as [H2 H3]. split; [|apply drestart_fineb_ok; auto].
  rewrite Forall_forall. rewrite forallb_forall in H2. intros j Hj. apply N.eqb_neq. apply negb_true_iff. auto.
Qed.

(* what is seen *)
Definition seen (r : res whole) : res (option (list event)) := bind r (fun w => monotone_scan 50 (en_map (wh_en w)) None).
Definition after (r : res whole) (l : list eop) : res whole := bind r (fun w => erun0 w l).
Definition batch0 (l : list eop) (b : list warg) (n : nat) (ids : list N) : res whole :=
  bind (erun0 w0 l) (fun w => stop_batch un1 un2 true w b [] n ids).
Definition drop0 (l : list eop) (id : N) (n : nat) (ids : list N) : res whole :=
  bind (erun0 w0 l) (fun w => stop_drop un1 un2 true w id n ids).
Definition file0 (l : list eop) (ref : N) (n : nat) (cuts : list nat) (ids : list N) : res whole :=
  bind (erun0 w0 l) (fun w => stop_file tagged un1 tagged un2 src0 true w ref ex0 n cuts ids).

(* a log of two files with a drop in the last one, and a refresh on the way *)
Definition etorn : list eop :=
  [ew [put_ev 3 1; put_ev 14 2]; EDo (WRotate 0); EDo (WBegin 14 (Some 1))] ++ esteps 10 6 ++
  [EDrop 3; ew [put_ev 25 3; put_ev 15 4]; EDo (WBegin 25 None); EDo (WStep 20 ex0)].
Definition etorn_seen : list event := [mk_event 14 0 [] [2]; mk_event 15 0 [] [4]; mk_event 25 0 [] [3]].
Lemma etorn_reach : ereachable tagged un1 tagged un2 src0 true 0 [(0, 9)] (estate etorn)
  [mk_event 14 0 [] [2]; mk_event 25 0 [] [3]; mk_event 15 0 [] [4]].
Proof.
  replace [(0, 9)] with (egone0 [] w0 etorn) by (vm_compute; reflexivity).
  replace [mk_event 14 0 [] [2]; mk_event 25 0 [] [3]; mk_event 15 0 [] [4]] with (eacked0 w0 etorn []) by (vm_compute; reflexivity).
  apply estate_reach; vm_compute; reflexivity.
Qed.
Lemma etorn_batch :
  eop_fine tagged un1 tagged un2 src0 true 0 [(0, 9)] (estate etorn) (EDo (WWrite [put_ev 16 7] [] None)) /\
  eop_fine tagged un1 tagged un2 src0 true 0 [(0, 9)] (estate etorn) (EStop [] [2; 1]) /\
  log_room (estate etorn) (length (the_record true (estate etorn) [put_ev 16 7] [])) /\
  (30 < length (the_record true (estate etorn) [put_ev 16 7] []))%nat /\ drops_last true (estate etorn) /\
  seen (batch0 etorn [put_ev 16 7] 30 [2; 1]) = Ok (Some etorn_seen).
Proof.
  split; [apply eop_fineb_ok; vm_compute; reflexivity|]. split; [apply eop_fineb_ok; vm_compute; reflexivity|].
  split; [apply log_roomb_ok; vm_compute; reflexivity|]. split; [apply Nat.ltb_lt; vm_compute; reflexivity|].
  split; [apply drops_lastb_ok; vm_compute; reflexivity|vm_compute; reflexivity].
Qed.
Lemma etorn_after :
  efine0 0 [(0, 9)] (estate etorn) [EDo (WWrite [put_ev 16 7] [] None); EStop [] [2; 1]] /\
  (length (the_record true (estate etorn) [put_ev 16 7] []) <= 50)%nat /\
  seen (batch0 etorn [put_ev 16 7] 50 [2; 1]) =
    Ok (Some [mk_event 14 0 [] [2]; mk_event 15 0 [] [4]; mk_event 16 0 [] [7]; mk_event 25 0 [] [3]]).
Proof.
  split; [apply ehist_fineb_ok; vm_compute; reflexivity|]. split; [apply Nat.leb_le; vm_compute; reflexivity|vm_compute; reflexivity].
Qed.
Lemma etorn_drop :
  drop_stop_fine un1 un2 true 0 [(0, 9)] (estate etorn) 14 /\ elog_fine true (estate etorn) [2; 1] /\
  log_room (estate etorn) 29 /\ drops_last true (estate etorn) /\ part_slice (en_map (wh_en (estate etorn))) 14 <> None /\
  seen (drop0 etorn 14 10 [2; 1]) = Ok (Some etorn_seen).
Proof.
  split; [apply drop_stop_fineb_ok; vm_compute; reflexivity|]. split; [apply elog_fineb_ok; vm_compute; reflexivity|].
  split; [apply log_roomb_ok; vm_compute; reflexivity|]. split; [apply drops_lastb_ok; vm_compute; reflexivity|].
  split; [|vm_compute; reflexivity]. intros E.
  assert (X : match part_slice (en_map (wh_en (estate etorn))) 14 with Some _ => true | None => false end = true) by (vm_compute; reflexivity).
  rewrite E in X. discriminate X.
Qed.
Lemma etorn_dropped : efine0 0 [(0, 9)] (estate etorn) [EDrop 14; EStop [] [2; 1]] /\
  match estep tagged un1 tagged un2 src0 true (estate etorn) (EDrop 14) with Ok _ => true | _ => false end = true /\
  seen (drop0 etorn 14 29 [2; 1]) = Ok (Some [mk_event 25 0 [] [3]]).
Proof. split; [apply ehist_fineb_ok; vm_compute; reflexivity|]. split; vm_compute; reflexivity. Qed.
Lemma etorn_file : map (fun j => (jb_ref j, jb_stage j)) (wh_jobs (estate etorn)) = [(20, 1%nat)] /\
  eop_fine tagged un1 tagged un2 src0 true 0 [(0, 9)] (begun (estate etorn) 20) (EStop [1%nat] [2; 1]) /\
  seen (file0 etorn 20 10 [1%nat] [2; 1]) = Ok (Some etorn_seen).
Proof. split; [vm_compute; reflexivity|]. split; [apply eop_fineb_ok; vm_compute; reflexivity|vm_compute; reflexivity]. Qed.

(* a part of a record is in the last file of the log and a drop in an earlier one *)
Definition two_files : list eop := [ew [put_ev 1 1; put_ev 11 1]; EDrop 1; EDo (WRotate 0)].
Lemma two_files_fail : efineb0 0 [] w0 two_files = true /\ seen (erun0 w0 two_files) = Ok (Some [mk_event 11 0 [] [1]]) /\
  batch0 two_files [put_ev 12 7] 10 [1; 3] = Err /\
  seen (batch0 two_files [put_ev 12 7] 0 [1; 3]) = Ok (Some [mk_event 11 0 [] [1]]).
Proof. repeat split; vm_compute; reflexivity. Qed.
(* the drop is in the same file: the first start adds its record after the part, and the next one fails *)
Definition one_file : list eop := [ew [put_ev 1 1; put_ev 11 1]; EDrop 1].
Lemma one_file_fails : efineb0 0 [] w0 one_file = true /\
  seen (batch0 one_file [put_ev 12 7] 10 [1]) = Ok (Some [mk_event 11 0 [] [1]]) /\
  after (batch0 one_file [put_ev 12 7] 10 [1]) [EStop [] [1]] = Err /\
  after (drop0 one_file 11 10 [1]) [EStop [] [1]] = Err.
Proof. repeat split; vm_compute; reflexivity. Qed.
(* a drop that is stopped before its record is written: a part of what the partition had is gone *)
Definition half : list eop :=
  [ew [put_ev 1 1; put_ev 2 2]; EDo (WRotate 0); EDo (WBegin 1 None)] ++ esteps 0 6 ++ [EDo WGc; ew [put_ev 2 3]].
Lemma half_dropped : efineb0 0 [] w0 half = true /\
  seen (erun0 w0 half) = Ok (Some [mk_event 1 0 [] [1]; mk_event 2 0 [] [3]]) /\
  seen (drop0 half 1 0 [2]) = Ok (Some [mk_event 2 0 [] [3]]) /\
  seen (after (drop0 half 1 0 [2]) [EStop [] [2]]) = Ok (Some [mk_event 2 0 [] [3]]) /\
  seen (drop0 half 1 29 [2]) = Ok (Some []).
Proof. repeat split; vm_compute; reflexivity. Qed.
