(* Examples and counterexamples for cursors over regions that cannot be read. *)
From Coq Require Import NArith ZArith List Bool Sorted Lia Arith.
Import ListNotations.
From Verif Require Import Model.Base Model.Event Model.Memtable Model.Mapping Model.Merge Model.PartIter
  Model.Scan Model.Faulty Model.Engine Spec.Order Spec.Merged Spec.Files Spec.View Spec.Engine Spec.Faulty
  Proof.PartIterL Proof.EngineX.
Local Open Scope N_scope.

(* three partitions, two with files of one event a region and something in the memtable *)
Definition en_f : engine := engine_new 10 false 1000 20.
Definition f_ops : list eop :=
  [EWrite (map (fun i => put_ev i i) [5; 7; 8]) true; ERefresh 5 false;
   EWrite [put_ev 5 50; put_ev 9 90; put_ev 15 1; put_ev 16 1] true; ERefresh 15 false;
   EWrite [put_ev 17 2; put_ev 25 3] true].
Definition f_en : engine := Eval vm_compute in match erun en_f f_ops with Ok en => en | _ => en_f end.
Definition fe (i v : N) : event := mk_event i 0 [] [v].

(* the region nr of the partition from mn *)
Definition one (mn : N) (nr : nat) (a : N) (i : nat) : bool := (a =? mn) && (i =? nr)%nat.

Lemma f_fine : limits 0 10 /\ hist_fine 0 en_f f_ops /\ erun en_f f_ops = Ok f_en.
Proof.
  split; [split; [vm_compute; discriminate|split; vm_compute; [reflexivity|discriminate]]|].
  split; [apply hist_fineb_ok; vm_compute; reflexivity|vm_compute; reflexivity].
Qed.
Lemma f_start : start_ok 0 f_en None /\ start_ok 0 f_en (Some (mk_event 7 0 [] [])).
Proof.
  split; [vm_compute; reflexivity|]. split; [apply ev_okb_ok; vm_compute; reflexivity|].
  split; [split; vm_compute; [discriminate|reflexivity]|].
  intros p _. apply past_keys_keyless. reflexivity.
Qed.
Lemma f_scan :
  fscan (one 0 1) 60 (en_map f_en) None = Ok (Some (Some
    [Saw (fe 5 50); Failed; Saw (fe 8 8); Saw (fe 9 90); Saw (fe 15 1); Saw (fe 16 1); Saw (fe 17 2); Saw (fe 25 3)])) /\
  fscan (one 10 0) 60 (en_map f_en) None = Ok (Some (Some
    [Saw (fe 5 50); Saw (fe 7 7); Saw (fe 8 8); Saw (fe 9 90); Failed; Saw (fe 17 2); Saw (fe 25 3)])) /\
  fscan (one 0 0) 60 (en_map f_en) None = Ok (Some None) /\
  fscan (one 0 0) 60 (en_map f_en) (Some (mk_event 7 0 [] [])) = Ok (Some (Some
    [Saw (fe 7 7); Saw (fe 8 8); Saw (fe 9 90); Saw (fe 15 1); Saw (fe 16 1); Saw (fe 17 2); Saw (fe 25 3)])).
Proof. split; [|split; [|split]]; vm_compute; reflexivity. Qed.

Definition f_current (e : event) : Prop := current (acked en_f f_ops []) e.

(* the error is told once; asked again, with every region readable again, the cursor goes on after the region *)
Lemma f_lost : exists c c' tr e,
  fmonotone_cursor (one 0 1) 60 (en_map f_en) None = Ok (Some (Some c)) /\ fmonotone_read c = Some (fe 5 50) /\
  fmonotone_next (one 0 1) 60 (en_map f_en) c = Ok (Some (c', (-1)%Z)) /\
  fread (fun _ _ => false) 60 60 (en_map f_en) c' = Ok (Some tr) /\ ~ In Failed tr /\ length tr = 6%nat /\
  f_current e /\ ev_lt (fe 5 50) e /\ ~ In e (saw tr).
Proof.
  eexists _, _, _, (fe 7 7). split; [vm_compute; reflexivity|]. split; [vm_compute; reflexivity|].
  split; [vm_compute; reflexivity|]. split; [vm_compute; reflexivity|].
  split; [cbn; intuition discriminate|]. split; [reflexivity|].
  split; [split; vm_compute; reflexivity|]. split; [vm_compute; reflexivity|]. cbn. intuition discriminate.
Qed.

(* one region that cannot be read when the next partition is opened hides the whole file from then on *)
Lemma f_file : exists c c' tr e,
  fmonotone_cursor (one 10 0) 60 (en_map f_en) (Some (mk_event 9 0 [] [])) = Ok (Some (Some c)) /\
  fmonotone_read c = Some (fe 9 90) /\
  fmonotone_next (one 10 0) 60 (en_map f_en) c = Ok (Some (c', (-1)%Z)) /\
  fread (fun _ _ => false) 60 60 (en_map f_en) c' = Ok (Some tr) /\ tr = [Saw (fe 17 2); Saw (fe 25 3)] /\
  f_current e /\ ev_lt (fe 9 90) e /\ ~ In e (saw tr) /\
  (exists s f, In s (mapping_list (en_map f_en)) /\ s_min s = 10 /\ pt_file (s_data s) = Some f /\
     exists r, nth_error f 1 = Some r /\ In e r).
Proof.
  eexists _, _, _, (fe 16 1). split; [vm_compute; reflexivity|]. split; [vm_compute; reflexivity|].
  split; [vm_compute; reflexivity|]. split; [vm_compute; reflexivity|].
  split; [reflexivity|]. split; [split; vm_compute; reflexivity|]. split; [vm_compute; reflexivity|].
  split; [cbn; intuition discriminate|].
  eexists _, _. split; [vm_compute; right; left; reflexivity|]. split; [reflexivity|]. split; [reflexivity|].
  eexists. split; [reflexivity|]. left. reflexivity.
Qed.

(* monotone_read after the error: an event ahead of the next one, or none though events follow *)
Lemma f_reread : exists c c' c'',
  fmonotone_cursor (one 0 1) 60 (en_map f_en) None = Ok (Some (Some c)) /\
  fmonotone_next (one 0 1) 60 (en_map f_en) c = Ok (Some (c', (-1)%Z)) /\ fmonotone_read c' = Some (fe 9 90) /\
  fmonotone_next (one 0 1) 60 (en_map f_en) c' = Ok (Some (c'', 1%Z)) /\ fmonotone_read c'' = Some (fe 8 8).
Proof.
  eexists _, _, _. split; [vm_compute; reflexivity|]. split; [vm_compute; reflexivity|].
  split; [vm_compute; reflexivity|]. split; vm_compute; reflexivity.
Qed.
Lemma f_end : exists c c' c'',
  fmonotone_cursor (one 10 1) 60 (en_map f_en) (Some (mk_event 15 0 [] [])) = Ok (Some (Some c)) /\
  fmonotone_next (one 10 1) 60 (en_map f_en) c = Ok (Some (c', (-1)%Z)) /\ fmonotone_read c' = None /\
  fmonotone_next (one 10 1) 60 (en_map f_en) c' = Ok (Some (c'', 1%Z)) /\ fmonotone_read c'' = Some (fe 17 2).
Proof.
  eexists _, _, _. split; [vm_compute; reflexivity|]. split; [vm_compute; reflexivity|].
  split; [vm_compute; reflexivity|]. split; vm_compute; reflexivity.
Qed.
