(* A checker for the limits of histories with DROP of a database with bytes; examples and counterexamples. *)
From Coq Require Import NArith ZArith List Bool Lia Arith Permutation Sorted.
Import ListNotations.
From Verif Require Import Model.Base Model.Rbtree Model.Event Model.Memtable Model.Mapping Model.PartIter Model.Merge Model.Scan Model.Codec
  Model.File Model.Wal Model.Engine Spec.Order Spec.Checksum Spec.Codecs Spec.Layout Spec.Regions Spec.Files
  Spec.View Spec.Engine Spec.Log Spec.FileLimits
  Proof.FileP Proof.EngineX Proof.CrashX Proof.DropsX Proof.WholeX Proof.WholeDropsT.
From Verif Require Import Model.Crash Spec.Crash Spec.Drops Model.Whole Spec.Whole Model.WholeDrops Spec.WholeDrops.
Local Arguments N.pow : simpl never.
Local Arguments N.add : simpl never.

Section Check.
Variable compress : N -> nat -> list byte -> list byte.
Variable decompress : N -> list byte -> N -> res (list byte).
Variable encrypt : N -> nat -> list byte -> list byte.
Variable decrypt : N -> list byte -> res (list byte).
Variable src : source.
Variable wal_crc : bool.
Let step := estep compress decompress encrypt decrypt src wal_crc.
Notation rd := (eread decompress decrypt wal_crc).

Definition rotate_fineb (w : whole) (wm : N) : bool :=
  (negb (wal_rotate_ready (wh_wal w) wm) ||
   (forallb (fun f => (N.of_nat (length (snd f)) + 21 <? 2 ^ 32)%N) (wl_files (wh_wal w)) &&
    forallb (fun i => (i <=? en_lsn (wh_en w))%N) (wl_list (wh_wal w)) &&
    forallb (fun r => (logged_lsn r <=? en_lsn (wh_en w))%N) (log_read wal_crc w)))%bool.
Definition elog_fineb (w : whole) (ids : list N) : bool :=
  (permb ids (wl_list (wh_wal w)) &&
   forallb (fun f => N.of_nat (length (snd f)) + 29 * N.of_nat (length (filter is_drop (log_read wal_crc w))) + 21 <? 2 ^ 32)%N
     (wl_files (wh_wal w)))%bool.
Definition eop_fineb (lo : N) (R : list range) (w : whole) (o : eop) : bool :=
  match o with
  | EDo (WWrite l m fail) =>
      (roomyb w && dop_fineb lo R (rd w) (CWrite l true) && record_fineb w l m && match fail with None => true | _ => false end)%bool
  | EDo (WBegin id to) => dop_fineb lo R (rd w) (CBegin id to)
  | EDo (WStep ref x) =>
      (dop_fineb lo R (rd w) (CStep ref) &&
       match find (fun j => (jb_ref j =? ref)%N) (wh_jobs w) with
       | Some j => negb (jb_stage j =? 1)%nat || new_fineb compress encrypt src w ref x
       | None => true
       end)%bool
  | EDo (WFail ref) => dop_fineb lo R (rd w) (CFail ref)
  | EDo (WRotate wm) => (roomyb w && rotate_fineb w wm)%bool
  | EDo WGc => dop_fineb lo R (rd w) (CGc 0)
  | EDo (WCreate mn mx) => dop_fineb lo R (rd w) (CCreate mn mx)
  | EDo _ => false
  | EDrop id => (roomyb w && dop_fineb lo R (rd w) (CDrop id))%bool
  | EStop cuts ids => (elog_fineb w ids && dop_fineb lo R (rd w) (CCrash cuts))%bool
  end.
Fixpoint ehist_fineb (lo : N) (R : list range) (w : whole) (l : list eop) : bool :=
  match l with
  | [] => true
  | o :: t =>
      (eop_fineb lo R w o &&
       match step w o with
       | Ok w' => ehist_fineb lo (edropped w o ++ R) w' t
       | _ => ehist_fineb lo R w t
       end)%bool
  end.

Ltac ands := repeat match goal with H : (_ && _)%bool = true |- _ => apply andb_true_iff in H as [H ?] end.
Lemma rotate_fineb_ok w wm : rotate_fineb w wm = true -> rotate_fine wal_crc w wm.
Proof.
  unfold rotate_fineb, rotate_fine. intros H G. rewrite G in H. cbn [negb orb] in H. ands.
  rewrite forallb_forall in H, H0, H1. split; [|split]; apply Forall_forall; intros x Hx.
  - apply N.ltb_lt. apply (H x Hx).
  - apply N.leb_le. apply (H1 x Hx).
  - apply N.leb_le. apply (H0 x Hx).
Qed.
Lemma elog_fineb_ok w ids : elog_fineb w ids = true -> elog_fine wal_crc w ids.
Proof.
  unfold elog_fineb, elog_fine. intros H. ands. split; [apply permb_ok; auto|].
  apply Forall_forall. intros y Hy. rewrite forallb_forall in H0. apply N.ltb_lt. apply (H0 y Hy).
Qed.
Lemma eop_fineb_ok lo R w o : eop_fineb lo R w o = true -> eop_fine compress decompress encrypt decrypt src wal_crc lo R w o.
Proof.
  destruct o as [[]| |]; cbn [eop_fineb eop_fine]; intros H; try discriminate H; try (apply dop_fineb_ok; exact H).
  - ands. split; [apply roomyb_ok; auto|]. split; [apply dop_fineb_ok; auto|].
    split; [apply record_fineb_ok; auto|]. destruct fail; [discriminate|auto].
  - ands. split; [apply dop_fineb_ok; auto|]. intros j E S. rewrite E, S in H0. cbn [Nat.eqb negb orb] in H0. apply new_fineb_ok; auto.
  - ands. split; [apply roomyb_ok; auto|]. apply rotate_fineb_ok; auto.
  - ands. split; [apply roomyb_ok; auto|]. apply dop_fineb_ok; auto.
  - ands. split; [apply elog_fineb_ok; auto|]. apply dop_fineb_ok; auto.
Qed.
Lemma ehist_fineb_ok lo : forall l R w, ehist_fineb lo R w l = true ->
  ehist_fine compress decompress encrypt decrypt src wal_crc lo R w l.
Proof.
  induction l as [|o l IH]; intros R w H; cbn [ehist_fineb ehist_fine] in *; auto. ands.
  split; [apply eop_fineb_ok; auto|]. fold step. destruct (step w o); auto.
Qed.
End Check.

(* --- samples --- *)
Local Open Scope N_scope.
Notation erun0 := (erun tagged un1 tagged un2 src0 true).
Notation efineb0 := (ehist_fineb tagged un1 tagged un2 src0 true).
Notation efine0 := (ehist_fine tagged un1 tagged un2 src0 true).
Notation eacked0 := (eacked tagged un1 tagged un2 src0 true).
Notation egone0 := (all_gone tagged un1 tagged un2 src0 true).
Definition escan (l : list eop) : res (option (list event)) :=
  bind (erun0 w0 l) (fun w => monotone_scan 50 (en_map (wh_en w)) None).
Definition elog (l : list eop) : list (N * list logged) :=
  match erun0 w0 l with
  | Ok w => map (fun f => (fst f, fst (wal_read true [f] [fst f]))) (wl_files (wh_wal w))
  | _ => []
  end.
Definition ew (l : list warg) : eop := EDo (ww l).
Definition esteps (r : N) (n : nat) : list eop := map EDo (wsteps r n).
Definition estate (l : list eop) : whole := match erun0 w0 l with Ok w => w | _ => w0 end.
Lemma estate_reach l : efineb0 0 [] w0 l = true -> match erun0 w0 l with Ok _ => true | _ => false end = true ->
  ereachable tagged un1 tagged un2 src0 true 0 (egone0 [] w0 l) (estate l) (eacked0 w0 l []).
Proof.
  intros H1 H2. destruct w0_limits as (L & S & _). exists [0; 1], 10, false, 1000, l.
  split; auto. split; auto. split; [apply ehist_fineb_ok; exact H1|].
  split; auto. unfold estate. fold w0. destruct (erun0 w0 l); auto; discriminate.
Qed.

(* partitions with files, in memory and on the way are dropped; the log is rotated and collected, and the
   database stopped between *)
Definition eretain : list eop :=
  [ew [put_ev 3 1; put_ev 14 2]; EDo (WBegin 3 None)] ++ esteps 0 6 ++
  [ew [put_ev 25 3; put_ev 4 4]; EDo (WRotate 0); ew [put_ev 36 5]; EDrop 3; EDo (WBegin 14 (Some 1))] ++ esteps 10 6 ++
  [EStop [1%nat] [3; 1]; EDo WGc; EDrop 14; ew [put_ev 37 6; del_ev 25]; EDo (WBegin 25 None); EDrop 25] ++ esteps 20 3 ++
  [EStop [] [1; 3]; EDo (WCreate 50 59); EDo (WBegin 36 None)] ++ esteps 30 6 ++ [EDo (WBegin 25 None)] ++ esteps 20 6 ++
  [EDo (WRotate 0); EDrop 25; EDo WGc; EStop [] [7]; ew [put_ev 48 9]; EStop [1%nat] [7]].
Definition eretained : list event := [mk_event 36 0 [] [5]; mk_event 37 0 [] [6]; mk_event 48 0 [] [9]].
Lemma eretain_fine : (limits 0 10 /\ storages_ok [0; 1] /\ codecs_ok tagged un1 tagged un2 /\ settings_ok src0) /\
  efine0 0 [] w0 eretain /\ escan eretain = Ok (Some eretained) /\ egone0 [] w0 eretain = [(20, 29); (10, 19); (0, 9)].
Proof.
  split; [apply w0_limits|]. split; [apply ehist_fineb_ok; vm_compute; reflexivity|]. split; vm_compute; reflexivity.
Qed.
Definition ekept : list eop :=
  [ew [put_ev 3 1; put_ev 14 2]; EDo (WBegin 14 (Some 1))] ++ esteps 10 6 ++
  [EDrop 3; EDo (WRotate 0); ew [put_ev 25 3; put_ev 15 4]].
Lemma ekept_reach : ereachable tagged un1 tagged un2 src0 true 0 [(0, 9)] (estate ekept)
  [mk_event 14 0 [] [2]; mk_event 25 0 [] [3]; mk_event 15 0 [] [4]].
Proof.
  replace [(0, 9)] with (egone0 [] w0 ekept) by (vm_compute; reflexivity).
  replace [mk_event 14 0 [] [2]; mk_event 25 0 [] [3]; mk_event 15 0 [] [4]] with (eacked0 w0 ekept []) by (vm_compute; reflexivity).
  apply estate_reach; vm_compute; reflexivity.
Qed.
Definition three_stops : list eop := [EStop [1%nat] [3; 1]; EStop [] [1; 3]; EStop [0%nat] [3; 1]].
Lemma ekept_stops : efine0 0 [(0, 9)] (estate ekept) three_stops /\ Forall estop_op three_stops.
Proof. split; [apply ehist_fineb_ok; vm_compute; reflexivity|]. repeat constructor. Qed.
Lemma ekept_stop : eop_fine tagged un1 tagged un2 src0 true 0 [(0, 9)] (estate ekept) (EStop [1%nat] [3; 1]) /\
  length (filter is_drop (log_read true (estate ekept))) = 1%nat.
Proof. split; [apply eop_fineb_ok; vm_compute; reflexivity|vm_compute; reflexivity]. Qed.
Lemma ekept_drop : efine0 0 [(0, 9)] (estate ekept) (EDrop 14 :: three_stops) /\
  edropped (estate ekept) (EDrop 14) = [(10, 19)] /\
  escan (ekept ++ EDrop 14 :: three_stops) = Ok (Some [mk_event 25 0 [] [3]]).
Proof. split; [apply ehist_fineb_ok; vm_compute; reflexivity|]. split; vm_compute; reflexivity. Qed.

(* a drop of a partition that was the last in its file of the log, and a rotation after a start: the new file is
   the old one, written from its beginning *)
Definition drop_rotate : list eop :=
  [ew [put_ev 1 1]; EDo (WRotate 0); EDo (WBegin 1 None)] ++ esteps 0 6 ++
  [EDo WGc; EDrop 1; EStop [] [2]; ew [put_ev 11 2]; EDo (WRotate 0); ew [put_ev 12 3]].
Lemma drop_rotates :
  escan drop_rotate = Ok (Some [mk_event 11 0 [] [2]; mk_event 12 0 [] [3]]) /\
  elog (firstn 13 drop_rotate) = [(2, [Wal.LDrop 2 1; Wal.LWrite 1 [mk_event 11 0 [] [2]]])] /\
  elog drop_rotate = [(2, [Wal.LWrite 2 [mk_event 12 0 [] [3]]])] /\
  escan (drop_rotate ++ [EStop [] [2]]) = Err.
Proof. repeat split; vm_compute; reflexivity. Qed.
(* a dropped interval is used again after a rotation *)
Definition reuse : list eop := [ew [put_ev 1 1]; EDrop 1; EDo (WRotate 0); ew [put_ev 1 2]].
Lemma reuse_lost :
  escan reuse = Ok (Some [mk_event 1 0 [] [2]]) /\
  escan (reuse ++ [EStop [] [1; 3]]) = Ok (Some []) /\
  elog (reuse ++ [EStop [] [1; 3]]) =
    [(1, [Wal.LWrite 1 [mk_event 1 0 [] [1]]; Wal.LDrop 2 1]); (3, [Wal.LWrite 3 [mk_event 1 0 [] [2]]; Wal.LDrop 2 1; Wal.LDrop 4 1])].
Proof. repeat split; vm_compute; reflexivity. Qed.
