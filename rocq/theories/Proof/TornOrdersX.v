(* A checker for stops inside of texts; samples and counterexamples. *)
From Coq Require Import NArith ZArith String List Bool Sorted Lia Arith.
Import ListNotations.
From Verif Require Import Model.Base Model.Data Model.Json Model.Uuid Model.Show Model.Lex Model.Parse Spec.Units Spec.Command Proof.ParseT Proof.ParseL Proof.ParseX.
From Verif Require Import Model.Event Model.Rbtree Model.Memtable Model.Mapping Model.Merge
  Model.PartIter Model.Scan Model.Codec Model.File Model.Wal Model.Engine
  Spec.Order Spec.Codecs Spec.Layout Spec.Regions Spec.View Spec.Engine Spec.FileLimits
  Proof.FileP Proof.EngineX Proof.CrashX Proof.DropsX Proof.OrdersX Proof.WholeX Proof.WholeDropsX Proof.WholeOrdersT Proof.WholeOrdersX Proof.TornDropsX.
From Verif Require Import Model.Crash Model.Orders Spec.Crash Spec.Drops Spec.Orders Model.Whole Spec.Whole Model.WholeDrops Spec.WholeDrops
  Model.WholeOrders Spec.WholeOrders Model.TornDrops Spec.TornDrops Model.TornOrders Spec.TornOrders.
Local Open Scope N_scope.

Notation efb := (eop_fineb tagged un1 tagged un2 src0 true).
Definition inside_fineb (lo : N) (R : list range) (w : whole) (a : option bact) (k : nat) (cuts : list nat) (ids : list N) : bool :=
  match a with
  | Some (BDo (EDrop id)) =>
      if (29 <=? k)%nat then ehist_fineb tagged un1 tagged un2 src0 true lo R w [EDrop id; EStop [] ids]
      else efb lo R w (EStop [] ids) && drop_stop_fineb lo R w id && log_roomb w 29 && ((k =? 0)%nat || drops_lastb w)
  | Some (BDo (EDo (WStep ref _))) => efb lo R w (EStop cuts ids) && efb lo R (begun w ref) (EStop cuts ids)
  | _ => efb lo R w (EStop cuts ids)
  end%bool.
Notation fine_in := (inside_fine tagged un1 tagged un2 src0 true).
Lemma inside_fineb_ok lo R w a k cuts ids : inside_fineb lo R w a k cuts ids = true -> fine_in lo R w a k cuts ids.
Proof.
  unfold inside_fineb, inside_fine. destruct a as [[[[]| |]|]|]; intros H; try (apply eop_fineb_ok; exact H).
  - apply andb_true_iff in H as [H1 H2]. split; apply eop_fineb_ok; auto.
  - destruct (29 <=? k)%nat eqn:K.
    + apply Nat.leb_le in K. split; [intros _; apply ehist_fineb_ok; auto|intros X; lia].
    + apply Nat.leb_gt in K. split; [intros X; lia|]. intros _.
      repeat match goal with H : (_ && _)%bool = true |- _ => apply andb_true_iff in H as [H ?] end.
      split; [apply eop_fineb_ok; auto|]. split; [apply drop_stop_fineb_ok; auto|]. split; [apply log_roomb_ok; auto|].
      match goal with H : (_ || _)%bool = true |- _ => apply orb_true_iff in H as [H|H] end.
      * left. apply Nat.eqb_eq. auto.
      * right. apply drops_lastb_ok. auto.
Qed.

Notation stopped0 := (bstopped tagged un1 tagged un2 src0 true called no_reals an_env).
Notation next0 := (next_act tagged un1 tagged un2 src0 true called no_reals an_env).
Definition text0 (l : list top) (text : list byte) (n k : nat) (cuts : list nat) (ids : list N) : res whole :=
  bind (trun0 w0 l) (fun w => stop_text tagged un1 tagged un2 src0 true called no_reals an_env xs w text n k cuts ids).
(* the database at the n-th thing of a text *)
Definition middle (text : list byte) (n : nat) : whole := match stopped0 (tstate spring) xs text n with Ok w => w | _ => w0 end.
Lemma middle_ok text n : match stopped0 (tstate spring) xs text n with Ok _ => true | _ => false end = true ->
  stopped0 (tstate spring) xs text n = Ok (middle text n).
Proof. unfold middle. destruct (stopped0 _ _ _ _); intros H; auto; discriminate H. Qed.

(* inside of the second DROP of DROP PARTITIONS BETWEEN 10 AND 29, and of the new file of a MOVE *)
Definition what_next (text : list byte) (n : nat) : option (bool * N) :=
  match next0 (tstate spring) xs text n with
  | Some (BDo (EDrop id)) => Some (true, id)
  | Some (BDo (EDo (WStep ref _))) => Some (writing (middle text n) ref, ref)
  | _ => None
  end.
Lemma spring_inside :
  stopped0 (tstate spring) xs drop_text 1 = Ok (middle drop_text 1) /\
  fine_in 0 (missed (tstate spring) (middle drop_text 1) ++ spring_lost) (middle drop_text 1) (next0 (tstate spring) xs drop_text 1) 10 [] [3; 1] /\
  fine_in 0 (missed (tstate spring) (middle drop_text 1) ++ spring_lost) (middle drop_text 1) (next0 (tstate spring) xs drop_text 1) 29 [] [3; 1] /\
  what_next drop_text 1 = Some (true, 20) /\
  stopped0 (tstate spring) xs move_text 2 = Ok (middle move_text 2) /\
  fine_in 0 (missed (tstate spring) (middle move_text 2) ++ spring_lost) (middle move_text 2) (next0 (tstate spring) xs move_text 2) 50 [1%nat] [1; 3] /\
  what_next move_text 2 = Some (true, 20).
Proof.
  split; [apply middle_ok; vm_compute; reflexivity|]. split; [apply inside_fineb_ok; vm_compute; reflexivity|].
  split; [apply inside_fineb_ok; vm_compute; reflexivity|]. split; [vm_compute; reflexivity|].
  split; [apply middle_ok; vm_compute; reflexivity|]. split; [apply inside_fineb_ok; vm_compute; reflexivity|vm_compute; reflexivity].
Qed.
Lemma spring_batch : treach0 0 spring_lost (tstate spring) (tacked0 w0 spring []) /\
  eop_fine tagged un1 tagged un2 src0 true 0 spring_lost (tstate spring) (EDo (WWrite [put_ev 16 7] [] None)) /\
  eop_fine tagged un1 tagged un2 src0 true 0 spring_lost (tstate spring) (EStop [] [3; 1]) /\
  log_room (tstate spring) (length (the_record true (tstate spring) [put_ev 16 7] [])) /\
  (30 < length (the_record true (tstate spring) [put_ev 16 7] []))%nat /\ drops_last true (tstate spring).
Proof.
  split; [exact spring_reach|]. split; [apply eop_fineb_ok; vm_compute; reflexivity|]. split; [apply eop_fineb_ok; vm_compute; reflexivity|].
  split; [apply log_roomb_ok; vm_compute; reflexivity|]. split; [apply Nat.ltb_lt; vm_compute; reflexivity|].
  apply drops_lastb_ok; vm_compute; reflexivity.
Qed.
Lemma spring_shown :
  tscan spring = Ok (Some [mk_event 14 0 [] [2]; mk_event 15 0 [] [5]; mk_event 25 0 [] [3]; mk_event 36 0 [] [4]; mk_event 61 0 [] [6]]) /\
  seen (text0 spring drop_text 1 10 [] [3; 1]) = Ok (Some [mk_event 25 0 [] [3]; mk_event 36 0 [] [4]; mk_event 61 0 [] [6]]) /\
  seen (text0 spring drop_text 1 29 [] [3; 1]) = Ok (Some [mk_event 36 0 [] [4]; mk_event 61 0 [] [6]]) /\
  seen (text0 spring move_text 2 50 [1%nat] [1; 3]) = tscan spring.
Proof. repeat split; vm_compute; reflexivity. Qed.
(* with all of the second record the database opens again and again, with a part of it only once *)
Lemma spring_once :
  seen (text0 spring drop_text 1 10 [] [3; 1]) = Ok (Some [mk_event 25 0 [] [3]; mk_event 36 0 [] [4]; mk_event 61 0 [] [6]]) /\
  after (text0 spring drop_text 1 10 [] [3; 1]) [EStop [] [3; 1]] = Err /\
  seen (after (text0 spring drop_text 1 29 [] [3; 1]) [EStop [] [3; 1]]) = Ok (Some [mk_event 36 0 [] [4]; mk_event 61 0 [] [6]]).
Proof. repeat split; vm_compute; reflexivity. Qed.
