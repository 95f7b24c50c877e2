(* A checker for the limits of histories of texts over bytes; examples and counterexamples. *)
From Coq Require Import NArith ZArith String List Bool Sorted Lia Arith.
Import ListNotations.
From Verif Require Import Model.Base Model.Data Model.Json Model.Uuid Model.Show Model.Lex Model.Parse Spec.Units Spec.Command Proof.ParseT Proof.ParseL Proof.ParseX.
From Verif Require Import Model.Event Model.Rbtree Model.Memtable Model.Mapping Model.Merge
  Model.PartIter Model.Scan Model.Writer Model.Codec Model.File Model.Wal Model.Engine Spec.Order Spec.Codecs Spec.Merged Spec.Files
  Spec.Layout Spec.Regions Spec.View Spec.Engine Spec.FileLimits Spec.Log Proof.OrderL Proof.MemtableL Proof.EngineL Proof.EngineX
  Proof.FileP Proof.DirL Proof.CrashD Proof.CrashP Proof.CrashT Proof.CrashX Proof.DropsX Proof.OrdersX Proof.WholeX Proof.WholeDropsX.
From Verif Require Import Model.Crash Model.Orders Spec.Crash Spec.Drops Spec.Orders Model.Whole Spec.Whole Model.WholeDrops Spec.WholeDrops
  Model.WholeOrders Spec.WholeOrders.
Local Arguments N.pow : simpl never.
Local Arguments N.add : simpl never.
Local Arguments N.sub : simpl never.

Section CHECK.
Variable compress : N -> nat -> list byte -> list byte.
Variable decompress : N -> list byte -> N -> res (list byte).
Variable encrypt : N -> nat -> list byte -> list byte.
Variable decrypt : N -> list byte -> res (list byte).
Variable src : source.
Variable wal_crc : bool.
Variable names : list byte -> option N.
Variable strtod : list byte -> option (N * nat).
Variable e : env.
Let step := bstep compress decompress encrypt decrypt src wal_crc.
Notation rd := (eread decompress decrypt wal_crc).
Notation tstep := (tstep compress decompress encrypt decrypt src wal_crc names strtod e).
Notation bstopped := (bstopped compress decompress encrypt decrypt src wal_crc names strtod e).
Notation tlost := (tlost compress decompress encrypt decrypt src wal_crc names strtod e).

Definition act_fineb (w : whole) (a : bact) : bool :=
  match a with
  | BDo (EDo (WStep ref x)) =>
      match find (fun j => (jb_ref j =? ref)%N) (wh_jobs w) with
      | Some j => negb (jb_stage j =? 1)%nat || new_fineb compress encrypt src w ref x
      | None => true
      end
  | BDo (EDrop _) => roomyb w
  | _ => true
  end.
Fixpoint acts_fineb (x : N -> extra) (w : whole) (l : list act) : bool :=
  match l with
  | [] => true
  | a :: t =>
      match as_bytes x a with
      | Some a => act_fineb w a && match step w a with Ok w' => acts_fineb x w' t | _ => true end
      | None => true
      end
  end.
Definition shortb (w : whole) : bool := forallb (fun f => (N.of_nat (List.length (snd f)) + 21 <? 2 ^ 32)%N) (wl_files (wh_wal w)).
Definition btext_fineb (lo : N) (R : list range) (w : whole) (x : N -> extra) (text : list byte) : bool :=
  (shortb w && text_fineb names strtod e lo R (rd w) text &&
   match tell names strtod e (rd w) text with Ok r => acts_fineb x w (rp_acts r) | _ => true end)%bool.
Definition top_fineb (lo : N) (R : list range) (w : whole) (h : top) : bool :=
  match h with
  | TSay x text => btext_fineb lo R w x text
  | TStop x text n cuts ids => (btext_fineb lo R w x text &&
      match bstopped w x text n with
      | Ok w' => eop_fineb compress decompress encrypt decrypt src wal_crc lo (missed w w' ++ R) w' (EStop cuts ids)
      | _ => true
      end)%bool
  | TElse o => eop_fineb compress decompress encrypt decrypt src wal_crc lo R w o
  end.
Fixpoint thist_fineb (lo : N) (R : list range) (w : whole) (l : list top) : bool :=
  match l with
  | [] => true
  | h :: t => (top_fineb lo R w h && match tstep w h with Ok w' => thist_fineb lo (tlost w h ++ R) w' t | _ => true end)%bool
  end.

Ltac ands := repeat match goal with H : (_ && _)%bool = true |- _ => apply andb_true_iff in H as [H ?] end.
Lemma act_fineb_ok w a : act_fineb w a = true -> act_fine compress encrypt src w a.
Proof.
  destruct a as [[[]| |]|]; cbn [act_fineb act_fine]; intros H; auto.
  - intros j E S. rewrite E, S in H. cbn [Nat.eqb negb orb] in H. apply new_fineb_ok; auto.
  - apply roomyb_ok; auto.
Qed.
Lemma acts_fineb_ok x : forall l w, acts_fineb x w l = true -> acts_fine compress decompress encrypt decrypt src wal_crc x w l.
Proof.
  induction l as [|a l IH]; intros w H; cbn [acts_fineb acts_fine] in *; auto.
  destruct (as_bytes x a) as [ba|]; auto. ands. split; [apply act_fineb_ok; auto|]. fold step. destruct (step w ba); auto.
Qed.
Lemma shortb_ok w : shortb w = true -> files_short (wh_wal w).
Proof.
  unfold shortb, files_short. rewrite forallb_forall. intros H. apply Forall_forall. intros y Hy. apply N.ltb_lt. apply (H y Hy).
Qed.
Lemma btext_fineb_ok lo R w x text : btext_fineb lo R w x text = true ->
  btext_fine compress decompress encrypt decrypt src wal_crc names strtod e lo R w x text.
Proof.
  unfold btext_fineb. intros H. ands. split; [apply shortb_ok; auto|]. split; [apply text_fineb_ok; auto|].
  intros r E. rewrite E in H0. apply acts_fineb_ok; auto.
Qed.
Lemma top_fineb_ok lo R w h : top_fineb lo R w h = true -> top_fine compress decompress encrypt decrypt src wal_crc names strtod e lo R w h.
Proof.
  destruct h as [x text|x text n cuts ids|o]; cbn [top_fineb top_fine]; intros H.
  - apply btext_fineb_ok; auto.
  - ands. split; [apply btext_fineb_ok; auto|]. destruct (bstopped w x text n); auto. apply eop_fineb_ok; auto.
  - apply eop_fineb_ok; auto.
Qed.
Lemma thist_fineb_ok lo : forall l R w, thist_fineb lo R w l = true ->
  thist_fine compress decompress encrypt decrypt src wal_crc names strtod e lo R w l.
Proof.
  induction l as [|h l IH]; intros R w H; cbn [thist_fineb thist_fine] in *; auto. ands.
  split; [apply top_fineb_ok; auto|]. destruct (tstep w h); auto.
Qed.
End CHECK.

(* --- samples --- *)
Local Open Scope N_scope.
Notation trun0 := (trun tagged un1 tagged un2 src0 true called no_reals an_env).
Notation tfine0 := (thist_fine tagged un1 tagged un2 src0 true called no_reals an_env).
Notation tfineb0 := (thist_fineb tagged un1 tagged un2 src0 true called no_reals an_env).
Notation tacked0 := (tacked tagged un1 tagged un2 src0 true called no_reals an_env).
Notation tmissed0 := (all_missed tagged un1 tagged un2 src0 true called no_reals an_env).
Notation btell0 := (btell tagged un1 tagged un2 src0 true called no_reals an_env).
Notation treach0 := (breachable tagged un1 tagged un2 src0 true called no_reals an_env).
Definition xs : N -> extra := fun _ => ex0.
Definition tsay (s : string) : top := TSay xs (chars s).
Definition tput (id v : N) : top := TElse (ew [put_ev id v]).
Definition tstate (l : list top) : whole := match trun0 w0 l with Ok w => w | _ => w0 end.
Definition tscan (l : list top) : res (option (list event)) :=
  bind (trun0 w0 l) (fun w => monotone_scan 50 (en_map (wh_en w)) None).
Definition where_at (w : whole) : list range := ranges (en_map (wh_en w)).
(* events are written, partitions moved and dropped by texts; the process stops in a REFRESH of two partitions
   and in a DROP of two; the log is rotated between *)
Definition season : list top :=
  [TElse (ew [put_ev 3 1; put_ev 14 2; put_ev 25 3; put_ev 36 4]); tsay "REFRESH PARTITION 14"; tput 15 5;
   TStop xs (chars "REFRESH PARTITIONS BETWEEN 0 AND 29") 10 [1%nat] [1]; tsay "MOVE PARTITIONS BETWEEN 0 AND 19 INTO cold";
   TElse (EDo (WRotate 0)); tsay "CREATE PARTITION 60 69"; tsay "DOWNLOAD PARTITION 14"; tput 61 6; tsay "drop partition 3"; tput 26 7;
   TStop xs (chars "DROP PARTITIONS BETWEEN 10 AND 39") 2 [] [3; 1]; tsay "DROP PARTITION IF EXISTS 99"; tsay "SHOW PARTITIONS"; tsay "  "].
Lemma season_fine : (limits 0 10 /\ storages_ok [0; 1] /\ codecs_ok tagged un1 tagged un2 /\ settings_ok src0) /\
  tfine0 0 [] w0 season /\ tscan season = Ok (Some [mk_event 36 0 [] [4]; mk_event 61 0 [] [6]]) /\
  tmissed0 [] w0 season = [(10, 19); (20, 29); (0, 9)] /\ where_at (tstate season) = [(30, 39); (60, 69)].
Proof.
  split; [apply w0_limits|]. split; [apply thist_fineb_ok; vm_compute; reflexivity|]. split; [vm_compute; reflexivity|].
  split; vm_compute; reflexivity.
Qed.
Lemma tstate_reach l : tfineb0 0 [] w0 l = true -> match trun0 w0 l with Ok _ => true | _ => false end = true ->
  treach0 0 (tmissed0 [] w0 l) (tstate l) (tacked0 w0 l []).
Proof.
  intros H1 H2. destruct w0_limits as (L & S & _). exists [0; 1], 10, false, 1000, l.
  split; auto. split; auto. split; [apply thist_fineb_ok; exact H1|]. split; auto. unfold tstate. fold w0.
  destruct (trun0 w0 l); auto; discriminate.
Qed.
Definition spring : list top := firstn 10 season.
Definition spring_lost : list range := tmissed0 [] w0 spring.
Lemma spring_reach : treach0 0 spring_lost (tstate spring) (tacked0 w0 spring []).
Proof. apply tstate_reach; vm_compute; reflexivity. Qed.
Lemma spring_lost_ex : treach0 0 spring_lost (tstate spring) (tacked0 w0 spring []) /\ spring_lost = [(0, 9)].
Proof. split; [exact spring_reach|vm_compute; reflexivity]. Qed.
Lemma spring_texts : wh_jobs (tstate spring) = [] /\
  btext_fine tagged un1 tagged un2 src0 true called no_reals an_env 0 spring_lost (tstate spring) xs drop_text /\
  btext_fine tagged un1 tagged un2 src0 true called no_reals an_env 0 spring_lost (tstate spring) xs move_text /\
  parse no_reals (env_at an_env (eread un1 un2 true (tstate spring))) drop_text = Ok (Some (CmdDropRange 10 29 9)) /\
  parse no_reals (env_at an_env (eread un1 un2 true (tstate spring))) move_text = Ok (Some (CmdMove 25 false (chars "cold"))) /\
  where_at (tstate spring) = [(10, 19); (20, 29); (30, 39); (60, 69)] /\
  map (wh_home (tstate spring)) [10; 20; 30] = [1; 0; 0].
Proof.
  split; [vm_compute; reflexivity|]. split; [apply btext_fineb_ok; vm_compute; reflexivity|]. split; [apply btext_fineb_ok; vm_compute; reflexivity|].
  split; [vm_compute; reflexivity|]. split; [vm_compute; reflexivity|]. split; vm_compute; reflexivity.
Qed.
Lemma spring_stop :
  top_fine tagged un1 tagged un2 src0 true called no_reals an_env 0 spring_lost (tstate spring) (TStop xs drop_text 1 [] [3; 1]) /\
  top_fine tagged un1 tagged un2 src0 true called no_reals an_env 0 spring_lost (tstate spring) (TStop xs move_text 4 [1%nat] [1; 3]).
Proof. split; apply top_fineb_ok; vm_compute; reflexivity. Qed.
(* what the texts add to the log *)
Definition added (text : list byte) : option (list lrec * nat) :=
  match btell0 xs (tstate spring) text with
  | Ok p => Some (map record_of (skipn (List.length (log_read true (tstate spring))) (log_read true (bp_whole p))),
      List.length (missed (tstate spring) (bp_whole p)))
  | _ => None
  end.
Definition shortly (text : list byte) : bool :=
  match btell0 xs (tstate spring) text with Ok p => shortb (bp_whole p) | _ => false end.
Lemma spring_log : shortly drop_text = true /\ shortly move_text = true /\
  added drop_text = Some ([Crash.LDrop 5 10; Crash.LDrop 6 20], 2%nat) /\ added move_text = Some ([], 0%nat).
Proof. split; [vm_compute; reflexivity|]. split; [vm_compute; reflexivity|]. split; vm_compute; reflexivity. Qed.
(* a refresh on its way: statements wait for it *)
Definition rush : list top := spring ++ [TElse (EDo (WBegin 25 None)); TElse (EDo (WStep 20 ex0))].
Lemma rush_waits : treach0 0 (tmissed0 [] w0 rush) (tstate rush) (tacked0 w0 rush []) /\
  btext_fine tagged un1 tagged un2 src0 true called no_reals an_env 0 (tmissed0 [] w0 rush) (tstate rush) xs drop_text /\
  match btell0 xs (tstate rush) drop_text with
  | Ok p => bp_end p = Waits /\ where_at (bp_whole p) = [(20, 29); (30, 39); (60, 69)]
  | _ => False
  end.
Proof.
  split; [apply tstate_reach; vm_compute; reflexivity|]. split; [apply btext_fineb_ok; vm_compute; reflexivity|].
  vm_compute. split; reflexivity.
Qed.
(* ON STORAGE without a cloud, after the log was collected *)
Definition kept_once : list top :=
  [tput 14 1; TElse (EDo (WRotate 0)); tsay "REFRESH PARTITION 14"; TElse (EDo WGc); tput 15 2].
Lemma offloads_lost : tfine0 0 [] w0 kept_once /\
  tscan kept_once = Ok (Some [mk_event 14 0 [] [1]; mk_event 15 0 [] [2]]) /\
  match btell0 xs (tstate kept_once) (chars "DROP PARTITION 14 ON STORAGE") with Ok p => bp_end p = Done | _ => False end /\
  tscan (kept_once ++ [tsay "DROP PARTITION 14 ON STORAGE"]) = Ok (Some [mk_event 15 0 [] [2]]) /\
  tscan (kept_once ++ [tsay "DROP PARTITION 14 ON STORAGE"] ++ [TElse (EStop [] [2])]) = Ok (Some [mk_event 15 0 [] [2]]).
Proof.
  split; [apply thist_fineb_ok; vm_compute; reflexivity|]. split; [vm_compute; reflexivity|]. split; [vm_compute; reflexivity|].
  split; vm_compute; reflexivity.
Qed.
