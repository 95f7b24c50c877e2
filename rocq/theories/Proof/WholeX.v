(* A checker for the limits of histories of a database with bytes; examples and counterexamples. *)
From Coq Require Import NArith ZArith List Bool Lia Arith Permutation Sorted.
Import ListNotations.
From Verif Require Import Model.Base Model.Rbtree Model.Event Model.Memtable Model.Mapping Model.PartIter Model.Merge Model.Scan Model.Codec
  Model.File Model.Wal Model.Engine Spec.Order Spec.Checksum Spec.Codecs Spec.Layout Spec.Regions Spec.Files
  Spec.View Spec.Engine Spec.Log Spec.FileLimits
  Proof.FileP Proof.EngineX Proof.CrashX.
From Verif Require Import Model.Crash Spec.Crash Model.Whole Spec.Whole.
Local Arguments N.pow : simpl never.
Local Arguments N.add : simpl never.

Fixpoint take_one (x : N) (l : list N) : option (list N) :=
  match l with
  | [] => None
  | y :: t => if (x =? y)%N then Some t else match take_one x t with Some t' => Some (y :: t') | None => None end
  end.
Fixpoint permb (a b : list N) : bool :=
  match a with
  | [] => match b with [] => true | _ => false end
  | x :: t => match take_one x b with Some b' => permb t b' | None => false end
  end.
Lemma take_one_ok x : forall l l', take_one x l = Some l' -> Permutation l (x :: l').
Proof.
  induction l as [|y l IH]; intros l' E; cbn in E; try discriminate E. destruct (N.eqb_spec x y) as [->|].
  - inversion E; subst. auto.
  - destruct (take_one x l) as [t|]; try discriminate E. inversion E; subst.
    apply perm_trans with (y :: x :: t); [apply perm_skip; auto|apply perm_swap].
Qed.
Lemma permb_ok : forall a b, permb a b = true -> Permutation a b.
Proof.
  induction a as [|x a IH]; intros b E; cbn in E.
  - destruct b; [auto|discriminate E].
  - destruct (take_one x b) as [b'|] eqn:T; try discriminate E. apply take_one_ok in T.
    apply perm_trans with (x :: b'); [apply perm_skip; auto|symmetry; auto].
Qed.
Definition bytesb (l : list byte) : bool := forallb (fun b => (b <? 256)%N) l.
Lemma bytesb_ok l : bytesb l = true -> bytes l.
Proof. unfold bytesb, bytes. rewrite forallb_forall, Forall_forall. intros H x Hx. apply N.ltb_lt. auto. Qed.
Definition mev_okb (m : mevent) : bool :=
  (ev_okb (fst m) && (length (ev_key (fst m)) <=? length (snd m))%nat && bytesb (snd m))%bool.
Lemma mev_okb_ok m : mev_okb m = true -> mev_ok m.
Proof.
  unfold mev_okb, mev_ok. intros H. apply andb_true_iff in H as [H H3]. apply andb_true_iff in H as [H1 H2].
  split; [apply ev_okb_ok; auto|]. split; [apply Nat.leb_le; auto|apply bytesb_ok; auto].
Qed.
Fixpoint eqb_bytes (a b : list N) : bool :=
  match a, b with
  | [], [] => true
  | x :: a, y :: b => ((x =? y)%N && eqb_bytes a b)%bool
  | _, _ => false
  end.
Lemma eqb_bytes_ok : forall a b, eqb_bytes a b = true -> a = b.
Proof.
  induction a as [|x a IH]; intros [|y b] H; cbn in H; try discriminate H; auto.
  apply andb_true_iff in H as [H1 H2]. apply N.eqb_eq in H1. f_equal; auto.
Qed.
Definition entry_okb (x : lentry) : bool :=
  (ev_okb (le_event x) && bytesb (le_added x) && bytesb (le_written x) &&
   (length (ev_key (le_event x)) <=? length (le_added x))%nat && (length (ev_key (le_event x)) <=? length (le_written x))%nat &&
   eqb_bytes (firstn (length (ev_key (le_event x))) (le_added x)) (firstn (length (ev_key (le_event x))) (le_written x)))%bool.
Lemma entry_okb_ok x : entry_okb x = true -> entry_ok x /\ stable x.
Proof.
  unfold entry_okb. intros H. repeat match goal with H : (_ && _)%bool = true |- _ => apply andb_true_iff in H as [H ?] end.
  split; [|apply eqb_bytes_ok; auto]. split; [apply ev_okb_ok; auto|]. repeat (split; [apply bytesb_ok; auto|]).
  split; apply Nat.leb_le; auto.
Qed.

Section Check.
Variable compress : N -> nat -> list byte -> list byte.
Variable decompress : N -> list byte -> N -> res (list byte).
Variable encrypt : N -> nat -> list byte -> list byte.
Variable decrypt : N -> list byte -> res (list byte).
Variable src : source.
Variable wal_crc : bool.
Let step := wstep compress decompress encrypt decrypt src wal_crc.
Notation rd := (as_read decompress decrypt wal_crc).

Definition roomyb (w : whole) : bool := (en_lsn (wh_en w) + 3 <? 2 ^ 64)%N.
Definition record_fineb (w : whole) (l : list warg) (m : list (list byte * list byte)) : bool :=
  match engine_write (wh_en w) l true with
  | Ok (_, Some evs) =>
      (match entries evs m with [] => false | _ => true end && forallb entry_okb (entries evs m) &&
       (21 + batch_size (entries evs m) <? 2 ^ 31)%N)%bool
  | _ => true
  end.
Definition new_fineb (w : whole) (ref : N) (x : extra) : bool :=
  (roomyb w && (ex_refreshes x <? 2 ^ 32)%N && (ex_create x <? 2 ^ 64)%N && (ex_refresh x <? 2 ^ 64)%N &&
   match ref_slice (en_map (wh_en w)) ref with
   | Ok s =>
       match merger_events (s_data s), new_bytes compress encrypt src s x with
       | Ok l, Ok f => forallb mev_okb (behind [] l (ex_memory x)) && (region_weight l <? 2^32)%N &&
                       (52 * N.of_nat (length l) <? 2^32)%N && (N.of_nat (length f) <? 2^32)%N
       | _, _ => true
       end
   | _ => true
   end)%bool.
Definition log_fineb (w : whole) (more : list byte) (ids : list N) : bool :=
  (roomyb w && permb ids (wl_list (wh_wal w)) &&
   forallb (fun f => N.of_nat (length (snd f) + length more) + 21 <? 2 ^ 32)%N (wl_files (wh_wal w)))%bool.
Definition wop_fineb (lo : N) (w : whole) (clean : bool) (o : wop) : bool :=
  match o with
  | WWrite l m fail =>
      (clean && roomyb w && cop_fineb lo (rd w) (CWrite l true) && record_fineb w l m &&
       match fail with Some n => (n =? 0)%nat | None => true end)%bool
  | WBegin id to => cop_fineb lo (rd w) (CBegin id to)
  | WStep ref x =>
      (cop_fineb lo (rd w) (CStep ref) &&
       match find (fun j => (jb_ref j =? ref)%N) (wh_jobs w) with
       | Some j => negb (jb_stage j =? 1)%nat || new_fineb w ref x
       | None => true
       end)%bool
  | WFail ref => cop_fineb lo (rd w) (CFail ref)
  | WRotate _ => (clean && roomyb w)%bool
  | WGc => (clean && cop_fineb lo (rd w) (CGc 0))%bool
  | WCreate mn mx => cop_fineb lo (rd w) (CCreate mn mx)
  | WInterval n => cop_fineb lo (rd w) (CInterval n)
  | WCrash cuts ids => (log_fineb w [] ids && cop_fineb lo (rd w) (CCrash cuts))%bool
  | WCrashIn l m n ids =>
      (clean && record_fineb w l m && log_fineb w (the_record wal_crc w l m) ids &&
       cop_fineb lo (rd w) (CCrashIn l (complete_record wal_crc w l m n)))%bool
  | WCrashFile ref x n cuts ids =>
      (log_fineb w [] ids &&
       match find (fun j => (jb_ref j =? ref)%N) (wh_jobs w) with Some j => (jb_stage j =? 1)%nat | None => true end &&
       cop_fineb lo (rd (begun w ref)) (CCrash cuts))%bool
  end.
Fixpoint whist_fineb (lo : N) (w : whole) (clean : bool) (l : list wop) : bool :=
  match l with
  | [] => true
  | o :: t =>
      (wop_fineb lo w clean o &&
       match step w o with
       | Ok w' => whist_fineb lo w' (clean_after wal_crc w clean o) t
       | _ => whist_fineb lo w clean t
       end)%bool
  end.

Ltac ands := repeat match goal with H : (_ && _)%bool = true |- _ => apply andb_true_iff in H as [H ?] end.
Lemma roomyb_ok w : roomyb w = true -> lsn_room w.
Proof. apply N.ltb_lt. Qed.
Lemma record_fineb_ok w l m : record_fineb w l m = true -> record_fine wal_crc w l m.
Proof.
  unfold record_fineb, record_fine. destruct (engine_write _ _ _) as [[en [evs|]]| |]; auto. intros H. ands.
  rewrite forallb_forall in H1.
  assert (A : forall x, In x (entries evs m) -> entry_ok x /\ stable x) by (intros; apply entry_okb_ok; auto).
  split; [split; [|split]|intros _].
  - intros E. rewrite E in H. discriminate H.
  - apply Forall_forall. intros x Hx. apply A; auto.
  - apply N.ltb_lt. auto.
  - apply Forall_forall. intros x Hx. apply A; auto.
Qed.
Lemma new_fineb_ok w ref x : new_fineb w ref x = true -> new_fine compress encrypt src w ref x.
Proof.
  unfold new_fineb, new_fine. intros H. ands. split; [apply roomyb_ok; auto|].
  split; [repeat split; apply N.ltb_lt; auto|]. intros s l f E1 E2 E3. rewrite E1, E2, E3 in H0. ands.
  split; [|repeat split; apply N.ltb_lt; auto].
  apply Forall_forall. intros y Hy. apply mev_okb_ok. rewrite forallb_forall in H0. auto.
Qed.
Lemma log_fineb_ok w more ids : log_fineb w more ids = true -> log_fine w more ids.
Proof.
  unfold log_fineb, log_fine. intros H. ands. split; [apply roomyb_ok; auto|]. split; [apply permb_ok; auto|].
  apply Forall_forall. intros y Hy. rewrite forallb_forall in H0. apply N.ltb_lt. apply (H0 y Hy).
Qed.
Lemma wop_fineb_ok lo w clean o : wop_fineb lo w clean o = true ->
  wop_fine compress decompress encrypt decrypt src wal_crc lo w clean o.
Proof.
  destruct o; cbn [wop_fineb wop_fine]; intros H; try (apply cop_fineb_ok; exact H).
  - ands. split; auto. split; [apply roomyb_ok; auto|]. split; [apply cop_fineb_ok; auto|].
    split; [apply record_fineb_ok; auto|]. destruct fail; auto. apply Nat.eqb_eq; auto.
  - ands. split; [apply cop_fineb_ok; auto|]. intros j E S. rewrite E, S in H0. cbn [Nat.eqb negb orb] in H0. apply new_fineb_ok; auto.
  - ands. split; auto. apply roomyb_ok; auto.
  - ands. split; auto. apply cop_fineb_ok; auto.
  - ands. split; [apply log_fineb_ok; auto|apply cop_fineb_ok; auto].
  - ands. split; auto. split; [apply record_fineb_ok; auto|]. split; [apply log_fineb_ok; auto|apply cop_fineb_ok; auto].
  - ands. split; [apply log_fineb_ok; auto|]. split; [|apply cop_fineb_ok; auto]. intros j E. rewrite E in H1. apply Nat.eqb_eq; auto.
Qed.
Lemma whist_fineb_ok lo : forall l w clean, whist_fineb lo w clean l = true ->
  whist_fine compress decompress encrypt decrypt src wal_crc lo w clean l.
Proof.
  induction l as [|o l IH]; intros w clean H; cbn [whist_fineb whist_fine] in *; auto. ands.
  split; [apply wop_fineb_ok; auto|]. fold step. destruct (step w o); auto.
Qed.
End Check.

(* --- samples --- *)
Local Open Scope N_scope.
Definition un1 (_ : N) (b : list byte) (_ : N) : res (list byte) := untag b.
Definition un2 (_ : N) (b : list byte) : res (list byte) := untag b.
Definition src0 : source := mk_source 60 1 2 true.
Definition w0 : whole := whole_new src0 [0; 1] 10 false 1000.
Notation run0 := (wrun tagged un1 tagged un2 src0 true).
Notation fine0 := (whist_fine tagged un1 tagged un2 src0 true).
Definition wscan (w : whole) (l : list wop) : res (option (list event)) :=
  bind (run0 w l) (fun w => monotone_scan 50 (en_map (wh_en w)) None).
Definition ww (l : list warg) : wop := WWrite l [([9], [9]); ([8; 7], [8; 5]); ([6; 5; 4], [6; 3; 2])] None.
Definition ex0 : extra := mk_extra 1 7 8 [[1]; [2; 3]; [4; 5]; [6]; [7]].
Definition wsteps (r : N) (n : nat) : list wop := map (WStep r) (repeat ex0 n).
Definition sample_wops : list wop :=
  [ww [put_ev 3 1; put_ev 14 2; put_key 3 9 3]; WRotate 0; WBegin 3 None; WStep 0 ex0; ww [put_ev 3 4; del_ev 14]] ++ wsteps 0 5 ++
  [WCrash [1%nat] [2; 1]; WBegin 14 (Some 1); WStep 10 ex0; WCrashFile 10 ex0 60 [0%nat] [1; 2];
   WBegin 14 (Some 1)] ++ wsteps 10 6 ++ [WBegin 3 None] ++ wsteps 0 3 ++ [WCrash [] [1; 2]; WGc; WRotate 0; WGc;
   WWrite [put_ev 5 1] [] (Some 0%nat); WCreate 100 120; WCrashIn [put_ev 5 7; put_ev 27 8] [] 200 [3; 2];
   WInterval 20; ww [put_ev 41 1]; WCrashIn [put_ev 5 9; put_ev 28 9] [] 40 [2; 3]; WCrash [] [3; 2]; WBegin 41 None] ++ wsteps 40 4 ++
  [WCrash [] [2; 3]; WCrash [] [3; 2]].
Definition sample_wnow : list event :=
  [mk_event 3 0 [] [4]; mk_event 3 0 [9] [3]; mk_event 5 0 [] [7]; mk_event 27 0 [] [8]; mk_event 41 0 [] [1]].
Lemma w0_limits : limits 0 10 /\ storages_ok [0; 1] /\ codecs_ok tagged un1 tagged un2 /\ settings_ok src0.
Proof.
  split; [split; [vm_compute; discriminate|split; vm_compute; [reflexivity|discriminate]]|].
  split; [split; [|discriminate]; repeat constructor; simpl; intuition discriminate|].
  split; [exact tagged_ok|split; reflexivity].
Qed.
Lemma sample_wfine : (limits 0 10 /\ storages_ok [0; 1] /\ codecs_ok tagged un1 tagged un2 /\ settings_ok src0) /\
  fine0 0 w0 true sample_wops /\ wscan w0 sample_wops = Ok (Some sample_wnow).
Proof.
  split; [apply w0_limits|]. split; [apply whist_fineb_ok; vm_compute; reflexivity|vm_compute; reflexivity].
Qed.

Definition wstate (l : list wop) : whole := match run0 w0 l with Ok w => w | _ => w0 end.
Definition reach0 := wreachable tagged un1 tagged un2 src0 true.
Lemma wstate_reach l clean : whist_fineb tagged un1 tagged un2 src0 true 0 w0 true l = true ->
  match run0 w0 l with Ok _ => true | _ => false end = true -> clean = clean_run tagged un1 tagged un2 src0 true w0 true l ->
  reach0 0 (wstate l) clean (wacked tagged un1 tagged un2 src0 true w0 l []).
Proof.
  intros H1 H2 H3. destruct w0_limits as (L & S & _). exists [0; 1], 10, false, 1000, l.
  split; auto. split; auto. split; [apply whist_fineb_ok; auto|]. split; auto. unfold wstate. fold w0.
  destruct (run0 w0 l); auto; discriminate.
Qed.
Definition some_wops : list wop :=
  [ww [put_ev 3 1; put_ev 14 2; put_key 3 9 3]; WBegin 3 None] ++ wsteps 0 6 ++ [WRotate 0; ww [put_ev 3 4; del_ev 14; put_ev 22 1]].
Lemma some_wreach : reach0 0 (wstate some_wops) true (wacked tagged un1 tagged un2 src0 true w0 some_wops []).
Proof. apply wstate_reach; vm_compute; reflexivity. Qed.
Definition one_batch : list warg := [put_ev 3 9; del_ev 22; put_ev 55 3].
Lemma some_cut : length (the_record true (wstate some_wops) one_batch []) = 65%nat /\
  Forall (fun n => wop_fine tagged un1 tagged un2 src0 true 0 (wstate some_wops) true (WCrashIn one_batch [] n [2; 1])) (seq 0 67).
Proof.
  split; [vm_compute; reflexivity|]. apply Forall_forall. intros n Hn. apply wop_fineb_ok. revert n Hn.
  apply forallb_forall. vm_compute. reflexivity.
Qed.
Definition torn_wops : list wop := some_wops ++ [WCrashIn one_batch [] 40 [2; 1]].
Lemma torn_wreach : reach0 0 (wstate torn_wops) false (wacked tagged un1 tagged un2 src0 true w0 torn_wops []) /\
  fine0 0 (wstate torn_wops) false [WCrash [] [1; 2]; WCrash [1%nat] [2; 1]; WCrash [] [1; 2]].
Proof. split; [apply wstate_reach; vm_compute; reflexivity|apply whist_fineb_ok; vm_compute; reflexivity]. Qed.
Lemma some_wrefresh :
  Forall (fun n => fine0 0 (wstate some_wops) true (WBegin 4 None :: map (WStep 0) (repeat ex0 n) ++ [WCrash [1%nat] [1; 2]])) (seq 0 7) /\
  Forall (fun n => fine0 0 (wstate some_wops) true (WBegin 4 (Some 1) :: map (WStep 0) (repeat ex0 n) ++ [WCrash [1%nat] [1; 2]])) (seq 0 7).
Proof.
  split; apply Forall_forall; intros n Hn; apply whist_fineb_ok; revert n Hn; apply forallb_forall; vm_compute; reflexivity.
Qed.
Definition cut_file (n : nat) : list wop := [WBegin 4 (Some 1); WStep 0 ex0; WCrashFile 0 ex0 n [] [2; 1]].
Lemma some_wfile : Forall (fun n => fine0 0 (wstate some_wops) true (cut_file n)) [0; 1; 50; 100; 1000]%nat.
Proof.
  apply Forall_forall; intros n Hn; apply whist_fineb_ok; revert n Hn; apply forallb_forall; vm_compute; reflexivity.
Qed.

(* a batch behind a part of a record *)
Definition torn_then (n : nat) : list wop := [ww [put_ev 1 1]; WCrashIn [put_ev 2 2] [] n [1]; ww [put_ev 3 3]].
Lemma torn_loses :
  wscan w0 (torn_then 5) = Ok (Some [mk_event 1 0 [] [1]; mk_event 3 0 [] [3]]) /\
  wscan w0 (torn_then 5 ++ [WCrash [] [1]]) = Ok (Some [mk_event 1 0 [] [1]]) /\
  wscan w0 (torn_then 30) = Ok (Some [mk_event 1 0 [] [1]; mk_event 3 0 [] [3]]) /\
  wscan w0 (torn_then 30 ++ [WCrash [] [1]]) = Err.
Proof. repeat split; vm_compute; reflexivity. Qed.
(* a batch of no events takes a sequence number and leaves no record *)
Definition empty_then : list wop :=
  [ww [put_ev 1 1]; WWrite [] [] None; WRotate 0; WCrash [] [1; 3]; ww [put_ev 2 2]; WRotate 0; ww [put_ev 3 3]].
Lemma empty_loses :
  wscan w0 empty_then = Ok (Some [mk_event 1 0 [] [1]; mk_event 2 0 [] [2]; mk_event 3 0 [] [3]]) /\
  wscan w0 (empty_then ++ [WCrash [] [1; 3]]) = Ok (Some [mk_event 1 0 [] [1]; mk_event 3 0 [] [3]]).
Proof. split; vm_compute; reflexivity. Qed.
