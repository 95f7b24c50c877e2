(* A checker for the limits of histories with and without the log; examples and counterexamples. *)
From Coq Require Import NArith ZArith List Bool Sorted Lia Arith.
Import ListNotations.
From Verif Require Import Model.Base Model.Event Model.Rbtree Model.Memtable Model.Mapping Model.Merge
  Model.PartIter Model.Scan Model.Writer Model.Codec Model.Engine Spec.Order Spec.Merged Spec.Files
  Spec.Layout Spec.Regions Spec.View Spec.Engine Proof.OrderL Proof.MemtableL Proof.EngineL Proof.EngineX
  Proof.DirL Proof.CrashD Proof.CrashP Proof.CrashT Proof.CrashX.
From Verif Require Import Model.Crash Spec.Crash Spec.Drops Model.Logless Spec.Logless.
Local Arguments N.pow : simpl never.
Local Arguments N.add : simpl never.
Local Arguments N.sub : simpl never.

Definition wop_fineb (lo : N) (w : wdb) (o : wop) : bool :=
  let b := w_db w in
  match o with
  | WDrop id => (negb (w_wal w) && ((lo <=? id) && (id <? lo + 2^31))%N &&
      forallb (fun s => negb (slice_in s id) || no_leftoverb b (s_min s)) (mapping_list (en_map (db_en b))))%bool
  | WStart cuts true => ((w_wal w || match db_log b with [] => true | _ => false end) && cop_fineb lo b (CCrash cuts))%bool
  | WStart _ false => true
  | _ => cop_fineb lo b (as_cop o)
  end.
Fixpoint whist_fineb (lo : N) (w : wdb) (l : list wop) : bool :=
  match l with
  | [] => true
  | o :: t => (wop_fineb lo w o && match wstep w o with Ok w' => whist_fineb lo w' t | _ => whist_fineb lo w t end)%bool
  end.
Lemma wop_fineb_ok lo w o : wop_fineb lo w o = true -> wop_fine lo w o.
Proof.
  destruct o as [l|id to|ref|ref|k|id|mn mx|n|cuts wal]; cbn [wop_fineb wop_fine]; intros H;
    try (apply cop_fineb_ok; exact H).
  - bools. apply negb_true_iff in H. split; auto. split; auto. intros s Hs Hr. rewrite forallb_forall in H0.
    specialize (H0 s Hs). apply in_slice in Hr. rewrite Hr in H0. apply no_leftoverb_ok; auto.
  - destruct wal; auto. apply andb_true_iff in H as [H1 H2]. split; [|apply cop_fineb_ok; auto].
    apply orb_true_iff in H1 as [H1|H1]; auto. right. destruct (db_log (w_db w)); auto; discriminate.
Qed.
Lemma whist_fineb_ok lo : forall l w, whist_fineb lo w l = true -> whist_fine lo w l.
Proof.
  induction l as [|o l IH]; intros w H; cbn [whist_fineb whist_fine] in *; auto. apply andb_true_iff in H as [H1 H2].
  split; [apply wop_fineb_ok; auto|]. destruct (wstep w o); auto.
Qed.

(* without starts the marks are determined *)
Definition wnextf (w : wdb) (o : wop) (w' : wdb) (M : marked) : marked :=
  let b := w_db w in
  match o with
  | WWrite l =>
      match engine_write (db_en b) l true with
      | Ok (_, Some _) => M ++ map (fun e => (e, Memory)) (assigned (en_serial (db_en b)) (en_ssn (db_en b)) l)
      | _ => M
      end
  | WBegin id _ => if (length (db_jobs b) =? length (db_jobs (w_db w')))%nat then M
                   else shift_at (part_slice (en_map (db_en b)) id) Memory Going M
  | WStep ref => if busy (w_db w') ref then M else shift_at (of_min b ref) Going Safe M
  | WFail ref => shift_at (of_min b ref) Going Memory M
  | WDrop id => match part_slice (en_map (db_en b)) id with
                | Some s => filter (fun x => negb (inb (range_of s) (ev_id (fst x)))) M
                | None => M
                end
  | _ => M
  end.
Definition startless (o : wop) : bool := match o with WStart _ _ => false | _ => true end.
Fixpoint marks (w : wdb) (M : marked) (l : list wop) : marked :=
  match l with
  | [] => M
  | o :: t => match wstep w o with Ok w' => marks w' (wnextf w o w' M) t | _ => marks w M t end
  end.
Lemma marks_only w M l w' M' : wmoves w M l w' M' -> forallb startless l = true -> M' = marks w M l.
Proof.
  induction 1 as [w M|w M o w1 M1 t w' M' E N MV IH|w M o t w' M' E MV IH]; intros S; auto;
    cbn [forallb] in S; apply andb_true_iff in S as [S1 S2]; cbn [marks]; rewrite E; auto.
  rewrite IH by auto. replace M1 with (wnextf w o w1 M); auto.
  destruct o; cbn [wnext wnextf startless] in *; try discriminate; auto.
  destruct (engine_write _ _ _) as [[? [?|]]| |]; auto.
Qed.

(* --- samples --- *)
Local Open Scope N_scope.
Definition w_off : wdb := wnew false [0; 1; 2] 10 false 1000 40.
Definition w_on : wdb := wnew true [0; 1; 2] 10 false 1000 40.
Definition wscan (w : wdb) (l : list wop) : res (option (list event)) :=
  bind (wrun w l) (fun w => monotone_scan 50 (en_map (db_en (w_db w))) None).
Definition wsteps (r : N) (n : nat) : list wop := repeat (WStep r) n.
Definition wrefresh (r : N) : list wop := WBegin r None :: wsteps r 6.
(* without the log: refreshes complete and on the way, a dropped interval used again, starts *)
Definition loose : list wop :=
  [WWrite [put_ev 3 1; put_ev 14 2]] ++ wrefresh 0 ++ [WWrite [put_ev 4 3]; WDrop 14; WWrite [put_ev 15 4]] ++ wrefresh 10 ++
  [WBegin 4 None] ++ wsteps 0 2 ++ [WGc 1; WStart [1%nat] false; WWrite [put_ev 16 5; del_ev 3; put_ev 25 6]] ++ wrefresh 10 ++
  [WBegin 25 (Some 1)] ++ wsteps 20 6 ++ [WStart [] true; WWrite [put_ev 5 7]; WStart [0%nat] true].
Definition loose_left : list event :=
  [mk_event 3 0 [] [1]; mk_event 5 0 [] [7]; mk_event 15 0 [] [4]; mk_event 16 0 [] [5]; mk_event 25 0 [] [6]].
Lemma loose_fine : (limits 0 10 /\ storages_ok [0; 1; 2]) /\ whist_fine 0 w_off loose /\ wscan w_off loose = Ok (Some loose_left).
Proof.
  split; [apply b0_limits|]. split; [apply whist_fineb_ok; vm_compute; reflexivity|vm_compute; reflexivity].
Qed.

Definition wstate (w : wdb) (l : list wop) : wdb := match wrun w l with Ok w => w | _ => w end.
Definition snug : list wop := [WWrite [put_ev 3 1; put_ev 14 2; del_ev 3]] ++ wrefresh 0 ++ wrefresh 10.
Lemma snug_fine : (limits 0 10 /\ storages_ok [0; 1; 2]) /\ whist_fine 0 w_off snug /\
  (forall w M, wmoves w_off [] snug w M ->
     M = [(mk_event 3 0 [] [1], Safe); (mk_event 14 0 [] [2], Safe); (mk_event 3 1 [] [], Safe)]) /\
  wop_fine 0 (wstate w_off snug) (WStart [1%nat] false) /\
  wscan w_off (snug ++ [WStart [1%nat] false]) = Ok (Some [mk_event 14 0 [] [2]]).
Proof.
  split; [apply b0_limits|]. split; [apply whist_fineb_ok; vm_compute; reflexivity|].
  split; [|split; [apply wop_fineb_ok; vm_compute; reflexivity|vm_compute; reflexivity]].
  intros w M MV. apply marks_only in MV; [|reflexivity]. rewrite MV. vm_compute. reflexivity.
Qed.

(* what was only in memory is lost at a start without the log *)
Definition lost_ops : list wop := [WWrite [put_ev 3 1]].
Lemma lost_memory : whist_fine 0 w_off (lost_ops ++ [WStart [] false]) /\
  wscan w_off lost_ops = Ok (Some [mk_event 3 0 [] [1]]) /\ wscan w_off (lost_ops ++ [WStart [] false]) = Ok (Some []).
Proof. split; [apply whist_fineb_ok; vm_compute; reflexivity|]. split; vm_compute; reflexivity. Qed.

(* a logged event comes back when the log is on again, but not after a refresh of its partition without the log *)
Definition switch_ops : list wop := [WWrite [put_ev 3 1]; WStart [] false].
Definition switch_more : list wop := WWrite [put_ev 4 2] :: wrefresh 0.
Lemma switch_lost : whist_fine 0 w_on (switch_ops ++ switch_more) /\
  cop_fine 0 (w_db (wstate w_on (switch_ops ++ switch_more))) (CCrash []) /\
  wscan w_on (switch_ops ++ [WStart [] true]) = Ok (Some [mk_event 3 0 [] [1]]) /\
  wscan w_on (switch_ops ++ switch_more ++ [WStart [] true]) = Ok (Some [mk_event 4 0 [] [2]]).
Proof.
  split; [apply whist_fineb_ok; vm_compute; reflexivity|]. split; [apply cop_fineb_ok; vm_compute; reflexivity|].
  split; vm_compute; reflexivity.
Qed.
(* an event written without the log and refreshed is hidden by an older one of the log *)
Definition older_ops : list wop :=
  [WWrite [put_ev 21 0]; WWrite [put_ev 22 0]; WWrite [put_ev 5 1]; WStart [] false; WWrite [put_ev 5 2]] ++ wrefresh 0.
Lemma older_shows : whist_fine 0 w_on older_ops /\
  cop_fine 0 (w_db (wstate w_on older_ops)) (CCrash []) /\
  wscan w_on older_ops = Ok (Some [mk_event 5 0 [] [2]]) /\
  wscan w_on (older_ops ++ [WStart [] false]) = Ok (Some [mk_event 5 0 [] [2]]) /\
  wscan w_on (older_ops ++ [WStart [] true]) = Ok (Some [mk_event 5 0 [] [1]; mk_event 21 0 [] [0]; mk_event 22 0 [] [0]]).
Proof.
  split; [apply whist_fineb_ok; vm_compute; reflexivity|]. split; [apply cop_fineb_ok; vm_compute; reflexivity|].
  split; [|split]; vm_compute; reflexivity.
Qed.
