(* A checker for the limits of histories with restarts; examples and counterexamples. *)
From Coq Require Import NArith ZArith List Bool Sorted Lia Arith.
Import ListNotations.
From Verif Require Import Model.Base Model.Event Model.Rbtree Model.Memtable Model.Mapping Model.Merge
  Model.PartIter Model.Scan Model.Writer Model.Codec Model.Engine Spec.Order Spec.Merged Spec.Files
  Spec.Layout Spec.Regions Spec.View Spec.Engine Proof.OrderL Proof.MemtableL Proof.EngineL Proof.EngineX
  Proof.DirL Proof.CrashD Proof.CrashP Proof.CrashT.
From Verif Require Import Model.Crash Spec.Crash.
Local Arguments N.pow : simpl never.
Local Arguments N.add : simpl never.
Local Arguments N.sub : simpl never.
Implicit Types (s : slice part) (m : mapping part).

Definition loadableb (lo : N) (en : engine) (e : event) : bool :=
  (ev_okb e && winb lo e && (event_size e <=? en_page en)%N && nearb lo (cell (en_interval en) (ev_id e)))%bool.
Fixpoint replay_fineb (lo : N) (en : engine) (l : list lrec) : bool :=
  match l with
  | [] => true
  | LWrite lsn evs :: t =>
      (forallb (loadableb lo en) evs && roomb (en_map en) (length evs) &&
       match engine_write_replay en lsn evs with Ok en' => replay_fineb lo en' t | _ => true end)%bool
  | LDrop _ _ :: _ => false
  end.
Definition restart_fineb (lo : N) (b : db) (d : dir) (log : list lrec) : bool :=
  match engine_recover (db_en b) (db_storages b) d with
  | Ok (en, _) => replay_fineb lo en log
  | _ => true
  end.
Definition no_leftoverb (b : db) (mn : N) : bool :=
  forallb (fun x => (negb (snd (fst x) =? mn)%N || negb (is_some (sl_inc (snd x))))%bool) (db_dir b).
Definition cop_fineb (lo : N) (b : db) (o : cop) : bool :=
  let en := db_en b in
  match o with
  | CWrite l _ => (batch_fineb lo en l && (en_lsn en <? u64_max)%N)%bool
  | CBegin id to => ((lo <=? id) && (id <? lo + 2^31))%N &&
      (match to with Some st => existsb (fun x => (x =? st)%N) (db_storages b) | None => true end) &&
      forallb (fun s => negb (slice_in s id) || existsb (fun j => (jb_ref j =? s_min s)%N) (db_jobs b) ||
        (match mt_events (pt_prev (s_data s)) with [] => true | _ => false end && no_leftoverb b (s_min s)))%bool
        (mapping_list (en_map en))
  | CStep ref => forallb (fun s => negb (s_min s =? ref)%N ||
      (region_weight (concat (contents (s_data s))) <? 2^32)%N)%bool (mapping_list (en_map en))
  | CFail ref => forallb (fun j => negb (jb_ref j =? ref)%N || (jb_stage j <=? 2)%nat)%bool (db_jobs b)
  | CGc _ => forallb (fun j => (jb_stage j <=? 2)%nat || (jb_stage j =? 5)%nat)%bool (db_jobs b)
  | CDrop _ | CCrashDrop _ => false
  | CCreate mn mx => (negb (mn <=? mx)%N || nearb lo (mn, mx))%bool
  | CInterval n => ((0 <? n) && (n <=? u64_max))%N
  | CCrash cuts =>
      match interrupted (db_storages b) (db_dir b) cuts with
      | Ok d => restart_fineb lo b d (db_log b)
      | _ => true
      end
  | CCrashIn l whole =>
      (batch_fineb lo en l && (en_lsn en <? u64_max)%N &&
      restart_fineb lo b (db_dir b)
        (match engine_write en l true with
         | Ok (_, Some evs) => if whole then db_log b ++ [write_rec b evs] else db_log b
         | _ => db_log b
         end))%bool
  end.
Fixpoint chist_fineb (lo : N) (b : db) (l : list cop) : bool :=
  match l with
  | [] => true
  | o :: t => (cop_fineb lo b o && match cstep b o with Ok b' => chist_fineb lo b' t | _ => chist_fineb lo b t end)%bool
  end.

Lemma loadableb_ok lo en e : loadableb lo en e = true -> loadable lo en e.
Proof.
  unfold loadableb, loadable. intros H. bools. split; [apply ev_okb_ok; auto|]. unfold winb, nearb in *. bools.
  split; [split; auto|]. split; auto. split; auto.
Qed.
Lemma replay_fineb_ok lo : forall l en, replay_fineb lo en l = true -> replay_fine lo en l.
Proof.
  induction l as [|[lsn evs|lsn id] l IH]; intros en H; cbn [replay_fineb replay_fine] in *; auto; try discriminate.
  bools. split; [|split].
  - rewrite forallb_forall in H. rewrite Forall_forall. intros e He. apply loadableb_ok; auto.
  - unfold roomb in H1. bools. split; auto. rewrite forallb_forall in H2. intros s Hs. specialize (H2 s Hs). bools. auto.
  - destruct (engine_write_replay en lsn evs); auto.
Qed.
Lemma restart_fineb_ok lo b d log : restart_fineb lo b d log = true -> restart_fine lo b d log.
Proof.
  unfold restart_fineb, restart_fine. destruct (engine_recover _ _ _) as [[en d']| |]; auto. apply replay_fineb_ok.
Qed.
Lemma no_leftoverb_ok b mn : no_leftoverb b mn = true -> ~ leftover b mn.
Proof.
  unfold no_leftoverb, leftover. rewrite forallb_forall. intros H (st & X). unfold dget in X.
  destruct (find _ (db_dir b)) as [[k v]|] eqn:E; [|apply X; reflexivity].
  apply find_some in E as [E1 E2]. apply dkey_eqb_true in E2. cbn [fst snd] in *. subst k.
  specialize (H _ E1). cbn [fst snd] in H. rewrite N.eqb_refl in H. cbn [negb orb] in H.
  destruct (sl_inc v); [discriminate|congruence].
Qed.
Lemma cop_fineb_ok lo b o : cop_fineb lo b o = true -> cop_fine lo b o.
Proof.
  destruct o as [l logged|id to|ref|ref|k|id|mn mx|n|cuts|l whole|id]; cbn [cop_fineb cop_fine]; intros H; try discriminate.
  - bools. split; auto using batch_fineb_ok.
  - bools. split; auto. split.
    + destruct to as [st|]; auto. apply existsb_exists in H1 as (x & Hx & E). apply N.eqb_eq in E. subst. auto.
    + intros s Hs Hr. rewrite forallb_forall in H0. specialize (H0 s Hs). apply in_slice in Hr. rewrite Hr in H0.
      cbn [negb orb] in H0. apply orb_true_iff in H0 as [H0|H0].
      * left. apply existsb_exists in H0 as (j & Hj & E). apply N.eqb_eq in E. eauto.
      * right. bools. split; [destruct (mt_events _); auto; discriminate|apply no_leftoverb_ok; auto].
  - rewrite forallb_forall in H. intros s Hs <-. specialize (H s Hs). rewrite N.eqb_refl in H. cbn [negb orb] in H.
    bools. auto.
  - rewrite forallb_forall in H. intros j Hj <-. specialize (H j Hj). rewrite N.eqb_refl in H. cbn [negb orb] in H.
    bools. auto.
  - rewrite forallb_forall in H. intros j Hj. specialize (H j Hj). apply orb_true_iff in H as [H|H]; bools; auto.
    apply Nat.eqb_eq in H. auto.
  - intros Hle. apply N.leb_le in Hle. rewrite Hle in H. simpl in H. unfold nearb in H. bools. split; auto.
  - bools. auto.
  - destruct (interrupted _ _ _); auto. apply restart_fineb_ok; auto.
  - bools. split; [apply batch_fineb_ok; auto|]. split; auto. apply restart_fineb_ok; auto.
Qed.
Lemma chist_fineb_ok lo : forall l b, chist_fineb lo b l = true -> chist_fine lo b l.
Proof.
  induction l as [|o l IH]; intros b H; cbn [chist_fineb chist_fine] in *; auto. bools.
  split; [apply cop_fineb_ok; auto|]. destruct (cstep b o); auto.
Qed.

(* --- samples --- *)
Local Open Scope N_scope.
Definition b0 : db := db_new [0; 1; 2] 10 false 1000 40.
Definition cscan (b : db) (l : list cop) : res (option (list event)) :=
  bind (crun b l) (fun b => monotone_scan 50 (en_map (db_en b)) None).
Definition cw (l : list warg) : cop := CWrite l true.
Definition steps (r : N) (n : nat) : list cop := repeat (CStep r) n.
(* refreshes and moves stopped on the way, writes between their steps, repeated starts, a log
   record that is complete and one that is not, a refresh that fails, collection of the log *)
Definition sample_cops : list cop :=
  [cw [put_ev 3 1; put_ev 14 2; put_key 3 9 3]; CBegin 3 None; CStep 0; cw [put_ev 3 4; del_ev 14]] ++ steps 0 2 ++
  [CCrash [1%nat]; CBegin 14 (Some 1)] ++ steps 10 6 ++ [cw [put_ev 15 5]; CBegin 14 (Some 2)] ++ steps 10 5 ++
  [cw [put_ev 14 6]; CCrash [0%nat; 1%nat]; CBegin 3 None] ++ steps 0 6 ++ [CBegin 14 None] ++ steps 10 6 ++
  [CGc 3; CCrashIn [put_ev 5 7; put_ev 27 8] true; CCrashIn [put_ev 5 9; put_ev 28 9] false; CBegin 5 (Some 1);
   CStep 0; CFail 0; CCreate 100 120; CInterval 20; cw [put_ev 41 1]; CWrite [put_ev 41 2] false; CCrash []; CCrash []].
Definition sample_cnow : list event :=
  [mk_event 3 0 [] [4]; mk_event 3 0 [9] [3]; mk_event 5 0 [] [7]; mk_event 14 0 [] [6]; mk_event 15 0 [] [5];
   mk_event 27 0 [] [8]; mk_event 41 0 [] [1]].

Lemma b0_limits : limits 0 10 /\ storages_ok [0; 1; 2].
Proof.
  split; [split; [vm_compute; discriminate|split; vm_compute; [reflexivity|discriminate]]|].
  split; [|discriminate]. repeat constructor; simpl; intuition discriminate.
Qed.
Lemma sample_cfine : (limits 0 10 /\ storages_ok [0; 1; 2]) /\ chist_fine 0 b0 sample_cops /\
  cscan b0 sample_cops = Ok (Some sample_cnow).
Proof.
  split; [apply b0_limits|]. split; [apply chist_fineb_ok; vm_compute; reflexivity|vm_compute; reflexivity].
Qed.

Definition state (l : list cop) : db := match crun b0 l with Ok b => b | _ => b0 end.
Lemma state_reach l : chist_fineb 0 b0 l = true -> match crun b0 l with Ok _ => true | _ => false end = true ->
  reachable 0 (state l) (cacked b0 l []).
Proof.
  intros H1 H2. destruct b0_limits as [L S]. exists [0; 1; 2], 10, false, 1000, 40, l.
  split; auto. split; auto. split; [apply chist_fineb_ok; auto|]. split; auto. unfold state. fold b0.
  destruct (crun b0 l); auto; discriminate.
Qed.
Definition some_cops : list cop :=
  [cw [put_ev 3 1; put_ev 14 2; put_key 3 9 3]; CBegin 3 None] ++ steps 0 6 ++ [cw [put_ev 3 4; del_ev 14; put_ev 22 1]].
Lemma some_reach : reachable 0 (state some_cops) (cacked b0 some_cops []).
Proof. apply state_reach; vm_compute; reflexivity. Qed.
Lemma some_restart : cop_fine 0 (state some_cops) (CCrash [1%nat; 0%nat]) /\
  chist_fine 0 (state some_cops) [CCrash []; CCrash [1%nat]; CCrash []].
Proof. split; [apply cop_fineb_ok|apply chist_fineb_ok]; vm_compute; reflexivity. Qed.
Lemma some_write : cop_fine 0 (state some_cops) (CCrashIn [put_ev 3 9; del_ev 22; put_ev 55 3] true) /\
  cop_fine 0 (state some_cops) (CCrashIn [put_ev 3 9; del_ev 22; put_ev 55 3] false).
Proof. split; apply cop_fineb_ok; vm_compute; reflexivity. Qed.
Lemma some_refresh : Forall (fun n => chist_fine 0 (state some_cops) (CBegin 4 None :: steps 0 n ++ [CCrash [1%nat]])) (seq 0 7) /\
  Forall (fun n => chist_fine 0 (state some_cops) (CBegin 4 (Some 2) :: steps 0 n ++ [CCrash [1%nat]])) (seq 0 7).
Proof. split; repeat (constructor; [apply chist_fineb_ok; vm_compute; reflexivity|]); constructor. Qed.
Lemma some_failed : Forall (fun n => chist_fine 0 (state some_cops) (CBegin 4 None :: steps 0 n ++ [CFail 0; CCrash [1%nat]])) (seq 0 3).
Proof. repeat (constructor; [apply chist_fineb_ok; vm_compute; reflexivity|]); constructor. Qed.
Definition gc_cops : list cop := some_cops ++ [CBegin 4 None] ++ steps 0 6 ++ [CBegin 14 None] ++ steps 10 6 ++ [CBegin 22 None] ++ steps 20 6.
Lemma some_gc : reachable 0 (state gc_cops) (cacked b0 gc_cops []) /\
  chist_fine 0 (state gc_cops) [CGc 2; CCrash []] /\ exists b, db_gc (state gc_cops) 2 = Ok b /\ db_log b = [].
Proof.
  split; [apply state_reach; vm_compute; reflexivity|]. split; [apply chist_fineb_ok; vm_compute; reflexivity|].
  eexists. split; vm_compute; reflexivity.
Qed.
Lemma some_load : Forall (loadable 0 (db_en (state some_cops))) [mk_event 3 0 [1; 2] [3]; mk_event 99 0 [] [1]] /\
  room (en_map (db_en (state some_cops))) 2 /\ (en_lsn (db_en (state some_cops)) < 7).
Proof.
  assert (X : replay_fine 0 (db_en (state some_cops)) [LWrite 7 [mk_event 3 0 [1; 2] [3]; mk_event 99 0 [] [1]]]).
  { apply replay_fineb_ok. vm_compute. reflexivity. }
  destruct X as (X1 & X2 & _). split; auto. split; auto. vm_compute. reflexivity.
Qed.

(* --- counterexamples --- *)
(* the log is collected between the use of the new partition and the removal of the old file *)
Definition gc_lost : list cop := [cw [put_ev 1 1]; CBegin 1 None] ++ steps 0 3 ++ [CGc 1; CCrash []].
Lemma gc_loses : cacked b0 gc_lost [] = [mk_event 1 0 [] [1]] /\ cscan b0 gc_lost = Ok (Some []) /\
  cscan b0 (removelast gc_lost) = Ok (Some [mk_event 1 0 [] [1]]).
Proof. split; [|split]; vm_compute; reflexivity. Qed.

(* a partition is dropped, written again, and the database started twice *)
Definition drop_ops : list cop := [cw [put_ev 1 1]; CDrop 1; cw [put_ev 1 2]].
Lemma drop_loses : cscan b0 drop_ops = Ok (Some [mk_event 1 0 [] [2]]) /\
  cscan b0 (drop_ops ++ [CCrash []]) = Ok (Some [mk_event 1 0 [] [2]]) /\
  cscan b0 (drop_ops ++ [CCrash []; CCrash []]) = Ok (Some []).
Proof. split; [|split]; vm_compute; reflexivity. Qed.

(* DROP of one partition removes events of another one after a start *)
Definition drop_interval : list cop := [cw [put_ev 5 1]; cw [put_ev 15 2]; CDrop 10; CInterval 100].
Definition drop_created : list cop := [CCreate 10 14; cw [put_ev 12 1]; cw [put_ev 17 2]; CDrop 10].
Lemma drop_ranges :
  cscan b0 drop_interval = Ok (Some [mk_event 5 0 [] [1]]) /\ cscan b0 (drop_interval ++ [CCrash []]) = Ok (Some []) /\
  cscan b0 drop_created = Ok (Some [mk_event 17 0 [] [2]]) /\ cscan b0 (drop_created ++ [CCrash []]) = Ok (Some []).
Proof. split; [|split; [|split]]; vm_compute; reflexivity. Qed.

(* a stop in DROP: the file is gone, what was in memory is back *)
Definition drop_half : list cop := [cw [put_ev 1 1; put_ev 2 1]; CBegin 1 None] ++ steps 0 6 ++
  [CGc 1; cw [put_ev 2 2]; CCrashDrop 1].
Lemma drop_partial : cscan b0 (removelast drop_half) = Ok (Some [mk_event 1 0 [] [1]; mk_event 2 0 [] [2]]) /\
  cscan b0 drop_half = Ok (Some [mk_event 2 0 [] [2]]).
Proof. split; vm_compute; reflexivity. Qed.

(* an error in the last steps of a refresh, then another refresh *)
Definition end_fails : list cop := [cw [put_ev 1 1]; CBegin 1 None] ++ steps 0 4 ++ [CFail 0; CBegin 1 None; CStep 0; CCrash []].
Definition move_fails : list cop := [cw [put_ev 1 1]; CBegin 1 None] ++ steps 0 6 ++ [CBegin 1 (Some 1)] ++ steps 0 4 ++
  [CFail 0; CBegin 1 None] ++ steps 0 6 ++ [CCrash []].
(* a failed move leaves its file, a later move to another storage is stopped *)
Definition stale_move : list cop := [cw [put_ev 1 1]; CBegin 1 (Some 2); CStep 0; CFail 0; CBegin 1 (Some 1)] ++ steps 0 5 ++ [CCrash []].
Lemma no_start : crun b0 end_fails = Err /\ crun b0 move_fails = UB /\ crun b0 stale_move = Err /\
  cacked b0 end_fails [] = [mk_event 1 0 [] [1]] /\ cacked b0 move_fails [] = [mk_event 1 0 [] [1]] /\
  cacked b0 stale_move [] = [mk_event 1 0 [] [1]].
Proof. repeat split; vm_compute; reflexivity. Qed.

(* a refresh fails, a second one succeeds, the database is started *)
Definition retry_ops : list cop := [cw [put_ev 1 1]; CBegin 1 None; CFail 0; cw [put_ev 2 2]; CBegin 1 None] ++ steps 0 6.
Lemma retry_loses : cscan b0 retry_ops = Ok (Some [mk_event 1 0 [] [1]; mk_event 2 0 [] [2]]) /\
  cscan b0 (retry_ops ++ [CCrash []]) = Ok (Some [mk_event 2 0 [] [2]]).
Proof. split; vm_compute; reflexivity. Qed.
