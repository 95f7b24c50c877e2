(* A checker for the limits of histories with DROP and restarts; examples and counterexamples. *)
From Coq Require Import NArith ZArith List Bool Sorted Lia Arith.
Import ListNotations.
From Verif Require Import Model.Base Model.Event Model.Rbtree Model.Memtable Model.Mapping Model.Merge
  Model.PartIter Model.Scan Model.Writer Model.Codec Model.Engine Spec.Order Spec.Merged Spec.Files
  Spec.Layout Spec.Regions Spec.View Spec.Engine Proof.OrderL Proof.MemtableL Proof.EngineL Proof.EngineX
  Proof.DirL Proof.CrashD Proof.CrashP Proof.CrashT Proof.CrashX.
From Verif Require Import Model.Crash Spec.Crash Spec.Drops.
Local Arguments N.pow : simpl never.
Local Arguments N.add : simpl never.
Local Arguments N.sub : simpl never.

Fixpoint dreplay_fineb (lo : N) (b : db) (l : list lrec) : bool :=
  match l with
  | [] => true
  | LWrite lsn evs :: t =>
      (forallb (loadableb lo (db_en b)) evs && roomb (en_map (db_en b)) (length evs) &&
       match engine_write_replay (db_en b) lsn evs with Ok en => dreplay_fineb lo (with_en b en) t | _ => true end)%bool
  | LDrop _ id :: t =>
      ((en_lsn (db_en b) <? u64_max)%N && match db_drop b id with Ok b => dreplay_fineb lo b t | _ => true end)%bool
  end.
Definition drestart_fineb (lo : N) (b : db) (d : dir) (log : list lrec) : bool :=
  match engine_recover (db_en b) (db_storages b) d with
  | Ok (en, d) =>
      dreplay_fineb lo (mk_db en (db_storages b) (home_of (worklist (db_storages b) d) (hd 0%N (db_storages b))) d log []) log
  | _ => true
  end.
Definition unusedb (R : list range) (en : engine) (l : list warg) : bool :=
  forallb (fun e => negb (gone R (ev_id e))) (assigned (en_serial en) (en_ssn en) l).
Definition dop_fineb (lo : N) (R : list range) (b : db) (o : cop) : bool :=
  let en := db_en b in
  match o with
  | CWrite l _ => (batch_fineb lo en l && (en_lsn en <? u64_max)%N && unusedb R en l)%bool
  | CBegin _ _ | CStep _ | CFail _ | CGc _ => cop_fineb lo b o
  | CDrop id => ((lo <=? id) && (id <? lo + 2^31) && (en_lsn en <? u64_max))%N &&
      forallb (fun s => negb (slice_in s id) || no_leftoverb b (s_min s)) (mapping_list (en_map en))
  | CCrashDrop _ => false
  | CCreate mn mx => (negb (mn <=? mx)%N || (nearb lo (mn, mx) && (mx =? snd (cell (en_interval en) mn))%N &&
      (mn =? fst (cell (en_interval en) mn))%N && negb (gone R mn)))%bool
  | CInterval n => (n =? en_interval en)%N
  | CCrash cuts =>
      match interrupted (db_storages b) (db_dir b) cuts with
      | Ok d => drestart_fineb lo b d (db_log b)
      | _ => true
      end
  | CCrashIn l whole =>
      (batch_fineb lo en l && (en_lsn en <? u64_max)%N && unusedb R en l &&
      drestart_fineb lo b (db_dir b)
        (match engine_write en l true with
         | Ok (_, Some evs) => if whole then db_log b ++ [write_rec b evs] else db_log b
         | _ => db_log b
         end))%bool
  end.
Fixpoint dhist_fineb (lo : N) (R : list range) (b : db) (l : list cop) : bool :=
  match l with
  | [] => true
  | o :: t => (dop_fineb lo R b o && match cstep b o with
                                     | Ok b' => dhist_fineb lo (dropped b o ++ R) b' t
                                     | _ => dhist_fineb lo R b t
                                     end)%bool
  end.

Lemma dreplay_fineb_ok lo : forall l b, dreplay_fineb lo b l = true -> dreplay_fine lo b l.
Proof.
  induction l as [|[lsn evs|lsn id] l IH]; intros b H; cbn [dreplay_fineb dreplay_fine] in *; auto.
  - bools. split; [|split].
    + rewrite forallb_forall in H. rewrite Forall_forall. intros e He. apply loadableb_ok; auto.
    + unfold roomb in H1. bools. split; auto. rewrite forallb_forall in H2. intros s Hs. specialize (H2 s Hs). bools. auto.
    + destruct (engine_write_replay _ lsn evs); auto.
  - bools. split; auto. destruct (db_drop b id); auto.
Qed.
Lemma drestart_fineb_ok lo b d log : drestart_fineb lo b d log = true -> drestart_fine lo b d log.
Proof.
  unfold drestart_fineb, drestart_fine. destruct (engine_recover _ _ _) as [[en d']| |]; auto. apply dreplay_fineb_ok.
Qed.
Lemma unusedb_ok R en l : unusedb R en l = true -> unused R en l.
Proof.
  unfold unusedb, unused. rewrite forallb_forall, Forall_forall. intros H e He. apply negb_true_iff. auto.
Qed.
Lemma dop_fineb_ok lo R b o : dop_fineb lo R b o = true -> dop_fine lo R b o.
Proof.
  destruct o as [l logged|id to|ref|ref|k|id|mn mx|n|cuts|l whole|id]; cbn [dop_fineb dop_fine]; intros H; try discriminate;
    try (apply cop_fineb_ok; exact H).
  - bools. split; [apply batch_fineb_ok; auto|]. split; auto. apply unusedb_ok; auto.
  - bools. split; auto. split; auto. intros s Hs Hr. rewrite forallb_forall in H0. specialize (H0 s Hs).
    apply in_slice in Hr. rewrite Hr in H0. apply no_leftoverb_ok; auto.
  - intros Hle. apply N.leb_le in Hle. rewrite Hle in H. simpl in H. unfold nearb in H. bools.
    apply negb_true_iff in H0. split; [split; auto|]. split; auto.
    unfold cell. rewrite <- H1. f_equal; congruence.
  - apply N.eqb_eq; auto.
  - destruct (interrupted _ _ _); auto. apply drestart_fineb_ok; auto.
  - bools. split; [apply batch_fineb_ok; auto|]. split; auto. split; [apply unusedb_ok; auto|]. apply drestart_fineb_ok; auto.
Qed.
Lemma dhist_fineb_ok lo : forall l R b, dhist_fineb lo R b l = true -> dhist_fine lo R b l.
Proof.
  induction l as [|o l IH]; intros R b H; cbn [dhist_fineb dhist_fine] in *; auto. bools.
  split; [apply dop_fineb_ok; auto|]. destruct (cstep b o); auto.
Qed.

(* --- samples --- *)
Local Open Scope N_scope.
(* old partitions are dropped, with a file, after a move, and in memory only; the log is collected and the
   database stopped between *)
Definition retain : list cop :=
  [cw [put_ev 3 1; put_ev 14 2]; CBegin 3 None] ++ steps 0 6 ++ [cw [put_ev 25 3; put_ev 4 4]; CBegin 14 (Some 1)] ++ steps 10 6 ++
  [CDrop 3; CCrash [1%nat]; cw [put_ev 36 5]; CDrop 14; CGc 1; CCrash []; CCrashIn [put_ev 37 6; del_ev 25; put_ev 48 1] true;
   CBegin 25 None] ++ steps 20 6 ++ [CBegin 37 None] ++ steps 30 6 ++ [CGc 3; CDrop 25; CCrash []; CDrop 25; CCrash [0%nat]].
Definition retained : list event := [mk_event 36 0 [] [5]; mk_event 37 0 [] [6]; mk_event 48 0 [] [1]].
Lemma retain_fine : (limits 0 10 /\ storages_ok [0; 1; 2]) /\ dhist_fine 0 [] b0 retain /\
  cscan b0 retain = Ok (Some retained) /\ all_dropped [] b0 retain = [(20, 29); (10, 19); (0, 9)].
Proof.
  split; [apply b0_limits|]. split; [apply dhist_fineb_ok; vm_compute; reflexivity|]. split; vm_compute; reflexivity.
Qed.

Lemma dstate_reach l : dhist_fineb 0 [] b0 l = true -> match crun b0 l with Ok _ => true | _ => false end = true ->
  dreachable 0 (all_dropped [] b0 l) (state l) (dacked b0 l []).
Proof.
  intros H1 H2. destruct b0_limits as [L S]. exists [0; 1; 2], 10, false, 1000, 40, l.
  split; auto. split; auto. split; [apply dhist_fineb_ok; auto|]. split; auto. unfold state. fold b0.
  destruct (crun b0 l); auto; discriminate.
Qed.
Definition kept : list cop :=
  [cw [put_ev 3 1; put_ev 14 2; put_ev 25 3]; CBegin 14 (Some 1)] ++ steps 10 6 ++ [cw [put_ev 15 9]; CDrop 3].
Lemma kept_reach : dreachable 0 (all_dropped [] b0 kept) (state kept) (dacked b0 kept []).
Proof. apply dstate_reach; vm_compute; reflexivity. Qed.
Lemma kept_is : all_dropped [] b0 kept = [(0, 9)] /\
  dacked b0 kept [] = [mk_event 14 0 [] [2]; mk_event 25 0 [] [3]; mk_event 15 0 [] [9]].
Proof. split; vm_compute; reflexivity. Qed.
Lemma kept_restart : dop_fine 0 (all_dropped [] b0 kept) (state kept) (CCrash [1%nat; 0%nat]).
Proof. apply dop_fineb_ok. vm_compute. reflexivity. Qed.
Lemma kept_drop : dhist_fine 0 (all_dropped [] b0 kept) (state kept) [CDrop 14; CCrash [1%nat]] /\
  dropped (state kept) (CDrop 14) = [(10, 19)] /\
  cscan b0 (kept ++ [CDrop 14; CCrash [1%nat]]) = Ok (Some [mk_event 25 0 [] [3]]).
Proof. split; [apply dhist_fineb_ok; vm_compute; reflexivity|]. split; vm_compute; reflexivity. Qed.

(* the record of a DROP is written again at every start while the events before it are in the log *)
Definition dlog (l : list cop) : list lrec := match crun b0 l with Ok b => db_log b | _ => [] end.
Definition drop_again : list cop := [cw [put_ev 1 1]; CDrop 1].
Lemma drop_grows : dlog drop_again = [LWrite 1 [mk_event 1 0 [] [1]]; LDrop 2 1] /\
  dlog (drop_again ++ [CCrash []; CCrash []; CCrash []]) = [LWrite 1 [mk_event 1 0 [] [1]]; LDrop 2 1; LDrop 2 1; LDrop 2 1; LDrop 2 1].
Proof. split; vm_compute; reflexivity. Qed.
(* a number of the log is used twice: the record of a DROP without a partition is not counted at a start *)
Definition drop_number : list cop :=
  [cw [put_ev 1 1]; CBegin 1 None] ++ steps 0 6 ++ [CGc 1; CDrop 1; CCrash []; cw [put_ev 11 2]; cw [put_ev 12 3]].
Lemma drop_numbers : dhist_fine 0 [] b0 drop_number /\
  dlog drop_number = [LDrop 2 1; LWrite 1 [mk_event 11 0 [] [2]]; LWrite 2 [mk_event 12 0 [] [3]]].
Proof. split; [apply dhist_fineb_ok; vm_compute; reflexivity|vm_compute; reflexivity]. Qed.
