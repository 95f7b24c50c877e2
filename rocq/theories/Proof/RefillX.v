(* A checker for the limits of histories with restarts and large tables; examples and counterexamples. *)
From Coq Require Import NArith ZArith List Bool Sorted Lia Arith.
Import ListNotations.
From Verif Require Import Model.Base Model.Event Model.Rbtree Model.Memtable Model.Mapping Model.Merge
  Model.PartIter Model.Scan Model.Writer Model.Codec Model.Engine Spec.Order Spec.Merged Spec.Files
  Spec.Layout Spec.Regions Spec.View Spec.Engine Spec.Grow Proof.OrderL Proof.MemtableL Proof.MemtableX
  Proof.MemtableM Proof.EngineL Proof.EngineX Proof.GrowX Proof.GrowU Proof.CrashX.
From Verif Require Import Model.Crash Spec.Crash Spec.Refill.
Local Arguments N.pow : simpl never.
Local Arguments N.add : simpl never.
Local Arguments N.sub : simpl never.
Implicit Types (s : slice part) (m : mapping part).

Fixpoint refill_fineb (lo : N) (en : engine) (l : list lrec) : bool :=
  match l with
  | [] => true
  | LWrite lsn evs :: t =>
      (forallb (loadableb lo en) evs && fits_pagesb (en_map en) evs &&
       match engine_write_replay en lsn evs with Ok en' => refill_fineb lo en' t | _ => true end)%bool
  | LDrop _ _ :: _ => false
  end.
Definition reopen_fineb (lo : N) (b : db) (d : dir) (log : list lrec) : bool :=
  match engine_recover (db_en b) (db_storages b) d with
  | Ok (en, _) => refill_fineb lo en log
  | _ => true
  end.
Definition rop_fineb (lo : N) (b : db) (o : cop) : bool :=
  let en := db_en b in
  match o with
  | CWrite l logged => (try_opb lo en (EWrite l logged) && (en_lsn en <? u64_max)%N)%bool
  | CCrash cuts =>
      match interrupted (db_storages b) (db_dir b) cuts with
      | Ok d => reopen_fineb lo b d (db_log b)
      | _ => true
      end
  | CCrashIn l whole =>
      (try_opb lo en (EWrite l true) && (en_lsn en <? u64_max)%N &&
      reopen_fineb lo b (db_dir b)
        (match engine_write en l true with
         | Ok (_, Some evs) => if whole then db_log b ++ [write_rec b evs] else db_log b
         | _ => db_log b
         end))%bool
  | _ => cop_fineb lo b o
  end.
Fixpoint rhist_fineb (lo : N) (b : db) (l : list cop) : bool :=
  match l with
  | [] => true
  | o :: t => (rop_fineb lo b o && match cstep b o with Ok b' => rhist_fineb lo b' t | _ => rhist_fineb lo b t end)%bool
  end.

Lemma refill_fineb_ok lo : forall l en, refill_fineb lo en l = true -> refill_fine lo en l.
Proof.
  induction l as [|[lsn evs|lsn id] l IH]; intros en H; cbn [refill_fineb refill_fine] in *; auto; try discriminate.
  bools. split; [|split].
  - rewrite forallb_forall in H. rewrite Forall_forall. intros e He. apply loadableb_ok; auto.
  - apply fits_pagesb_ok; auto.
  - destruct (engine_write_replay en lsn evs); auto.
Qed.
Lemma reopen_fineb_ok lo b d log : reopen_fineb lo b d log = true -> reopen_fine lo b d log.
Proof.
  unfold reopen_fineb, reopen_fine. destruct (engine_recover _ _ _) as [[en d']| |]; auto. apply refill_fineb_ok.
Qed.
Lemma rop_fineb_ok lo b o : rop_fineb lo b o = true -> rop_fine lo b o.
Proof.
  destruct o as [l logged|id to|ref|ref|k|id|mn mx|n|cuts|l whole|id]; cbn [rop_fineb rop_fine]; intros H;
    try (apply cop_fineb_ok; exact H).
  - apply andb_true_iff in H as [H1 H2]. split; [apply (try_opb_ok lo (db_en b) (EWrite l logged)); auto|].
    apply N.ltb_lt; auto.
  - destruct (interrupted _ _ _); auto. apply reopen_fineb_ok; auto.
  - apply andb_true_iff in H as [H H3]. apply andb_true_iff in H as [H1 H2].
    split; [apply (try_opb_ok lo (db_en b) (EWrite l true)); auto|]. split; [apply N.ltb_lt; auto|].
    apply reopen_fineb_ok; auto.
Qed.
Lemma rhist_fineb_ok lo : forall l b, rhist_fineb lo b l = true -> rhist_fine lo b l.
Proof.
  induction l as [|o l IH]; intros b H; cbn [rhist_fineb rhist_fine] in *; auto.
  apply andb_true_iff in H as [H1 H2].
  split; [apply rop_fineb_ok; auto|]. destruct (cstep b o); auto.
Qed.

(* --- samples --- *)
Definition b1 : db := db_new [0; 1]%N 5000 false 4096 1000.
Definition wargs (l : list event) : list warg := map (fun e => mk_warg e MemOk) l.
Definition cput (l : list event) : cop := CWrite (wargs l) true.
Definition rsteps (r : N) (n : nat) : list cop := repeat (CStep r) n.
(* 514 events in order; a start; a refresh that is stopped half way while 20 more come; a start with all
   534; a refused batch; a batch in a second partition; a record that is complete and one that is not; a
   refresh to the end, collection of the log, and a late event *)
Definition refill_ops : list cop :=
  [cput (ids 1000 514); CCrash []; CBegin 1000 None; CStep 0; cput (ids 2000 20); CStep 0;
   CCrash [1]; CWrite (wargs (ids 3000 3)) false; CCrashIn (wargs (ids 4990 20)) true;
   CCrashIn (wargs (ids 5100 5)) false; CBegin 1000 (Some 1%N)] ++ rsteps 0 6 ++
  [CGc 1; cput [vev 900 8]; CCrash []].
Lemma b1_limits : limits 0 5000 /\ storages_ok [0; 1]%N.
Proof.
  split; [split; [vm_compute; discriminate|split; vm_compute; [reflexivity|discriminate]]|].
  split; [|discriminate]. repeat constructor; simpl; intuition discriminate.
Qed.
Lemma refill_ops_hist : rhist_fine 0 b1 refill_ops.
Proof. apply rhist_fineb_ok. vm_compute. reflexivity. Qed.
Definition rstate (l : list cop) : db := match crun b1 l with Ok b => b | _ => b1 end.
Lemma rstate_refilled l : rhist_fine 0 b1 l -> match crun b1 l with Ok _ => true | _ => false end = true ->
  refilled 0 (rstate l) (cacked b1 l []).
Proof.
  intros H1 H2. destruct b1_limits as [L S]. exists [0; 1]%N, 5000%N, false, 4096%N, 1000%N, l.
  split; [exact L|]. split; [exact S|]. split; [exact H1|]. split; [|reflexivity]. unfold rstate. fold b1.
  destruct (crun b1 l); auto; discriminate.
Qed.
Definition mid_ops : list cop := [cput (ids 1000 514); CBegin 1000 None; CStep 0; cput (ids 2000 20)].
Lemma mid_refilled : refilled 0 (rstate mid_ops) (cacked b1 mid_ops []).
Proof. apply rstate_refilled; [apply rhist_fineb_ok|]; vm_compute; reflexivity. Qed.
Lemma mid_stop : rop_fine 0 (rstate mid_ops) (CCrash [1]) /\
  rop_fine 0 (rstate mid_ops) (CCrashIn (wargs (ids 4990 20)) true) /\
  rop_fine 0 (rstate mid_ops) (CCrashIn (wargs (ids 4990 20)) false).
Proof. split; [|split]; apply rop_fineb_ok; vm_compute; reflexivity. Qed.
Lemma mid_steps : Forall (fun n => rhist_fine 0 (rstate [cput (ids 1000 514)])
    (CBegin 1000 None :: repeat (CStep 0) n ++ [CCrash [1]])) [0; 2; 3; 5].
Proof. repeat (constructor; [apply rhist_fineb_ok; vm_compute; reflexivity|]). constructor. Qed.
Lemma first_refilled : refilled 0 (rstate [cput (ids 1000 514)]) (cacked b1 [cput (ids 1000 514)] []).
Proof. apply rstate_refilled; [apply rhist_fineb_ok|]; vm_compute; reflexivity. Qed.

(* --- late events while a refresh goes on: shown, and lost with a stop --- *)
Definition rscan (l : list cop) : res (option (list event)) :=
  bind (crun b1 l) (fun b => monotone_scan (N.to_nat 2000) (en_map (db_en b)) None).
Definition rscan_of (l : list cop) : list event := match rscan l with Ok (Some o) => o | _ => [] end.
Definition is_rscan (l : list cop) : bool := match rscan l with Ok (Some _) => true | _ => false end.
Lemma is_rscan_ok l : is_rscan l = true -> rscan l = Ok (Some (rscan_of l)).
Proof. unfold is_rscan, rscan_of. destruct (rscan l) as [[o|]| |]; auto; discriminate. Qed.
Definition behind_ops : list cop :=
  [cput (ids 1000 513); CBegin 1000 None; cput [ev_of 5]; cput [ev_of 4]; cput [ev_of 3]; cput [ev_of 2]; cput [ev_of 1]].
Lemma behind_hist : rhist_fine 0 b1 behind_ops.
Proof. apply rhist_fineb_ok. vm_compute. reflexivity. Qed.
Lemma behind_stop : is_rscan behind_ops = true /\
  nth_error (rscan_of behind_ops) (N.to_nat 515) = Some (ev_of 1510) /\
  is_rscan (behind_ops ++ [CCrash []]) = true /\ has (ev_of 1510) (rscan_of (behind_ops ++ [CCrash []])) = false.
Proof. split; [|split; [|split]]; vm_compute; reflexivity. Qed.
Lemma behind_lost : exists ops e out1 out2, rhist_fine 0 b1 ops /\
  rscan ops = Ok (Some out1) /\ In e out1 /\
  rscan (ops ++ [CCrash []]) = Ok (Some out2) /\ ~ In e out2.
Proof.
  pose proof behind_hist as H. pose proof behind_stop as (H1 & H2 & H3 & H4). revert H H1 H2 H3 H4.
  generalize behind_ops. intros ops H H1 H2 H3 H4.
  exists ops, (ev_of 1510), (rscan_of ops), (rscan_of (ops ++ [CCrash []])).
  split; [exact H|]. split; [apply is_rscan_ok; exact H1|]. split; [eapply nth_error_In; exact H2|].
  split; [apply is_rscan_ok; exact H3|]. apply has_not. exact H4.
Qed.

(* one page again after a refresh *)
Definition done_ops : list cop := [cput (ids 1000 514); CBegin 1000 None] ++ rsteps 0 6.
Lemma done_smallb : rhist_fineb 0 b1 done_ops = true /\
  match crun b1 done_ops with Ok _ => true | _ => false end = true /\
  forallb (fun p => ((length (mt_events (pt_mem p)) <=? MEMTABLE_PAGE)%nat &&
      (length (mt_events (pt_prev p)) <=? MEMTABLE_PAGE)%nat && (mt_count_pages (pt_mem p) <=? 1)%N &&
      (mt_count_pages (pt_prev p) <=? 1)%N)%bool) (parts (db_en (rstate done_ops))) = true /\
  length (cacked b1 done_ops []) = N.to_nat 514.
Proof. split; [|split; [|split]]; vm_compute; reflexivity. Qed.
Lemma done_small : exists b h, refilled 0 b h /\ start_fine 0 (Some (ev_of 1100)) /\
  small_tables (db_en b) /\ one_page (db_en b) /\ length h = N.to_nat 514.
Proof.
  pose proof done_smallb as (H1 & H2 & H3 & H4). revert H1 H2 H3 H4. generalize done_ops. intros ops H1 H2 H3 H4.
  exists (rstate ops), (cacked b1 ops []). split; [apply rstate_refilled; auto using rhist_fineb_ok|].
  split; [split; [apply ev_okb_ok; vm_compute; reflexivity|split; [split; vm_compute; [discriminate|reflexivity]|reflexivity]]|].
  rewrite forallb_forall in H3. split; [|split; [|exact H4]]; intros p Hp; specialize (H3 p Hp);
    apply andb_true_iff in H3 as [H3 D]; apply andb_true_iff in H3 as [H3 C]; apply andb_true_iff in H3 as [A B].
  - split; apply Nat.leb_le; auto.
  - split; apply N.leb_le; auto.
Qed.
