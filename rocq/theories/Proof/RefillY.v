(* A checker for ingestion in order with stops; examples. *)
From Coq Require Import NArith ZArith List Bool Sorted Lia Arith.
Import ListNotations.
From Verif Require Import Model.Base Model.Event Model.Rbtree Model.Memtable Model.Mapping Model.Merge
  Model.PartIter Model.Scan Model.Writer Model.Codec Model.Engine Spec.Order Spec.Merged Spec.Files
  Spec.Layout Spec.Regions Spec.View Spec.Engine Spec.Grow Proof.OrderL Proof.MemtableL Proof.MemtableX
  Proof.MemtableM Proof.EngineL Proof.EngineX Proof.GrowX Proof.GrowU Proof.CrashX Proof.RefillX.
From Verif Require Import Model.Crash Spec.Crash Spec.Refill.

Definition next_batchb (lo : N) (b : db) (h : list event) (l : list warg) : bool :=
  let en := db_en b in
  let evs := assigned (en_serial en) (en_ssn en) l in
  (forallb (fun a => match wa_mem a with MemOk => true | _ => false end) l &&
   match l with a :: _ => (length (ev_key (wa_event a)) <=? 255)%nat | [] => false end &&
   forallb (loadableb lo en) evs && ascb (h ++ evs) && (en_lsn en <? u64_max)%N)%bool.
Definition flow_opb (lo : N) (b : db) (h : list event) (o : cop) : bool :=
  match o with
  | CWrite l _ => next_batchb lo b h l
  | CCrashIn l _ => next_batchb lo b h l
  | CCrash _ => true
  | CInterval n => (cop_fineb lo b o && forallb (loadableb lo (with_interval (db_en b) n)) h)%bool
  | _ => cop_fineb lo b o
  end.
Fixpoint flow_histb (lo : N) (b : db) (h : list event) (l : list cop) : bool :=
  match l with
  | [] => true
  | o :: t =>
      (flow_opb lo b h o &&
      match cstep b o with
      | Ok b' => flow_histb lo b' (cack_step b o h) t
      | _ => flow_histb lo b (cack_step b o h) t
      end)%bool
  end.
Lemma next_batchb_ok lo b h l : next_batchb lo b h l = true -> next_batch lo b h l.
Proof.
  unfold next_batchb, next_batch. intros H. repeat (apply andb_true_iff in H as [H ?]).
  split; [|split; [|split; [|split]]].
  - rewrite forallb_forall in H. apply Forall_forall. intros a Ha. specialize (H a Ha). destruct (wa_mem a); auto; discriminate.
  - destruct l as [|a t]; [discriminate|]. exists a, t. split; auto. apply Nat.leb_le; auto.
  - apply Forall_forall. intros e He. apply loadableb_ok. rewrite forallb_forall in H2. auto.
  - apply ascb_ok; auto.
  - apply N.ltb_lt; auto.
Qed.
Lemma flow_opb_ok lo b h o : flow_opb lo b h o = true -> flow_op lo b h o.
Proof.
  destruct o as [l logged|id to|ref|ref|k|id|mn mx|n|cuts|l whole|id]; cbn [flow_opb flow_op]; intros H;
    try (apply cop_fineb_ok; exact H).
  - apply next_batchb_ok; auto.
  - apply andb_true_iff in H as [H1 H2]. split; [apply (cop_fineb_ok lo b (CInterval n)); auto|].
    apply Forall_forall. intros e He. apply loadableb_ok. rewrite forallb_forall in H2. auto.
  - exact I.
  - apply next_batchb_ok; auto.
Qed.
Lemma flow_histb_ok lo : forall l b h, flow_histb lo b h l = true -> flow_hist lo b h l.
Proof.
  induction l as [|o l IH]; intros b h H; cbn [flow_histb flow_hist] in *; auto.
  apply andb_true_iff in H as [H1 H2].
  split; [apply flow_opb_ok; auto|]. destruct (cstep b o); auto.
Qed.

(* 514 events; a start; a refresh stopped half way while 20 more come; a start with all of them; a refused
   batch; a record that is not complete, the same batch again with a record that is; a move to the end,
   collection of the log, another interval, a batch with a mark of a delete and a start *)
Definition flow_ops : list cop :=
  [cput (ids 1000 514); CCrash []; CBegin 1000 None; CStep 0; cput (ids 2000 20); CStep 0;
   CCrash [1]; CWrite (wargs (ids 3000 3)) false; CCrashIn (wargs (ids 4990 20)) false;
   CCrashIn (wargs (ids 4990 20)) true; CBegin 1000 (Some 1%N)] ++ rsteps 0 6 ++
  [CGc 1; CInterval 3000; cput [vev 5200 8; mk_event 5201 MN_DELETE [] []]; CCrash []].
Lemma flow_ops_hist : flow_hist 0 b1 [] flow_ops.
Proof. apply flow_histb_ok. vm_compute. reflexivity. Qed.
Lemma flow_ops_shown : length (shown (cacked b1 flow_ops [])) = N.to_nat 555.
Proof. vm_compute. reflexivity. Qed.
Lemma done_flowb : flow_histb 0 b1 [] done_ops = true.
Proof. vm_compute. reflexivity. Qed.
Lemma done_flow : exists ops b, flow_hist 0 b1 [] ops /\ crun b1 ops = Ok b /\ start_fine 0 (Some (ev_of 1100)) /\
  small_tables (db_en b) /\ one_page (db_en b) /\ length (cacked b1 ops []) = N.to_nat 514.
Proof.
  pose proof done_smallb as (_ & H2 & H3 & H4). pose proof done_flowb as H1. revert H1 H2 H3 H4.
  generalize done_ops. intros ops H1 H2 H3 H4.
  exists ops, (rstate ops). split; [apply flow_histb_ok; auto|].
  split; [unfold rstate; destruct (crun b1 ops); auto; discriminate|].
  split; [split; [apply ev_okb_ok; vm_compute; reflexivity|split; [split; vm_compute; [discriminate|reflexivity]|reflexivity]]|].
  rewrite forallb_forall in H3. split; [|split; [|exact H4]]; intros p Hp; specialize (H3 p Hp);
    apply andb_true_iff in H3 as [H3 D]; apply andb_true_iff in H3 as [H3 C]; apply andb_true_iff in H3 as [A B].
  - split; apply Nat.leb_le; auto.
  - split; apply N.leb_le; auto.
Qed.
