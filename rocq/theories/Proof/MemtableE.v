(* Concrete cases that meet the hypotheses of C01-C06. *)
From Coq Require Import NArith ZArith List Bool Sorted Lia Arith.
Import ListNotations.
From Verif Require Import Model.Base Model.Event Model.Rbtree Model.Memtable Spec.Order
  Proof.OrderL Proof.RbtreeL Proof.MemtableL Proof.MemtableL2 Proof.MemtableX Proof.MemtableM.

Ltac ok := unfold ev_ok; simpl; repeat split; try lia; repeat constructor; try lia.

Lemma ok_example : ev_ok (mk_event (2^40) 0 [1;255]%N [3%N]).
Proof. ok. Qed.

(* out-of-order writes, a replacement, a delete, keys *)
Definition sample_hist : list event :=
  [mk_event 9 0 [] [1%N]; mk_event 3 0 [65%N] [2%N]; mk_event 9 1 [] []; mk_event 3 0 [65;66]%N []; ev_of 100].
Lemma sample_hist_ok :
  Forall (fun e => ev_ok e /\ win 0 e) sample_hist /\ distinct sample_hist <= MEMTABLE_PAGE.
Proof.
  split; [|vm_compute; lia].
  repeat constructor; try (simpl; lia).
Qed.
Lemma sample_twice_ok :
  Forall (fun e => ev_ok e /\ win 0 e) (sample_hist ++ sample_hist) /\
  distinct (sample_hist ++ sample_hist) <= MEMTABLE_PAGE.
Proof.
  split; [|vm_compute; lia]. apply Forall_app. split; apply sample_hist_ok.
Qed.

Lemma ids_ok lo n : (lo + N.of_nat n < 2^31)%N -> Forall (fun e => ev_ok e /\ win 0 e) (ids lo n).
Proof.
  intros H. apply Forall_forall. intros e He. apply in_map_iff in He as (k & <- & Hk).
  apply in_seq in Hk. split; [apply ev_ok_of; lia|]. unfold win. cbn [ev_id ev_of]. lia.
Qed.
Lemma ids_2000_ok : ascending (ids 7 2000) /\ Forall (fun e => ev_ok e /\ win 0 e) (ids 7 2000).
Proof. split; [apply ids_ascending|apply ids_ok; vm_compute; reflexivity]. Qed.

(* a table of two pages *)
Definition multi : memtable :=
  Eval vm_compute in match memtable_writes memtable_new (ids 0 513) with Ok (m, _) => m | _ => memtable_new end.
Definition seek_hyps (m : memtable) (k : event) : Prop :=
  exists z pg, ascending (mt_events m) /\ Forall (fun e => ev_ok e /\ win 0 e) (mt_events m) /\
  (ev_ok k /\ win 0 k) /\
  Forall (fun pg => pg_ev pg <> []) (elements (mt_tree m)) /\
  mt_count_pages m <> 0%N /\ mt_count m <> 0%N /\
  memtable_search_page m k = Ok z /\ zelem z = Some pg /\ zroot z = mt_tree m /\
  Forall (fun e => ev_lt e k) (pages_before z) /\ (exists e, In e (pg_ev pg) /\ ev_le k e).

Lemma multi_events : mt_events multi = ids 0 513.
Proof. vm_compute. reflexivity. Qed.

Definition ltb (k e : event) : bool := match ev_cmp e k with Lt => true | _ => false end.
Lemma forallb_lt k l : forallb (ltb k) l = true -> Forall (fun e => ev_lt e k) l.
Proof.
  intros H. apply Forall_forall. intros x Hx. rewrite forallb_forall in H. apply H in Hx.
  unfold ltb in Hx. unfold ev_lt. destruct (ev_cmp x k); congruence.
Qed.

Lemma seek_multi : seek_hyps multi (ev_of 510).
Proof.
  do 2 eexists. rewrite multi_events.
  split; [apply ids_ascending|]. split; [apply ids_ok; vm_compute; reflexivity|].
  split; [split; [apply ev_ok_of|unfold win; cbn]; lia|].
  split; [vm_compute; repeat constructor; discriminate|].
  split; [discriminate|]. split; [discriminate|].
  split; [vm_compute; reflexivity|]. split; [reflexivity|]. split; [reflexivity|].
  split; [apply forallb_lt; vm_compute; reflexivity|].
  exists (ev_of 512). split; [vm_compute; tauto|vm_compute; discriminate].
Qed.

Definition write_hyps (m : memtable) (e : event) : Prop :=
  exists z pg, ascending (mt_events m) /\ Forall (fun e => ev_ok e /\ win 0 e) (mt_events m) /\
  ev_ok e /\ win 0 e /\
  wf (mt_tree m) /\ mt_count_pages m <> 0%N /\ pg_ev pg <> [] /\
  mt_size_split m <= mt_size_page m /\
  memtable_search_page m e = Ok z /\ zelem z = Some pg /\ zroot z = mt_tree m /\
  Forall (fun x => ev_lt x e) (pages_before z) /\ Forall (fun x => ev_lt e x) (pages_after z) /\
  length (pg_ev pg) < mt_size_page m.

Lemma write_multi : write_hyps multi (vev 509 3).
Proof.
  do 2 eexists. rewrite multi_events.
  split; [apply ids_ascending|]. split; [apply ids_ok; vm_compute; reflexivity|].
  split; [ok|]. split; [unfold win; cbn; lia|].
  split. { unfold multi; simpl. exists 1. repeat econstructor. }
  split; [discriminate|].
  split; [|split; [|split; [vm_compute; reflexivity|split; [reflexivity|split; [reflexivity|]]]]].
  { discriminate. }
  { vm_compute. lia. }
  split; [apply forallb_lt; vm_compute; reflexivity|].
  split; [constructor|]. vm_compute. lia.
Qed.

Definition insert_hyps (evs : list event) (e : event) (c : nat) (x : event) : Prop :=
  ascending evs /\ Forall (fun a => ev_ok a /\ win 0 a) evs /\ ev_ok e /\ win 0 e /\
  length evs < MEMTABLE_PAGE /\ nth_error evs c = Some x /\ lookup evs e = None /\
  exists y, In y evs /\ ev_lt e y /\ ev_lt y x.
Lemma insert_ids : insert_hyps (ids 10 5) (ev_of 3) 2 (ev_of 12).
Proof.
  split; [apply ids_ascending|]. split; [apply ids_ok; vm_compute; reflexivity|].
  split; [apply ev_ok_of; lia|]. split; [unfold win; cbn; lia|].
  split; [vm_compute; lia|]. split; [reflexivity|]. split; [reflexivity|].
  exists (ev_of 10). split; [vm_compute; tauto|]. split; reflexivity.
Qed.
