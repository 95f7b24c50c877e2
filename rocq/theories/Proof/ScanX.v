From Coq Require Import NArith ZArith List Bool Sorted Lia Arith.
Import ListNotations.
From Verif Require Import Model.Base Model.Event Model.Memtable Model.Merge Model.PartIter
  Spec.Order Spec.Merged Spec.Files Proof.OrderL Proof.MemtableL Proof.MemtableX Proof.MergeL
  Proof.PartIterL Proof.ScanL.

Lemma merge_statement lo srcs : Forall ascending srcs ->
  Forall (fun e => ev_ok e /\ win lo e) (concat srcs) ->
  merged srcs (merge_all srcs) /\ forall e, In e (merge_all srcs) <-> newest srcs e.
Proof.
  intros Ha Hg.
  assert (Hm : merged srcs (merge_all srcs)).
  { apply merge_all_spec; auto. apply (good_cmp_ok lo); auto. }
  split; auto. intros e. apply merged_newest; auto.
Qed.

(* three sources with ties of every kind *)
Definition k1 (i v : N) : event := mk_event i 0 [] [v].
Definition sample_srcs : list (list event) :=
  [[k1 1 1; k1 4 1; k1 7 1]; [k1 1 2; k1 2 2; k1 4 2]; [k1 0 3; k1 1 3; k1 2 3; k1 7 3; k1 9 3]].
Lemma sample_srcs_ok : Forall ascending sample_srcs /\
  Forall (fun e => ev_ok e /\ win 0 e) (concat sample_srcs).
Proof.
  split; repeat constructor; try (simpl; lia).
Qed.
Lemma sample_srcs_merged :
  merge_all sample_srcs = [k1 0 3; k1 1 1; k1 2 2; k1 4 1; k1 7 1; k1 9 3].
Proof. reflexivity. Qed.

(* two regions, the start key sorts after all keys of id 1 *)
Definition edge_file : pfile := [[mk_event 1 0 [97%N] []]; [mk_event 2 0 [] []]].
Lemma edge_file_ok : file_ok edge_file /\ ids_apart edge_file /\
  Forall (fun e => ev_ok e /\ win 0 e) (concat edge_file).
Proof.
  split; [|split].
  - split; [|repeat constructor; discriminate]. repeat constructor.
  - intros i j ri rj a b Hij Hi Hj Ha Hb.
    destruct i as [|[|i]]; destruct j as [|[|j]]; simpl in Hi, Hj; try lia; try discriminate;
      try (destruct j; discriminate); try (destruct i; discriminate).
    inversion Hi; inversion Hj; subst. destruct Ha as [<-|[]]. destruct Hb as [<-|[]].
    simpl. lia.
  - repeat constructor; simpl; lia.
Qed.
Lemma edge_lost : exists f k, file_ok f /\ ids_apart f /\
  Forall (fun e => ev_ok e /\ win 0 e) (concat f) /\ (ev_ok k /\ win 0 k) /\
  filter (geb k) (concat f) <> [] /\ file_scan f (Some k) = [].
Proof.
  exists edge_file, (mk_event 1 0 [98%N] []). destruct edge_file_ok as (H1 & H2 & H3).
  split; auto. split; auto. split; auto. split; [repeat constructor; simpl; lia|].
  split; [discriminate|reflexivity].
Qed.
Lemma edge_key : ~ past_keys (concat edge_file) (mk_event 1 0 [97%N] []).
Proof.
  intros [_ H]. specialize (H (mk_event 1 0 [97%N] []) (or_introl eq_refl) eq_refl).
  discriminate H.
Qed.

(* an id 2^31 or more below the data finds no region *)
Lemma index_far : exists f k, file_ok f /\ ids_apart f /\ Forall ev_ok (concat f) /\ ev_ok k /\
  (exists e, In e (concat f) /\ (ev_id k <= ev_id e)%N) /\ index_iterator_open f (Some k) = None.
Proof.
  exists [[mk_event 3000000000 0 [] []]], (mk_event 0 0 [] []).
  split; [split; repeat constructor; discriminate|].
  split. { intros i j ri rj a b Hij Hi Hj. destruct i as [|i]; destruct j as [|[|j]]; simpl in *;
             try lia; try discriminate; destruct i; discriminate. }
  split; [repeat constructor; simpl; lia|]. split; [repeat constructor; simpl; lia|].
  split; [exists (mk_event 3000000000 0 [] []); simpl; split; [auto|lia]|].
  vm_compute. reflexivity.
Qed.
Lemma sample_index_ok : file_ok edge_file /\ near_ids 0 edge_file.
Proof.
  destruct edge_file_ok as (H1 & _). split; auto.
  intros r e Hr He. destruct Hr as [<-|[<-|[]]]; destruct He as [<-|[]]; simpl; lia.
Qed.
