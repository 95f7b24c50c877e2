(* Counterexamples on the partition mapping. *)
From Coq Require Import NArith ZArith List Bool Sorted Lia Arith.
Import ListNotations.
From Verif Require Import Model.Base Model.Event Model.Rbtree Model.Mapping Spec.Layout Proof.MappingL.

Definition no_data (_ _ : N) : unit := tt.

(* ids more than 2^31 apart: two partitions with the same range *)
Lemma far_refuted :
  exists ops m, lrun no_data (mapping_init, 10%N) ops = Ok (m, 10%N) /\
    ~ layout (ranges m) /\
    exists a b t, ranges m = a :: b :: a :: t.
Proof.
  exists [LWrite 0; LWrite 3000000000; LWrite 20; LWrite 3000000001]%N.
  eexists. split; [vm_compute; reflexivity|]. split.
  - intros [H _]. vm_compute in H. inversion H; subst. rewrite Forall_forall in H3.
    specialize (H3 (0, 9)%N). assert (X : (3000000009 < 0)%N) by (apply H3; simpl; auto). discriminate.
  - vm_compute. eauto.
Qed.

(* ids a multiple of 2^32 apart: violated assertion *)
Lemma far_assert_refuted :
  exists ops, lrun no_data (mapping_init, 8%N) ops = UB.
Proof. exists [LWrite 0; LWrite 4294967296]%N. vm_compute. reflexivity. Qed.

(* --- end of the id space --- *)
Definition top : mapping unit :=
  mk_mapping (Node Black Leaf (mk_slice (u64_max - 15) u64_max tt) Leaf) 1.

Lemma top_reachable : lrun no_data (mapping_init, 16%N) [LWrite u64_max] = Ok (top, 16%N).
Proof. vm_compute. reflexivity. Qed.

Lemma top_loop : forall fuel,
  engine_range no_data fuel act_keep top 0 u64_max = Ok None.
Proof.
  induction fuel; cbn [engine_range]; auto.
  replace (engine_foreach no_data top 0 u64_max) with (Ok (Some ((u64_max - 15)%N, 0%N))) by (vm_compute; reflexivity).
  cbn [bind]. unfold act_keep at 1. cbn [bind]. rewrite IHfuel. reflexivity.
Qed.

Lemma top_endless_refuted :
  exists ops iv m, lrun no_data (mapping_init, iv) ops = Ok (m, iv) /\ length (mapping_list m) = 1 /\
    forall fuel, engine_range no_data fuel act_keep m 0 u64_max = Ok None.
Proof.
  exists [LWrite u64_max], 16%N, top. split; [apply top_reachable|]. split; [reflexivity|]. apply top_loop.
Qed.

Lemma top_overlap_refuted :
  exists m m', lrun no_data (mapping_init, 16%N) [LWrite u64_max] = Ok (m, 16%N) /\
    engine_fill no_data m (u64_max - 31) u64_max = Ok m' /\ ~ layout (ranges m').
Proof.
  exists top. eexists. split; [apply top_reachable|]. split; [vm_compute; reflexivity|].
  intros [H _]. vm_compute in H. inversion H; subst. rewrite Forall_forall in H3.
  specialize (H3 (0, u64_max)%N). assert (X : (18446744073709551599 < 0)%N) by (apply H3; vm_compute; auto). discriminate.
Qed.

(* the last, shorter interval cannot be written, whatever the mapping *)
Lemma top_write_error : forall {P} (fresh : N -> N -> P) m iv id, (0 < iv <= u64_max)%N -> (id <= u64_max)%N ->
  (u64_max + 1 < interval_of iv id + iv)%N ->
  match mapping_max m with Some z => match zelem z with Some s => slice_in s id | None => false end | None => false end = false ->
  mapping_match m id = Ok None ->
  engine_lock fresh m iv id false true = Err.
Proof.
  intros P fresh m iv id Hiv Hid Ht Hm Hn. unfold engine_lock. rewrite Hm, Hn. cbn [bind].
  destruct (N.eqb_spec iv 0); [lia|].
  assert (H0 : (interval_of iv id <= id)%N) by (unfold interval_of; apply N.le_sub_l).
  remember (interval_of iv id) as mn. clear Heqmn. rewrite u64_max_eq in *.
  replace (sub64 (add64 mn iv) 1) with (mn + iv - 18446744073709551616 - 1)%N.
  - unfold engine_fill. destruct (N.ltb_spec (mn + iv - 18446744073709551616 - 1) mn); [reflexivity|lia].
  - unfold sub64, add64. change two64 with 18446744073709551616%N.
    assert (E1 : ((mn + iv) mod 18446744073709551616 = mn + iv - 18446744073709551616)%N).
    { symmetry. apply (N.mod_unique _ _ 1); lia. }
    rewrite E1. apply (N.mod_unique _ _ 1); lia.
Qed.

Lemma top_write_refuted :
  engine_lock no_data mapping_init 3000000 u64_max false true = Err.
Proof. vm_compute. reflexivity. Qed.

(* --- range commands --- *)
Lemma range_refuted :
  exists m mn mx s, lrun no_data (mapping_init, 10%N) [LWrite 3; LWrite 13]%N = Ok (m, 10%N) /\
    In s (mapping_list m) /\ inside mn mx s = true /\
    engine_range no_data 5 act_keep m mn mx = Ok (Some (m, [])).
Proof.
  eexists. exists 5%N, 100%N, (mk_slice 10 19 tt).
  split; [vm_compute; reflexivity|]. split; [vm_compute; auto|]. split; vm_compute; reflexivity.
Qed.
