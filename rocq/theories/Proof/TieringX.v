(* Concrete databases for the rebalance and the counters. *)
From Coq Require Import NArith ZArith Arith List Bool Lia.
Import ListNotations.
From Verif Require Import Model.Base Model.Show Model.Tiering Spec.Tiering Proof.TieringL Proof.TieringO Proof.TieringT Proof.TieringB Proof.TieringC.

Definition fine : luck := mk_luck true true true true (Some (60, 3)%N) true.
Lemma fine_lucky : lucky fine.
Proof. repeat split; discriminate. Qed.
Definition at_time (now : N) : nat -> N * luck := fun _ => (now, fine).

Ltac nodup_now := repeat (first [apply NoDup_nil|apply NoDup_cons; [cbn; intuition discriminate|]]).
Ltac one_now := split; [vm_compute; discriminate|split; [vm_compute; tauto|match goal with |- exists x, In x (d_storages ?d) /\ ts_id x = tp_storage ?p /\ _ => let v := eval vm_compute in (storage_at d (tp_storage p)) in match v with Some ?x => exists x end end; split; [vm_compute; tauto|split; [reflexivity|let X := fresh in intro X; vm_compute in X; try discriminate X; reflexivity]]]].
Ltac wf_now := split; [repeat (first [apply Forall_nil|apply Forall_cons; [one_now|]])|];
  split; [cbn; repeat constructor; unfold apart; cbn; lia|]; split; [nodup_now|]; split; [discriminate|cbn; repeat constructor; cbn; tauto].
Ltac exact_now := let x := fresh in let I := fresh in intros x I; cbn in I; intuition (subst; vm_compute; auto).

(* storages: 0 hot, 1 warm, 2 cold with a cloud; partitions of 60 bytes with 3 events *)
Definition pt (min created : N) (state : N) (marked : bool) (s : nat) : tpart := mk_tpart min (min + 9) created state marked 60 3 s.
Definition st (i : nat) (cloud : bool) (n : Z) : tstorage := mk_tstorage i cloud true n (60 * n) (3 * n).
Definition by_count (s : nat) (n : Z) : ttier := mk_ttier s n (-1) (-1) (-1).

(* three tiers, nothing waits *)
Definition calm : tdb := mk_tdb [st 0 false 3; st 1 false 0; st 2 true 1] [by_count 0 1; by_count 1 1; by_count 2 1]
  [pt 10 100 1 false 0; pt 0 50 1 false 0; pt 20 200 1 false 0; pt 30 20 8 false 2].
Lemma calm_wf : wf calm.
Proof. wf_now. Qed.
Lemma calm_exact : exact calm.
Proof. exact_now. Qed.
Lemma calm_idle : idle calm.
Proof. repeat constructor. Qed.
Lemma calm_tiers : NoDup (map tt_storage (d_tiers calm)).
Proof. nodup_now. Qed.
Lemma calm_run : let '(d, l, e) := engine_rebalance 20 (at_time 1000) calm in
  l = [(0%N, Some 1); (10%N, Some 1); (0%N, Some 2); (30%N, None)] /\ e = Finished /\ map (fun p => (tp_min p, tp_storage p, tp_state p)) (d_parts d) = [(20%N, 0, 1%N); (10%N, 1, 1%N); (0%N, 2, 8%N)] /\
  map ts_size (d_storages d) = [60; 60; 120]%Z.
Proof. vm_compute. repeat split. Qed.
Lemma zero_fits now d : (forall s, size_on d s < 2 ^ 63 /\ events_on d s < 2 ^ 63)%Z -> Forall (fun p => tp_created p <= now)%N (d_parts d) -> (now < 2 ^ 64)%N -> fits (fun _ => (0, 0)%Z) now d.
Proof. intros A B C. split; [|split; assumption]. intro s. specialize (A s). cbn [fst snd]. lia. Qed.
Lemma pt_sum l s : Forall (fun p => tp_size p = 60 /\ tp_events p = 3)%N l ->
  (sum (fun p => if filed p then Z.of_N (tp_size p) else 0) (filter (fun p => (tp_storage p =? s)%nat) l) <= 60 * Z.of_nat (length l) /\ sum (fun p => if filed p then Z.of_N (tp_events p) else 0) (filter (fun p => (tp_storage p =? s)%nat) l) <= 60 * Z.of_nat (length l))%Z.
Proof.
  induction 1 as [|p l [A B] F IH]; [cbn; lia|]. cbn [filter length]. destruct (tp_storage p =? s); [|lia]. cbn [sum fold_right]. unfold sum in IH. rewrite A, B. destruct (filed p); lia.
Qed.
Lemma calm_fits : fits (fun _ => (0, 0)%Z) 1000 calm.
Proof.
  apply zero_fits; [|repeat constructor; vm_compute; discriminate|reflexivity]. intro s. destruct (pt_sum (d_parts calm) s) as [A B]; [repeat constructor|]. unfold size_on, events_on, on. change (2 ^ 63)%Z with 9223372036854775808%Z.
  cbn [length d_parts calm] in A, B. cbn [d_parts calm]. lia.
Qed.

(* a rebalance which never ends: work on the oldest partition of the first tier is waiting *)
Definition waits (s : nat) : tdb := mk_tdb [st 0 false 1; st 1 false (if s =? 1 then 1 else 0); st 2 false (if s =? 2 then 1 else 0)] [by_count 0 0; by_count 1 0; by_count 2 0]
  [pt 0 100 1 true 0; pt 10 50 1 false s].
Lemma forever (d1 d2 : tdb) ws : (forall n, ws n = ws 0) ->
  (exists m1 t1 e1 o1, engine_rebalance_next d1 (d_tiers d1) None (fst (ws 0)) = Some (e1, m1, Some t1) /\ engine_refresh e1 m1 (Some t1) true (snd (ws 0)) = (d2, o1) /\ o1 <> Failed) ->
  (exists m2 t2 e2 o2, engine_rebalance_next d2 (d_tiers d2) None (fst (ws 0)) = Some (e2, m2, Some t2) /\ engine_refresh e2 m2 (Some t2) true (snd (ws 0)) = (d1, o2) /\ o2 <> Failed) ->
  forall fuel, snd (engine_rebalance fuel ws d1) = Running /\ snd (engine_rebalance fuel ws d2) = Running.
Proof.
  intros K H1 H2 fuel. revert ws K H1 H2. induction fuel as [|f IH]; intros ws K H1 H2; [split; reflexivity|]. cbn [engine_rebalance].
  assert (K' : forall n, ws (S n) = ws 1) by (intro n; rewrite (K (S n)), (K 1); reflexivity).
  destruct (IH (fun n => ws (S n)) K') as [I1 I2]; [rewrite (K 1); exact H1|rewrite (K 1); exact H2|].
  destruct H1 as (m1 & t1 & e1 & o1 & A1 & B1 & C1). destruct H2 as (m2 & t2 & e2 & o2 & A2 & B2 & C2). split.
  - rewrite A1, B1. destruct (engine_rebalance f (fun n => ws (S n)) d2) as [[d3 l] e]. cbn [snd] in *. destruct o1; [exact I2|exact I2|congruence].
  - rewrite A2, B2. destruct (engine_rebalance f (fun n => ws (S n)) d1) as [[d3 l] e]. cbn [snd] in *. destruct o2; [exact I1|exact I1|congruence].
Qed.
Lemma waits_wf : wf (waits 2).
Proof. wf_now. Qed.
Lemma waits_exact : exact (waits 2).
Proof. exact_now. Qed.
Lemma waits_forever : forall fuel, snd (engine_rebalance fuel (at_time 1000) (waits 2)) = Running.
Proof.
  intro fuel. apply (forever (waits 2) (waits 1) (at_time 1000)); [reflexivity| |].
  - eexists 10%N, 1, _, No. split; [vm_compute; reflexivity|]. split; [vm_compute; reflexivity|discriminate].
  - eexists 10%N, 2, _, No. split; [vm_compute; reflexivity|]. split; [vm_compute; reflexivity|discriminate].
Qed.
Theorem stale_never_ends : exists d ws, wf d /\ exact d /\ NoDup (map tt_storage (d_tiers d)) /\ (forall n, lucky (snd (ws n))) /\ forall fuel, snd (engine_rebalance fuel ws d) = Running.
Proof.
  exists (waits 2), (at_time 1000). split; [exact waits_wf|]. split; [exact waits_exact|]. split; [nodup_now|]. split; [intro; exact fine_lucky|exact waits_forever].
Qed.

(* a pipeline which returns to a storage *)
Definition circle (s : nat) : tdb := mk_tdb [st 0 false (if s =? 0 then 1 else 0); st 1 false (if s =? 1 then 1 else 0)] [by_count 0 0; by_count 1 0; by_count 0 0] [pt 10 50 1 false s].
Theorem circle_never_ends : exists d ws, wf d /\ exact d /\ idle d /\ (forall n, lucky (snd (ws n))) /\ map tt_storage (d_tiers d) = [0; 1; 0] /\ forall fuel, snd (engine_rebalance fuel ws d) = Running.
Proof.
  exists (circle 0), (at_time 1000). split; [wf_now|]. split; [exact_now|]. split; [repeat constructor|]. split; [intro; exact fine_lucky|]. split; [reflexivity|]. intro fuel. apply (forever (circle 0) (circle 1) (at_time 1000)); [reflexivity| |].
  - eexists 10%N, 1, _, No. split; [vm_compute; reflexivity|]. split; [vm_compute; reflexivity|discriminate].
  - eexists 10%N, 0, _, No. split; [vm_compute; reflexivity|]. split; [vm_compute; reflexivity|discriminate].
Qed.

(* two tiers: the partition of the last tier should be dropped and is moved to where it is *)
Definition stuck : tdb := mk_tdb [st 0 false 1; st 1 false 1] [by_count 0 0; by_count 1 0] [pt 0 100 1 true 0; pt 10 50 1 false 1].
Theorem last_kept : exists d ws t, wf d /\ exact d /\ NoDup (map tt_storage (d_tiers d)) /\ (forall n, lucky (snd (ws n))) /\ d_tiers d = [by_count 0 0; t] /\
  let '(d', l, e) := engine_rebalance 9 ws d in e = Finished /\ l = [(10%N, Some (tt_storage t))] /\ exceeded 1000 d' t /\ map tp_refresh (on d' (tt_storage t)) = [true].
Proof.
  exists stuck, (at_time 1000), (by_count 1 0). split; [wf_now|]. split; [exact_now|]. split; [nodup_now|]. split; [intro; exact fine_lucky|]. split; [reflexivity|].
  vm_compute. split; [reflexivity|]. split; [reflexivity|]. split; [left; split; [discriminate|reflexivity]|reflexivity].
Qed.

(* the size limit of the last tier: 100, 60 over it is enough to drop everything *)
Definition heavy : tdb := mk_tdb [st 0 false 3] [mk_ttier 0 (-1) 130 (-1) (-1)] [pt 0 10 1 false 0; pt 10 20 1 false 0; pt 20 30 1 false 0].
Lemma heavy_wf : wf heavy.
Proof. wf_now. Qed.
Lemma heavy_exact : exact heavy.
Proof. exact_now. Qed.
Theorem drops_too_much : exists d ws t, wf d /\ exact d /\ idle d /\ d_tiers d = [t] /\ (forall n, lucky (snd (ws n))) /\
  (exists d1 l1, engine_rebalance 1 ws d = (d1, l1, Running) /\ length (d_parts d1) = 2 /\ size_on d1 (tt_storage t) = 120%Z /\ tt_size t = 130%Z) /\
  (exists d' l, engine_rebalance 9 ws d = (d', l, Finished) /\ d_parts d' = []).
Proof.
  exists heavy, (at_time 1000), (mk_ttier 0 (-1) 130 (-1) (-1)). split; [exact heavy_wf|]. split; [exact heavy_exact|]. split; [repeat constructor|]. split; [reflexivity|]. split; [intro; exact fine_lucky|]. split.
  - eexists _, _. split; [vm_compute; reflexivity|]. repeat split.
  - eexists _, _. split; [vm_compute; reflexivity|]. reflexivity.
Qed.

(* the clock is set back *)
Definition young : tdb := mk_tdb [st 0 false 1] [mk_ttier 0 (-1) (-1) (-1) 3600000000] [pt 0 1000 1 false 0].
Theorem clock_drops : exists d ws now t, wf d /\ exact d /\ idle d /\ d_tiers d = [t] /\ (forall n, fst (ws n) = now /\ lucky (snd (ws n))) /\ ~ exceeded now d t /\
  exists d' l, engine_rebalance 9 ws d = (d', l, Finished) /\ d_parts d <> [] /\ d_parts d' = [].
Proof.
  exists young, (at_time 999), 999%N, (mk_ttier 0 (-1) (-1) (-1) 3600000000). split; [wf_now|]. split; [exact_now|]. split; [repeat constructor|]. split; [reflexivity|]. split; [intro n; split; [reflexivity|exact fine_lucky]|]. split.
  - unfold exceeded. cbn. intros [H|[H|[H|(_ & p & [<-|[]] & H)]]]; cbn in H; lia.
  - eexists _, _. split; [vm_compute; reflexivity|]. split; [discriminate|reflexivity].
Qed.

(* counters after a drop *)
Theorem drop_drifts : exists d o, wf d /\ exact d /\ possible d o /\ size_on (run d o) 0 = 0%Z /\ map ts_size (d_storages (run d o)) = [60%Z] /\ map ts_count (d_storages (run d o)) = [0%Z] /\ ~ exact (run d o).
Proof.
  exists young, (TDrop 0 true 9 fine). split; [wf_now|]. split; [exact_now|]. split; [exact Logic.I|]. split; [reflexivity|]. split; [reflexivity|]. split; [reflexivity|].
  intro X. destruct (X (mk_tstorage 0 false true 0 60 3)) as (_ & E & _); [left; reflexivity|]. vm_compute in E. discriminate.
Qed.
(* a history without such a drop *)
Definition story : list top := [TCreate 40 49 300; TRefresh 45 false fine; TMove 20 (Some 2) false fine; TUpload 30 true true fine; TDownload 30 false false fine; TDrop 30 false 8 fine; TRebalance 1 (at_time 1000); TDropUploaded 20 fine].
Lemma story_possible : all_possible calm story.
Proof. cbn [story all_possible possible]. repeat split; try (vm_compute; discriminate). cbn. repeat constructor; cbn; lia. Qed.
Lemma story_keeps : all_keep calm story.
Proof.
  cbn [story all_keep]. repeat (split; [exact Logic.I|]). split; [|split; [|split; exact Logic.I]].
  - set (d := run _ _). vm_compute in d. intros p I R F. cbn [d_parts d] in I. cbn [In] in I.
    repeat match goal with H : _ \/ _ |- _ => destruct H as [<-|H] | H : False |- _ => destruct H end; cbn [tp_min tp_max tp_state] in *; try lia; vm_compute; discriminate.
  - cbn [keeps]. set (a := snd _). vm_compute in a. subst a. repeat constructor; discriminate.
Qed.
