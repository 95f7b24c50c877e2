(* Which partitions writes, replays and CREATE add: whole intervals of the ids they touch. *)
From Coq Require Import NArith ZArith List Bool Sorted Lia Arith Permutation.
Import ListNotations.
From Verif Require Import Model.Base Model.Event Model.Rbtree Model.Memtable Model.Mapping Model.Merge
  Model.PartIter Model.Scan Model.Writer Model.Codec Model.Engine Model.Crash Spec.Order Spec.Merged Spec.Files Spec.Layout
  Spec.Regions Spec.View Spec.Engine Spec.Crash Proof.OrderL Proof.RbtreeL Proof.MemtableL Proof.MemtableL2 Proof.MergeL
  Proof.MappingL Proof.MappingP Proof.ScanL Proof.EngineL Proof.EngineW Proof.EngineR Proof.CrashW.
Local Arguments N.pow : simpl never.
Local Arguments N.add : simpl never.
Local Arguments N.sub : simpl never.
Implicit Types (s t : slice part) (m : mapping part) (r : range).

Definition is_cell (iv : N) r : Prop := r = cell iv (fst r).
Definition cells (iv : N) (l : list range) : Prop := Forall (is_cell iv) l.

Lemma cell_mod iv id : (0 < iv)%N -> exists q, interval_of iv id = (q * iv)%N /\ (q * iv <= id < q * iv + iv)%N.
Proof.
  intros H. exists (id / iv)%N. unfold interval_of. pose proof (N.div_mod id iv ltac:(lia)) as E.
  pose proof (N.mod_lt id iv ltac:(lia)) as L. rewrite N.mul_comm in E.
  generalize dependent (id mod iv)%N. generalize dependent (id / iv)%N. intros q x E L. generalize dependent (q * iv)%N. lia.
Qed.
Lemma cell_self iv id : (0 < iv)%N -> in_range id (cell iv id).
Proof. intros H. destruct (cell_mod iv id H) as (q & E & L). unfold cell, in_range. rewrite E. simpl. lia. Qed.
Lemma cell_eq iv x id : (0 < iv)%N -> in_range x (cell iv id) -> cell iv x = cell iv id.
Proof.
  intros H. destruct (cell_mod iv id H) as (q & E & L). destruct (cell_mod iv x H) as (q' & E' & L').
  unfold cell, in_range. rewrite E, E'. cbn [fst snd]. intros X.
  assert (q = q') by nia. subst. auto.
Qed.
Lemma cell_cell iv id : (0 < iv)%N -> is_cell iv (cell iv id).
Proof.
  intros H. unfold is_cell. symmetry. apply cell_eq; auto. destruct (cell_mod iv id H) as (q & E & L).
  unfold cell, in_range. cbn [fst snd]. lia.
Qed.
Lemma cell_in iv r x : (0 < iv)%N -> is_cell iv r -> in_range x r -> r = cell iv x.
Proof. intros H E X. rewrite E in X. apply cell_eq in X; auto. rewrite X. exact E. Qed.

(* what a change adds *)
Definition rgrow (iv : N) (ids : list N) m m' : Prop :=
  forall r, In r (ranges m') -> In r (ranges m) \/ exists id, In id ids /\ r = cell iv id.
Lemma rgrow_refl iv ids m : rgrow iv ids m m.
Proof. intros r Hr. auto. Qed.
Lemma rgrow_same iv ids m m' : ranges m' = ranges m -> rgrow iv ids m m'.
Proof. intros E r Hr. rewrite E in Hr. auto. Qed.
Lemma rgrow_trans iv i j a b c : rgrow iv i a b -> rgrow iv j b c -> rgrow iv (i ++ j) a c.
Proof.
  intros G1 G2 r Hr. destruct (G2 r Hr) as [X|(id & Hi & ->)]; [|right; exists id; rewrite in_app_iff; auto].
  destruct (G1 r X) as [|(id & Hi & ->)]; auto. right. exists id. rewrite in_app_iff; auto.
Qed.
Lemma rgrow_incl iv i j a b : incl i j -> rgrow iv i a b -> rgrow iv j a b.
Proof. intros I G r Hr. destruct (G r Hr) as [|(id & Hi & ->)]; eauto. Qed.
Lemma rgrow_cells iv ids m m' : (0 < iv)%N -> rgrow iv ids m m' -> cells iv (ranges m) -> cells iv (ranges m').
Proof.
  intros H G C. unfold cells in *. rewrite Forall_forall in *. intros r Hr. destruct (G r Hr) as [|(id & _ & ->)]; auto.
  apply cell_cell; auto.
Qed.

Lemma fill_rgrow lo m iv id : good_map lo m -> (0 < iv)%N -> near lo (cell iv id) -> cells iv (ranges m) ->
  forall m', engine_fill part_new m (fst (cell iv id)) (snd (cell iv id)) = Ok m' -> rgrow iv [id] m m'.
Proof.
  intros G Hiv Hn C m' E. pose proof (cell_self iv id Hiv) as Hs.
  destruct (fill_spec_more part_new lo m (fst (cell iv id)) (snd (cell iv id)) G) as (m1 & new & F1 & F2 & F3 & F4 & F5 & F6);
    [rewrite <- surjective_pairing; auto|unfold in_range in Hs; lia|].
  rewrite F1 in E. inversion E; subst m1. intros r Hr. unfold ranges in Hr.
  apply in_map_iff in Hr as (t & <- & Ht). eapply Permutation_in in Ht; [|exact F3]. apply in_app_iff in Ht as [Ht|Ht].
  2:{ left. apply in_map; auto. }
  destruct (covered_dec m id) as [(s & Hs' & Hr)|Hnc].
  - (* the cell is there: nothing is new *)
    left. pose proof (proj1 (Forall_forall _ _) C (range_of s) (in_map _ _ _ Hs')) as Cs.
    apply (cell_in iv _ id Hiv Cs) in Hr.
    apply in_map_iff in Ht as (g & <- & Hg). rewrite Forall_forall in F4. specialize (F4 g Hg).
    assert (Hg' : In (mk_new part_new g) (mapping_list m')).
    { eapply Permutation_in; [symmetry; exact F3|]. apply in_app_iff. left. apply in_map; auto. }
    assert (L : (fst g <= snd g)%N).
    { destruct (proj1 (layout_slices _) (gm_layout _ _ F2)) as [_ Y]. rewrite Forall_forall in Y.
      specialize (Y _ Hg'). destruct g as [a b]. exact Y. }
    assert (X : mk_new part_new g = s).
    { apply (layout_unique (mapping_list m') (mk_new part_new g) s (fst g)); auto; [exact (gm_layout _ _ F2)| | |].
      - eapply Permutation_in; [symmetry; exact F3|]. apply in_app_iff. auto.
      - destruct g; split; simpl in *; lia.
      - rewrite Hr. split; cbn [fst snd] in *; lia. }
    rewrite X. apply in_map; auto.
  - right. exists id. split; [simpl; auto|].
    rewrite F6 in Ht.
    + destruct Ht as [<-|[]]. reflexivity.
    + intros x Hx Hc. apply Hnc. apply covered_slice in Hc as (s & Hs' & Hr).
      pose proof (proj1 (Forall_forall _ _) C (range_of s) (in_map _ _ _ Hs')) as Cs.
      apply (cell_in iv _ x Hiv Cs) in Hr. apply covered_slice. exists s. split; auto. rewrite Hr.
      rewrite (cell_eq iv x id Hiv Hx). auto.
Qed.

Lemma lock_rgrow lo m iv id : good_map lo m -> (0 < iv)%N -> near lo (cell iv id) -> cells iv (ranges m) ->
  forall m' z, engine_lock part_new m iv id false true = Ok (m', z) -> rgrow iv [id] m m'.
Proof.
  intros G Hiv Hn C m' z E. unfold engine_lock in E.
  destruct (match mapping_max m with Some z => _ | None => false end); [inversion E; subst; apply rgrow_refl|].
  destruct (mapping_match m id) as [[z0|]| |]; cbn [bind] in E; try discriminate; [inversion E; subst; apply rgrow_refl|].
  destruct (N.eqb_spec iv 0); [lia|].
  destruct (cell_mod iv id Hiv) as (q & Eq & L).
  assert (Eb : sub64 (add64 (interval_of iv id) iv) 1 = snd (cell iv id)).
  { pose proof (gm_lo _ _ G) as Hlo. rewrite u64_max_eq in Hlo. destruct Hn as [Hn1 Hn2].
    unfold cell in *. cbn [fst snd] in *. unfold add64. change two64 with 18446744073709551616%N.
    assert ((2^31 = 2147483648)%N) by reflexivity.
    rewrite N.mod_small by lia. rewrite sub64_ge; auto; change (2^64)%N with 18446744073709551616%N; lia. }
  rewrite Eb in E. change (interval_of iv id) with (fst (cell iv id)) in E.
  destruct (engine_fill part_new m (fst (cell iv id)) (snd (cell iv id))) as [m1| |] eqn:EF; cbn [bind] in E; try discriminate.
  destruct (mapping_match m1 id) as [[z0|]| |]; cbn [bind] in E; try discriminate. inversion E; subst.
  eapply fill_rgrow; eauto.
Qed.

(* found partitions need no limits *)
Lemma lock_rgrow_fine lo m en e : minv lo m -> (0 < en_interval en <= u64_max)%N -> event_fine lo en e ->
  cells (en_interval en) (ranges m) ->
  forall m' z, engine_lock part_new m (en_interval en) (ev_id e) false true = Ok (m', z) ->
  rgrow (en_interval en) [ev_id e] m m'.
Proof.
  intros I Hiv (Hok & Hwin & Hpg & Hcell) C m' z E. pose proof I as [G F].
  destruct Hcell as [Hc|Hc]; [eapply lock_rgrow; eauto; lia|].
  destruct (covered_dec m (ev_id e)) as [(s & Hs & Hr)|Hn].
  - destruct (lock_found lo m (en_interval en) (ev_id e) true G) as (z0 & s' & H1 & _).
    { destruct Hwin; lia. } { apply covered_slice; eauto. }
    rewrite H1 in E. inversion E; subst. apply rgrow_refl.
  - rewrite (lock_refused lo) in E; auto; [discriminate|]. destruct Hwin; lia.
Qed.

(* one event *)
Lemma write_event_rgrow lo en w a w' ok : minv lo (ws_map w) -> (0 < en_interval en <= u64_max)%N ->
  event_fine lo en (numbered en (ws_ssn w) (wa_event a)) -> cells (en_interval en) (ranges (ws_map w)) ->
  write_event en w a = Ok (w', ok) ->
  rgrow (en_interval en) [ev_id (numbered en (ws_ssn w) (wa_event a))] (ws_map w) (ws_map w').
Proof.
  intros I Hiv Hf C E. unfold write_event in E.
  destruct (255 <? length (ev_key (wa_event a)))%nat; [inversion E; subst; apply rgrow_refl|].
  rewrite (andb_comm (ev_id (wa_event a) =? u64_max)%N) in E.
  fold (numbered en (ws_ssn w) (wa_event a)) in E. set (e := numbered en (ws_ssn w) (wa_event a)) in *.
  destruct (engine_lock part_new (ws_map w) (en_interval en) (ev_id e) false true) as [[m1 oz]| |] eqn:EL; try discriminate.
  2:{ inversion E; subst. apply rgrow_refl. }
  pose proof (lock_rgrow_fine lo _ en e I Hiv Hf C _ _ EL) as R.
  destruct oz as [z|]; try discriminate. destruct (zelem z) as [s|]; try discriminate.
  destruct (_ <? _)%N; try discriminate. destruct (wa_mem a).
  - destruct (memtable_set _ _) as [[t prev]| |]; cbn [bind] in E; try discriminate. inversion E; subst. cbn [ws_map].
    unfold rgrow. rewrite put_ranges. exact R.
  - inversion E; subst. exact R.
  - destruct (memtable_set _ _) as [[t prev]| |]; cbn [bind] in E; try discriminate.
    destruct (negb _); inversion E; subst; cbn [ws_map]; auto. unfold rgrow. rewrite put_ranges. exact R.
Qed.

Lemma loop_rgrow lo en : (0 < en_interval en <= u64_max)%N ->
  forall l w w' ok, minv lo (ws_map w) -> Forall (fun a => wa_mem a = MemOk) l ->
  Forall (event_fine lo en) (assigned (en_serial en) (ws_ssn w) l) ->
  room (ws_map w) (length l) -> cells (en_interval en) (ranges (ws_map w)) ->
  write_loop en w l = Ok (w', ok) ->
  rgrow (en_interval en) (map ev_id (assigned (en_serial en) (ws_ssn w) l)) (ws_map w) (ws_map w').
Proof.
  intros Hiv. induction l as [|a l IH]; intros w w' ok I Hm Hf Hroom C HW.
  - cbn [write_loop] in HW. inversion HW; subst. apply rgrow_refl.
  - inversion Hm; subst. cbn [write_loop length] in *.
    destruct (Nat.ltb_spec 255 (length (ev_key (wa_event a)))) as [Hbig|Hsmall].
    { unfold write_event in HW. destruct (Nat.ltb_spec 255 (length (ev_key (wa_event a)))); [|lia].
      cbn [bind] in HW. inversion HW; subst. apply rgrow_refl. }
    rewrite assigned_cons in * by auto. inversion Hf; subst. cbn [map].
    set (e := numbered en (ws_ssn w) (wa_event a)) in *.
    change (ev_id e :: map ev_id (assigned (en_serial en) (ssn_after en (ws_ssn w) (wa_event a)) l))
      with ([ev_id e] ++ map ev_id (assigned (en_serial en) (ssn_after en (ws_ssn w) (wa_event a)) l)).
    destruct (write_event en w a) as [[w1 ok1]| |] eqn:EE; cbn [bind] in HW; try discriminate.
    pose proof (write_event_rgrow lo en w a w1 ok1 I Hiv H3 C EE) as R. fold e in R.
    destruct (write_step lo en w a (length l) I Hiv Hsmall H1 H3 Hroom) as [E|Hstep].
    { rewrite E in EE. inversion EE; subst. inversion HW; subst. eapply rgrow_incl; [|exact R]. apply incl_appl, incl_refl. }
    destruct Hstep as (m1 & s & t & HE & I1 & Hs & Hr & Hrm & Ht & Hev & Hl1 & Hl2 & E).
    fold e in E, Hev, Hr. rewrite E in EE. inversion EE; subst w1 ok1.
    eapply rgrow_trans; [exact R|].
    pose proof I1 as [G1 F1]. rewrite Forall_forall in F1. pose proof (F1 s Hs) as Fs.
    assert (Fs' : sfine lo (mk_slice (s_min s) (s_max s) (with_mem (s_data s) t))).
    { apply sfine_with_mem; auto. rewrite Hev. apply upsert_forall; auto. apply (sfine_mem_ids lo s Fs). }
    eapply IH in HW; cbn [ws_map ws_ssn ws_log] in *; eauto.
    + apply put_inv; auto.
    + destruct Hrm as [R1 R2]. split; [lia|]. intros u Hu. apply (put_in lo) in Hu; auto.
      destruct Hu as [->|[Hu _]]; [|specialize (R2 u Hu); lia].
      simpl. rewrite Hev, upsert_length by (apply (sf_mem _ _ Fs)). specialize (R2 s Hs).
      destruct (lookup _ _); lia.
    + eapply rgrow_cells; [|exact R|exact C]. lia.
Qed.

Lemma undo_ranges : forall l m m', undo_ops m l = Ok m' -> ranges m' = ranges m.
Proof.
  induction l as [|o l IH]; intros m m' E; cbn [undo_ops] in E; [inversion E; auto|].
  destruct (undo_op m o) as [m1| |] eqn:E1; cbn [bind] in E; try discriminate. rewrite (IH _ _ E).
  unfold undo_op in E1. destruct (lo_ref o) as [ref|]; [|inversion E1; auto].
  destruct (ref_part m ref) as [p| |]; cbn [bind] in E1; try discriminate.
  destruct (lo_prev o).
  - destruct (memtable_set _ _); cbn [bind] in E1; try discriminate. inversion E1. apply put_ranges.
  - destruct (lo_event o); [|discriminate]. destruct (memtable_unset _ _); cbn [bind] in E1; try discriminate.
    inversion E1. apply put_ranges.
Qed.
Lemma rollback_ranges l m m' : engine_rollback m l = Ok m' -> ranges m' = ranges m.
Proof. destruct l; [discriminate|]. apply undo_ranges. Qed.
Lemma commit_ranges lsn : forall l m m', engine_commit m lsn l = Ok m' -> ranges m' = ranges m.
Proof.
  induction l as [|o l IH]; intros m m' E; cbn [engine_commit] in E; [inversion E; auto|].
  destruct (lo_ref o) as [ref|]; [|apply IH; auto].
  destruct (ref_part m ref) as [p| |]; cbn [bind] in E; try discriminate.
  rewrite (IH _ _ E). apply put_ranges.
Qed.

Lemma write_rgrow lo en l logged en' evs : minv lo (en_map en) -> (0 < en_interval en <= u64_max)%N ->
  batch_fine lo en l -> cells (en_interval en) (ranges (en_map en)) ->
  engine_write en l logged = Ok (en', evs) ->
  rgrow (en_interval en) (map ev_id (assigned (en_serial en) (en_ssn en) l)) (en_map en) (en_map en').
Proof.
  intros I Hiv B C E. destruct B as (Hm & _ & Hf & Hroom). unfold engine_write in E.
  destruct (write_loop en (mk_wstate (en_map en) (en_ssn en) []) l) as [[w ok]| |] eqn:EW; cbn [bind] in E; try discriminate.
  pose proof (loop_rgrow lo en Hiv l (mk_wstate (en_map en) (en_ssn en) []) w ok I Hm Hf Hroom C EW) as R.
  cbn [ws_map ws_ssn] in R.
  destruct (ok && logged)%bool.
  - destruct (engine_commit _ _ _) as [m| |] eqn:EC; cbn [bind] in E; try discriminate. inversion E; subst.
    cbn [with_lsn with_map en_map]. unfold rgrow. rewrite (commit_ranges _ _ _ _ EC). exact R.
  - destruct (engine_rollback _ _) as [m| |] eqn:EC; cbn [bind] in E; try discriminate. inversion E; subst.
    cbn [with_map en_map]. unfold rgrow. rewrite (rollback_ranges _ _ _ EC). exact R.
Qed.

Lemma replay_event_rgrow lo en lsn w e w' : minv lo (ws_map w) -> (0 < en_interval en)%N ->
  loadable lo en e -> cells (en_interval en) (ranges (ws_map w)) -> replay_event en lsn w e = Ok w' ->
  rgrow (en_interval en) [ev_id e] (ws_map w) (ws_map w').
Proof.
  intros I Hiv (_ & _ & _ & Hc) C E. unfold replay_event in E.
  destruct (engine_lock part_new (ws_map w) (en_interval en) (ev_id e) false true) as [[m1 oz]| |] eqn:EL; cbn [bind] in E; try discriminate.
  pose proof (lock_rgrow lo _ _ _ (mi_map _ _ I) Hiv Hc C _ _ EL) as R.
  destruct oz as [z|]; try discriminate. destruct (zelem z) as [s|]; try discriminate.
  destruct (match pt_file _ with Some _ => _ | None => _ end); [inversion E; subst; exact R|].
  destruct (_ <? _)%N; try discriminate.
  destruct (memtable_set _ _) as [[t prev]| |]; cbn [bind] in E; try discriminate. inversion E; subst. cbn [ws_map].
  unfold rgrow. rewrite put_ranges. exact R.
Qed.

Lemma replay_loop_rgrow lo en lsn : (0 < en_interval en)%N ->
  forall l w w', minv lo (ws_map w) -> Forall (loadable lo en) l ->
  room (ws_map w) (length l) -> cells (en_interval en) (ranges (ws_map w)) ->
  replay_loop en lsn w l = Ok w' -> rgrow (en_interval en) (map ev_id l) (ws_map w) (ws_map w').
Proof.
  intros Hiv. induction l as [|e l IH]; intros w w' I Hf Hroom C HW.
  - inversion HW; subst. apply rgrow_refl.
  - inversion Hf; subst. cbn [replay_loop length map] in *.
    change (ev_id e :: map ev_id l) with ([ev_id e] ++ map ev_id l).
    destruct (replay_event en lsn w e) as [w1| |] eqn:EE; cbn [bind] in HW; try discriminate.
    pose proof (replay_event_rgrow lo en lsn w e w1 I Hiv H1 C EE) as R.
    eapply rgrow_trans; [exact R|].
    destruct (replay_step lo en lsn w e (length l) I Hiv H1 Hroom)
      as (m1 & s & HE & I1 & Hs & Hr & Hrm & [[Hsk E]|[Hsk (t & prev & Ht & Hev & Hl1 & Hl2 & E)]]);
      rewrite E in EE; inversion EE; subst w1; eapply IH in HW; cbn [ws_map ws_ssn ws_log] in *; eauto.
    + destruct Hrm as [R1 R2]. split; [lia|]. intros u Hu. specialize (R2 u Hu). lia.
    + eapply rgrow_cells; [|exact R|exact C]. lia.
    + pose proof I1 as [G1 F1]. rewrite Forall_forall in F1. pose proof (F1 s Hs) as Fs.
      apply put_inv; auto. apply sfine_with_mem; auto. rewrite Hev. apply upsert_forall; auto. apply (sfine_mem_ids lo s Fs).
    + destruct Hrm as [R1 R2]. split; [lia|]. intros u Hu. pose proof I1 as [G1 F1]. apply (put_in lo) in Hu; auto.
      rewrite Forall_forall in F1. pose proof (F1 s Hs) as Fs.
      destruct Hu as [->|[Hu _]]; [|specialize (R2 u Hu); lia].
      simpl. rewrite Hev, upsert_length by (apply (sf_mem _ _ Fs)). specialize (R2 s Hs).
      destruct (lookup _ _); lia.
    + eapply rgrow_cells; [|exact R|exact C]. lia.
Qed.

Lemma replay_rgrow lo en lsn l en' : minv lo (en_map en) -> (0 < en_interval en)%N ->
  Forall (loadable lo en) l -> room (en_map en) (length l) -> cells (en_interval en) (ranges (en_map en)) ->
  engine_write_replay en lsn l = Ok en' -> rgrow (en_interval en) (map ev_id l) (en_map en) (en_map en').
Proof.
  intros I Hiv Hf Hroom C E. unfold engine_write_replay in E.
  destruct (replay_loop en lsn (mk_wstate (en_map en) (en_ssn en) []) l) as [w| |] eqn:EW; cbn [bind] in E; try discriminate.
  pose proof (replay_loop_rgrow lo en lsn Hiv l (mk_wstate (en_map en) (en_ssn en) []) w I Hf Hroom C EW) as R.
  destruct (engine_commit _ _ _) as [m| |] eqn:EC; cbn [bind] in E; try discriminate. inversion E; subst.
  cbn [with_lsn with_map en_map]. unfold rgrow. rewrite (commit_ranges _ _ _ _ EC). exact R.
Qed.
