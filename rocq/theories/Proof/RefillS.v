(* Ingestion in order with stops: no condition on the states in between, nor on what a start replays. *)
From Coq Require Import NArith ZArith List Bool Sorted Lia Arith Permutation.
Import ListNotations.
From Verif Require Import Model.Base Model.Event Model.Rbtree Model.Memtable Model.Mapping Model.Merge
  Model.PartIter Model.Scan Model.Writer Model.Codec Model.Engine Spec.Order Spec.Merged Spec.Files Spec.Layout
  Spec.Regions Spec.View Spec.Engine Proof.OrderL Proof.RbtreeL Proof.MemtableL Proof.MemtableL2 Proof.MergeL
  Proof.PartIterL Proof.MappingL Proof.MappingP Proof.MappingX Proof.ScanL Proof.EngineL Proof.EngineW
  Proof.EngineR Proof.EngineP.
From Verif Require Import Spec.Grow Proof.GrowL Proof.GrowS Proof.DirL Proof.RefillB Proof.RefillW Proof.RefillH
  Proof.RefillD Proof.RefillP Proof.RefillT.
From Verif Require Import Model.Crash Spec.Crash Spec.Refill.
Local Arguments N.pow : simpl never.
Local Arguments N.add : simpl never.
Local Arguments N.sub : simpl never.
Local Arguments engine_write : simpl never.
Local Arguments engine_write_replay : simpl never.
Implicit Types (s t : slice part) (m : mapping part) (H : hist) (d : dir).

Lemma mem_in lo Hm Hf top s e : sfine lo s -> srel Hm Hf top s -> In e (mt_events (pt_mem (s_data s))) ->
  In e (map snd Hm).
Proof.
  intros F S He. pose proof (sf_mem _ _ F) as T.
  pose proof (sfine_mem_ids lo s F) as Hi. unfold ids_in in Hi. rewrite Forall_forall in Hi.
  pose proof (sr_mem _ _ _ _ S e (Hi e He)) as X.
  rewrite (ascending_lookup _ e e (tb_asc _ _ T) He (same_key_refl e)) in X. symmetry in X.
  unfold lw in X. apply last_write_in in X as [X _]. apply in_sel in X as (l & X & _).
  apply in_map_iff. exists (l, e). auto.
Qed.

Lemma order_fits lo m Hm Hf top l : minv lo m -> (forall s, In s (mapping_list m) -> srel Hm Hf top s) ->
  ascending (map snd Hm ++ l) -> fits_pages m l.
Proof.
  intros [G F] S Ha. rewrite Forall_forall in F. apply ascending_app in Ha as (_ & A & B). split; auto.
  intros s Hs. right. split; auto. intros e He _. apply Forall_forall. intros x Hx. apply B; auto.
  eapply mem_in; eauto.
Qed.

Definition same_conf (en en' : engine) : Prop :=
  en_interval en' = en_interval en /\ en_page en' = en_page en.
Lemma same_conf_refl en : same_conf en en.
Proof. split; auto. Qed.
Lemma same_conf_trans a b c : same_conf a b -> same_conf b c -> same_conf a c.
Proof. intros [A1 A2] [B1 B2]. split; congruence. Qed.
Lemma loadable_conf lo en en' e : same_conf en en' -> loadable lo en e -> loadable lo en' e.
Proof. intros [A B] (H1 & H2 & H3 & H4). unfold loadable. rewrite A, B. auto. Qed.
Lemma loadables_conf lo en en' l : same_conf en en' -> Forall (loadable lo en) l -> Forall (loadable lo en') l.
Proof. intros C F. eapply Forall_impl; [|exact F]. intros e. apply loadable_conf; auto. Qed.

Lemma order_refill lo Hf m1 : forall l en Hm, rinv lo Hf m1 en Hm -> writes l ->
  ascending (map snd (Hm ++ flat l)) -> Forall (loadable lo en) (map snd (flat l)) -> refill_fine lo en l.
Proof.
  induction l as [|r l IH]; intros en Hm R W Ha Hl; [exact I|].
  inversion W as [|? ? Wr Wl]; subst. destruct r as [n evs|]; [|contradiction]. cbn [flat refill_fine] in *.
  rewrite map_app, map_pair in Hl. apply Forall_app in Hl as [L1 L2].
  rewrite app_assoc, map_app in Ha. pose proof Ha as Ha2. apply ascending_app in Ha as (Ha & _ & _).
  rewrite map_app, map_pair in Ha.
  assert (F2 : fits_pages (en_map en) evs).
  { eapply order_fits; [apply R|apply (ri_srel _ _ _ _ _ R)|exact Ha]. }
  split; auto. split; auto.
  destruct (engine_write_replay en n evs) as [en'| |] eqn:E; auto.
  destruct (replay_spec lo Hf m1 [LWrite n evs] (mk_db en [] (fun _ => 0%N) [] [] []) Hm R) as (en2 & E2 & R2 & C1 & _ & C2 & _).
  { constructor; auto. } { cbn [refill_fine db_en]. split; auto. split; auto. rewrite E. exact I. }
  cbn [replay_log db_en] in E2. rewrite E in E2. cbn [bind] in E2. inversion E2; subst en2.
  cbn [flat] in R2. rewrite app_nil_r in R2.
  apply (IH en' _ R2 Wl).
  - rewrite map_app. exact Ha2.
  - eapply loadables_conf; [|exact L2]. split; auto.
Qed.

Lemma order_disk lo en storages H d log : disk lo storages H d log -> storages_ok storages ->
  (lo + 2^31 <= u64_max)%N -> (0 < en_interval en <= u64_max)%N -> ascending (map snd H) ->
  Forall (loadable lo en) (map snd H) ->
  match engine_recover en storages d with Ok (en1, _) => refill_fine lo en1 log | _ => True end.
Proof.
  intros D SO Hlo Hiv Ha Hl.
  destruct (start_gen lo en storages H d log D SO Hlo Hiv)
    as (en1 & d' & m1 & H0 & -> & EH & R1 & _ & C1 & _ & C2 & _).
  apply (order_refill lo H m1 log en1 H0 R1); [apply D|rewrite <- EH; auto|].
  rewrite EH, map_app in Hl. apply Forall_app in Hl as [_ Hl]. eapply loadables_conf; [|exact Hl]. split; auto.
Qed.

Lemma next_try lo b H l : binv lo b H -> next_batch lo b (map snd H) l -> try_fine lo (db_en b) l.
Proof.
  intros B (N1 & N2 & N3 & N4 & _). split; auto. split; auto. split.
  - eapply Forall_impl; [|exact N3]. intros e He. apply near_fine, loadable_near; auto.
  - eapply order_fits; [apply B|apply (bi_srel _ _ _ B)|exact N4].
Qed.

(* an operation of such a history is within the limits *)
Lemma flow_fine lo b H o : binv lo b H -> ascending (map snd H) -> Forall (loadable lo (db_en b)) (map snd H) ->
  flow_op lo b (map snd H) o -> rop_fine lo b o.
Proof.
  intros B Ha Hl Hf. destruct o as [l logged|id to|ref|ref|k|id|mn mx|n|cuts|l whole|id]; cbn [flow_op rop_fine] in *;
    try exact Hf.
  - split; [eapply next_try; eauto|apply Hf].
  - apply Hf.
  - pose proof (binv_good _ _ _ B) as GD.
    destruct (interrupted_spec (db_storages b) (proj1 (bi_sto _ _ _ B)) cuts (db_dir b) GD) as (d1 & E1 & G1 & S1).
    rewrite E1. pose proof (binv_disk lo b H [] B ltac:(constructor) hsorted_nil [] eq_refl ltac:(constructor)) as DK.
    rewrite !app_nil_r in DK. unfold reopen_fine.
    apply (order_disk lo (db_en b) (db_storages b) H); auto; [eapply disk_surv; eauto|apply B|eapply binv_lo; eauto|apply B].
  - pose proof (next_try lo b H l B Hf) as Ht. destruct Hf as (N1 & N2 & N3 & N4 & N5).
    split; auto. split; auto. unfold reopen_fine.
    pose proof (binv_disk lo b H [] B ltac:(constructor) hsorted_nil [] eq_refl ltac:(constructor)) as DK.
    rewrite !app_nil_r in DK.
    destruct (write_grown lo (db_en b) l true (bi_map _ _ _ B) (bi_iv _ _ _ B) Ht)
      as [(m & -> & _)|(m & ssn & -> & _)].
    + destruct whole.
      * set (evs := assigned (en_serial (db_en b)) (en_ssn (db_en b)) l) in *.
        apply (order_disk lo (db_en b) (db_storages b) (H ++ map (pair (en_lsn (db_en b) + 1)%N) evs)).
        -- apply binv_disk; auto.
           ++ rewrite Forall_forall. intros x Hx. apply in_map_iff in Hx as (e & <- & _). simpl. lia.
           ++ apply hsorted_const.
           ++ simpl. rewrite app_nil_r. f_equal. rewrite w64_next; auto.
           ++ constructor; [|constructor]. unfold write_rec. rewrite w64_next by auto. cbn. lia.
        -- apply B.
        -- eapply binv_lo; eauto.
        -- apply B.
        -- rewrite map_app, map_pair. exact N4.
        -- rewrite map_app, map_pair. apply Forall_app. auto.
      * apply (order_disk lo (db_en b) (db_storages b) H); auto; [apply B|eapply binv_lo; eauto|apply B].
    + apply (order_disk lo (db_en b) (db_storages b) H); auto; [apply B|eapply binv_lo; eauto|apply B].
Qed.

(* page size and interval stay *)
Lemma replay_conf : forall l b b', writes l -> replay_log b l = Ok b' -> same_conf (db_en b) (db_en b').
Proof.
  induction l as [|r l IH]; intros b b' W E; cbn [replay_log] in E.
  - inversion E; subst. apply same_conf_refl.
  - inversion W as [|? ? Wr Wl]; subst. destruct r as [n evs|]; [|contradiction].
    destruct (engine_write_replay (db_en b) n evs) as [en| |] eqn:E1; cbn [bind] in E; try discriminate.
    apply IH in E; auto. cbn [with_en db_en] in E. eapply same_conf_trans; [|exact E].
    unfold engine_write_replay in E1. destruct (replay_loop _ _ _ _); cbn [bind] in E1; try discriminate.
    destruct (engine_commit _ _ _); cbn [bind] in E1; try discriminate. inversion E1. split; reflexivity.
Qed.
Lemma start_conf en storages d log b : writes log -> main_start en storages d log = Ok b -> same_conf en (db_en b).
Proof.
  intros W E. unfold main_start, engine_recover in E.
  destruct (validate_all _ _ _) as [d1| |]; cbn [bind] in E; try discriminate.
  destruct (open_all _ _ _ _) as [[m lsn]| |]; cbn [bind] in E; try discriminate.
  destruct (replay_log _ _) as [b1| |] eqn:E1; cbn [bind] in E; try discriminate.
  apply replay_conf in E1; auto. cbn [db_en en_serial] in *. inversion E; subst b. cbn [with_en db_en].
  destruct E1 as [C1 C2]. cbn [en_interval en_page] in *.
  destruct (set_serial_fields (db_en b1)) as (_ & X1 & _ & _ & X2 & _).
  destruct (en_serial en); split; congruence.
Qed.

Lemma step_conf lo b H o b' : binv lo b H -> rop_fine lo b o -> (forall n, o <> CInterval n) ->
  cstep b o = Ok b' -> same_conf (db_en b) (db_en b').
Proof.
  intros B Hf Hn E. destruct (bi_log _ _ _ B) as [LW _].
  destruct o as [l logged|id to|ref|ref|k|id|mn mx|n|cuts|l whole|id]; cbn [cstep] in E.
  - destruct Hf as [Hf _].
    destruct (write_grown lo (db_en b) l logged (bi_map _ _ _ B) (bi_iv _ _ _ B) Hf) as [(m & W & _)|(m & ssn & W & _)];
      rewrite W in E; cbn [bind] in E; inversion E; subst; split; reflexivity.
  - unfold db_begin in E. destruct (part_slice _ _); [|discriminate].
    destruct (existsb _ _); [discriminate|].
    destruct (match to with Some st => _ | None => _ end); [inversion E; subst; split; reflexivity|].
    unfold refresh_begin in E. destruct (engine_lock _ _ _ _ _ _) as [[m1 [z|]]| |]; cbn [bind snd] in E; try discriminate.
    destruct (zelem z); cbn [bind] in E; try discriminate. inversion E; subst. split; reflexivity.
  - unfold db_step in E. destruct (find _ _) as [j|]; [|discriminate].
    destruct (job_step b j) as [[b1 more]| |] eqn:Ej; cbn [bind] in E; try discriminate.
    inversion E; subst. cbn [with_jobs db_en].
    unfold job_step in Ej. destruct (jb_stage j) as [|[|[|[|[|[|]]]]]].
    + inversion Ej; subst. split; reflexivity.
    + destruct (ref_slice _ _); cbn [bind] in Ej; try discriminate. destruct (new_file _ _); cbn [bind] in Ej; try discriminate.
      inversion Ej; subst. split; reflexivity.
    + unfold refresh_apply in Ej. destruct (ref_part _ _); cbn [bind] in Ej; try discriminate.
      destruct (refresh_part _ _); cbn [bind] in Ej; try discriminate. inversion Ej; subst. split; reflexivity.
    + destruct (sl_inc _); inversion Ej; subst; split; reflexivity.
    + inversion Ej; subst. split; reflexivity.
    + destruct (sl_comp _); inversion Ej; subst; split; reflexivity.
    + destruct (sl_comp _); inversion Ej; subst; split; reflexivity.
  - inversion E; subst. split; reflexivity.
  - unfold db_gc in E. destruct (forallb _ _); inversion E; subst. split; reflexivity.
  - contradiction.
  - destruct (engine_fill _ _ _ _); cbn [bind] in E; inversion E; subst. split; reflexivity.
  - destruct (Hn n eq_refl).
  - destruct (interrupted _ _ _); cbn [bind] in E; try discriminate. eapply start_conf; eauto.
  - destruct Hf as [Hf Hf1].
    destruct (write_grown lo (db_en b) l true (bi_map _ _ _ B) (bi_iv _ _ _ B) Hf) as [(m & W & _)|(m & ssn & W & _)];
      rewrite W in E; cbn [bind snd] in E; (eapply start_conf; [|exact E]); auto.
    destruct whole; auto. apply Forall_app. split; auto. constructor; [|constructor].
    unfold write_rec. rewrite w64_next by apply Hf1. cbn. lia.
  - contradiction.
Qed.

Lemma ack_flow lo b h o : flow_op lo b h o -> ascending h -> Forall (loadable lo (db_en b)) h ->
  ascending (cack_step b o h) /\ Forall (loadable lo (db_en b)) (cack_step b o h).
Proof.
  intros Hf Ha Hl. destruct o; cbn [flow_op cack_step] in *; auto.
  - destruct Hf as (_ & _ & N3 & N4 & _). destruct (engine_write _ _ _) as [[? [?|]]| |]; auto.
    split; auto. apply Forall_app; auto.
  - destruct Hf as (_ & _ & N3 & N4 & _). destruct (engine_write _ _ _) as [[? [?|]]| |]; auto.
    destruct whole; auto. split; auto. apply Forall_app; auto.
Qed.

Lemma is_interval o : (exists n, o = CInterval n) \/ (forall n, o <> CInterval n).
Proof. destruct o; try (right; intros n X; discriminate). left. eauto. Qed.
Lemma flow_run lo : forall l b H, binv lo b H -> ascending (map snd H) ->
  Forall (loadable lo (db_en b)) (map snd H) -> flow_hist lo b (map snd H) l ->
  rhist_fine lo b l /\
  exists b' H', crun b l = Ok b' /\ binv lo b' H' /\ map snd H' = cacked b l (map snd H) /\ ascending (map snd H').
Proof.
  induction l as [|o l IH]; intros b H B Ha Hl Hh; cbn [flow_hist crun cacked rhist_fine] in *.
  - split; [exact I|]. exists b, H. auto.
  - destruct Hh as [Hf Hh]. pose proof (flow_fine lo b H o B Ha Hl Hf) as Hr.
    destruct (ack_flow lo b (map snd H) o Hf Ha Hl) as [Ha' Hl'].
    pose proof (cstep_spec lo b H o B Hr) as X. destruct (cstep b o) as [b1| |] eqn:E; [| |contradiction].
    + destruct X as (H1 & B1 & E1). rewrite <- E1 in *.
      cut (rhist_fine lo b1 l /\ exists b' H', crun b1 l = Ok b' /\ binv lo b' H' /\
        map snd H' = cacked b1 l (map snd H1) /\ ascending (map snd H')); [tauto|].
      apply (IH b1 H1 B1 Ha'); auto.
      destruct (is_interval o) as [[n ->]|Hn].
      * cbn [cstep] in E. inversion E; subst. cbn [cack_step with_en db_en] in *. rewrite E1. apply Hf.
      * eapply loadables_conf; [|exact Hl']. eapply (step_conf lo b H o); eauto.
    + destruct X as [X1 X2]. rewrite X1, X2 in *. destruct (IH b H B Ha Hl Hh). auto.
Qed.

Lemma flow_scan : forall lo storages iv serial page region ops, limits lo iv -> storages_ok storages ->
  (lo + 2^31 < 2^63)%N -> flow_hist lo (db_new storages iv serial page region) [] ops ->
  exists b n, crun (db_new storages iv serial page region) ops = Ok b /\
    forall fuel, n < fuel -> monotone_scan fuel (en_map (db_en b)) None =
      Ok (Some (shown (cacked (db_new storages iv serial page region) ops []))).
Proof.
  intros lo sts iv serial page region ops [L1 L2] SO H63 Hh.
  destruct (flow_run lo ops (db_new sts iv serial page region) [] (binv_new lo sts iv serial page region L1 L2 SO)
    ltac:(constructor) ltac:(constructor) Hh) as (_ & b & H & E & B & EH & Ha).
  destruct (scan_engine lo (en_map (db_en b)) None (bi_map _ _ _ B) H63) as (out & n & H1 & H2 & H3).
  exists b, n. split; auto. change (@nil event) with (map (@snd N event) []). rewrite <- EH.
  replace (shown (map snd H)) with out; auto.
  apply ascending_same; auto; [apply filter_ascending; auto|]. intros e. rewrite H3.
  fold (parts (db_en b)). pose proof (sees_current lo b H e B) as X. unfold sees in X. rewrite X.
  unfold current, shown.
  rewrite last_write_asc, filter_In by auto. simpl. destruct (event_is_delete e); simpl; intuition congruence.
Qed.

Lemma flow_end lo cuts : forall l b h, flow_hist lo b h l -> flow_hist lo b h (l ++ [CCrash cuts]).
Proof.
  induction l as [|o l IH]; intros b h Hh; cbn [app flow_hist] in *.
  - split; [exact I|]. destruct (cstep b (CCrash cuts)); exact I.
  - destruct Hh as [H1 H2]. split; auto. destruct (cstep b o); auto.
Qed.
Lemma acked_end cuts : forall l b h, cacked b (l ++ [CCrash cuts]) h = cacked b l h.
Proof.
  induction l as [|o l IH]; intros b h; cbn [app cacked].
  - destruct (cstep b (CCrash cuts)); reflexivity.
  - destruct (cstep b o); apply IH.
Qed.
Lemma flow_stop : forall lo storages iv serial page region ops cuts, limits lo iv -> storages_ok storages ->
  (lo + 2^31 < 2^63)%N -> flow_hist lo (db_new storages iv serial page region) [] ops ->
  exists b b' n, crun (db_new storages iv serial page region) ops = Ok b /\
    crun (db_new storages iv serial page region) (ops ++ [CCrash cuts]) = Ok b' /\
    forall fuel, n < fuel -> monotone_scan fuel (en_map (db_en b')) None = monotone_scan fuel (en_map (db_en b)) None.
Proof.
  intros lo sts iv serial page region ops cuts L SO H63 Hh.
  destruct (flow_scan lo sts iv serial page region ops L SO H63 Hh) as (b & n & E1 & S1).
  destruct (flow_scan lo sts iv serial page region (ops ++ [CCrash cuts]) L SO H63) as (b' & n' & E2 & S2).
  { apply flow_end. auto. }
  rewrite acked_end in S2. exists b, b', (n + n'). split; auto. split; auto.
  intros fuel Hf. rewrite S1, S2 by lia. reflexivity.
Qed.

Lemma flow_keyed : forall lo storages iv serial page region ops, limits lo iv -> storages_ok storages ->
  flow_hist lo (db_new storages iv serial page region) [] ops ->
  exists b, crun (db_new storages iv serial page region) ops = Ok b /\
    forall key, start_fine lo key -> small_tables (db_en b) -> one_page (db_en b) ->
    exists out n, (forall fuel, n < fuel -> monotone_scan fuel (en_map (db_en b)) key = Ok (Some out)) /\
      ascending out /\
      forall e, In e out <-> In e (shown (cacked (db_new storages iv serial page region) ops [])) /\ from key e.
Proof.
  intros lo sts iv serial page region ops [L1 L2] SO Hh.
  destruct (flow_run lo ops (db_new sts iv serial page region) [] (binv_new lo sts iv serial page region L1 L2 SO)
    ltac:(constructor) ltac:(constructor) Hh) as (R & b & H & E & B & EH & Ha).
  exists b. split; auto. intros key Hk Hs Ho.
  destruct (refill_keyed lo b (cacked (db_new sts iv serial page region) ops []) key) as (out & n & S1 & S2 & S3); auto.
  { exists sts, iv, serial, page, region, ops. split; [split; auto|]. auto. }
  exists out, n. split; auto. split; auto. intros e. rewrite S3. cbn [map] in EH. rewrite <- EH.
  unfold current, shown. rewrite last_write_asc, filter_In by auto.
  destruct (event_is_delete e); simpl; intuition congruence.
Qed.
