(* Statements about histories with restarts; as in CrashT.v, with tables of any number of pages. *)
From Coq Require Import NArith ZArith List Bool Sorted Lia Arith Permutation.
Import ListNotations.
From Verif Require Import Model.Base Model.Event Model.Rbtree Model.Memtable Model.Mapping Model.Merge
  Model.PartIter Model.Scan Model.Writer Model.Codec Model.Engine Spec.Order Spec.Merged Spec.Files Spec.Layout
  Spec.Regions Spec.View Spec.Engine Proof.OrderL Proof.RbtreeL Proof.MemtableL Proof.MemtableL2 Proof.MergeL
  Proof.PartIterL
  Proof.MappingL Proof.MappingP Proof.MappingX Proof.ScanL Proof.EngineL Proof.EngineW Proof.EngineR Proof.EngineP Proof.RefillW
  Proof.RefillH Proof.DirL Proof.RefillD Proof.RefillP.
From Verif Require Import Model.Crash Spec.Crash Spec.Refill.
From Verif Require Import Spec.Grow Proof.GrowL Proof.RefillB Proof.RefillW Proof.RefillH Proof.RefillD Proof.RefillP.
From Verif Require Import Model.Crash Spec.Crash Spec.Refill.
Local Arguments N.pow : simpl never.
Local Arguments N.add : simpl never.
Local Arguments N.sub : simpl never.
Local Arguments N.mul : simpl never.
Implicit Types (s t : slice part) (m : mapping part) (H : hist) (d : dir).

Lemma reach_inv lo b h : refilled lo b h -> exists H, binv lo b H /\ map snd H = h.
Proof.
  intros (sts & iv & serial & page & region & ops & [L1 L2] & SO & CF & E & ->).
  destruct (crun_spec lo ops (db_new sts iv serial page region) [] (binv_new lo sts iv serial page region L1 L2 SO) CF)
    as (b' & H' & E' & B & EH).
  assert (b' = b) by congruence. subst. eauto.
Qed.

Lemma sees_current lo b H e : binv lo b H -> (sees b e <-> current (map snd H) e).
Proof. intros B. apply (visible_current lo). apply binv_einv; auto. Qed.

Lemma refill_history : forall lo storages iv serial page region ops, limits lo iv -> storages_ok storages ->
  (lo + 2^31 < 2^63)%N ->
  rhist_fine lo (db_new storages iv serial page region) ops ->
  exists b, crun (db_new storages iv serial page region) ops = Ok b /\
    (forall e, sees b e <-> current (cacked (db_new storages iv serial page region) ops []) e) /\
    exists out n, (forall fuel, n < fuel -> monotone_scan fuel (en_map (db_en b)) None = Ok (Some out)) /\
      ascending out /\
      forall e, In e out <-> current (cacked (db_new storages iv serial page region) ops []) e.
Proof.
  intros lo sts iv serial page region ops [L1 L2] SO H63 CF.
  destruct (crun_spec lo ops (db_new sts iv serial page region) [] (binv_new lo sts iv serial page region L1 L2 SO) CF)
    as (b & H & E & B & EH). cbn [map] in EH. exists b. split; auto.
  assert (V : forall e, sees b e <-> current (cacked (db_new sts iv serial page region) ops []) e).
  { intros e. rewrite <- EH. eapply sees_current; eauto. }
  split; auto. destruct (scan_engine lo (en_map (db_en b)) None) as (out & n & H1 & H2 & H3); [apply B|exact H63|].
  exists out, n. split; auto. split; auto. intros e. rewrite H3.
  fold (parts (db_en b)). fold (sees b e). rewrite V. simpl. tauto.
Qed.

Lemma refill_keyed : forall lo b h key, refilled lo b h -> start_fine lo key ->
  small_tables (db_en b) -> one_page (db_en b) ->
  exists out n, (forall fuel, n < fuel -> monotone_scan fuel (en_map (db_en b)) key = Ok (Some out)) /\
    ascending out /\ forall e, In e out <-> current h e /\ from key e.
Proof.
  intros lo b h key R Hk Hsm Ho. destruct (reach_inv lo b h R) as (H & B & <-).
  destruct (scan_engine lo (en_map (db_en b)) key) as (out & n & H1 & H2 & H3).
  - apply B.
  - destruct key as [k|]; auto. destruct Hk as (A1 & A2 & A3). split; [split; auto|].
    intros s Hs. destruct (Hsm (s_data s)) as [M1 M2]; [apply in_map; auto|].
    destruct (Ho (s_data s)) as [O1 O2]; [apply in_map; auto|].
    split; [split; split; auto; intros _; auto|]. apply past_keys_keyless; auto.
  - exists out, n. split; auto. split; auto. intros e. rewrite H3.
    fold (parts (db_en b)). fold (sees b e). rewrite (sees_current lo b H e B). tauto.
Qed.

Lemma crash_same : forall lo b h cuts, refilled lo b h -> rop_fine lo b (CCrash cuts) ->
  exists b', cstep b (CCrash cuts) = Ok b' /\ tidy (db_dir b') /\ forall e, sees b' e <-> sees b e.
Proof.
  intros lo b h cuts R Hf. destruct (reach_inv lo b h R) as (H & B & <-).
  pose proof (cstep_spec lo b H (CCrash cuts) B Hf) as X. destruct (cstep b (CCrash cuts)) as [b'| |] eqn:E; try contradiction.
  - destruct X as (H' & B' & EH). exists b'. split; auto. split; [exact (crash_tidy lo b H cuts b' B Hf E)|].
    intros e. rewrite (sees_current lo b' H' e B'), (sees_current lo b H e B), EH. tauto.
  - destruct X. discriminate.
Qed.

Lemma current_app h l e : current (h ++ l) e <-> current l e \/ (last_write l e = None /\ current h e).
Proof.
  unfold current. rewrite last_write_over. unfold over. destruct (last_write l e) as [x|]; intuition congruence.
Qed.

Lemma crash_in_write : forall lo b h l whole, refilled lo b h -> rop_fine lo b (CCrashIn l whole) ->
  exists b', cstep b (CCrashIn l whole) = Ok b' /\
    match engine_write (db_en b) l true with
    | Ok (_, Some evs) =>
        if whole then forall e, sees b' e <-> current evs e \/ (last_write evs e = None /\ sees b e)
        else forall e, sees b' e <-> sees b e
    | _ => forall e, sees b' e <-> sees b e
    end.
Proof.
  intros lo b h l whole R Hf. destruct (reach_inv lo b h R) as (H & B & <-).
  pose proof (cstep_spec lo b H (CCrashIn l whole) B Hf) as X.
  destruct (cstep b (CCrashIn l whole)) as [b'| |] eqn:E; [|destruct X; discriminate|contradiction].
  destruct X as (H' & B' & EH). exists b'. split; auto. cbn [cack_step] in EH.
  assert (Same : map snd H' = map snd H -> forall e, sees b' e <-> sees b e).
  { intros Z e. rewrite (sees_current lo b' H' e B'), (sees_current lo b H e B), Z. tauto. }
  destruct (write_grown lo (db_en b) l true (bi_map _ _ _ B) (bi_iv _ _ _ B) (proj1 Hf)) as [(m & EW & _)|(m & ssn & EW & _)];
    rewrite EW in *.
  - destruct whole; auto. intros e.
    rewrite (sees_current lo b' H' e B'), (sees_current lo b H e B), EH. apply current_app.
  - auto.
Qed.

Lemma quiet_run lo : forall l b H, binv lo b H -> rhist_fine lo b l ->
  Forall (fun o => match o with CWrite _ _ | CCrashIn _ _ => False | _ => True end) l ->
  exists b' H', crun b l = Ok b' /\ binv lo b' H' /\ forall e, sees b' e <-> sees b e.
Proof.
  intros l b H B CF Q. destruct (crun_spec lo l b H B CF) as (b' & H' & E & B' & EH).
  exists b', H'. split; auto. split; auto.
  assert (Z : forall l b h, Forall (fun o => match o with CWrite _ _ | CCrashIn _ _ => False | _ => True end) l -> cacked b l h = h).
  { clear. induction l as [|o l IH]; intros b h Q; auto. inversion Q as [|? ? Q1 Q2]; subst. cbn [cacked].
    assert (Y : cack_step b o h = h) by (destruct o; auto; contradiction). rewrite Y. destruct (cstep b o); auto. }
  rewrite Z in EH by auto. intros e. rewrite (sees_current lo b' H' e B'), (sees_current lo b H e B), EH. tauto.
Qed.

Lemma crash_repeat : forall lo b h l, refilled lo b h -> rhist_fine lo b l -> Forall restart_op l ->
  exists b', crun b l = Ok b' /\ forall e, sees b' e <-> sees b e.
Proof.
  intros lo b h l R CF Q. destruct (reach_inv lo b h R) as (H & B & _).
  destruct (quiet_run lo l b H B CF) as (b' & H' & E & _ & V); eauto.
  eapply Forall_impl; [|exact Q]. intros []; simpl; tauto.
Qed.

Lemma run_last lo : forall l b H cuts b', binv lo b H -> rhist_fine lo b (l ++ [CCrash cuts]) ->
  crun b (l ++ [CCrash cuts]) = Ok b' -> tidy (db_dir b').
Proof.
  induction l as [|o l IH]; intros b H cuts b' B CF E.
  - cbn [app crun rhist_fine] in *. destruct CF as [CF _].
    destruct (cstep b (CCrash cuts)) as [b1| |] eqn:E1; try discriminate.
    inversion E; subst. eapply crash_tidy; eauto.
  - cbn [app crun rhist_fine] in *. destruct CF as [CF1 CF2]. pose proof (cstep_spec lo b H o B CF1) as X.
    destruct (cstep b o) as [b1| |]; try contradiction.
    + destruct X as (H' & B' & _). eauto.
    + destruct (stops o); [discriminate|]. eauto.
Qed.

Lemma quiet_steps ref n : Forall (fun o => match o with CWrite _ _ | CCrashIn _ _ => False | _ => True end) (repeat (CStep ref) n).
Proof. rewrite Forall_forall. intros o Ho. apply repeat_spec in Ho. subst. auto. Qed.

Lemma refresh_crash : forall lo b h id to ref n cuts, refilled lo b h ->
  rhist_fine lo b (CBegin id to :: repeat (CStep ref) n ++ [CCrash cuts]) ->
  exists b', crun b (CBegin id to :: repeat (CStep ref) n ++ [CCrash cuts]) = Ok b' /\
    tidy (db_dir b') /\ forall e, sees b' e <-> sees b e.
Proof.
  intros lo b h id to ref n cuts R CF. destruct (reach_inv lo b h R) as (H & B & _).
  destruct (quiet_run lo _ b H B CF) as (b' & H' & E & _ & V).
  { constructor; auto. apply Forall_app. split; [apply quiet_steps|constructor; auto]. }
  exists b'. split; auto. split; auto.
  apply (run_last lo (CBegin id to :: repeat (CStep ref) n) b H cuts b'); auto.
Qed.

Lemma failed_crash : forall lo b h id to ref n cuts, refilled lo b h ->
  rhist_fine lo b (CBegin id to :: repeat (CStep ref) n ++ [CFail ref; CCrash cuts]) ->
  exists b', crun b (CBegin id to :: repeat (CStep ref) n ++ [CFail ref; CCrash cuts]) = Ok b' /\
    forall e, sees b' e <-> sees b e.
Proof.
  intros lo b h id to ref n cuts R CF. destruct (reach_inv lo b h R) as (H & B & _).
  destruct (quiet_run lo _ b H B CF) as (b' & H' & E & _ & V); eauto.
  constructor; auto. apply Forall_app. split; [apply quiet_steps|repeat (constructor; auto)].
Qed.

Lemma gc_crash : forall lo b h k cuts, refilled lo b h -> rhist_fine lo b [CGc k; CCrash cuts] ->
  exists b', crun b [CGc k; CCrash cuts] = Ok b' /\ forall e, sees b' e <-> sees b e.
Proof.
  intros lo b h k cuts R CF. destruct (reach_inv lo b h R) as (H & B & _).
  destruct (quiet_run lo _ b H B CF) as (b' & H' & E & _ & V). { repeat (constructor; auto). } eauto.
Qed.

Lemma load_all : forall lo b h lsn evs, refilled lo b h -> (en_lsn (db_en b) < lsn)%N ->
  Forall (loadable lo (db_en b)) evs -> fits_pages (en_map (db_en b)) evs ->
  exists en', engine_write_replay (db_en b) lsn evs = Ok en' /\
    forall e, visible (parts en') e <-> current evs e \/ (last_write evs e = None /\ sees b e).
Proof.
  intros lo b h lsn evs R HL Hl Hroom. destruct (reach_inv lo b h R) as (H & B & <-).
  pose proof (bi_map _ _ _ B) as I. pose proof (bi_iv _ _ _ B) as Hiv.
  destruct (replay_grown lo (db_en b) lsn evs I Hiv Hl Hroom) as (m & E & I' & G).
  eexists. split; [exact E|].
  destruct (srel_grown (skipped lsn) lo H H (en_lsn (db_en b)) lsn evs (en_map (db_en b)) m I (bi_cov _ _ _ B) (bi_srel _ _ _ B) G)
    as [S' C']; auto; [|lia|].
  { intros s Hs. destruct (sr_top _ _ _ _ (bi_srel _ _ _ B s Hs)) as (_ & T2 & T3). split; [|lia]. reflexivity. }
  assert (B' : binv lo (with_log (with_en b (with_lsn (with_map (db_en b) m) (N.max (en_lsn (db_en b)) lsn)))
                          (db_log b ++ [LWrite lsn evs])) (H ++ map (pair lsn) evs)).
  { apply binv_map; cbn [with_lsn with_map en_map en_interval en_region en_lsn]; auto.
    - eapply grown_mlike; eauto.
    - lia.
    - rewrite Forall_forall. intros x Hx. apply in_map_iff in Hx as (e & <- & _). simpl. lia.
    - apply hsorted_const.
    - intros t Ht. apply srel_file; auto. intros x Hx. apply in_map_iff in Hx as (e & <- & _). cbn [fst].
      destruct (gw_new _ _ _ _ _ G t Ht) as [(p & Hp & [])|[_ []]].
      + destruct (sr_top _ _ _ _ (bi_srel _ _ _ B _ Hp)) as (_ & _ & T3). unfold base in *. cbn [s_data] in T3.
        rewrite cp_file, cp_lsn. lia.
      + unfold base. rewrite cp_file. simpl. lia.
    - simpl. rewrite app_nil_r. auto.
    - constructor; [|constructor]. lia. }
  intros e. pose proof (sees_current lo _ _ e B') as X. unfold sees in X at 1. cbn [with_log with_en db_en] in X.
  rewrite X, map_app, map_pair, current_app, (sees_current lo b H e B). tauto.
Qed.
