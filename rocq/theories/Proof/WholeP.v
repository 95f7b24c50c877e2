(* Every step of a database with bytes keeps the invariant; histories. *)
From Coq Require Import NArith ZArith List Bool Lia Arith Permutation Sorted.
Import ListNotations.
From Verif Require Import Model.Base Model.Rbtree Model.Event Model.Memtable Model.Mapping Model.PartIter Model.Scan Model.Codec
  Model.File Model.Wal Model.Writer Model.Engine Spec.Order Spec.Checksum Spec.Codecs Spec.Layout Spec.Regions
  Spec.View Spec.Engine Spec.Log Spec.FileLimits
  Proof.FileW Proof.FileR Proof.FileP Proof.WalL Proof.WalR Proof.WalH Proof.WalP Proof.MappingL Proof.MappingP
  Proof.EngineL Proof.EngineW Proof.EngineR Proof.CrashW Proof.CrashH Proof.DirL Proof.CrashD Proof.CrashP
  Proof.WholeD Proof.WholeL Proof.WholeS.
From Verif Require Import Model.Crash Spec.Crash Model.Whole Spec.Whole.
Local Arguments N.pow : simpl never.
Local Arguments N.add : simpl never.
Local Open Scope N_scope.

(* --- a part of a record behind the log --- *)
Lemma append_part on s a data n : holds on s a ->
  exists s' a1 id rs, wal_file_append s data (Some n) = Ok (s', false) /\ a = a1 ++ [(id, rs)] /\
    wl_lsn s' = wl_lsn s /\ wl_list s' = wl_list s /\
    wl_files s = log_files on a1 ++ [(id, flat_map (rec_bytes on) rs)] /\
    wl_files s' = log_files on a1 ++ [(id, flat_map (rec_bytes on) rs ++ firstn n data)] /\
    wl_current s' = Some (id, N.of_nat (length (flat_map (rec_bytes on) rs ++ firstn n data))).
Proof.
  intros [Hf Hli (a1 & id & rs & Ea & Hcu) Hr Ho Hl Hi]. subst a. destruct Ho as (Hinc & _ & _).
  assert (F : log_files on (a1 ++ [(id, rs)]) = log_files on a1 ++ [(id, flat_map (rec_bytes on) rs)]).
  { unfold log_files. rewrite map_app. auto. }
  eexists. exists a1, id, rs. unfold wal_file_append. rewrite Hcu, Hf, ids_sorted_file_of by auto.
  split; [reflexivity|]. cbn [wl_lsn wl_files wl_list wl_current]. split; auto. split; auto. split; auto. split; auto.
  rewrite Nat2N.id, overwrite_end, file_put_last by auto. split; auto.
  f_equal. f_equal. rewrite app_length. lia.
Qed.
Lemma part_tholds on s a s' a1 id rs tail : holds on s a -> a = a1 ++ [(id, rs)] ->
  wl_lsn s' = wl_lsn s -> wl_list s' = wl_list s ->
  wl_files s' = log_files on a1 ++ [(id, flat_map (rec_bytes on) rs ++ tail)] ->
  wl_current s' = Some (id, N.of_nat (length (flat_map (rec_bytes on) rs ++ tail))) ->
  tail = [] \/ torn on (length (flat_map (rec_bytes on) rs)) tail ->
  tholds on s' a tail.
Proof.
  intros [Hf Hli _ Hr Ho Hl Hi] E E1 E2 E3 E4 T. constructor; auto.
  - exists a1, id, rs. auto.
  - congruence.
  - rewrite E1. auto.
  - rewrite E1. auto.
Qed.
Lemma append_cut on s a r n : holds on s a -> rec_ok on r -> Log.rec_lsn r = wl_lsn s + 1 ->
  Forall (fun f => N.of_nat (length (snd f) + length (rec_bytes on r)) + 21 < 2 ^ 32) (wl_files s) ->
  exists s', wal_file_append s (rec_bytes on r) (Some n) = Ok (s', false) /\ wl_lsn s' = wl_lsn s /\ wl_list s' = wl_list s /\
    files_short s' /\
    if (length (rec_bytes on r) <=? n)%nat
    then exists a', holds on (mk_wal (wl_files s') (wl_list s') (wl_current s') (wl_lsn s + 1)) a' /\
           log_recs a' = log_recs a ++ [r]
    else tholds on s' a (firstn n (rec_bytes on r)).
Proof.
  intros HO RO EL SH.
  destruct (append_part on s a (rec_bytes on r) n HO) as (s' & a1 & id & rs & E & Ea & E1 & E2 & E3 & E4 & E5).
  exists s'. split; auto. split; auto. split; auto.
  rewrite E3 in SH. apply Forall_app in SH as [SH1 SH2]. rewrite Forall_cons_iff in SH2. destruct SH2 as [SH2 _]. cbn [snd] in SH2.
  split.
  - unfold files_short. rewrite E4. apply Forall_app. split.
    + eapply Forall_impl; [|exact SH1]. cbn. intros. lia.
    + constructor; [|constructor]. cbn [snd]. rewrite app_length, firstn_length. lia.
  - destruct (Nat.leb_spec (length (rec_bytes on r)) n) as [L|L].
    + rewrite firstn_all2 in * by auto.
      destruct (append_holds on s a r HO RO EL) as (s2 & X & X1 & a' & X2 & X3 & _).
      exists a'. split; auto. rewrite EL in X2.
      assert (Y : wl_files s2 = wl_files s' /\ wl_list s2 = wl_list s' /\ wl_current s2 = wl_current s').
      { unfold wal_file_append in E, X. destruct (wl_current s) as [[i z]|]; try discriminate X.
        destruct (file_of i (wl_files s)); try discriminate X. rewrite firstn_all2 in E by auto.
        inversion E; inversion X; subst s' s2. auto. }
      destruct Y as (-> & -> & ->) in X2. auto.
    + eapply part_tholds; eauto. right.
      eapply (torn_cut on _ r _ (skipn n (rec_bytes on r))); auto.
      * symmetry. apply firstn_skipn.
      * intros C. apply (f_equal (@length N)) in C. rewrite skipn_length in C. cbn in C. lia.
      * lia.
Qed.

Section Whole.
Variable compress : N -> nat -> list byte -> list byte.
Variable decompress : N -> list byte -> N -> res (list byte).
Variable encrypt : N -> nat -> list byte -> list byte.
Variable decrypt : N -> list byte -> res (list byte).
Hypothesis CO : codecs_ok compress decompress encrypt decrypt.
Variable src : source.
Hypothesis SO : settings_ok src.
Variable wal_crc : bool.
Notation fc := (file_content decompress decrypt).
Notation dc := (dir_content decompress decrypt).
Notation rd := (as_read decompress decrypt wal_crc).
Notation absd := (absd decompress decrypt).
Notation winv := (winv decompress decrypt src wal_crc).
Notation step := (wstep compress decompress encrypt decrypt src wal_crc).
Notation op_fine := (wop_fine compress decompress encrypt decrypt src wal_crc).
Notation ack_step := (wack_step wal_crc).
Notation clean_next := (clean_after wal_crc).

(* steps that leave the log alone *)
Lemma keep lo w w' H clean a tail : winv lo w H clean a tail -> binv lo (absd w' a) H -> wh_wal w' = wh_wal w ->
  en_lsn (wh_en w') = en_lsn (wh_en w) -> en_region (wh_en w') = en_region (wh_en w) -> winv lo w' H clean a tail.
Proof.
  intros [B TH CL IW RG LA] B' E1 E2 E3. constructor; auto.
  - unfold log_of. rewrite E1, E2. exact TH.
  - congruence.
  - rewrite E2. auto.
Qed.

Lemma begin_sim w a id to : db_begin (absd w a) id to = rmap (fun b => absd (put_bare w b) a) (db_begin (bare w) id to).
Proof.
  unfold db_begin. cbn [db_en db_home db_jobs absd bare WholeS.absd].
  destruct (part_slice (en_map (wh_en w)) id) as [s|]; [|reflexivity].
  destruct (existsb _ _); [reflexivity|]. destruct (match to with Some st => _ | None => _ end); [reflexivity|].
  destruct (refresh_begin (wh_en w) id) as [[en ref]| |]; reflexivity.
Qed.
Lemma begin_fields b id to b' : db_begin b id to = Ok b' -> en_lsn (db_en b') = en_lsn (db_en b) /\
  en_region (db_en b') = en_region (db_en b).
Proof.
  unfold db_begin. destruct (part_slice _ _) as [s|]; [|discriminate].
  destruct (existsb _ _); [discriminate|]. destruct (match to with Some st => _ | None => _ end).
  { intros E; inversion E; subst; auto. }
  unfold refresh_begin. destruct (engine_lock _ _ _ _ _ _) as [r| |]; cbn [bind]; try discriminate.
  destruct (snd r) as [z|]; cbn [bind]; try discriminate. destruct (Rbtree.zelem z); cbn [bind]; try discriminate.
  intros E; inversion E; subst. cbn. auto.
Qed.

(* --- the steps of a refresh --- *)
Lemma step_one w j x s l f :
  en_region (wh_en w) = Z.to_N (so_region_size src mod 2 ^ 32) ->
  ref_slice (en_map (wh_en w)) (jb_ref j) = Ok s -> merger_events (s_data s) = Ok l ->
  new_bytes compress encrypt src s x = Ok f ->
  Forall mev_ok (behind [] l (ex_memory x)) -> small f l ->
  s_min s < 2^64 -> s_max s < 2^64 -> merger_lsn (s_data s) < 2^64 ->
  ex_refreshes x < 2 ^ 32 -> ex_create x < 2 ^ 64 -> ex_refresh x < 2 ^ 64 ->
  fc f = Some (mk_dfile (s_min s) (s_max s) (merger_lsn (s_data s)) (cut_regions (en_region (wh_en w)) l)).
Proof.
  intros RG ES EL EF MV SM B1 B2 B3 B4 B5 B6.
  unfold new_bytes in EF. rewrite EL in EF. cbn [bind] in EF. inversion EF as [F]. rewrite F in *. clear EF.
  set (st := mk_stamp _ _ _ _ _ _) in F.
  assert (SF : stamp_fit st) by (repeat split; assumption).
  assert (SL : strip (behind [] l (ex_memory x)) = l) by (apply behind_fst).
  assert (SM' : small (write_file compress encrypt src st (behind [] l (ex_memory x))) (strip (behind [] l (ex_memory x)))).
  { rewrite SL, F. auto. }
  destruct (read_written compress decompress encrypt decrypt CO src (proj1 SO) (proj2 SO) _ st MV SF SM') as (ix & data & R & _ & _ & R1 & R2 & _ & _ & _ & R3 & _).
  rewrite F, SL in R. unfold file_content. rewrite R, R1, R2, R3. cbn [st_min st_max st_lsn]. rewrite RG. reflexivity.
Qed.
Lemma job_fields w j x w' more : whole_job compress encrypt src w j x = Ok (w', more) ->
  wh_wal w' = wh_wal w /\ en_lsn (wh_en w') = en_lsn (wh_en w) /\ en_region (wh_en w') = en_region (wh_en w).
Proof.
  unfold whole_job. destruct (jb_stage j) as [|[|[|[|[|n]]]]].
  - intros E; inversion E; subst; auto.
  - destruct (ref_slice _ _); cbn [bind]; try discriminate. destruct (new_bytes _ _ _ _ _); cbn [bind]; try discriminate.
    intros E; inversion E; subst; auto.
  - unfold refresh_apply. destruct (ref_part _ _); cbn [bind]; try discriminate.
    destruct (refresh_part _ _); cbn [bind]; try discriminate. intros E; inversion E; subst; auto.
  - destruct (sl_inc _); intros E; inversion E; subst; auto.
  - intros E; inversion E; subst; auto.
  - destruct (sl_comp _); intros E; inversion E; subst; auto.
Qed.
Lemma ref_slice_in m ref s : ref_slice m ref = Ok s -> In s (mapping_list m) /\ s_min s = ref.
Proof.
  unfold ref_slice. destruct (find _ _) as [y|] eqn:E; try discriminate. intros X; inversion X; subst.
  apply find_some in E as [E1 E2]. apply N.eqb_eq in E2. auto.
Qed.
Lemma stamp_bounds lo b H s : binv lo b H -> In s (mapping_list (en_map (db_en b))) -> en_lsn (db_en b) + 3 < 2^64 ->
  s_min s < 2^64 /\ s_max s < 2^64 /\ merger_lsn (s_data s) < 2^64.
Proof.
  intros B Hs L. pose proof (bi_srel _ _ _ B s Hs) as R. destruct (sr_top _ _ _ _ R) as (_ & R1 & R2).
  assert (M : merger_lsn (s_data s) < 2^64).
  { unfold merger_lsn. unfold base in R2. destruct (pt_file (s_data s)); lia. }
  pose proof (binv_lo _ _ _ B) as LO.
  pose proof (gm_near _ _ (mi_map _ _ (bi_map _ _ _ B))) as G. rewrite Forall_forall in G.
  specialize (G (range_of s) (in_map _ _ _ Hs)). unfold near, range_of in G. cbn [fst snd] in G.
  destruct (gm_layout _ _ (mi_map _ _ (bi_map _ _ _ B))) as [_ LE]. rewrite Forall_forall in LE.
  specialize (LE (range_of s) (in_map _ _ _ Hs)). cbn [range_of fst snd] in LE.
  rewrite u64_max_eq in LO. lia.
Qed.
Lemma slot_sim i n c : slot_content decompress decrypt (mk_slot i n c) = mk_slot (option_map fc i) (option_map fc n) (option_map fc c).
Proof. reflexivity. Qed.
Lemma job_sim lo w b H a j x : binv lo b H -> db_en b = wh_en w ->
  en_region (wh_en w) = Z.to_N (so_region_size src mod 2 ^ 32) ->
  (jb_stage j = 1%nat -> new_fine compress encrypt src w (jb_ref j) x) ->
  job_step (absd w a) j = rmap (fun r => (absd (fst r) a, snd r)) (whole_job compress encrypt src w j x).
Proof.
  intros B EB RG NF. unfold job_step, whole_job. cbn [WholeS.absd db_dir db_en db_home]. rewrite !dc_get.
  destruct (jb_stage j) as [|[|[|[|[|n]]]]].
  - cbn [rmap fst snd]. unfold WholeS.absd, put_dir, with_dir. cbn [wh_dir wh_en wh_storages wh_home wh_jobs db_en db_storages db_home db_log db_jobs].
    rewrite dc_set, slot_sim. cbn [option_map]. rewrite fc_empty. reflexivity.
  - destruct (ref_slice (en_map (wh_en w)) (jb_ref j)) as [s| |] eqn:ES; cbn [bind rmap]; auto.
    destruct (ref_slice_in _ _ _ ES) as [Hs Es].
    unfold new_file, refresh_part. destruct (merger_events (s_data s)) as [l| |] eqn:EL; cbn [bind].
    2,3: unfold new_bytes; rewrite EL; reflexivity.
    cbn [pt_file pt_lsn bind]. destruct (new_bytes compress encrypt src s x) as [f| |] eqn:EF.
    2,3: unfold new_bytes in EF; rewrite EL in EF; discriminate EF.
    destruct (NF eq_refl) as (LR & (X1 & X2 & X3) & NF'). destruct (NF' s l f ES EL EF) as [Y1 Y2].
    rewrite <- EB in Hs. unfold lsn_room in LR. rewrite <- EB in LR.
    destruct (stamp_bounds lo b H s B Hs LR) as (Z1 & Z2 & Z3).
    cbn [bind rmap fst snd]. unfold WholeS.absd, put_dir, with_dir.
    cbn [wh_dir wh_en wh_storages wh_home wh_jobs db_en db_storages db_home db_log db_jobs].
    rewrite dc_set, slot_sim. cbn [option_map].
    rewrite (step_one w j x s l f) by auto. reflexivity.
  - destruct (refresh_apply (wh_en w) (jb_ref j)); reflexivity.
  - destruct (dget (wh_dir w) (jb_to j, jb_ref j)) as [i n c]. rewrite slot_sim. cbn [sl_inc sl_id sl_comp].
    destruct n as [n|]; cbn [option_map rmap fst snd]; auto.
    unfold WholeS.absd, put_dir, with_dir. cbn [wh_dir wh_en wh_storages wh_home wh_jobs db_en db_storages db_home db_log db_jobs].
    rewrite dc_set, slot_sim. reflexivity.
  - destruct (dget (wh_dir w) (jb_from j, jb_ref j)) as [i n c]. rewrite slot_sim. cbn [sl_inc sl_id sl_comp rmap fst snd].
    unfold WholeS.absd, put_dir, with_dir. cbn [wh_dir wh_en wh_storages wh_home wh_jobs db_en db_storages db_home db_log db_jobs].
    rewrite dc_set, slot_sim. reflexivity.
  - destruct (dget (wh_dir w) (jb_to j, jb_ref j)) as [i m c]. rewrite slot_sim. cbn [sl_inc sl_id sl_comp].
    destruct c as [c|]; cbn [option_map rmap fst snd]; auto.
    unfold WholeS.absd, put_dir, with_dir. cbn [wh_dir wh_en wh_storages wh_home wh_jobs db_en db_storages db_home db_log db_jobs].
    rewrite dc_set, slot_sim. reflexivity.
Qed.
Lemma step_sim lo w b H a ref x : binv lo b H -> db_en b = wh_en w ->
  en_region (wh_en w) = Z.to_N (so_region_size src mod 2 ^ 32) ->
  (forall j, find (fun j => jb_ref j =? ref) (wh_jobs w) = Some j -> jb_stage j = 1%nat -> new_fine compress encrypt src w ref x) ->
  db_step (absd w a) ref = rmap (fun w' => absd w' a) (whole_step compress encrypt src w ref x).
Proof.
  intros B EB RG NF. unfold db_step, whole_step. cbn [WholeS.absd db_jobs].
  destruct (find (fun j => jb_ref j =? ref) (wh_jobs w)) as [j|] eqn:Ej; auto.
  apply find_some in Ej as Ej'. destruct Ej' as [Hj Er]. apply N.eqb_eq in Er.
  change (mk_db (wh_en w) (wh_storages w) (wh_home w) (dc (wh_dir w)) (map lrec_of (log_recs a)) (wh_jobs w)) with (absd w a).
  rewrite (job_sim lo w b H a j x B EB RG). 2:{ intros. rewrite Er. eauto. }
  destruct (whole_job compress encrypt src w j x) as [[w' more]| |]; cbn [rmap bind fst snd]; auto.
Qed.
Lemma step_fields w ref x w' : whole_step compress encrypt src w ref x = Ok w' ->
  wh_wal w' = wh_wal w /\ en_lsn (wh_en w') = en_lsn (wh_en w) /\ en_region (wh_en w') = en_region (wh_en w).
Proof.
  unfold whole_step. destruct (find _ _) as [j|]; [|discriminate].
  destruct (whole_job compress encrypt src w j x) as [[w1 more]| |] eqn:E; cbn [bind]; try discriminate.
  apply job_fields in E. intros X. inversion X; subst. cbn. auto.
Qed.

Definition step_ok lo w (H : hist) clean o : Prop :=
  match step w o with
  | Ok w' => exists H' a' tail', winv lo w' H' (clean_next w clean o) a' tail' /\ map snd H' = ack_step w o (map snd H)
  | Err => wstops o = false /\ ack_step w o (map snd H) = map snd H
  | UB => False
  end.
Lemma begin_ok lo w H clean a tail id to : winv lo w H clean a tail -> op_fine lo w clean (WBegin id to) ->
  step_ok lo w H clean (WBegin id to).
Proof.
  intros I F. pose proof (wv_b _ _ _ _ _ _ _ _ _ _ I) as B.
  pose proof (begin_binv lo (absd w a) H id to B F) as X. rewrite begin_sim in X.
  unfold step_ok. cbn [wstep wstops ack_step wack_step clean_next clean_after].
  destruct (db_begin (bare w) id to) as [b| |] eqn:E; cbn [rmap bind] in *; auto.
  exists H, a, tail. split; auto. destruct (begin_fields _ _ _ _ E) as [F1 F2].
  apply (keep lo w); auto.
Qed.
Lemma one_ok lo w H clean a tail ref x : winv lo w H clean a tail -> op_fine lo w clean (WStep ref x) ->
  step_ok lo w H clean (WStep ref x).
Proof.
  intros I [F NF]. pose proof (wv_b _ _ _ _ _ _ _ _ _ _ I) as B.
  pose proof (step_binv lo (absd w a) H ref B F) as X. rewrite (step_sim lo w (absd w a) H a ref x B eq_refl (wv_region _ _ _ _ _ _ _ _ _ _ I) NF) in X.
  unfold step_ok. cbn [wstep wstops ack_step wack_step clean_next clean_after].
  destruct (whole_step compress encrypt src w ref x) as [w'| |] eqn:E; cbn [rmap] in *; auto.
  exists H, a, tail. split; auto. destruct (step_fields _ _ _ _ E) as (F0 & F1 & F2).
  apply (keep lo w); auto.
Qed.
Lemma fail_ok lo w H clean a tail ref : winv lo w H clean a tail -> op_fine lo w clean (WFail ref) ->
  step_ok lo w H clean (WFail ref).
Proof.
  intros I F. pose proof (wv_b _ _ _ _ _ _ _ _ _ _ I) as B.
  pose proof (fail_binv lo (absd w a) H ref B F) as X.
  unfold step_ok. cbn [wstep wstops ack_step wack_step clean_next clean_after].
  exists H, a, tail. split; auto. apply (keep lo w); auto.
Qed.
Lemma create_ok lo w H clean a tail mn mx : winv lo w H clean a tail -> op_fine lo w clean (WCreate mn mx) ->
  step_ok lo w H clean (WCreate mn mx).
Proof.
  intros I F. pose proof (wv_b _ _ _ _ _ _ _ _ _ _ I) as B.
  pose proof (cstep_more lo (absd w a) H (CCreate mn mx) B F) as X.
  unfold step_ok. cbn [wstep wstops ack_step wack_step clean_next clean_after cstep] in *.
  cbn [WholeS.absd db_en] in X.
  destruct (engine_fill part_new (en_map (wh_en w)) mn mx) as [m| |]; cbn [bind] in *; auto.
  destruct X as (H' & B' & E' & IN). exists H', a, tail. split; auto.
  destruct I as [_ TH CL IW RG LA]. constructor; auto.
  destruct LA as [L|(e & L)]; [left; auto|right; exists e; apply IN; auto].
Qed.
Lemma interval_ok lo w H clean a tail n : winv lo w H clean a tail -> op_fine lo w clean (WInterval n) ->
  step_ok lo w H clean (WInterval n).
Proof.
  intros I F. pose proof (wv_b _ _ _ _ _ _ _ _ _ _ I) as B.
  pose proof (cstep_more lo (absd w a) H (CInterval n) B F) as X.
  unfold step_ok. cbn [wstep wstops ack_step wack_step clean_next clean_after cstep] in *.
  destruct X as (H' & B' & E' & IN). exists H', a, tail. split; auto.
  destruct I as [_ TH CL IW RG LA]. constructor; auto.
  destruct LA as [L|(e & L)]; [left; auto|right; exists e; apply IN; auto].
Qed.
Lemma rotate_ok lo w H clean a tail wm : winv lo w H clean a tail -> op_fine lo w clean (WRotate wm) ->
  step_ok lo w H clean (WRotate wm).
Proof.
  intros [B TH CL IW RG LA] [-> LR]. rewrite (CL eq_refl) in TH. apply tholds_nil in TH.
  unfold lsn_room in LR.
  destruct (rotate_holds wal_crc (log_of w) a wm TH) as (a' & HO & ER & EL & _); [cbn [log_of wl_lsn]; lia|].
  unfold step_ok. cbn [wstep wstops ack_step wack_step clean_next clean_after].
  exists H, a', []. split; auto.
  assert (EA : log_of (put_log w (wal_rotate (log_of w) wm)) = wal_rotate (log_of w) wm).
  { unfold log_of at 1, put_log. cbn [wh_wal wh_en]. change (en_lsn (wh_en w)) with (wl_lsn (log_of w)).
    rewrite <- EL. destruct (wal_rotate (log_of w) wm); reflexivity. }
  constructor; auto.
  - unfold WholeS.absd in *. cbn [put_log wh_en wh_storages wh_home wh_dir wh_jobs]. rewrite ER. auto.
  - rewrite EA. apply tholds_nil. auto.
  - rewrite ER. auto.
Qed.
Lemma gc_ok lo w H clean a tail : winv lo w H clean a tail -> op_fine lo w clean WGc ->
  step_ok lo w H clean WGc.
Proof.
  intros [B TH CL IW RG LA] [-> F]. rewrite (CL eq_refl) in TH. apply tholds_nil in TH.
  destruct (gc_holds wal_crc (log_of w) a (gc_min (wh_en w)) TH) as (s' & a1 & a2 & E & Ea & _ & HO & EL & LT & _).
  unfold step_ok. cbn [wstep wstops ack_step wack_step clean_next clean_after]. rewrite E. cbn [bind].
  exists H, a2, []. split; auto.
  assert (EA : log_of (put_log w s') = s').
  { unfold log_of at 1, put_log. cbn [wh_wal wh_en]. change (en_lsn (wh_en w)) with (wl_lsn (log_of w)).
    rewrite <- EL. destruct s'; reflexivity. }
  assert (LG : map lrec_of (log_recs a) = map lrec_of (log_recs a1) ++ map lrec_of (log_recs a2)).
  { rewrite Ea, log_recs_app, map_app. auto. }
  pose proof (gc_binv lo (absd w a) H (length (map lrec_of (log_recs a1))) B F) as X.
  unfold db_gc in X. cbn [WholeS.absd db_log db_en] in X. rewrite LG in X.
  rewrite firstn_app, Nat.sub_diag, firstn_all, app_nil_r in X. rewrite skipn_app, Nat.sub_diag, skipn_all in X. cbn [skipn app] in X.
  replace (forallb (fun r => Crash.rec_lsn r <? gc_min (wh_en w)) (map lrec_of (log_recs a1))) with true in X.
  2:{ symmetry. apply forallb_forall. intros r Hr. apply in_map_iff in Hr as (q & <- & Hq). rewrite rec_lsn_of.
      rewrite Forall_forall in LT. apply N.ltb_lt. auto. }
  constructor; auto.
  - rewrite EA. apply tholds_nil. auto.
  - rewrite Ea, log_recs_app in IW. apply Forall_app in IW. apply IW.
Qed.

Lemma log_at_en w en g n : wl_lsn g = n -> en_lsn en = n -> log_of (put_log (put_bare w (with_en (bare w) en)) g) = g.
Proof. intros E1 E2. unfold log_of, put_log, put_bare. cbn [wh_wal wh_en with_en bare db_en]. rewrite E2, <- E1. destruct g; reflexivity. Qed.
Lemma write_ok lo w H clean a tail l m fail : winv lo w H clean a tail -> op_fine lo w clean (WWrite l m fail) ->
  step_ok lo w H clean (WWrite l m fail).
Proof.
  intros [B TH CL IW RG LA] (-> & LR & F & RF & FF). rewrite (CL eq_refl) in TH. apply tholds_nil in TH.
  unfold lsn_room in LR.
  assert (F' : forall b, cop_fine lo (absd w a) (CWrite l b)) by (intros; exact F).
  pose proof (cstep_more lo (absd w a) H (CWrite l true) B (F' _)) as X.
  pose proof (cstep_more lo (absd w a) H (CWrite l false) B (F' _)) as X2.
  destruct F as [BF LT]. cbn [as_read db_en] in BF, LT.
  pose proof (write_grown lo (wh_en w) l true (bi_map _ _ _ B) (bi_iv _ _ _ B) BF) as G1.
  pose proof (write_grown lo (wh_en w) l false (bi_map _ _ _ B) (bi_iv _ _ _ B) BF) as G2.
  cbn [cstep] in X, X2. cbn [WholeS.absd db_en] in X, X2.
  unfold step_ok. cbn [wstep wstops ack_step wack_step clean_next clean_after]. unfold whole_write.
  unfold record_fine in RF. cbn [cack_step] in X, X2. cbn [WholeS.absd db_en] in X, X2.
  destruct G1 as [(m1 & E1 & _ & I1 & _)|(m1 & ssn & E1 & I1 & _)].
  - rewrite E1 in *. cbn [bind snd] in *. set (evs := assigned _ _ _) in *.
    destruct RF as [BO STB].
    set (en1 := mk_engine _ _ _ _ _ _ _) in *.
    assert (EN1 : en_lsn en1 = en_lsn (wh_en w) + 1) by (unfold en1; cbn [en_lsn]; apply w64_small; lia).
    destruct fail as [n|].
    + subst n.
      destruct (append_part wal_crc (log_of w) a (log_record wal_crc (w64 (wl_lsn (log_of w) + 1)) (entries evs m)) 0 TH)
        as (s' & a1 & id & rs & EA & Ea & A1 & A2 & _ & A4 & A5).
      unfold wal_write. rewrite EA. cbn [bind fst snd].
      destruct G2 as [(m2 & _ & Y & _)|(m2 & ssn2 & E2 & I2 & _)]; [discriminate Y|].
      rewrite E2 in *. cbn [bind fst] in *. destruct X2 as (H' & B' & EH & IN).
      exists H', a, []. split; auto. constructor; auto.
      * erewrite log_at_en; [|exact A1|reflexivity].
        eapply (part_tholds wal_crc (log_of w)); eauto.
      * destruct LA as [L|(e & L)]; [left; exact L|right; exists e; apply IN; exact L].
    + destruct (write_holds wal_crc (log_of w) a (entries evs m) TH BO STB) as (s' & a' & EW & EL & HO & ER & _);
        [cbn [log_of wl_lsn]; lia|].
      rewrite EW. cbn [bind fst snd].
      destruct X as (H' & B' & EH & IN). exists H', a', [].
      assert (EB : absd (put_log (put_bare w (with_en (bare w) en1)) s') a' =
        with_log (with_en (absd w a) en1) (map lrec_of (log_recs a) ++ [write_rec (absd w a) evs])).
      { unfold WholeS.absd. cbn [put_log put_bare with_en bare wh_en wh_storages wh_home wh_dir wh_jobs db_en db_storages db_home db_jobs with_log db_dir].
        rewrite ER, map_app. cbn [map lrec_of]. rewrite entries_events. unfold write_rec. cbn [db_en].
        rewrite (w64_small (en_lsn (wh_en w) + 1)) by lia. reflexivity. }
      split; auto. constructor; auto.
      * rewrite EB. exact B'.
      * erewrite log_at_en; [|exact EL|exact EN1].
        apply tholds_nil. auto.
      * rewrite ER. apply Forall_app. split; auto.
      * right. cbn [put_log put_bare with_en bare wh_en db_en]. rewrite EN1.
        destruct (bi_log _ _ _ B') as (_ & H0 & EH0 & _). rewrite EH0.
        cbn [with_log with_en WholeS.absd db_log].
        destruct evs as [|e evs'] eqn:Ev.
        { destruct BO as [BO _]. contradiction. }
        exists e. apply in_or_app. right. rewrite flat_app. apply in_or_app. right.
        unfold write_rec. cbn [WholeS.absd db_en flat map]. rewrite (w64_small (en_lsn (wh_en w) + 1)) by lia. cbn. auto.
  - rewrite E1 in *. cbn [bind] in *. destruct X as (H' & B' & EH & IN).
    exists H', a, []. split; auto. constructor; auto.
    + unfold log_of. cbn [put_bare with_en bare wh_wal wh_en db_en en_lsn]. apply tholds_nil. exact TH.
    + destruct LA as [L|(e & L)]; [left; exact L|right; exists e; apply IN; exact L].
Qed.

Lemma crash_ok lo w H clean a tail cuts ids : winv lo w H clean a tail -> op_fine lo w clean (WCrash cuts ids) ->
  step_ok lo w H clean (WCrash cuts ids).
Proof.
  intros [B TH CL IW RG LA] (LF & F).
  rewrite (as_read_absd decompress decrypt wal_crc w a tail) in F; auto.
  2:{ eapply short_more; eauto. }
  2:{ pose proof (room_u64 _ (proj1 LF)). lia. }
  destruct (stop_start_b decompress decrypt src wal_crc lo w (absd w a) H a tail clean cuts ids) as (w' & E & I'); auto.
  unfold step_ok. cbn [wstep wstops ack_step wack_step clean_next clean_after]. rewrite E. exists H, a, tail. auto.
Qed.

Lemma crash_in_ok lo w H clean a tail l m n ids : winv lo w H clean a tail -> op_fine lo w clean (WCrashIn l m n ids) ->
  step_ok lo w H clean (WCrashIn l m n ids).
Proof.
  intros [B TH CL IW RG LA] (-> & RF & LF & F). rewrite (CL eq_refl) in TH.
  pose proof (room_u64 _ (proj1 LF)) as LR. pose proof (short_more _ _ _ LF) as FS.
  rewrite (as_read_absd decompress decrypt wal_crc w a []) in F; auto; [|lia].
  apply tholds_nil in TH as HO.
  destruct F as (BF & LT & F). cbn [WholeS.absd db_en] in BF, LT, F.
  pose proof (write_grown lo (wh_en w) l true (bi_map _ _ _ B) (bi_iv _ _ _ B) BF) as G1.
  unfold step_ok. cbn [wstep wstops ack_step wack_step clean_next clean_after].
  unfold record_fine in RF. unfold complete_record, the_record in *. destruct LF as (LF1 & LF2 & LF3). unfold the_record in LF3.
  unfold lsn_room in LF1.
  destruct G1 as [(m1 & E1 & _ & I1 & _)|(m1 & ssn & E1 & I1 & _)]; rewrite E1 in *; cbn [bind snd andb] in *.
  2:{ destruct (stop_start_b decompress decrypt src wal_crc lo w (absd w a) H a [] true [] ids) as (w' & E & I'); auto.
      - split; [auto|split; auto].
      - rewrite E. exists H, a, []. split; auto. cbn [length Nat.leb]. rewrite orb_true_r. auto. }
  set (evs := assigned _ _ _) in *. destruct RF as [BO STB].
  rewrite (w64_small (en_lsn (wh_en w) + 1)) in * by lia.
  set (r := RWrite (en_lsn (wh_en w) + 1) (entries evs m)).
  assert (RO : rec_ok wal_crc r). { split; [lia|]. auto. }
  change (log_record wal_crc (en_lsn (wh_en w) + 1) (entries evs m)) with (rec_bytes wal_crc r) in *.
  destruct (append_cut wal_crc (log_of w) a r n HO RO eq_refl LF3) as (s' & EA & A1 & A2 & A3 & A4).
  rewrite EA. cbn [bind fst].
  assert (DK0 : forall X rr, flat rr = X -> writes rr -> Forall (fun x => en_lsn (wh_en w) < fst x) X -> hsorted X ->
     disk lo (wh_storages w) (H ++ X) (dc (wh_dir w)) (map lrec_of (log_recs a) ++ rr)).
  { intros X rr X1 X2 X3 X4. apply (binv_disk lo (absd w a) H X B X3 X4 rr X1 X2). }
  assert (SV : forall mn f, surv (dc (wh_dir w)) mn (Some f) -> df_lsn f <= en_lsn (wh_en w)).
  { intros mn f Hs. apply (bi_surv _ _ _ B) in Hs as (f' & Ef & _ & _ & FG). inversion Ef; subst f'. apply FG. }
  destruct (Nat.leb_spec (length (rec_bytes wal_crc r)) n) as [L|L].
  - destruct A4 as (a' & HO' & ER). rewrite orb_true_r.
    set (X := map (pair (en_lsn (wh_en w) + 1)) evs).
    assert (EQ : map lrec_of (log_recs a') = map lrec_of (log_recs a) ++ [Crash.LWrite (en_lsn (wh_en w) + 1) evs]).
    { rewrite ER, map_app. cbn [map lrec_of r]. rewrite entries_events. auto. }
    destruct (stop_start decompress decrypt src wal_crc lo (put_log w s') (dc (wh_dir w)) (H ++ X) a' [] true
       (en_lsn (wh_en w) + 1) [] ids) as (w' & E & I'); auto.
    + apply tholds_nil. exact HO'.
    + rewrite ER. apply Forall_app. split; auto. constructor; [exact Logic.I|constructor].
    + right. destruct evs as [|e evs'] eqn:Ev; [destruct BO as [BO _]; contradiction|].
      exists e. apply in_or_app. right. left. auto.
    + lia.
    + cbn [put_log wh_wal]. rewrite A2. auto.
    + rewrite EQ. apply (DK0 X [Crash.LWrite (en_lsn (wh_en w) + 1) evs]).
      * unfold X. cbn. apply app_nil_r.
      * constructor; [cbn; lia|constructor].
      * unfold X. rewrite Forall_map. apply Forall_forall. intros. cbn [fst]. lia.
      * apply hsorted_const.
    + apply B.
    + eapply binv_lo; eauto.
    + apply B.
    + intros mn f Hs. specialize (SV mn f Hs). lia.
    + cbn [interrupted]. rewrite EQ. unfold restart_fine, write_rec in F. cbn [WholeS.absd db_en] in F. rewrite (w64_small (en_lsn (wh_en w) + 1)) in F by lia. exact F.
    + rewrite E. exists (H ++ X), a', []. split; auto. rewrite map_app. unfold X. rewrite map_map. cbn [snd]. rewrite map_id. auto.
  - rewrite orb_false_r.
    destruct (stop_start decompress decrypt src wal_crc lo (put_log w s') (dc (wh_dir w)) H a (firstn n (rec_bytes wal_crc r)) (n =? 0)%nat
       (en_lsn (wh_en w)) [] ids) as (w' & E & I'); auto.
    + eapply tholds_lsn; eauto; cbn [log_at wl_lsn]; try apply HO; auto.
    + intros Z. apply Nat.eqb_eq in Z. subst n. reflexivity.
    + lia.
    + cbn [put_log wh_wal]. rewrite A2. auto.
    + specialize (DK0 [] [] eq_refl ltac:(constructor) ltac:(constructor) hsorted_nil). rewrite !app_nil_r in DK0. exact DK0.
    + apply B.
    + eapply binv_lo; eauto.
    + apply B.
    + rewrite E. exists H, a, (firstn n (rec_bytes wal_crc r)). auto.
Qed.

Lemma dull_set d k s : dull (dset d k s) = dset (dull d) k (mk_slot (sl_id s) (option_map (fun _ => None) (sl_inc s)) (sl_comp s)).
Proof.
  unfold dull. rewrite <- (dset_map (fun c : content => c) (fun _ => None)). f_equal. unfold smap. f_equal.
  - destruct (sl_id s); auto.
  - destruct (sl_comp s); auto.
Qed.
Lemma crash_file_ok lo w H clean a tail ref x n cuts ids : winv lo w H clean a tail ->
  op_fine lo w clean (WCrashFile ref x n cuts ids) -> step_ok lo w H clean (WCrashFile ref x n cuts ids).
Proof.
  intros I0 (LF & ST & F). pose proof I0 as [B TH CL IW RG LA].
  unfold step_ok. cbn [wstep wstops ack_step wack_step clean_next clean_after].
  destruct (find (fun j => jb_ref j =? ref) (wh_jobs w)) as [j|] eqn:Ej.
  2:{ unfold begun in F. rewrite Ej in F.
      pose proof (crash_ok lo w H clean a tail cuts ids I0 (conj LF F)) as X. unfold step_ok in X.
      cbn [wstep wstops ack_step wack_step clean_next clean_after] in X. exact X. }
  specialize (ST j eq_refl). apply find_some in Ej as Ej'. destruct Ej' as [Hj Er]. apply N.eqb_eq in Er. subst ref.
  destruct (bi_jobs _ _ _ B) as (_ & J). destruct (J j Hj) as (Hto & s & Hs & Es).
  pose proof (bi_desc _ _ _ B s Hs) as D. unfold job_of in D. cbn [WholeS.absd db_jobs db_dir db_home db_en] in D. rewrite Es in D. rewrite Ej in D.
  cbn [desc] in D. unfold jdesc in D. rewrite ST in D. destruct D as [Hh D]. rewrite Es in D.
  destruct (ref_slice (en_map (wh_en w)) (jb_ref j)) as [s1| |] eqn:ES.
  2,3: exfalso; unfold ref_slice in ES; destruct (find _ _) eqn:EF in ES; try discriminate ES;
    pose proof (find_none _ _ EF s Hs) as Z0; cbn beta in Z0; rewrite Es, N.eqb_refl in Z0; discriminate Z0.
  destruct (ref_slice_in _ _ _ ES) as [Hs1 _].
  pose proof (mi_parts _ _ (bi_map _ _ _ B)) as MP. rewrite Forall_forall in MP. specialize (MP s1 Hs1).
  destruct (merger_spec lo (s_data s1) (sf_prev _ _ MP) (sf_file _ _ MP)) as (l & EL & _).
  cbn [bind]. unfold new_bytes. rewrite EL. cbn [bind].
  set (f := write_file _ _ _ _ _). set (w1 := put_dir w _).
  assert (EB : begun w (jb_ref j) = put_dir w (dset (wh_dir w) (jb_to j, jb_ref j)
     (mk_slot (sl_id (dget (wh_dir w) (jb_to j, jb_ref j))) (Some []) (sl_comp (dget (wh_dir w) (jb_to j, jb_ref j)))))).
  { unfold begun. rewrite Ej. auto. }
  rewrite EB in F. clear EB. match type of F with context[as_read _ _ _ ?x] => set (w0 := x) in * end.
  assert (TH0 : tholds wal_crc (log_of w0) a tail) by exact TH.
  rewrite (as_read_absd decompress decrypt wal_crc w0 a tail) in F; auto.
  2:{ exact (short_more _ _ _ LF). }
  2:{ pose proof (room_u64 _ (proj1 LF)) as LR. cbn [w0 put_dir wh_en]. lia. }
  pose proof (D (jb_to j)) as Dt. rewrite dc_get in Dt. rewrite (at_same (jb_to j)) in Dt.
  destruct (dget (wh_dir w) (jb_to j, jb_ref j)) as [i0 n0 c0] eqn:EG. rewrite slot_sim in Dt. cbn [sl_id sl_comp] in *.
  assert (Ed : dc (wh_dir w0) = dset (dc (wh_dir w)) (jb_to j, jb_ref j) (dget (dc (wh_dir w)) (jb_to j, jb_ref j))).
  { cbn [w0 put_dir wh_dir]. rewrite dc_set, dc_get, EG, !slot_sim. cbn [option_map]. rewrite fc_empty. f_equal.
    inversion Dt as [[X1 X2 X3]]. rewrite X2. auto. }
  assert (B0 : binv lo (absd w0 a) H).
  { change (absd w0 a) with (with_dir (absd w a) (dc (wh_dir w0))). apply binv_dir; auto.
    - rewrite Ed. apply wfd_set. apply B.
    - intros k. cbn [WholeS.absd db_dir]. rewrite Ed. destruct (dkey_dec (jb_to j, jb_ref j) k) as [<-|K].
      + rewrite dget_set_same. auto.
      + rewrite dget_set_other by auto. auto. }
  destruct (stop_start_b decompress decrypt src wal_crc lo w1 (absd w0 a) H a tail clean cuts ids) as (w' & E & I'); auto.
  - cbn [WholeS.absd db_dir w0 w1 put_dir wh_dir]. rewrite !dc_set, !dull_set, !slot_sim. reflexivity.
  - rewrite E. exists H, a, tail. auto.
Qed.

Lemma wstep_spec lo w H clean a tail o : winv lo w H clean a tail -> op_fine lo w clean o -> step_ok lo w H clean o.
Proof.
  intros I F. destruct o.
  - eapply write_ok; eauto.
  - eapply begin_ok; eauto.
  - eapply one_ok; eauto.
  - eapply fail_ok; eauto.
  - eapply rotate_ok; eauto.
  - eapply gc_ok; eauto.
  - eapply create_ok; eauto.
  - eapply interval_ok; eauto.
  - eapply crash_ok; eauto.
  - eapply crash_in_ok; eauto.
  - eapply crash_file_ok; eauto.
Qed.
End Whole.
