(* Logs with records of drops: files increase and records are below the files after theirs; records
   of drops are appended while the log is read. *)
From Coq Require Import NArith ZArith List Bool Lia Arith Permutation Sorted.
Import ListNotations.
From Verif Require Import Model.Base Model.Event Model.Codec Model.File Model.Wal Spec.Order Spec.Checksum Spec.Log
  Proof.WalL Proof.WalR Proof.WalH Proof.WalP.
Local Arguments N.pow : simpl never.
Local Arguments N.add : simpl never.
Local Open Scope N_scope.

Record wlog (on : bool) (g : wal) (a : log) : Prop := {
  wg_files : wl_files g = log_files on a;
  wg_list : wl_list g = log_ids a;
  wg_current : exists a1 id rs, a = a1 ++ [(id, rs)] /\
                 wl_current g = Some (id, N.of_nat (length (flat_map (rec_bytes on) rs)));
  wg_recs : Forall (rec_ok on) (log_recs a);
  wg_inc : increasing (log_ids a);
  wg_top : Forall (fun i => i < u64_max) (log_ids a);
  wg_below : forall a1 id rs a2, a = a1 ++ (id, rs) :: a2 -> Forall (fun r => rec_lsn r < id) (log_recs a1)
}.
Lemma wlog_lsn on g g' a : wlog on g a -> wl_files g' = wl_files g -> wl_list g' = wl_list g ->
  wl_current g' = wl_current g -> wlog on g' a.
Proof. intros [A B C D E F G] E1 E2 E3. constructor; rewrite ?E1, ?E2, ?E3; auto. Qed.
Lemma wlog_new on : wlog on (wal_rotate wal_init 0) [(1, [])].
Proof.
  destruct (open_holds on) as [A B C D E _ _]. constructor; auto.
  - apply E.
  - constructor; [|constructor]. rewrite <- N.ltb_lt. reflexivity.
  - intros a1 id rs a2 X. destruct a1 as [|x a1]; [constructor|]. destruct a1; discriminate X.
Qed.

(* --- records behind the last one --- *)
Fixpoint put_last (a : log) (X : list rec) : log :=
  match a with
  | [] => []
  | [(id, rs)] => [(id, rs ++ X)]
  | f :: t => f :: put_last t X
  end.
Lemma put_last_snoc a1 id rs X : put_last (a1 ++ [(id, rs)]) X = a1 ++ [(id, rs ++ X)].
Proof.
  induction a1 as [|f a1 IH]; auto. cbn [app put_last]. rewrite IH. destruct f. destruct (a1 ++ [(id, rs)]) eqn:E; auto.
  destruct a1; discriminate E.
Qed.
Lemma put_last_nil a : put_last a [] = a.
Proof.
  induction a as [|[i r] a IH]; auto. cbn [put_last]. rewrite IH. destruct a; auto. rewrite app_nil_r. auto.
Qed.
Lemma put_last_cons f g t X : put_last (f :: g :: t) X = f :: put_last (g :: t) X.
Proof. destruct f; auto. Qed.
Lemma put_last_app pre t X : t <> [] -> put_last (pre ++ t) X = pre ++ put_last t X.
Proof.
  intros Ht. induction pre as [|f pre IH]; auto. cbn [app]. destruct (pre ++ t) as [|g u] eqn:E.
  - destruct pre; [|discriminate E]. cbn in E. contradiction.
  - rewrite put_last_cons, IH. auto.
Qed.
Lemma put_last_twice a X Y : put_last (put_last a X) Y = put_last a (X ++ Y).
Proof.
  destruct a as [|f a]; auto. destruct (@exists_last _ (f :: a)) as (a1 & [i r] & ->); [discriminate|].
  rewrite !put_last_snoc, app_assoc. auto.
Qed.
Lemma put_last_ids a X : log_ids (put_last a X) = log_ids a.
Proof.
  destruct a as [|f a]; auto. destruct (@exists_last _ (f :: a)) as (a1 & [i r] & ->); [discriminate|].
  rewrite put_last_snoc. unfold log_ids. rewrite !map_app. auto.
Qed.
Lemma put_last_recs a X : a <> [] -> log_recs (put_last a X) = log_recs a ++ X.
Proof.
  intros Ha. destruct (@exists_last _ a Ha) as (a1 & [i r] & ->).
  rewrite put_last_snoc, !log_recs_app. unfold log_recs at 2 4. cbn. rewrite !app_nil_r, app_assoc. auto.
Qed.
Lemma put_last_length a X : length (put_last a X) = length a.
Proof.
  destruct a as [|f a]; auto. destruct (@exists_last _ (f :: a)) as (a1 & [i r] & ->); [discriminate|].
  rewrite put_last_snoc, !app_length. auto.
Qed.
Lemma wlog_some on g a : wlog on g a -> a <> [].
Proof. intros [_ _ (a1 & id & rs & -> & _) _ _ _ _] E. destruct a1; discriminate E. Qed.

Lemma append_wlog on g a r : wlog on g a -> rec_ok on r ->
  exists g', wal_file_append g (rec_bytes on r) None = Ok (g', true) /\ wl_lsn g' = wl_lsn g /\
    forall n, wlog on (mk_wal (wl_files g') (wl_list g') (wl_current g') n) (put_last a [r]).
Proof.
  intros [Hf Hli (a1 & id & rs & Ea & Hcu) Hr Hinc Ht Hb] Hok. subst a.
  unfold wal_file_append. rewrite Hcu, Hf, ids_sorted_file_of by auto.
  eexists. split; [reflexivity|]. cbn [wl_lsn wl_files wl_list wl_current]. split; auto. intros n.
  rewrite Nat2N.id, overwrite_end, file_put_last by auto.
  pose proof (put_last_recs (a1 ++ [(id, rs)]) [r]) as Hrecs. pose proof (put_last_ids (a1 ++ [(id, rs)]) [r]) as Hids.
  rewrite put_last_snoc in *.
  assert (Hne : a1 ++ [(id, rs)] <> []) by (intros E; destruct a1; discriminate E). specialize (Hrecs Hne).
  constructor; cbn [wl_files wl_list wl_current].
  - unfold log_files. rewrite map_app. cbn [map fst snd]. rewrite flat_map_app. cbn [flat_map]. rewrite app_nil_r. auto.
  - rewrite Hids. auto.
  - exists a1, id, (rs ++ [r]). split; auto. rewrite flat_map_app, app_length. cbn [flat_map]. rewrite app_nil_r.
    f_equal. f_equal. lia.
  - rewrite Hrecs. apply Forall_app. split; auto.
  - rewrite Hids. auto.
  - rewrite Hids. auto.
  - intros b1 i qs b2 E. apply snoc_inj in E. destruct E as [(E1 & E2 & E3)|(b3 & E1 & E2)].
    + inversion E3; subst. apply (Hb b1 i rs []). auto.
    + subst. apply (Hb b1 i qs (b3 ++ [(id, rs)])). rewrite <- app_assoc. auto.
Qed.
Lemma write_wlog on g a l n : wlog on g a -> batch_ok l -> (on = true -> Forall stable l) -> wl_lsn g = n -> n + 1 < 2^64 ->
  exists g', wal_write on g l None = Ok (g', true) /\ wl_lsn g' = n + 1 /\
    wlog on g' (put_last a [RWrite (n + 1) l]).
Proof.
  intros H Hb Hst <- Hn. unfold wal_write. rewrite w64_small by auto.
  destruct (append_wlog on g a (RWrite (wl_lsn g + 1) l) H) as (s' & E & El & Ha).
  - split; auto.
  - cbn [rec_bytes] in E. rewrite E. cbn [bind]. eexists. split; [reflexivity|]. split; auto.
Qed.
Lemma drop_wlog on g a id : wlog on g a -> id < 2^64 ->
  exists g', wal_write_drop on g id None = Ok (g', true) /\ wl_lsn g' = w64 (wl_lsn g + 1) /\
    wlog on g' (put_last a [RDrop (w64 (wl_lsn g + 1)) id]).
Proof.
  intros H Hi. unfold wal_write_drop.
  destruct (append_wlog on g a (RDrop (w64 (wl_lsn g + 1)) id) H) as (s' & E & El & Ha).
  - split; auto. unfold w64, two64. apply N.mod_lt. lia.
  - cbn [rec_bytes] in E. rewrite E. cbn [bind]. eexists. split; [reflexivity|]. split; auto.
Qed.

(* --- a new file --- *)
Lemma rotate_wlog on g a wm : wlog on g a -> wl_lsn g + 1 < u64_max ->
  (wal_rotate_ready g wm = true -> Forall (fun i => i <= wl_lsn g) (log_ids a) /\
    Forall (fun r => rec_lsn r <= wl_lsn g) (log_recs a)) ->
  exists a', wlog on (wal_rotate g wm) a' /\ log_recs a' = log_recs a /\ wl_lsn (wal_rotate g wm) = wl_lsn g.
Proof.
  intros H Hn HF. unfold wal_rotate. destruct (wal_rotate_ready g wm) eqn:E; [|exists a; auto].
  destruct (HF eq_refl) as [Hi Hl]. clear HF. destruct H as [Hf Hli _ Hr Hinc Ht Hb].
  assert (Hids : forall i, In i (log_ids a) -> i < wl_lsn g + 1).
  { intros i Hx. rewrite Forall_forall in Hi. specialize (Hi i Hx). lia. }
  rewrite w64_small by (unfold u64_max in Hn; lia). exists (a ++ [(wl_lsn g + 1, [])]).
  assert (Er : log_recs (a ++ [(wl_lsn g + 1, [])]) = log_recs a).
  { rewrite log_recs_app. unfold log_recs at 2. cbn. rewrite app_nil_r. auto. }
  split; [|auto]. rewrite Hf, Hli, file_of_none by (intros Hx; apply Hids in Hx; lia).
  constructor; cbn [wl_files wl_list wl_current wl_lsn].
  - unfold log_files. rewrite map_app. auto.
  - rewrite id_add_end by auto. unfold log_ids. rewrite map_app. auto.
  - exists a, (wl_lsn g + 1), []. auto.
  - rewrite Er. auto.
  - unfold log_ids. rewrite map_app. apply increasing_snoc; auto.
  - unfold log_ids. rewrite map_app. apply Forall_app. split; auto. constructor; [auto|constructor].
  - intros b1 i qs b2 X. apply snoc_inj in X. destruct X as [(E1 & E2 & E3)|(b3 & E1 & E2)].
    + inversion E3; subst. eapply Forall_impl; [|exact Hl]. cbn. intros. lia.
    + subst. apply (Hb b1 i qs b3). auto.
Qed.

(* --- files are removed --- *)
Lemma gc_wlog on g a m : wlog on g a ->
  exists g' a1 a2, wal_gc g m = Ok g' /\ a = a1 ++ a2 /\ wlog on g' a2 /\ wl_lsn g' = wl_lsn g /\
    Forall (fun r => rec_lsn r < m) (log_recs a1).
Proof.
  intros H. pose proof H as [Hf Hli (b1 & id & rs & Ea & Hcu) Hr Hinc Ht Hb].
  destruct (gc_between_spec m (log_ids a)) as (r & k & E1 & E2 & E3 & E4 & E5 & E6); [auto|].
  unfold wal_gc. rewrite Hli, E1.
  pose proof E2 as E2'. unfold log_ids in E2'. apply map_app_inv in E2'. destruct E2' as (a1 & a2 & Ea' & Er & Ek).
  fold (log_ids a1) in Er. fold (log_ids a2) in Ek.
  assert (Hne : a2 <> []).
  { intros ->. apply E3; [|rewrite <- Ek; auto]. rewrite Ea. unfold log_ids. rewrite map_app. intros Hx. apply app_eq_nil in Hx.
    destruct Hx. discriminate. }
  rewrite Hf, Ea', <- Er, unlink_prefix by (rewrite <- Ea'; auto). cbn [bind].
  exists (mk_wal (log_files on a2) k (wl_current g) (wl_lsn g)), a1, a2.
  split; auto. split; auto. split; [|split; [auto|]].
  - constructor; cbn [wl_files wl_list wl_current wl_lsn]; auto.
    + destruct (@exists_last _ a2 Hne) as (c1 & [i qs] & Ec). exists c1, i, qs. split; auto.
      rewrite Ec in Ea'. rewrite app_assoc in Ea'. rewrite Ea in Ea'. apply app_inj_tail in Ea'. destruct Ea' as (_ & Ei).
      inversion Ei; subst. auto.
    + rewrite Ea', log_recs_app in Hr. apply Forall_app in Hr. tauto.
    + rewrite Ea' in Hinc. unfold log_ids in Hinc. rewrite map_app in Hinc. apply increasing_app in Hinc. apply Hinc.
    + rewrite Ea' in Ht. unfold log_ids in Ht. rewrite map_app in Ht. apply Forall_app in Ht. tauto.
    + intros c1 i qs c2 E. specialize (Hb (a1 ++ c1) i qs c2). rewrite <- app_assoc, <- E in Hb.
      specialize (Hb Ea'). rewrite log_recs_app in Hb. apply Forall_app in Hb. tauto.
  - destruct a2 as [|[i qs] a2]; [tauto|]. pose proof (Hb a1 i qs a2 Ea') as H4.
    destruct a1 as [|z a1]; [constructor|].
    assert (i <= m). { rewrite <- Ek in E5. cbn in E5. apply E5. rewrite <- Er. discriminate. }
    eapply Forall_impl; [|exact H4]. cbn. intros. lia.
Qed.

(* --- reading --- *)
Lemma short_wlog on g a : wlog on g a -> files_short g -> short on a.
Proof.
  intros [Hf _ _ _ _ _ _] S. unfold files_short in S. rewrite Hf in S. unfold short. unfold log_files in S.
  rewrite Forall_map in S. exact S.
Qed.
Lemma read_wlog on g a : wlog on g a -> files_short g ->
  wal_read on (wl_files g) (wl_list g) = (map rec_logged (log_recs a), Ok tt).
Proof.
  intros H S. rewrite (wg_files _ _ _ H), (wg_list _ _ _ H). apply read_log; try apply H. eapply short_wlog; eauto.
Qed.
Lemma open_wlog on g a ids n : wlog on g a -> Permutation ids (wl_list g) ->
  exists g', wal_open (wl_files g) ids n = Ok g' /\ wlog on g' a /\ wl_lsn g' = n.
Proof.
  intros H P. pose proof H as [Hf Hli (a1 & id & rs & Ea & Hcu) Hr Hinc Ht Hb]. unfold wal_open.
  rewrite Hli in P. rewrite (recover_perm ids (log_ids a) Hinc P).
  assert (Hmax : wal_id_max (log_ids a) = id) by (rewrite Ea; apply last_ids).
  assert (Hfo : file_of id (wl_files g) = Some (flat_map (rec_bytes on) rs)).
  { rewrite Hf, Ea. apply ids_sorted_file_of. rewrite <- Ea. auto. }
  destruct (log_ids a) as [|i0 l0] eqn:Ei.
  - exfalso. rewrite Ea in Ei. unfold log_ids in Ei. rewrite map_app in Ei. apply app_eq_nil in Ei as [_ Ei]. discriminate Ei.
  - rewrite Hmax, Hfo. eexists. split; [reflexivity|]. split; auto. eapply wlog_lsn; eauto.
Qed.
(* one file *)
Lemma file_at_wlog on g pre id rs post : wlog on g (pre ++ (id, rs) :: post) ->
  file_of id (wl_files g) = Some (flat_map (rec_bytes on) rs).
Proof.
  intros H. rewrite (wg_files _ _ _ H). pose proof (wg_inc _ _ _ H) as I. clear H.
  induction pre as [|f pre IH]; cbn [app log_files map file_of fst snd].
  - rewrite N.eqb_refl. auto.
  - cbn [app log_ids map] in I. inversion I as [|? ? I1 I2]; subst. destruct (N.eqb_spec (fst f) id) as [E|E].
    + exfalso. rewrite Forall_forall in I2. specialize (I2 id). rewrite map_app in I2.
      assert (fst f < id); [|lia]. apply I2. apply in_or_app. right. left. auto.
    + apply IH. exact I1.
Qed.
Lemma next_wlog on g pre id rs post : wlog on g (pre ++ (id, rs) :: post) ->
  wal_id_next id (wl_list g) = match post with [] => u64_max | f :: _ => fst f end.
Proof.
  intros H. rewrite (wg_list _ _ _ H). pose proof (wg_inc _ _ _ H) as I. clear H.
  induction pre as [|f pre IH]; cbn [app log_ids map wal_id_next fst] in *.
  - rewrite N.ltb_irrefl. inversion I as [|? ? I1 I2]; subst. destruct post as [|f post]; auto. cbn [map wal_id_next].
    inversion I2; subst. replace (id <? fst f) with true; auto. symmetry. apply N.ltb_lt. auto.
  - inversion I as [|? ? I1 I2]; subst. rewrite Forall_forall in I2. specialize (I2 id). rewrite map_app in I2.
    assert (fst f < id).
    { apply I2. apply in_or_app. right. left. auto. }
    replace (id <? fst f) with false; [apply IH; exact I1|]. symmetry. apply N.ltb_ge. lia.
Qed.
Lemma read_file_wlog on g pre id rs post : wlog on g (pre ++ (id, rs) :: post) ->
  N.of_nat (length (flat_map (rec_bytes on) rs)) + 21 < 2^32 ->
  wal_read on [(id, flat_map (rec_bytes on) rs)] [id] = (map rec_logged rs, Ok tt) /\ id < u64_max /\ Forall (rec_ok on) rs.
Proof.
  intros H S. pose proof (wg_recs _ _ _ H) as R. pose proof (wg_top _ _ _ H) as T.
  unfold log_ids in T. rewrite map_app in T. apply Forall_app in T as [_ T]. apply Forall_cons_iff in T as [T _].
  rewrite log_recs_app in R. apply Forall_app in R as [_ R]. unfold log_recs in R. cbn [flat_map snd] in R.
  apply Forall_app in R as [R _]. cbn [fst] in T. split; auto.
  pose proof (read_log on [(id, rs)]) as X. unfold log_recs, log_files, log_ids in X. cbn [flat_map map fst snd] in X.
  rewrite app_nil_r in X. apply X; auto.
  - constructor; [auto|constructor].
  - constructor; constructor.
Qed.
Lemma drop_length on n id : length (rec_bytes on (RDrop n id)) = 29%nat.
Proof. cbn [rec_bytes]. unfold drop_record. rewrite app_length, lwrite_length. reflexivity. Qed.
