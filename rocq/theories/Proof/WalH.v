From Coq Require Import NArith ZArith Arith List Bool Lia Sorted Permutation.
Import ListNotations.
From Verif Require Import Model.Base Model.Event Model.Crc Model.Codec Model.File Model.Wal
  Spec.Order Spec.Checksum Spec.Log Proof.CrcL Proof.CodecL Proof.FileR Proof.FileC Proof.WalL Proof.WalR.
Local Opaque crc_bits.
Local Open Scope N_scope.
Local Arguments N.add : simpl never.
Local Arguments N.mul : simpl never.

Lemma increasing_app l1 l2 : increasing (l1 ++ l2) <->
  increasing l1 /\ increasing l2 /\ (forall x y, In x l1 -> In y l2 -> x < y).
Proof.
  induction l1 as [|a l1 IH]; simpl.
  - split; [intros H; repeat split; auto; [constructor|tauto]|tauto].
  - split.
    + intros H. inversion H; subst. apply IH in H2. destruct H2 as (A & B & C). rewrite Forall_forall in H3.
      repeat split; auto.
      * constructor; auto. apply Forall_forall. intros. apply H3. apply in_or_app. auto.
      * intros x y [->|Hx] Hy; auto. apply H3. apply in_or_app. auto.
    + intros (A & B & C). inversion A; subst. constructor.
      * apply IH. repeat split; auto.
      * rewrite Forall_forall in *. intros x Hx. apply in_app_or in Hx. destruct Hx; auto.
Qed.
Lemma increasing_snoc l x : increasing l -> (forall y, In y l -> y < x) -> increasing (l ++ [x]).
Proof.
  intros. apply increasing_app. repeat split; auto.
  - constructor; constructor.
  - intros a b Ha [<-|[]]. auto.
Qed.

Lemma log_recs_app a b : log_recs (a ++ b) = log_recs a ++ log_recs b.
Proof. apply flat_map_app. Qed.

Lemma ordered_suffix a1 a2 : ordered (a1 ++ a2) -> ordered a2.
Proof.
  intros (H1 & H2 & H3). unfold log_ids, log_recs in *. rewrite map_app in H1. rewrite flat_map_app, map_app in H2.
  apply increasing_app in H1, H2. split; [|split]; try tauto.
  intros b1 id rs b2 ->. destruct (H3 (a1 ++ b1) id rs b2) as (H4 & H5).
  { rewrite <- app_assoc. auto. }
  split; auto. unfold log_recs in H4 |- *. rewrite flat_map_app, Forall_app in H4. tauto.
Qed.

Lemma snoc_inj {A} (a1 : list A) x a1' a2 y : a1 ++ [x] = a1' ++ y :: a2 ->
  (a2 = [] /\ a1 = a1' /\ x = y) \/ (exists a2', a2 = a2' ++ [x] /\ a1 = a1' ++ y :: a2').
Proof.
  intros H. destruct (@exists_last _ (y :: a2)) as (l & z & E); [discriminate|].
  rewrite E in H. rewrite app_assoc in H. apply app_inj_tail in H. destruct H as (-> & ->).
  destruct l as [|y' l].
  - left. inversion E; subst. rewrite app_nil_r. auto.
  - right. inversion E; subst. exists l. auto.
Qed.

Lemma ordered_snoc_rec a1 id rs r : ordered (a1 ++ [(id, rs)]) -> id <= rec_lsn r ->
  (forall q, In q (log_recs (a1 ++ [(id, rs)])) -> rec_lsn q < rec_lsn r) ->
  ordered (a1 ++ [(id, rs ++ [r])]).
Proof.
  intros (H1 & H2 & H3) Hid Hl. split; [|split].
  - unfold log_ids in *. rewrite map_app in *. auto.
  - rewrite log_recs_app in *. unfold log_recs in *. cbn [flat_map snd] in *. rewrite app_nil_r in *.
    rewrite app_assoc, map_app. cbn [map]. apply increasing_snoc; auto.
    intros y Hy. apply in_map_iff in Hy. destruct Hy as (q & <- & Hq). auto.
  - intros b1 i qs b2 E. apply snoc_inj in E. destruct E as [(-> & -> & E)|(b2' & -> & ->)].
    + inversion E; subst. destruct (H3 b1 i rs []) as (H4 & H5); auto. split; auto.
      apply Forall_app. split; auto.
    + apply (H3 b1 i qs (b2' ++ [(id, rs)])). rewrite <- app_assoc. auto.
Qed.

Lemma ordered_snoc_file a id : ordered a -> (forall i, In i (log_ids a) -> i < id) ->
  (forall q, In q (log_recs a) -> rec_lsn q < id) -> ordered (a ++ [(id, [])]).
Proof.
  intros (H1 & H2 & H3) Hid Hl. split; [|split].
  - unfold log_ids in *. rewrite map_app. apply increasing_snoc; auto.
  - rewrite log_recs_app. unfold log_recs at 2. cbn. rewrite app_nil_r. auto.
  - intros b1 i qs b2 E. apply snoc_inj in E. destruct E as [(-> & -> & E)|(b2' & -> & ->)].
    + inversion E; subst. split; auto. apply Forall_forall. auto.
    + apply (H3 b1 i qs b2'). auto.
Qed.

Lemma ids_sorted_file_of on a1 id rs : increasing (log_ids (a1 ++ [(id, rs)])) ->
  file_of id (log_files on (a1 ++ [(id, rs)])) = Some (flat_map (rec_bytes on) rs).
Proof.
  induction a1 as [|g a1 IH]; simpl; intros H.
  - rewrite N.eqb_refl. auto.
  - inversion H; subst. destruct (fst g =? id) eqn:E; auto. apply N.eqb_eq in E.
    rewrite Forall_forall in H3. assert (fst g < id); [|lia]. apply H3. unfold log_ids. rewrite map_app.
    apply in_or_app. right. left. auto.
Qed.
Lemma file_put_last on a1 id rs b : increasing (log_ids (a1 ++ [(id, rs)])) ->
  file_put id b (log_files on (a1 ++ [(id, rs)])) = log_files on a1 ++ [(id, b)].
Proof.
  induction a1 as [|g a1 IH]; simpl; intros H.
  - rewrite N.eqb_refl. auto.
  - inversion H; subst. destruct (fst g =? id) eqn:E.
    + apply N.eqb_eq in E.
      rewrite Forall_forall in H3. assert (fst g < id); [|lia]. apply H3. unfold log_ids. rewrite map_app.
      apply in_or_app. right. left. auto.
    + f_equal. auto.
Qed.
Lemma file_of_none on a id : ~ In id (log_ids a) -> file_of id (log_files on a) = None.
Proof.
  induction a as [|g a IH]; simpl; auto. intros H. destruct (fst g =? id) eqn:E; [apply N.eqb_eq in E; tauto|auto].
Qed.

Lemma overwrite_end (b data : list byte) : overwrite (length b) data b = b ++ data.
Proof.
  unfold overwrite. rewrite firstn_all. rewrite skipn_all2 by lia. rewrite app_nil_r. auto.
Qed.

(* ---------------------------------------------------------------- *)
(* one more record *)
Lemma append_holds on s a r : holds on s a -> rec_ok on r -> rec_lsn r = wl_lsn s + 1 ->
  exists s', wal_file_append s (rec_bytes on r) None = Ok (s', true) /\ wl_lsn s' = wl_lsn s /\
    exists a', holds on (mk_wal (wl_files s') (wl_list s') (wl_current s') (rec_lsn r)) a' /\
      log_recs a' = log_recs a ++ [r] /\ log_ids a' = log_ids a.
Proof.
  intros [Hf Hli (a1 & id & rs & Ea & Hcu) Hr Ho Hl Hi] Hok Hlsn. subst a.
  destruct Ho as (Hinc & Hlo & Hfi). pose proof Hinc as Hinc'.
  unfold wal_file_append. rewrite Hcu, Hf, ids_sorted_file_of by auto.
  eexists. split; [reflexivity|]. cbn [wl_lsn wl_files wl_list wl_current]. split; auto.
  exists (a1 ++ [(id, rs ++ [r])]). rewrite Nat2N.id, overwrite_end, file_put_last by auto.
  assert (Hrecs : log_recs (a1 ++ [(id, rs ++ [r])]) = log_recs (a1 ++ [(id, rs)]) ++ [r]).
  { rewrite !log_recs_app. unfold log_recs at 2 4. cbn. rewrite !app_nil_r. rewrite app_assoc. auto. }
  assert (Hids : log_ids (a1 ++ [(id, rs ++ [r])]) = log_ids (a1 ++ [(id, rs)])).
  { unfold log_ids. rewrite !map_app. auto. }
  split; [|split]; auto.
  constructor; cbn [wl_files wl_list wl_current wl_lsn].
  - unfold log_files. rewrite map_app. cbn [map fst snd]. rewrite flat_map_app. cbn [flat_map]. rewrite app_nil_r. auto.
  - rewrite Hids. auto.
  - exists a1, id, (rs ++ [r]). split; auto. rewrite flat_map_app, app_length. cbn [flat_map]. rewrite app_nil_r.
    f_equal. f_equal. lia.
  - rewrite Hrecs. apply Forall_app. split; auto.
  - apply ordered_snoc_rec.
    + split; auto.
    + rewrite Hlsn. rewrite Forall_forall in Hi. apply Hi. unfold log_ids. rewrite map_app. apply in_or_app. right. left. auto.
    + intros q Hq. rewrite Forall_forall in Hl. specialize (Hl _ Hq). lia.
  - rewrite Hrecs. apply Forall_app. split; [|constructor; [lia|constructor]].
    eapply Forall_impl; [|exact Hl]. cbn. intros. lia.
  - rewrite Hids. eapply Forall_impl; [|exact Hi]. cbn. intros. lia.
Qed.

Lemma w64_small n : n < 2^64 -> w64 n = n.
Proof. intros. unfold w64, two64. apply N.mod_small. auto. Qed.

Lemma write_holds on s a l : holds on s a -> batch_ok l -> (on = true -> Forall stable l) -> wl_lsn s + 1 < 2^64 ->
  exists s' a', wal_write on s l None = Ok (s', true) /\ wl_lsn s' = wl_lsn s + 1 /\ holds on s' a' /\
    log_recs a' = log_recs a ++ [RWrite (wl_lsn s + 1) l] /\ log_ids a' = log_ids a.
Proof.
  intros H Hb Hst Hn. unfold wal_write. rewrite w64_small by auto.
  destruct (append_holds on s a (RWrite (wl_lsn s + 1) l) H) as (s' & E & El & a' & Ha & Hr & Hids).
  - split; auto.
  - reflexivity.
  - cbn [rec_bytes] in E. rewrite E. cbn [bind]. eexists. exists a'. split; [reflexivity|]. split; auto.
Qed.
Lemma drop_holds on s a id : holds on s a -> id < 2^64 -> wl_lsn s + 1 < 2^64 ->
  exists s' a', wal_write_drop on s id None = Ok (s', true) /\ wl_lsn s' = wl_lsn s + 1 /\ holds on s' a' /\
    log_recs a' = log_recs a ++ [RDrop (wl_lsn s + 1) id] /\ log_ids a' = log_ids a.
Proof.
  intros H Hb Hn. unfold wal_write_drop. rewrite w64_small by auto.
  destruct (append_holds on s a (RDrop (wl_lsn s + 1) id) H) as (s' & E & El & a' & Ha & Hr & Hids).
  - split; auto.
  - reflexivity.
  - cbn [rec_bytes] in E. rewrite E. cbn [bind]. eexists. exists a'. split; [reflexivity|]. split; auto.
Qed.

(* ---------------------------------------------------------------- *)
Lemma id_add_end l x : (forall y, In y l -> y < x) -> wal_id_add x l = l ++ [x].
Proof.
  induction l as [|y l IH]; simpl; auto. intros H. replace (y <? x) with true.
  - rewrite IH; auto.
  - symmetry. apply N.ltb_lt. auto.
Qed.

Lemma rotate_holds on s a wm : holds on s a -> wl_lsn s + 1 < 2^64 ->
  exists a', holds on (wal_rotate s wm) a' /\ log_recs a' = log_recs a /\ wl_lsn (wal_rotate s wm) = wl_lsn s /\
    (a' = a /\ wal_rotate s wm = s \/ a' = a ++ [(wl_lsn s + 1, [])]).
Proof.
  intros H Hn. unfold wal_rotate. destruct (wal_rotate_ready s wm) eqn:E; [|exists a; auto 10].
  pose proof H as [Hf Hli (a1 & id & rs & Ea & Hcu) Hr Ho Hl Hi].
  unfold wal_rotate_ready in E. rewrite Hcu in E. apply N.ltb_lt in E.
  (* the last file is not empty, so all ids are below the next lsn *)
  assert (Hrs : exists r rs', rs = r :: rs').
  { destruct rs; [cbn in E; lia|eauto]. }
  destruct Hrs as (r & rs' & Ers).
  assert (Hidl : id <= rec_lsn r).
  { destruct Ho as (_ & _ & H3). destruct (H3 a1 id rs [] Ea) as (_ & H4). rewrite Ers in H4. inversion H4; auto. }
  assert (Hrl : rec_lsn r <= wl_lsn s).
  { rewrite Forall_forall in Hl. apply Hl. rewrite Ea, log_recs_app. apply in_or_app. right. rewrite Ers. left. auto. }
  assert (Hids : forall i, In i (log_ids a) -> i < wl_lsn s + 1).
  { intros i Hi'. destruct Ho as (H1 & _). unfold log_ids in *. rewrite Ea, map_app in H1, Hi'.
    apply increasing_app in H1. destruct H1 as (_ & _ & H1). apply in_app_or in Hi'.
    destruct Hi' as [Hi'|[<-|[]]]; [|cbn; lia]. specialize (H1 i id Hi' (or_introl eq_refl)). lia. }
  rewrite w64_small by auto. exists (a ++ [(wl_lsn s + 1, [])]).
  split; [|split; [|split; [auto|right; auto]]].
  - rewrite Hf, Hli. rewrite file_of_none by (intros Hx; apply Hids in Hx; lia).
    constructor; cbn [wl_files wl_list wl_current wl_lsn].
    + unfold log_files. rewrite map_app. auto.
    + rewrite id_add_end by auto. unfold log_ids. rewrite map_app. auto.
    + exists a, (wl_lsn s + 1), []. auto.
    + rewrite log_recs_app. unfold log_recs at 2. cbn. rewrite app_nil_r. auto.
    + apply ordered_snoc_file; auto. intros q Hq. rewrite Forall_forall in Hl. specialize (Hl _ Hq). lia.
    + rewrite log_recs_app. unfold log_recs at 2. cbn. rewrite app_nil_r. auto.
    + unfold log_ids. rewrite map_app. apply Forall_app. split; auto. constructor; [cbn; lia|constructor].
  - rewrite log_recs_app. unfold log_recs at 2. cbn. rewrite app_nil_r. auto.
Qed.

(* ---------------------------------------------------------------- *)
(* garbage collection *)
Lemma gc_between_spec m l : increasing l ->
  exists r k, wal_id_gc_between m l = (r, k) /\ l = r ++ k /\ (l <> [] -> k <> []) /\
    (forall x, In x r -> x <= m) /\
    (match k with y :: _ => r <> [] -> y <= m | [] => True end) /\
    (match k with _ :: y :: _ => m < y | _ => True end).
Proof.
  induction l as [|x l IH]; intros H.
  - exists [], []. cbn. repeat split; auto. tauto.
  - inversion H; subst. destruct l as [|y l].
    + exists [], [x]. cbn. repeat split; auto; try discriminate; tauto.
    + cbn [wal_id_gc_between]. destruct (y <=? m) eqn:E.
      * apply N.leb_le in E. destruct (IH H2) as (r & k & E1 & E2 & E3 & E4 & E5 & E6).
        cbn [wal_id_gc_between] in E1. rewrite E1. exists (x :: r), k. split; auto. split; [simpl; congruence|].
        split; [intros _; apply E3; discriminate|]. split.
        -- intros z [<-|Hz]; auto. inversion H3; subst. lia.
        -- split; auto. destruct k as [|k0 k]; auto. intros _. destruct r; [|apply E5; discriminate].
           simpl in E2. inversion E2; subst. auto.
      * apply N.leb_gt in E. exists [], (x :: y :: l). cbn. repeat split; auto; try discriminate; try tauto.
Qed.

Lemma file_delete_head on x a : ~ In (fst x) (log_ids a) ->
  file_delete (fst x) (log_files on (x :: a)) = log_files on a.
Proof.
  intros H. unfold file_delete. cbn [log_files map filter fst]. rewrite N.eqb_refl. cbn [negb].
  unfold log_ids in H. induction a as [|g a IH]; auto. cbn [map filter fst]. simpl in H.
  destruct (fst g =? fst x) eqn:E; [apply N.eqb_eq in E; tauto|]. cbn [negb]. rewrite IH by tauto. reflexivity.
Qed.
Lemma unlink_prefix on a1 : forall a2, increasing (log_ids (a1 ++ a2)) ->
  unlink_all (log_ids a1) (log_files on (a1 ++ a2)) = Ok (log_files on a2).
Proof.
  induction a1 as [|x a1 IH]; intros a2 H; auto.
  cbn [log_ids map unlink_all app]. cbn [log_files map file_of fst]. rewrite N.eqb_refl.
  pose proof (file_delete_head on x (a1 ++ a2)) as E. cbn [log_files map] in E. rewrite E.
  - inversion H; subst. apply IH. auto.
  - intros Hin. inversion H; subst. rewrite Forall_forall in H3. specialize (H3 _ Hin). lia.
Qed.

Lemma map_app_inv {A B} (f : A -> B) l b1 : forall b2, map f l = b1 ++ b2 ->
  exists l1 l2, l = l1 ++ l2 /\ map f l1 = b1 /\ map f l2 = b2.
Proof.
  revert l. induction b1 as [|x b1 IH]; intros l b2 H.
  - exists [], l. auto.
  - destruct l as [|y l]; [discriminate|]. simpl in H. inversion H; subst.
    destruct (IH l b2 H2) as (l1 & l2 & -> & E1 & E2). exists (y :: l1), l2. simpl. subst. auto.
Qed.

Lemma gc_holds on s a m : holds on s a ->
  exists s' a1 a2, wal_gc s m = Ok s' /\ a = a1 ++ a2 /\ a2 <> [] /\ holds on s' a2 /\ wl_lsn s' = wl_lsn s /\
    Forall (fun r => rec_lsn r < m) (log_recs a1) /\
    (match a2 with _ :: (y, _) :: _ => m < y | _ => True end).
Proof.
  intros H. pose proof H as [Hf Hli (b1 & id & rs & Ea & Hcu) Hr Ho Hl Hi].
  destruct (gc_between_spec m (log_ids a)) as (r & k & E1 & E2 & E3 & E4 & E5 & E6); [apply Ho|].
  unfold wal_gc. rewrite Hli, E1.
  pose proof E2 as E2'. unfold log_ids in E2'. apply map_app_inv in E2'. destruct E2' as (a1 & a2 & Ea' & Er & Ek).
  fold (log_ids a1) in Er. fold (log_ids a2) in Ek.
  assert (Hne : a2 <> []).
  { intros ->. apply E3; [|rewrite <- Ek; auto]. rewrite Ea. unfold log_ids. rewrite map_app. intros Hx. apply app_eq_nil in Hx.
    destruct Hx. discriminate. }
  rewrite Hf, Ea', <- Er, unlink_prefix by (rewrite <- Ea'; apply Ho). cbn [bind].
  exists (mk_wal (log_files on a2) k (wl_current s) (wl_lsn s)), a1, a2.
  split; auto. split; auto. split; auto. split; [|split; [auto|split]].
  - constructor; cbn [wl_files wl_list wl_current wl_lsn]; auto.
    + destruct (@exists_last _ a2 Hne) as (c1 & [i qs] & Ec). exists c1, i, qs. split; auto.
      rewrite Ec in Ea'. rewrite app_assoc in Ea'. rewrite Ea in Ea'. apply app_inj_tail in Ea'. destruct Ea' as (_ & Ei).
      inversion Ei; subst. auto.
    + rewrite Ea', log_recs_app in Hr. apply Forall_app in Hr. tauto.
    + rewrite Ea' in Ho. eapply ordered_suffix; eauto.
    + rewrite Ea', log_recs_app in Hl. apply Forall_app in Hl. tauto.
    + rewrite Ea' in Hi. unfold log_ids in Hi. rewrite map_app in Hi. apply Forall_app in Hi. tauto.
  - destruct a2 as [|[i qs] a2]; [tauto|]. destruct Ho as (_ & _ & H3). destruct (H3 a1 i qs a2 Ea') as (H4 & _).
    destruct a1 as [|z a1]; [constructor|].
    assert (i <= m). { rewrite <- Ek in E5. cbn in E5. apply E5. rewrite <- Er. discriminate. }
    eapply Forall_impl; [|exact H4]. cbn. intros. lia.
  - destruct a2 as [|[i qs] [|[j qs'] a2]]; auto. rewrite <- Ek in E6. exact E6.
Qed.

(* ---------------------------------------------------------------- *)
(* reading a log that holds *)
Definition short on (a : log) : Prop :=
  Forall (fun f => N.of_nat (length (flat_map (rec_bytes on) (snd f))) + 21 < 2^32) a.

Definition untorn (a : log) : list tfile := map (fun f => (fst f, (snd f, @nil byte))) a.
Lemma untorn_ok on a : Forall (rec_ok on) (log_recs a) -> short on a -> increasing (log_ids a) ->
  Forall (fun i => i < u64_max) (log_ids a) -> tlog_ok on (untorn a).
Proof.
  intros Hr Hs Hi Hm. split; [|split].
  - clear Hi Hm. induction a as [|f a IH]; [constructor|]. inversion Hs; subst. unfold log_recs in Hr. cbn [flat_map] in Hr.
    apply Forall_app in Hr. constructor; [|apply IH; tauto]. repeat split.
    + tauto.
    + apply torn_nil. cbn [fst snd]. auto.
    + unfold tbytes. cbn [fst snd]. rewrite app_nil_r. auto.
  - unfold tids, untorn. rewrite map_map. cbn. auto.
  - unfold tids, untorn. rewrite map_map. cbn. auto.
Qed.
Lemma untorn_files on a : tfiles on (untorn a) = log_files on a.
Proof.
  unfold tfiles, untorn, log_files. rewrite map_map. apply map_ext. intros f. unfold tbytes. cbn. rewrite app_nil_r. auto.
Qed.
Lemma untorn_ids a : tids (untorn a) = log_ids a.
Proof. unfold tids, untorn, log_ids. rewrite map_map. auto. Qed.
Lemma untorn_recs a : trecs (untorn a) = log_recs a.
Proof. unfold trecs, untorn, log_recs. induction a; simpl; auto. rewrite IHa. auto. Qed.

Lemma read_log on a : Forall (rec_ok on) (log_recs a) -> short on a -> increasing (log_ids a) ->
  Forall (fun i => i < u64_max) (log_ids a) ->
  wal_read on (log_files on a) (log_ids a) = (map rec_logged (log_recs a), Ok tt).
Proof.
  intros. rewrite <- untorn_files, <- untorn_ids, <- untorn_recs. apply read_tlog. apply untorn_ok; auto.
Qed.

Lemma holds_ids on s a : holds on s a -> wl_lsn s + 1 < u64_max -> Forall (fun i => i < u64_max) (log_ids a).
Proof. intros H Hn. eapply Forall_impl; [|exact (ho_ids _ _ _ H)]. cbv beta. intros i Hi. lia. Qed.

Lemma read_holds on s a : holds on s a -> short on a -> wl_lsn s + 1 < u64_max ->
  wal_read on (wl_files s) (wl_list s) = (map rec_logged (log_recs a), Ok tt).
Proof.
  intros H Hs Hn. rewrite (ho_files _ _ _ H), (ho_list _ _ _ H). apply read_log; auto.
  - apply H. - apply H. - eapply holds_ids; eauto.
Qed.

(* ---------------------------------------------------------------- *)
(* restart *)
Lemma id_add_in x l y : In y (wal_id_add x l) <-> y = x \/ In y l.
Proof.
  induction l as [|z l IH]; simpl; [intuition|]. destruct (z <? x); simpl; intuition.
Qed.
Lemma id_add_sorted x l : increasing l -> ~ In x l -> increasing (wal_id_add x l).
Proof.
  induction l as [|z l IH]; intros H Hn; simpl.
  - constructor; constructor.
  - inversion H; subst. destruct (z <? x) eqn:E.
    + apply N.ltb_lt in E. constructor.
      * apply IH; auto. intros Hx. apply Hn. right. auto.
      * apply Forall_forall. intros y Hy. apply id_add_in in Hy. rewrite Forall_forall in H3.
        destruct Hy as [->|Hy]; auto.
    + apply N.ltb_ge in E. assert (x < z). { destruct (N.eq_dec x z); [subst; exfalso; apply Hn; left; auto|lia]. }
      constructor; [auto|]. constructor; auto. rewrite Forall_forall in *. intros y Hy. specialize (H3 _ Hy). lia.
Qed.
Lemma increasing_ext l1 : forall l2, increasing l1 -> increasing l2 -> (forall x, In x l1 <-> In x l2) -> l1 = l2.
Proof.
  induction l1 as [|a l1 IH]; intros l2 H1 H2 He.
  - destruct l2 as [|b l2]; auto. destruct (proj2 (He b) (or_introl eq_refl)).
  - destruct l2 as [|b l2]; [destruct (proj1 (He a) (or_introl eq_refl))|].
    inversion H1; inversion H2; subst. rewrite Forall_forall in *.
    assert (a = b).
    { destruct (proj1 (He a) (or_introl eq_refl)) as [E|Hin]; auto.
      destruct (proj2 (He b) (or_introl eq_refl)) as [E|Hin']; auto.
      specialize (H8 _ Hin). specialize (H4 _ Hin'). lia. }
    subst b. f_equal. apply IH; auto. intros x. split; intros Hx.
    + destruct (proj1 (He x) (or_intror Hx)) as [->|]; auto. specialize (H4 _ Hx). lia.
    + destruct (proj2 (He x) (or_intror Hx)) as [->|]; auto. specialize (H8 _ Hx). lia.
Qed.

Lemma recover_spec dir : NoDup dir -> increasing (wal_recover dir) /\ forall x, In x (wal_recover dir) <-> In x dir.
Proof.
  intros Hd. unfold wal_recover.
  assert (forall l, increasing l -> (forall x, In x dir -> ~ In x l) ->
    increasing (fold_left (fun l id => wal_id_add id l) dir l) /\
    forall x, In x (fold_left (fun l id => wal_id_add id l) dir l) <-> In x dir \/ In x l).
  { induction dir as [|d dir IH]; intros l Hl Hn; simpl.
    - split; auto. intuition.
    - inversion Hd; subst. destruct (IH H2 (wal_id_add d l)) as (A & B).
      + apply id_add_sorted; auto. apply Hn. left. auto.
      + intros x Hx Hx'. apply id_add_in in Hx'. destruct Hx' as [->|Hx']; [tauto|]. apply (Hn x); auto. right. auto.
      + split; auto. intros x. rewrite B, id_add_in. intuition. }
  destruct (H []) as (A & B); [constructor|tauto|]. split; auto. intros x. rewrite B. simpl. tauto.
Qed.

Lemma recover_perm dir ids : increasing ids -> Permutation dir ids -> wal_recover dir = ids.
Proof.
  intros Hi Hp. assert (NoDup dir).
  { eapply Permutation_NoDup; [apply Permutation_sym; eauto|]. clear - Hi. induction Hi; constructor; auto.
    intros Hx. rewrite Forall_forall in H. specialize (H _ Hx). lia. }
  destruct (recover_spec dir H) as (A & B). apply increasing_ext; auto. intros x. rewrite B. split; intros Hx.
  - eapply Permutation_in; eauto.
  - eapply Permutation_in; [apply Permutation_sym|]; eauto.
Qed.

Lemma last_ids a1 id rs : wal_id_max (log_ids (a1 ++ [(id, rs)])) = id.
Proof. unfold wal_id_max, log_ids. rewrite map_app. apply last_last. Qed.

Definition write_lsns (l : list rec) : list N :=
  flat_map (fun r => match r with RWrite n _ => [n] | RDrop _ _ => [] end) l.

Lemma follow_spec l : forall n, fold_left follow_lsn (map rec_logged l) n = fold_left N.max (write_lsns l) n.
Proof.
  induction l as [|r l IH]; intros n; auto. cbn [map fold_left]. rewrite IH.
  destruct r as [m es|m id]; cbn [rec_logged follow_lsn write_lsns flat_map app fold_left]; auto.
  f_equal. destruct (n <? m) eqn:E; [apply N.ltb_lt in E|apply N.ltb_ge in E]; lia.
Qed.

(* the lsn found by recovery: the largest in the log or in the partition files *)
Definition recovered (a : log) (base : N) : N := fold_left N.max (write_lsns (log_recs a)) base.

Lemma restart_holds on s a dir base : holds on s a -> short on a -> wl_lsn s + 1 < u64_max ->
  Permutation dir (log_ids a) -> recovered a base = wl_lsn s ->
  wal_restart on s dir base = Ok s.
Proof.
  intros H Hs Hn Hp Hrec. pose proof H as [Hf Hli (a1 & id & rs & Ea & Hcu) Hr Ho Hl Hi].
  unfold wal_restart, wal_open. rewrite (recover_perm dir (log_ids a)); [|apply Ho|auto].
  assert (Hne : log_ids a <> []).
  { rewrite Ea. unfold log_ids. rewrite map_app. intros Hx. apply app_eq_nil in Hx. destruct Hx; discriminate. }
  assert (Hmax : wal_id_max (log_ids a) = id) by (rewrite Ea; apply last_ids).
  assert (Hfo : file_of id (log_files on a) = Some (flat_map (rec_bytes on) rs)).
  { rewrite Ea in Ho |- *. apply ids_sorted_file_of. apply Ho. }
  assert (Hrd : wal_read on (log_files on a) (log_ids a) = (map rec_logged (log_recs a), Ok tt)).
  { apply read_log; auto; [apply Ho|eapply holds_ids; eauto]. }
  rewrite Hf, Hmax, Hfo. destruct (log_ids a) as [|i0 ids0] eqn:Ei; [tauto|].
  cbn [bind wl_files wl_list wl_current wl_lsn]. rewrite Hrd.
  cbn [bind]. rewrite follow_spec. unfold recovered in Hrec. rewrite Hrec. destruct s; cbn in *; subst; auto.
Qed.
