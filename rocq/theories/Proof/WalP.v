From Coq Require Import NArith ZArith Arith List Bool Lia Sorted Permutation.
Import ListNotations.
From Verif Require Import Model.Base Model.Event Model.Crc Model.Codec Model.File Model.Wal Model.Gc
  Spec.Order Spec.Checksum Spec.Log Proof.CrcL Proof.CrcP Proof.CodecL Proof.FileR Proof.FileC Proof.WalL Proof.WalR Proof.WalH.
Local Opaque crc_bits.
Local Open Scope N_scope.
Local Arguments N.add : simpl never.
Local Arguments N.mul : simpl never.

(* ---------------------------------------------------------------- *)
(* histories *)
Lemma open_holds on : holds on (wal_rotate wal_init 0) [(1, [])].
Proof.
  constructor; cbn [wal_rotate wal_init]; auto.
  - exists [], 1, []. auto.
  - constructor.
  - split; [|split].
    + constructor; constructor.
    + constructor.
    + intros a1 id rs a2 E. destruct a1 as [|x a1]; [|destruct a1; discriminate]. inversion E; subst. split; constructor.
  - constructor.
  - constructor; [|constructor]. reflexivity.
Qed.

Lemma short_files on s a : holds on s a -> files_short s -> short on a.
Proof.
  intros H Hs. unfold files_short in Hs. rewrite (ho_files _ _ _ H) in Hs. unfold short.
  unfold log_files in Hs. rewrite Forall_forall in *. intros f Hf. specialize (Hs _ (in_map _ _ _ Hf)). exact Hs.
Qed.

Lemma fold_max_ge l : forall n, n <= fold_left N.max l n.
Proof. induction l; intros; simpl; [lia|]. specialize (IHl (N.max n a)). lia. Qed.
Lemma fold_max_in l : forall n x, In x l -> x <= fold_left N.max l n.
Proof.
  induction l as [|a l IH]; intros n x Hx; simpl in *; [tauto|]. destruct Hx as [->|Hx]; auto.
  pose proof (fold_max_ge l (N.max n x)). lia.
Qed.
Lemma fold_max_le l : forall n b, n <= b -> Forall (fun x => x <= b) l -> fold_left N.max l n <= b.
Proof. induction l; intros n b Hn Hl; simpl; auto. inversion Hl; subst. apply IHl; auto. lia. Qed.

Lemma write_lsns_in l x : In x (write_lsns l) <-> exists es, In (RWrite x es) l.
Proof.
  unfold write_lsns. rewrite in_flat_map. split.
  - intros ([n es|n id] & H1 & H2); simpl in H2; [|tauto]. destruct H2 as [<-|[]]. eauto.
  - intros (es & H). exists (RWrite x es). split; auto. left. auto.
Qed.

Lemma known_recovered on s a base : holds on s a -> files_short s -> wl_lsn s + 1 < u64_max ->
  known on s base -> recovered a base = wl_lsn s.
Proof.
  intros H Hs Hn (Hb & Hk). unfold recovered. apply N.le_antisymm.
  - apply fold_max_le; auto. apply Forall_forall. intros x Hx. apply write_lsns_in in Hx. destruct Hx as (es & Hx).
    pose proof (ho_lsn _ _ _ H) as Hl. rewrite Forall_forall in Hl. apply (Hl _ Hx).
  - destruct Hk as [->|(es & Hk)]; [apply fold_max_ge|].
    rewrite (read_holds on s a) in Hk; auto; [|eapply short_files; eauto]. cbn [fst] in Hk.
    apply in_map_iff in Hk. destruct Hk as ([n l|n id] & E & Hin); inversion E; subst.
    apply fold_max_in, write_lsns_in. eauto.
Qed.

Lemma u64_step n : n + 2 < 2^64 -> n + 1 < u64_max.
Proof. intros. unfold u64_max. lia. Qed.

Lemma hist_holds on s all : hist on s all ->
  exists gone a, holds on s a /\ all = gone ++ log_recs a /\ increasing (map rec_lsn all) /\
    Forall (fun r => rec_lsn r <= wl_lsn s) all.
Proof.
  induction 1 as [|s all l s' H IH Hb Hst Hn E|s all id s' H IH Hb Hn E|s all wm H IH Hn|s all m s' H IH E
                 |s all dir base s' H IH Hn Hs Hp Hk E].
  - exists [], [(1, [])]. split; [apply open_holds|]. repeat split; try constructor.
  - destruct IH as (gone & a & Ha & -> & Hi & Hl).
    destruct (write_holds on s a l Ha Hb Hst) as (s2 & a' & E2 & El & Ha' & Hr & _); [lia|].
    rewrite E in E2. inversion E2; subst s2. exists gone, a'. rewrite Hr, El. split; auto.
    split; [rewrite app_assoc; auto|].
    split.
    + rewrite map_app. apply increasing_snoc; auto. intros y Hy. apply in_map_iff in Hy. destruct Hy as (q & <- & Hq).
      rewrite Forall_forall in Hl. specialize (Hl _ Hq). cbn. lia.
    + apply Forall_app. split; [|constructor; [cbn; lia|constructor]]. eapply Forall_impl; [|exact Hl]. cbn. intros; lia.
  - destruct IH as (gone & a & Ha & -> & Hi & Hl).
    destruct (drop_holds on s a id Ha Hb) as (s2 & a' & E2 & El & Ha' & Hr & _); [lia|].
    rewrite E in E2. inversion E2; subst s2. exists gone, a'. rewrite Hr, El. split; auto.
    split; [rewrite app_assoc; auto|].
    split.
    + rewrite map_app. apply increasing_snoc; auto. intros y Hy. apply in_map_iff in Hy. destruct Hy as (q & <- & Hq).
      rewrite Forall_forall in Hl. specialize (Hl _ Hq). cbn. lia.
    + apply Forall_app. split; [|constructor; [cbn; lia|constructor]]. eapply Forall_impl; [|exact Hl]. cbn. intros; lia.
  - destruct IH as (gone & a & Ha & -> & Hi & Hl).
    destruct (rotate_holds on s a wm Ha) as (a' & Ha' & Hr & El & _); [lia|].
    exists gone, a'. rewrite Hr, El. auto.
  - destruct IH as (gone & a & Ha & -> & Hi & Hl).
    destruct (gc_holds on s a m Ha) as (s2 & a1 & a2 & E2 & -> & Hne & Ha' & El & _).
    rewrite E in E2. inversion E2; subst s2. exists (gone ++ log_recs a1), a2. rewrite El. split; auto.
    rewrite log_recs_app, <- app_assoc. split; auto. split; rewrite log_recs_app in *; auto.
  - destruct IH as (gone & a & Ha & -> & Hi & Hl).
    assert (E2 : wal_restart on s dir base = Ok s).
    { eapply restart_holds; eauto.
      - eapply short_files; eauto.
      - apply u64_step; auto.
      - rewrite <- (ho_list _ _ _ Ha). auto.
      - eapply known_recovered; eauto. apply u64_step; auto. }
    rewrite E in E2. inversion E2; subst s'. exists gone, a. auto.
Qed.

Lemma plain_hist_spec on s all : plain_hist on s all ->
  hist on s all /\ exists a, holds on s a /\ all = log_recs a /\
  Forall (fun r => match r with RWrite _ _ => True | RDrop _ _ => False end) all /\
  (all = [] /\ wl_lsn s = 0 \/ exists all' l, all = all' ++ [RWrite (wl_lsn s) l]).
Proof.
  induction 1 as [|s all l s' H IH Hb Hst Hn E|s all wm H IH Hn|s all dir base s' H IH Hn Hs Hp Hk E].
  - split; [constructor|]. exists [(1, [])]. split; [apply open_holds|]. repeat split; auto.
  - destruct IH as (Hh & a & Ha & -> & Hw & Hl). split; [econstructor; eauto|].
    destruct (write_holds on s a l Ha Hb Hst) as (s2 & a' & E2 & El & Ha' & Hr & _); [lia|].
    rewrite E in E2. inversion E2; subst s2. exists a'. rewrite El. split; auto. split; auto. split.
    + apply Forall_app. split; auto.
    + right. eauto.
  - destruct IH as (Hh & a & Ha & -> & Hw & Hl). split; [constructor; auto|].
    destruct (rotate_holds on s a wm Ha) as (a' & Ha' & Hr & El & _); [lia|]. exists a'. rewrite Hr, El. auto.
  - destruct IH as (Hh & a & Ha & -> & Hw & Hl).
    assert (Hkn : known on s base).
    { split; auto. destruct Hl as [(He & Hz)|(all' & l & He)].
      - left. lia.
      - right. exists (map le_event l). rewrite (read_holds on s a); auto.
        + cbn [fst]. rewrite He, map_app. apply in_or_app. right. left. auto.
        + eapply short_files; eauto.
        + apply u64_step; auto. }
    split; [eapply hi_restart; eauto|].
    assert (E2 : wal_restart on s dir base = Ok s).
    { eapply restart_holds; eauto.
      - eapply short_files; eauto.
      - apply u64_step; auto.
      - rewrite <- (ho_list _ _ _ Ha). auto.
      - eapply known_recovered; eauto. apply u64_step; auto. }
    rewrite E in E2. inversion E2; subst s'. exists a. auto.
Qed.

Lemma plain_restart on s all dir base : plain_hist on s all -> wl_lsn s + 2 < 2^64 -> files_short s ->
  Permutation dir (wl_list s) -> base <= wl_lsn s -> wal_restart on s dir base = Ok s.
Proof.
  intros H Hn Hs Hp Hb. destruct (plain_hist_spec _ _ _ H) as (_ & a & Ha & E & _ & Hl).
  eapply restart_holds; eauto.
  - eapply short_files; eauto.
  - apply u64_step; auto.
  - rewrite <- (ho_list _ _ _ Ha). auto.
  - eapply known_recovered; eauto; [apply u64_step; auto|]. split; auto. destruct Hl as [(He & Hz)|(all' & l & He)].
    + left. lia.
    + right. exists (map le_event l). rewrite (read_holds on s a); auto.
      * cbn [fst]. rewrite <- E, He, map_app. apply in_or_app. right. left. auto.
      * eapply short_files; eauto.
      * apply u64_step; auto.
Qed.

(* C21 *)
Lemma read_back on s all : hist on s all -> wl_lsn s + 2 < 2^64 -> files_short s ->
  exists gone kept, all = gone ++ kept /\
    wal_read on (wl_files s) (wl_list s) = (map rec_logged kept, Ok tt).
Proof.
  intros H Hn Hs. destruct (hist_holds _ _ _ H) as (gone & a & Ha & E & _). exists gone, (log_recs a). split; auto.
  eapply read_holds; eauto. eapply short_files; eauto. apply u64_step; auto.
Qed.
Lemma read_all on s all : plain_hist on s all -> wl_lsn s + 2 < 2^64 -> files_short s ->
  wal_read on (wl_files s) (wl_list s) = (map rec_logged all, Ok tt).
Proof.
  intros H Hn Hs. destruct (plain_hist_spec _ _ _ H) as (_ & a & Ha & -> & _).
  eapply read_holds; eauto. eapply short_files; eauto. apply u64_step; auto.
Qed.

(* C27 *)
Lemma lsn_order on s all : hist on s all ->
  increasing (map rec_lsn all) /\ Forall (fun r => rec_lsn r <= wl_lsn s) all /\
  exists gone a, all = gone ++ log_recs a /\ wl_files s = log_files on a /\ wl_list s = log_ids a /\ ordered a.
Proof.
  intros H. destruct (hist_holds _ _ _ H) as (gone & a & Ha & E & Hi & Hl). split; [auto|split; [auto|]].
  exists gone, a. destruct Ha. auto.
Qed.

(* ---------------------------------------------------------------- *)
(* C22: a log cut in its last file *)
Lemma cut_bytes on : forall rs k pre, Forall (rec_ok on) rs ->
  N.of_nat (pre + length (recs_bytes on rs)) + 21 < 2^32 ->
  exists tail, firstn k (recs_bytes on rs) = recs_bytes on (complete on k rs) ++ tail /\
    torn on (pre + length (recs_bytes on (complete on k rs))) tail /\ Forall (rec_ok on) (complete on k rs).
Proof.
  induction rs as [|r rs IH]; intros k pre Hr Hl.
  - exists []. cbn. rewrite firstn_nil. repeat split; auto. apply torn_nil. cbn in Hl. lia.
  - inversion Hr; subst. cbn [complete]. unfold recs_bytes in Hl |- *. cbn [flat_map] in *.
    rewrite app_length in Hl. destruct (Nat.leb (length (rec_bytes on r)) k) eqn:E.
    + apply Nat.leb_le in E. destruct (IH (k - length (rec_bytes on r))%nat (pre + length (rec_bytes on r))%nat) as (tail & E1 & E2 & E3); auto.
      { unfold recs_bytes. rewrite <- Nat.add_assoc. exact Hl. }
      exists tail. cbn [flat_map]. split; [|split].
      * rewrite firstn_app. rewrite firstn_all2 by auto. rewrite <- app_assoc. f_equal. exact E1.
      * rewrite app_length, Nat.add_assoc. exact E2.
      * constructor; auto.
    + apply Nat.leb_gt in E. exists (firstn k (rec_bytes on r)). split; [|split].
      * cbn [flat_map app]. rewrite firstn_app. replace (k - length (rec_bytes on r))%nat with 0%nat by lia.
        rewrite firstn_O, app_nil_r. auto.
      * apply torn_cut with (r := r) (rest := skipn k (rec_bytes on r)); auto.
        -- rewrite firstn_skipn. auto.
        -- intros Hx. apply (f_equal (@length _)) in Hx. rewrite skipn_length in Hx. cbn in Hx. lia.
        -- cbn [flat_map length]. lia.
      * constructor.
Qed.

Lemma read_tail on a id rs tail : Forall (rec_ok on) (log_recs a) -> Forall (rec_ok on) rs -> short on a ->
  increasing (log_ids a ++ [id]) -> Forall (fun i => i < u64_max) (log_ids a ++ [id]) ->
  torn on (length (flat_map (rec_bytes on) rs)) tail ->
  N.of_nat (length (flat_map (rec_bytes on) rs ++ tail)) + 21 < 2^32 ->
  wal_read on (log_files on a ++ [(id, flat_map (rec_bytes on) rs ++ tail)]) (log_ids a ++ [id]) =
  (map rec_logged (log_recs a ++ rs), Ok tt).
Proof.
  intros Hr1 Hr2 Hs1 Hi Hu Ht Hl.
  assert (Hti : tids (untorn a ++ [(id, (rs, tail))]) = log_ids a ++ [id]).
  { unfold tids. rewrite map_app. f_equal. apply untorn_ids. }
  assert (Hok : tlog_ok on (untorn a ++ [(id, (rs, tail))])).
  { split; [|split; rewrite Hti; auto].
    apply Forall_app. split.
    - apply increasing_app in Hi. apply Forall_app in Hu. destruct Hi as (Hi & _). destruct Hu as (Hu & _).
      apply (untorn_ok on a Hr1 Hs1 Hi Hu).
    - constructor; [|constructor]. split; [auto|split; [exact Ht|exact Hl]]. }
  pose proof (read_tlog on _ Hok) as H.
  assert (Hf : tfiles on (untorn a ++ [(id, (rs, tail))]) = log_files on a ++ [(id, flat_map (rec_bytes on) rs ++ tail)]).
  { unfold tfiles. rewrite map_app. f_equal. apply untorn_files. }
  assert (Hrr : trecs (untorn a ++ [(id, (rs, tail))]) = log_recs a ++ rs).
  { unfold trecs. rewrite flat_map_app. f_equal; [apply untorn_recs|]. cbn. apply app_nil_r. }
  rewrite Hf, Hti, Hrr in H. exact H.
Qed.

Lemma read_cut_log on a id rs k : Forall (rec_ok on) (log_recs (a ++ [(id, rs)])) -> short on (a ++ [(id, rs)]) ->
  increasing (log_ids (a ++ [(id, rs)])) -> Forall (fun i => i < u64_max) (log_ids (a ++ [(id, rs)])) ->
  wal_read on (log_files on a ++ [(id, firstn k (flat_map (rec_bytes on) rs))]) (log_ids (a ++ [(id, rs)])) =
  (map rec_logged (log_recs a ++ complete on k rs), Ok tt).
Proof.
  intros Hr Hs Hi Hu. rewrite log_recs_app in Hr. apply Forall_app in Hr. destruct Hr as (Hr1 & Hr2).
  unfold log_recs in Hr2; cbn [flat_map snd] in Hr2. rewrite app_nil_r in Hr2.
  unfold short in Hs. apply Forall_app in Hs. destruct Hs as (Hs1 & Hs2). inversion Hs2 as [|? ? Hs3 _]; subst. cbn [snd] in Hs3.
  unfold log_ids in Hi, Hu |- *. rewrite map_app in Hi, Hu |- *. cbn [map fst] in *.
  destruct (cut_bytes on rs k 0 Hr2 Hs3) as (tail & E1 & E2 & E3). unfold recs_bytes in *. rewrite E1.
  apply read_tail; auto. rewrite <- E1, firstn_length. lia.
Qed.

(* for a log in use: cut in the current file *)
Lemma cut_current on s all : plain_hist on s all -> wl_lsn s + 2 < 2^64 -> files_short s ->
  exists fs id b, wl_files s = fs ++ [(id, b)] /\
  forall k, exists m, wal_read on (fs ++ [(id, firstn k b)]) (wl_list s) = (map rec_logged (firstn m all), Ok tt) /\
    (length b <= k -> m = length all)%nat /\
    exists rs, b = flat_map (rec_bytes on) rs /\ firstn m all ++ skipn (length (complete on k rs)) rs = all.
Proof.
  intros H Hn Hs. destruct (plain_hist_spec _ _ _ H) as (_ & a & Ha & -> & _).
  pose proof (short_files _ _ _ Ha Hs) as Hsh. pose proof (holds_ids _ _ _ Ha (u64_step _ Hn)) as Hu.
  destruct Ha. destruct ho_current as (a1 & id & rs & E & _).
  exists (log_files on a1), id, (flat_map (rec_bytes on) rs). split.
  { rewrite ho_files, E. unfold log_files. rewrite map_app. auto. }
  intros k. rewrite E in *. 
  assert (Hp : exists t, rs = complete on k rs ++ t /\ skipn (length (complete on k rs)) rs = t).
  { clear. revert k. induction rs; intros; cbn [complete]; [exists []; auto|].
    destruct (Nat.leb _ _); [|exists (a :: rs); auto]. destruct (IHrs (k - length (rec_bytes on a))%nat) as (t & E1 & E2).
    exists t. cbn [length skipn app]. split; auto. f_equal; auto. }
  destruct Hp as (t & E1 & E2).
  exists (length (log_recs a1 ++ complete on k rs)).
  assert (Ef : firstn (length (log_recs a1 ++ complete on k rs)) (log_recs (a1 ++ [(id, rs)])) = log_recs a1 ++ complete on k rs).
  { rewrite log_recs_app. unfold log_recs at 3; cbn [flat_map snd]. rewrite app_nil_r. rewrite E1 at 2. rewrite app_assoc.
    apply firstn_app_exact; auto. }
  rewrite Ef. split; [|split].
  - rewrite ho_list. apply read_cut_log; auto. apply ho_ordered.
  - intros Hk. assert (complete on k rs = rs) as ->.
    { clear -Hk. revert k Hk. induction rs; intros; cbn [complete]; auto. cbn [flat_map] in Hk. rewrite app_length in Hk.
      destruct (Nat.leb_spec (length (rec_bytes on a)) k); [|lia]. f_equal. apply IHrs. lia. }
    rewrite log_recs_app. unfold log_recs at 3; cbn [flat_map snd]. rewrite app_nil_r. auto.
  - exists rs. split; auto. rewrite E2, log_recs_app, <- app_assoc. unfold log_recs at 3; cbn [flat_map snd]. rewrite app_nil_r, <- E1. auto.
Qed.
