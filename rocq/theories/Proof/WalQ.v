From Coq Require Import NArith ZArith Arith List Bool Lia Sorted Permutation.
Import ListNotations.
From Verif Require Import Model.Base Model.Event Model.Crc Model.Codec Model.File Model.Wal Model.Gc
  Spec.Order Spec.Checksum Spec.Log Proof.CrcL Proof.CrcP Proof.CodecL Proof.FileR Proof.FileC Proof.WalL Proof.WalR Proof.WalH Proof.WalP.
Local Opaque crc_bits.
Local Open Scope N_scope.
Local Arguments N.add : simpl never.
Local Arguments N.mul : simpl never.

(* ---------------------------------------------------------------- *)
(* C25 *)
Lemma gc_hist on s all m : hist on s all -> wl_lsn s + 2 < 2^64 -> files_short s ->
  exists s' gone old kept, wal_gc s m = Ok s' /\ all = gone ++ old ++ kept /\
    wal_read on (wl_files s) (wl_list s) = (map rec_logged (old ++ kept), Ok tt) /\
    wal_read on (wl_files s') (wl_list s') = (map rec_logged kept, Ok tt) /\
    Forall (fun r => rec_lsn r < m) old /\
    wl_current s' = wl_current s /\ wl_list s' <> [] /\ wal_id_max (wl_list s') = wal_id_max (wl_list s) /\
    (exists l, wl_list s = l ++ wl_list s') /\ map fst (wl_files s') = wl_list s' /\
    (exists f, wl_files s = f ++ wl_files s').
Proof.
  intros H Hn Hs. destruct (hist_holds _ _ _ H) as (gone & a & Ha & E & _).
  pose proof (short_files _ _ _ Ha Hs) as Hsh.
  destruct (gc_holds on s a m Ha) as (s' & a1 & a2 & E2 & -> & Hne & Ha' & El & Hold & _).
  exists s', gone, (log_recs a1), (log_recs a2). split; [auto|]. rewrite <- log_recs_app. split; [auto|].
  assert (Hsh2 : short on a2) by (unfold short in *; apply Forall_app in Hsh; tauto).
  split; [eapply read_holds; eauto; apply u64_step; auto|].
  split; [eapply read_holds; eauto; rewrite El; apply u64_step; auto|].
  split; [auto|].
  assert (Hc : wl_current s' = wl_current s).
  { revert E2. unfold wal_gc. destruct (wal_id_gc_between m (wl_list s)). destruct (unlink_all l (wl_files s)); intros E2; inversion E2; auto. }
  split; [auto|]. destruct Ha as [F1 F2 _ _ _ _ _]. destruct Ha' as [G1 G2 _ _ _ _ _]. rewrite F1, F2, G1, G2.
  split; [destruct a2; [tauto|discriminate]|]. split.
  { unfold wal_id_max, log_ids. rewrite map_app. clear - Hne. generalize (map fst a1) as l. induction l as [|x l IH]; auto.
    cbn [app]. destruct (l ++ map fst a2) eqn:Ex; auto. destruct l; destruct a2; try discriminate; tauto. }
  split; [exists (log_ids a1); unfold log_ids; rewrite map_app; auto|].
  split; [unfold log_files, log_ids; rewrite map_map; auto|].
  exists (log_files on a1). unfold log_files. rewrite map_app. auto.
Qed.

(* ---------------------------------------------------------------- *)
(* C26 *)
Lemma marks_min_le l : forall n, (fold_left N.min l n <= n) /\ forall x, In x l -> fold_left N.min l n <= x.
Proof.
  induction l as [|a l IH]; intros n; simpl; [split; [lia|tauto]|]. destruct (IH (N.min n a)) as (H1 & H2).
  split; [lia|]. intros x [->|Hx]; [lia|auto].
Qed.

Lemma quiet_holds on s all : quiet on s all -> exists gone a, holds on (g_wal s) a /\ all = gone ++ log_recs a /\
  increasing (map rec_lsn all) /\ Forall (fun r => rec_lsn r <= wl_lsn (g_wal s)) all /\
  forall n, outstanding s n -> exists l, In (RWrite n l) (log_recs a).
Proof.
  induction 1 as [|s all l s' H IH Hb Hst Hn E|s all n s' H IH E|s all wm s' H IH Hn E|s all n s' H IH E|s all s1 s2 H IH Hp E1 E2].
  - exists [], [(1, [])]. cbn [ginit g_wal]. split; [apply open_holds|]. repeat split; try constructor.
    intros n [[]|[]].
  - destruct IH as (gone & a & Ha & -> & Hi & Hl & Ho). cbn [gstep] in E.
    destruct (write_holds on (g_wal s) a l Ha Hb Hst) as (w & a' & E2 & El & Ha' & Hr & _); [lia|].
    rewrite E2 in E. cbn [bind] in E. inversion E; subst s'. cbn [g_wal fst snd] in *. exists gone, a'.
    rewrite Hr, El. split; [auto|]. split; [rewrite app_assoc; auto|]. split; [|split].
    + rewrite map_app. apply increasing_snoc; auto. intros y Hy. apply in_map_iff in Hy. destruct Hy as (q & <- & Hq).
      rewrite Forall_forall in Hl. specialize (Hl _ Hq). cbn. lia.
    + apply Forall_app. split; [|constructor; [cbn; lia|constructor]]. eapply Forall_impl; [|exact Hl]. cbn. intros; lia.
    + intros n Hin. unfold outstanding in Hin. cbn [g_pending g_marks] in Hin. destruct Hin as [[<-|Hin]|Hin].
      * exists l. apply in_or_app. right. left. auto.
      * destruct (Ho n) as (x & Hx); [left; auto|]. exists x. apply in_or_app. auto.
      * destruct (Ho n) as (x & Hx); [right; auto|]. exists x. apply in_or_app. auto.
  - destruct IH as (gone & a & Ha & -> & Hi & Hl & Ho). cbn [gstep] in E.
    destruct (existsb (N.eqb n) (g_pending s)) eqn:Ex; [|discriminate]. inversion E; subst s'. cbn [g_wal].
    exists gone, a. split; [auto|split; [auto|split; [auto|split; [auto|]]]].
    intros k [Hk|Hk]; cbn [g_pending g_marks] in Hk.
    + apply filter_In in Hk. apply Ho. left. tauto.
    + destruct Hk as [<-|Hk]; [|apply Ho; right; auto]. apply existsb_exists in Ex. destruct Ex as (y & Hy & Ey).
      apply N.eqb_eq in Ey. subst y. apply Ho. left. auto.
  - destruct IH as (gone & a & Ha & -> & Hi & Hl & Ho). cbn [gstep] in E. inversion E; subst s'. cbn [g_wal].
    destruct (rotate_holds on (g_wal s) a wm Ha) as (a' & Ha' & Hr & El & _); [lia|].
    exists gone, a'. rewrite Hr, El. auto.
  - destruct IH as (gone & a & Ha & -> & Hi & Hl & Ho). cbn [gstep] in E. inversion E; subst s'. cbn [g_wal].
    exists gone, a. split; [auto|split; [auto|split; [auto|split; [auto|]]]].
    intros k [Hk|Hk]; cbn [g_pending g_marks] in Hk; apply Ho; [left; auto|].
    apply filter_In in Hk. right. tauto.
  - destruct IH as (gone & a & Ha & -> & Hi & Hl & Ho). cbn [gstep] in E1. inversion E1; subst s1. clear E1.
    cbn [gstep g_scan g_wal g_pending g_marks] in E2.
    destruct (gc_holds on (g_wal s) a (marks_min (g_marks s)) Ha) as (w & a1 & a2 & Eg & -> & Hne & Ha' & El & Hold & _).
    rewrite Eg in E2. cbn [bind] in E2. inversion E2; subst s2. cbn [g_wal].
    exists (gone ++ log_recs a1), a2. rewrite El. split; [auto|]. rewrite log_recs_app, <- app_assoc in *.
    split; [auto|split; [auto|split; [auto|]]].
    intros n Hin. destruct (Ho n) as (l & Hx); [exact Hin|]. apply in_app_or in Hx. destruct Hx as [Hx|Hx]; [|eauto].
    exfalso. rewrite Forall_forall in Hold. specialize (Hold _ Hx). cbn [rec_lsn] in Hold.
    destruct Hin as [Hin|Hin]; cbn [g_pending g_marks] in Hin.
    + rewrite Hp in Hin. destruct Hin.
    + destruct (marks_min_le (g_marks s) u64_max) as (_ & Hm). specialize (Hm _ Hin). unfold marks_min in Hold. lia.
Qed.

Lemma quiet_safe on s all : quiet on s all -> wl_lsn (g_wal s) + 2 < 2^64 -> files_short (g_wal s) ->
  forall n, outstanding s n -> exists l, In (RWrite n l) all /\
    In (LWrite n (map le_event l)) (fst (wal_read on (wl_files (g_wal s)) (wl_list (g_wal s)))) /\
    (forall l', In (RWrite n l') all -> l' = l).
Proof.
  intros H Hn Hs n Ho. destruct (quiet_holds _ _ _ H) as (gone & a & Ha & -> & Hi & _ & Hq).
  destruct (Hq n Ho) as (l & Hl). exists l. split; [apply in_or_app; auto|]. split.
  - rewrite (read_holds on (g_wal s) a); auto; [|eapply short_files; eauto|apply u64_step; auto].
    cbn [fst]. apply in_map_iff. exists (RWrite n l). auto.
  - intros l' Hl'. assert (Hin : In (RWrite n l) (gone ++ log_recs a)) by (apply in_or_app; auto).
    clear - Hi Hin Hl'. induction (gone ++ log_recs a) as [|r t IH]; [destruct Hin|].
    cbn [map] in Hi. inversion Hi as [|? ? Hi2 Hlt]; subst. rewrite Forall_forall in Hlt.
    assert (Hx : forall q, In q t -> rec_lsn r < rec_lsn q) by (intros; apply Hlt, in_map; auto).
    destruct Hl' as [->|Hl'], Hin as [Hin|Hin].
    + inversion Hin; auto.
    + specialize (Hx _ Hin). cbn in Hx. lia.
    + subst r. specialize (Hx _ Hl'). cbn in Hx. lia.
    + auto.
Qed.

(* ---------------------------------------------------------------- *)
(* C28 *)
Lemma id_delete_in x l y : increasing l -> (In y (wal_id_delete x l) <-> In y l /\ y <> x).
Proof.
  intros H. induction H as [|a l Hs IH Hl]; simpl; [tauto|]. rewrite Forall_forall in Hl. destruct (a =? x) eqn:E.
  - apply N.eqb_eq in E. subst. split; [intros Hy; specialize (Hl _ Hy); split; [auto|lia]|]. intros ([->|Hy] & Hne); tauto.
  - apply N.eqb_neq in E. simpl. rewrite IH. split; [intros [->|]; tauto|]. intros ([->|Hy] & Hne); auto.
Qed.
Lemma id_delete_sorted x l : increasing l -> increasing (wal_id_delete x l).
Proof.
  intros H. induction H as [|a l Hs IH Hl]; simpl; [constructor|]. destruct (a =? x); auto. constructor; auto.
  apply Forall_forall. intros y Hy. apply id_delete_in in Hy; auto. rewrite Forall_forall in Hl. apply Hl. tauto.
Qed.
Lemma gc_between_app m l : increasing l -> exists r k, wal_id_gc_between m l = (r, k) /\ l = r ++ k.
Proof.
  intros H. destruct (gc_between_spec m l H) as (r & k & E1 & E2 & _). eauto.
Qed.
Lemma id_list_sorted l : id_list l -> increasing l.
Proof.
  induction 1.
  - apply recover_spec; auto.
  - apply id_add_sorted; auto.
  - apply id_delete_sorted; auto.
  - destruct (gc_between_app m l IHid_list) as (r & k & E1 & E2). rewrite E1. cbn [snd]. subst l.
    apply increasing_app in IHid_list. tauto.
Qed.
Lemma increasing_nodup l : increasing l -> NoDup l.
Proof.
  induction 1; constructor; auto. rewrite Forall_forall in H0. intros Hx. specialize (H0 _ Hx). lia.
Qed.

Lemma id_members :
  (forall dir x, NoDup dir -> (In x (wal_recover dir) <-> In x dir)) /\
  (forall l x y, id_list l -> (In y (wal_id_add x l) <-> y = x \/ In y l)) /\
  (forall l x y, id_list l -> (In y (wal_id_delete x l) <-> In y l /\ y <> x)) /\
  (forall l m, id_list l -> l = fst (wal_id_gc_between m l) ++ snd (wal_id_gc_between m l)).
Proof.
  split; [|split; [|split]].
  - intros. apply recover_spec; auto.
  - intros. apply id_add_in.
  - intros. apply id_delete_in, id_list_sorted; auto.
  - intros. destruct (gc_between_app m l (id_list_sorted _ H)) as (r & k & E1 & E2). rewrite E1. auto.
Qed.

Lemma next_least v l : increasing l -> least_above v l (wal_id_next v l).
Proof.
  intros H. unfold least_above. induction H as [|a l Hs IH Hl]; simpl.
  - right. split; [auto|tauto].
  - rewrite Forall_forall in Hl. destruct (v <? a) eqn:E.
    + apply N.ltb_lt in E. left. split; [auto|split; [auto|]]. intros y [->|Hy] _; [lia|]. specialize (Hl _ Hy). lia.
    + apply N.ltb_ge in E. destruct IH as [(I1 & I2 & I3)|(I1 & I2)].
      * left. split; [auto|split; [auto|]]. intros y [->|Hy] Hv; [lia|auto].
      * right. split; [auto|]. intros y [->|Hy]; auto.
Qed.
Lemma find_from_spec v l : forall id, increasing l ->
  (wal_id_find_from v id l = id /\ forall y, In y l -> v < y) \/
  (In (wal_id_find_from v id l) l /\ wal_id_find_from v id l <= v /\ forall y, In y l -> y <= v -> y <= wal_id_find_from v id l).
Proof.
  induction l as [|a l IH]; intros id H; simpl; [left; split; [auto|tauto]|].
  inversion H as [|? ? H1 H2]; subst. rewrite Forall_forall in H2. destruct (v <? a) eqn:E.
  - apply N.ltb_lt in E. left. split; auto. intros y [->|Hy]; [auto|]. specialize (H2 _ Hy). lia.
  - apply N.ltb_ge in E. right. destruct (IH a H1) as [(I1 & I2)|(I1 & I2 & I3)].
    + rewrite I1. split; [auto|split; [auto|]]. intros y [->|Hy] Hv; [lia|]. specialize (I2 _ Hy). lia.
    + split; [auto|split; [auto|]]. intros y [->|Hy] Hv; [|auto]. specialize (H2 _ I1). lia.
Qed.
Lemma find_greatest v l : increasing l -> greatest_upto v l (wal_id_find v l).
Proof. intros H. unfold greatest_upto, wal_id_find. destruct (find_from_spec v l u64_max H); tauto. Qed.
Lemma min_least l : increasing l -> l <> [] -> In (wal_id_min l) l /\ forall y, In y l -> wal_id_min l <= y.
Proof.
  intros H Hn. destruct H as [|a l H Hl]; [tauto|]. simpl. split; auto. intros y [->|Hy]; [lia|].
  rewrite Forall_forall in Hl. specialize (Hl _ Hy). lia.
Qed.
Lemma max_greatest l : increasing l -> l <> [] -> In (wal_id_max l) l /\ forall y, In y l -> y <= wal_id_max l.
Proof.
  intros H Hn. unfold wal_id_max. destruct (exists_last Hn) as (l' & x & ->). rewrite last_last. split.
  - apply in_or_app. right. left. auto.
  - intros y Hy. apply in_app_or in Hy. destruct Hy as [Hy|[->|[]]]; [|lia]. apply increasing_app in H.
    destruct H as (_ & _ & H). assert (y < x); [apply H; simpl; auto|lia].
Qed.
Lemma copy_upto m l : increasing l -> wal_id_copy m l = filter (fun x => x <=? m) l.
Proof.
  intros H. induction H as [|a l Hs IH Hl]; simpl; auto. destruct (m <? a) eqn:E.
  - apply N.ltb_lt in E. replace (a <=? m) with false by (symmetry; apply N.leb_gt; auto).
    rewrite Forall_forall in Hl. clear - Hl E. induction l; simpl; auto.
    replace (a0 <=? m) with false; [apply IHl; intros; apply Hl; right; auto|].
    symmetry. apply N.leb_gt. assert (a < a0); [apply Hl; left; auto|lia].
  - apply N.ltb_ge in E. replace (a <=? m) with true by (symmetry; apply N.leb_le; auto). f_equal. auto.
Qed.
Lemma id_queries l v : id_list l ->
  least_above v l (wal_id_next v l) /\ greatest_upto v l (wal_id_find v l) /\
  wal_id_copy v l = filter (fun x => x <=? v) l /\
  (l = [] -> wal_id_min l = u64_max /\ wal_id_max l = u64_max) /\
  (l <> [] -> In (wal_id_min l) l /\ In (wal_id_max l) l /\
     forall y, In y l -> wal_id_min l <= y <= wal_id_max l).
Proof.
  intros H. apply id_list_sorted in H. split; [apply next_least; auto|]. split; [apply find_greatest; auto|].
  split; [apply copy_upto; auto|]. split; [intros ->; auto|].
  intros Hn. destruct (min_least l H Hn). destruct (max_greatest l H Hn). split; [auto|split; [auto|]]. auto.
Qed.

(* ---------------------------------------------------------------- *)
(* C59 *)
Lemma over_end (file : list byte) : 2^32 <= N.of_nat (length file) + 21 -> forall on,
  wal_file_pread on file (N.of_nat (length file)) = Err.
Proof.
  intros H on. unfold wal_file_pread. replace (wal_file_eof _ _ _) with false.
  2: { symmetry. unfold wal_file_eof, w32. apply N.ltb_ge. rewrite <- N.add_mod by discriminate.
       set (n := N.of_nat (length file)) in *. replace (n + 21) with (n + 21 - two32 + 1 * two32).
       2: { unfold two32. lia. }
       rewrite N.mod_add by discriminate. assert (H2 : two32 <> 0%N) by discriminate.
       pose proof (N.mod_le (n + 21 - two32) two32 H2). unfold two32 in *. lia. }
  unfold pread_buf. change (21 =? 0) with false. change (2^31 <=? 21) with false. cbv iota.
  unfold pread, slice_of. rewrite Nat2N.id. destruct (_ <=? _)%nat eqn:E; auto.
  apply Nat.leb_le in E. change (N.to_nat 21) with 21%nat in E. lia.
Qed.

Lemma over_replay on id (Hid : id < u64_max) : forall rs pre fuel, Forall (rec_ok on) rs ->
  2^32 <= N.of_nat (length (pre ++ recs_bytes on rs)) + 21 -> (length rs < fuel)%nat ->
  wal_replay fuel on [(id, pre ++ recs_bytes on rs)] [id]
    (mk_wcursor (Some (id, pre ++ recs_bytes on rs)) (N.of_nat (length pre))) = (map rec_logged rs, Err).
Proof.
  induction rs as [|r rs IH]; intros pre fuel Hr Hl Hf; destruct fuel as [|fuel]; try (cbn in Hf; lia).
  - unfold recs_bytes in *. cbn [flat_map] in *. rewrite app_nil_r in *. cbn [wal_replay length wal_cursor_next wc_file wc_off].
    rewrite over_end; auto.
  - inversion Hr; subst. destruct (rec_framed on r H1) as (w & body & Hfr & Hd & _).
    change (recs_bytes on (r :: rs)) with (rec_bytes on r ++ recs_bytes on rs) in *.
    cbn [wal_replay length wal_cursor_next wc_file wc_off].
    rewrite (read_record on pre _ _ _ _ Hfr). cbn [bind]. rewrite Hd.
    assert (Hoff : N.of_nat (length pre) + lw_size w = N.of_nat (length (pre ++ rec_bytes on r))).
    { destruct Hfr as (-> & _ & _ & _ & Hs & _). rewrite !app_length, lwrite_length, Hs. lia. }
    rewrite Hoff. rewrite app_assoc in Hl. specialize (IH (pre ++ rec_bytes on r) fuel H2 Hl).
    rewrite <- app_assoc in IH.
    match goal with |- (let (_, _) := ?X in _) = _ =>
      replace X with (map rec_logged rs, @Err unit) by (symmetry; apply IH; cbn in Hf; lia) end. reflexivity.
Qed.

Lemma over_read on id rs : id < u64_max -> Forall (rec_ok on) rs ->
  2^32 <= N.of_nat (length (flat_map (rec_bytes on) rs)) + 21 ->
  wal_read on [(id, flat_map (rec_bytes on) rs)] [id] = (map rec_logged rs, Err).
Proof.
  intros Hid Hr Hl. unfold wal_read, wal_cursor_open. change (0 =? 0) with true. cbv iota. cbn [wal_id_min].
  destruct (id =? u64_max) eqn:E; [apply N.eqb_eq in E; lia|].
  cbn [file_of]. rewrite N.eqb_refl.
  assert (Hcnt : (length rs <= length (flat_map (rec_bytes on) rs))%nat).
  { clear - Hr. induction Hr as [|r rs H Hr IH]; [cbn; lia|].
    cbn [flat_map length]. rewrite app_length. pose proof (rec_bytes_length _ _ H). lia. }
  destruct rs as [|r rs]; [cbn in Hl; lia|]. inversion Hr; subst.
  destruct (rec_framed on r H1) as (w & body & Hfr & Hd & Hln).
  cbn [wal_cursor_seek length wal_cursor_next wc_file wc_off]. cbn [flat_map].
  pose proof (read_record on [] (rec_bytes on r) (flat_map (rec_bytes on) rs) _ _ Hfr) as Hrd. cbn [app] in Hrd.
  change (N.of_nat (length [])) with 0 in Hrd.
  match goal with |- context [wal_file_pread ?a ?b ?c] =>
    replace (wal_file_pread a b c) with (Ok (Some (w, body))) by (symmetry; exact Hrd) end. cbn [bind wc_file wc_off].
  replace (0 <=? lw_lsn w) with true by (symmetry; apply N.leb_le; lia).
  replace (sub64 (0 + lw_size w) (lw_size w)) with 0.
  2: { destruct Hfr as (_ & _ & _ & _ & _ & Hs & _). unfold sub64.
       replace (0 + lw_size w + two64 - lw_size w) with (1 * two64) by lia. rewrite N.mod_mul by discriminate. auto. }
  apply (over_replay on id Hid (r :: rs) [] _ Hr); auto. cbn [snd]. rewrite app_nil_r.
  cbn [flat_map] in Hcnt. lia.
Qed.

(* ---------------------------------------------------------------- *)
(* C23 *)
Lemma append_file on s all l s' : plain_hist on s all -> batch_ok l -> (on = true -> Forall stable l) ->
  wl_lsn s + 2 < 2^64 -> wal_write on s l None = Ok (s', true) ->
  exists fs id b, wl_files s = fs ++ [(id, b)] /\ wl_files s' = fs ++ [(id, b ++ rec_bytes on (RWrite (wl_lsn s') l))] /\
    wl_list s' = wl_list s /\ wl_lsn s' = wl_lsn s + 1.
Proof.
  intros H Hb Hst Hn E. destruct (plain_hist_spec _ _ _ H) as (_ & a & Ha & _).
  destruct Ha as [Hf Hl (a1 & id & rs & Ea & Hc) _ Ho _ _].
  unfold wal_write in E. rewrite w64_small in E by lia. unfold wal_file_append in E. rewrite Hc, Hf in E.
  subst a. rewrite ids_sorted_file_of in E by apply Ho. cbn [bind] in E. inversion E; subst s'. cbn [wl_files wl_list wl_lsn].
  exists (log_files on a1), id, (flat_map (rec_bytes on) rs). split.
  { rewrite Hf. unfold log_files. rewrite map_app. auto. }
  split; [|auto]. rewrite Nat2N.id, overwrite_end, file_put_last by apply Ho. unfold rec_bytes. auto.
Qed.

Lemma snoc_eq {A} (l1 l2 : list A) x y : l1 ++ [x] = l2 ++ [y] -> l1 = l2 /\ x = y.
Proof. apply app_inj_tail. Qed.

Lemma rec_bytes_ne on r : rec_ok on r -> rec_bytes on r <> [].
Proof. intros H E. pose proof (rec_bytes_length _ _ H) as H2. rewrite E in H2. cbn in H2. lia. Qed.

(* every cut of the current file at a record boundary was a state of the log before *)
Lemma cut_hist on s all : plain_hist on s all -> forall fs id b pre rs m,
  wl_files s = fs ++ [(id, b)] -> all = pre ++ rs -> b = flat_map (rec_bytes on) rs -> (m <= length rs)%nat ->
  exists s', plain_hist on s' (pre ++ firstn m rs) /\
    wl_files s' = fs ++ [(id, flat_map (rec_bytes on) (firstn m rs))] /\ wl_list s' = wl_list s /\
    wl_lsn s' <= wl_lsn s.
Proof.
  intros H. induction H as [|s all l s' H IH Hb Hst Hn E|s all wm H IH Hn|s all dir base s' H IH Hn Hs Hp Hk E];
    intros fs id b pre rs m Hf Ea Eb Hm.
  - destruct pre; [|discriminate]. destruct rs; [|discriminate]. exists (wal_rotate wal_init 0).
    rewrite firstn_nil. split; [constructor|]. split; [|split; [auto|lia]]. rewrite Hf. subst b. auto.
  - destruct (append_file on s all l s' H Hb Hst Hn E) as (fs0 & id0 & b0 & F1 & F2 & F3 & F4).
    rewrite F2 in Hf. apply snoc_eq in Hf. destruct Hf as (<- & Hf). inversion Hf; subst id0.
    assert (Hok : rec_ok on (RWrite (wl_lsn s') l)).
    { split; [lia|]. split; auto. }
    destruct (exists_last (l := rs)) as (rs' & r & ->).
    { intros ->. cbn in Eb. rewrite Eb in *. destruct b0; [|discriminate]. exact (rec_bytes_ne _ _ Hok H2). }
    rewrite app_assoc in Ea. apply snoc_eq in Ea. destruct Ea as (-> & <-).
    rewrite flat_map_app in Eb. cbn [flat_map] in Eb. rewrite app_nil_r in Eb. rewrite Eb in H2. apply app_inv_tail in H2. subst b0.
    rewrite app_length in Hm. cbn [length] in Hm.
    destruct (Nat.eq_dec m (length rs' + 1)) as [->|Hne].
    + exists s'. rewrite firstn_all2 by (rewrite app_length; cbn; lia). split.
      * rewrite app_assoc. econstructor; eauto.
      * split; [|split; [auto|lia]]. rewrite F2. rewrite flat_map_app. cbn [flat_map]. rewrite app_nil_r. auto.
    + rewrite firstn_app. replace (m - length rs')%nat with 0%nat by lia. rewrite firstn_O, app_nil_r.
      destruct (IH fs0 id _ pre rs' m F1 eq_refl eq_refl) as (s2 & I1 & I2 & I3 & I4); [lia|].
      exists s2. split; [auto|split; [auto|split; [rewrite F3; auto|lia]]].
  - destruct (plain_hist_spec _ _ _ H) as (_ & a & Ha & Ear & _).
    destruct (rotate_holds on s a wm Ha) as (a' & Ha' & Hr' & El & [(_ & Es)|Ea']); [lia| |].
    + rewrite Es in *. eapply IH; eauto.
    + exists (wal_rotate s wm). rewrite (ho_files _ _ _ Ha'), Ea' in Hf. unfold log_files in Hf. rewrite map_app in Hf.
      apply snoc_eq in Hf. destruct Hf as (Hf & Hi). cbn [fst snd flat_map] in Hi. injection Hi as Hi1 Hi2. rewrite Eb in Hi2.
      assert (rs = []) as ->.
      { destruct rs as [|r rs]; auto. exfalso. cbn [flat_map] in Hi2. symmetry in Hi2. apply app_eq_nil in Hi2.
        apply (rec_bytes_ne on r); [|tauto]. pose proof (ho_recs _ _ _ Ha) as Hr. rewrite <- Ear, Ea in Hr.
        rewrite Forall_forall in Hr. apply Hr. apply in_or_app. right. left. auto. }
      rewrite firstn_nil. rewrite <- Ea. split; [constructor; auto|]. split; [|split; [auto|lia]].
      rewrite (ho_files _ _ _ Ha'), Ea'. unfold log_files. rewrite map_app, Hf. cbn [map fst snd flat_map]. rewrite Hi1. auto.
  - rewrite (plain_restart on s all dir base) in E; auto. inversion E; subst s'. eapply IH; eauto.
Qed.

Lemma restart_files on s s2 dir base : wl_files s = wl_files s2 -> wal_restart on s dir base = wal_restart on s2 dir base.
Proof. intros E. unfold wal_restart. rewrite E. auto. Qed.

Fixpoint numbered (n : N) (ls : list (list lentry)) : list rec :=
  match ls with [] => [] | l :: t => RWrite (n + 1) l :: numbered (n + 1) t end.

Lemma write_all on ls : forall s all, plain_hist on s all -> Forall batch_ok ls ->
  (on = true -> Forall (Forall stable) ls) -> wl_lsn s + N.of_nat (length ls) + 2 < 2^64 ->
  exists s', wal_run on s (map (fun l => OpWrite l None) ls) = Ok s' /\ plain_hist on s' (all ++ numbered (wl_lsn s) ls) /\
    wl_lsn s' = wl_lsn s + N.of_nat (length ls).
Proof.
  induction ls as [|l ls IH]; intros s all H Hb Hst Hn.
  - exists s. cbn [numbered]. rewrite app_nil_r. cbn. split; [auto|split; [auto|lia]].
  - inversion Hb; subst. cbn [length] in Hn. destruct (plain_hist_spec _ _ _ H) as (_ & a & Ha & _).
    assert (Hs1 : on = true -> Forall stable l) by (intros E; specialize (Hst E); inversion Hst; auto).
    destruct (write_holds on s a l Ha H2 Hs1) as (s1 & a' & E & El & _); [lia|].
    destruct (IH s1 (all ++ [RWrite (wl_lsn s1) l])) as (s2 & I1 & I2 & I3).
    + econstructor; eauto. lia.
    + auto.
    + intros Eo. specialize (Hst Eo). inversion Hst; auto.
    + lia.
    + exists s2. cbn [map wal_run wal_step]. rewrite E. cbn [bind fst]. split; [auto|]. split; [|cbn [length]; lia].
      rewrite <- app_assoc in I2. cbn [app numbered] in *. rewrite El in I2. auto.
Qed.

Lemma last_lsn on s all : plain_hist on s all -> wl_lsn s = last (map rec_lsn all) 0.
Proof.
  intros H. destruct (plain_hist_spec _ _ _ H) as (_ & a & Ha & E & _ & [(-> & ->)|(all' & l & ->)]); auto.
  rewrite map_app. cbn [map rec_lsn]. rewrite last_last. auto.
Qed.

Lemma boundary_survives on s all fs id pre rs m dir base ls s1 :
  plain_hist on s all -> wl_lsn s + 2 < 2^64 -> files_short s ->
  wl_files s = fs ++ [(id, flat_map (rec_bytes on) rs)] -> all = pre ++ rs -> (m <= length rs)%nat ->
  wl_files s1 = fs ++ [(id, flat_map (rec_bytes on) (firstn m rs))] -> Permutation dir (wl_list s) ->
  base <= last (map rec_lsn (pre ++ firstn m rs)) 0 ->
  Forall batch_ok ls -> (on = true -> Forall (Forall stable) ls) -> wl_lsn s + N.of_nat (length ls) + 2 < 2^64 ->
  exists s2 s3 new, wal_restart on s1 dir base = Ok s2 /\ wal_run on s2 (map (fun l => OpWrite l None) ls) = Ok s3 /\
    map rec_logged new = map (fun p => LWrite (fst p) (map le_event (snd p)))
      (combine (map (fun i => wl_lsn s2 + N.of_nat i) (seq 1 (length ls))) ls) /\
    (files_short s3 -> wal_read on (wl_files s3) (wl_list s3) = (map rec_logged (pre ++ firstn m rs ++ new), Ok tt)).
Proof.
  intros H Hn Hs Hf Ea Hm Hf1 Hp Hb Hls Hst Hn2.
  destruct (cut_hist on s all H fs id _ pre rs m Hf Ea eq_refl Hm) as (s2 & H2 & F2 & L2 & N2).
  assert (Hs2 : files_short s2).
  { unfold files_short in *. rewrite F2. rewrite Hf in Hs. apply Forall_app in Hs. destruct Hs as (Hs1 & Hs2).
    apply Forall_app. split; auto. inversion Hs2; subst. constructor; [|constructor]. cbn [snd] in *.
    rewrite <- (firstn_skipn m rs) in H3 at 1. rewrite flat_map_app, app_length in H3. lia. }
  rewrite (restart_files on s1 s2 dir base (eq_trans Hf1 (eq_sym F2))).
  rewrite (plain_restart on s2 _ dir base H2); auto; [|lia|rewrite L2; auto|rewrite (last_lsn on s2 _ H2); auto].
  destruct (write_all on ls s2 _ H2 Hls Hst) as (s3 & R & H3 & N3); [lia|].
  exists s2, s3, (numbered (wl_lsn s2) ls). split; [auto|split; [auto|split]].
  - clear. generalize (wl_lsn s2) as n. induction ls as [|l ls IH]; intros n; auto. cbn [numbered length seq map combine].
    cbn [rec_logged fst snd]. f_equal. rewrite (IH (n + 1)). rewrite <- (seq_shift (length ls) 1), map_map. do 2 f_equal.
    apply map_ext. intros i. lia.
  - intros Hs3. rewrite app_assoc. apply read_all; auto. lia.
Qed.

(* ---------------------------------------------------------------- *)
(* C24 *)
Definition keyless (e : event) : Prop := ev_key e = [].
Lemma heap_stable l : forall mem, Forall keyless (removelast l) -> Forall stable (heap_batch mem l).
Proof.
  induction l as [|e l IH]; intros mem H; [constructor|]. cbn [heap_batch]. constructor.
  - unfold stable. cbn [le_event le_added le_written]. destruct l as [|e2 l].
    + reflexivity.
    + cbn [removelast] in H. inversion H; subst. rewrite H2. reflexivity.
  - apply IH. destruct l; [constructor|]. cbn [removelast] in H. inversion H; auto.
Qed.
Lemma heap_events l : forall mem, map le_event (heap_batch mem l) = l.
Proof. induction l; intros; cbn [heap_batch map]; [auto|]. rewrite IHl. auto. Qed.

Lemma heap_accepted mem l lsn : batch_ok (heap_batch mem l) -> lsn < 2^64 -> Forall keyless (removelast l) ->
  exists w body, wal_file_pread true (log_record true lsn (heap_batch mem l)) 0 = Ok (Some (w, body)) /\
    lw_lsn w = lsn /\ log_decode w body = Ok (LWrite lsn l).
Proof.
  intros Hb Hn Hk. destruct (rec_framed true (RWrite lsn (heap_batch mem l))) as (w & body & Hf & Hd & Hl).
  { split; [auto|split; [auto|]]. intros _. apply heap_stable; auto. }
  exists w, body. split; [|split; [exact Hl|]].
  - pose proof (read_record true [] _ [] w body Hf) as H. cbn [app length] in H. rewrite app_nil_r in H. exact H.
  - rewrite Hd. cbn [rec_logged]. rewrite heap_events. auto.
Qed.

(* C23: writes behind a cut record *)
Lemma record_length on n l : batch_ok l -> N.of_nat (length (log_record on n l)) = 21 + batch_size l.
Proof.
  intros (Hn & Hl & _). unfold log_record. destruct l as [|x l]; [tauto|]. rewrite app_length, lwrite_length.
  pose proof (batch_size_len (x :: l) Hl). unfold image_w in *. lia.
Qed.

Lemma file_of_last fs id (b : list byte) : ~ In id (map fst fs) -> file_of id (fs ++ [(id, b)]) = Some b.
Proof.
  induction fs as [|[i x] fs IH]; cbn; intros H; [rewrite N.eqb_refl; auto|].
  destruct (i =? id) eqn:E; [apply N.eqb_eq in E; tauto|]. apply IH. tauto.
Qed.
Lemma file_put_end fs id (b b2 : list byte) : ~ In id (map fst fs) -> file_put id b2 (fs ++ [(id, b)]) = fs ++ [(id, b2)].
Proof.
  induction fs as [|[i x] fs IH]; cbn; intros H; [rewrite N.eqb_refl; auto|].
  destruct (i =? id) eqn:E; [apply N.eqb_eq in E; tauto|]. f_equal. apply IH. tauto.
Qed.

Lemma run_behind on fs id li : ~ In id (map fst fs) -> forall ls b n, Forall batch_ok ls ->
  exists s new, wal_run on (mk_wal (fs ++ [(id, b)]) li (Some (id, N.of_nat (length b))) n) (map (fun l => OpWrite l None) ls) = Ok s /\
    wl_files s = fs ++ [(id, b ++ new)] /\ wl_list s = li /\ N.of_nat (length new) = batches_size ls.
Proof.
  intros Hi. induction ls as [|l ls IH]; intros b n Hb.
  - eexists; exists []. cbn [map wal_run]. split; [reflexivity|]. cbn [wl_files wl_list]. rewrite app_nil_r. auto.
  - inversion Hb; subst. cbn [map wal_run wal_step]. unfold wal_write, wal_file_append. cbn [wl_current wl_files wl_lsn wl_list].
    rewrite file_of_last by auto. cbn [bind fst wl_files wl_list wl_current]. rewrite Nat2N.id, overwrite_end, file_put_end by auto.
    set (q := log_record on (w64 (n + 1)) l).
    replace (N.of_nat (length b) + N.of_nat (length q)) with (N.of_nat (length (b ++ q))) by (rewrite app_length; lia).
    destruct (IH (b ++ q) (w64 (n + 1)) H2) as (s & new & E1 & E2 & E3 & E4).
    exists s, (q ++ new). split; [exact E1|]. rewrite <- app_assoc in E2. split; [auto|split; [auto|]].
    rewrite app_length. cbn [batches_size fold_right]. fold (batches_size ls). pose proof (record_length on (w64 (n + 1)) l H1).
    fold q in H. lia.
Qed.

Lemma torn_loses on s all fs id pre rs r post t dir base ls s1 :
  plain_hist on s all -> wl_lsn s + 2 < 2^64 -> files_short s ->
  wl_files s = fs ++ [(id, flat_map (rec_bytes on) (rs ++ r :: post))] -> all = pre ++ rs ++ r :: post ->
  (21 <= t < length (rec_bytes on r))%nat ->
  wl_files s1 = fs ++ [(id, flat_map (rec_bytes on) rs ++ firstn t (rec_bytes on r))] -> Permutation dir (wl_list s) ->
  Forall batch_ok ls -> batches_size ls < N.of_nat (length (rec_bytes on r) - t) ->
  exists s2 s3, wal_restart on s1 dir base = Ok s2 /\ wal_run on s2 (map (fun l => OpWrite l None) ls) = Ok s3 /\
    wal_read on (wl_files s3) (wl_list s3) = (map rec_logged (pre ++ rs), Ok tt).
Proof.
  intros H Hn Hs Hf Ea Ht Hf1 Hp Hls Hnew.
  destruct (plain_hist_spec _ _ _ H) as (_ & a & Ha & Ear & _).
  pose proof (short_files _ _ _ Ha Hs) as Hsh. pose proof (holds_ids _ _ _ Ha (u64_step _ Hn)) as Hu.
  destruct Ha as [F1 F2 (a1 & id0 & rs0 & Ea0 & Hc) Hr Ho _ _]. subst a.
  rewrite F1 in Hf. unfold log_files in Hf. rewrite map_app in Hf. apply snoc_eq in Hf. destruct Hf as (Hfs & Hf).
  cbn [fst snd] in Hf. injection Hf as Hid Hrs. subst id0.
  change (map _ a1) with (log_files on a1) in Hfs. subst fs.
  assert (Hrok : Forall (rec_ok on) (rs ++ r :: post)).
  { rewrite <- Ear, Ea in Hr. apply Forall_app in Hr. tauto. }
  (* the two ways to split the log agree *)
  assert (Ers : rs0 = rs ++ r :: post /\ log_recs a1 = pre).
  { rewrite log_recs_app in Ear. unfold log_recs at 2 in Ear. cbn [flat_map snd] in Ear. rewrite app_nil_r in Ear.
    rewrite Ear in Ea. rewrite log_recs_app in Hr. apply Forall_app in Hr. destruct Hr as (_ & Hr).
    unfold log_recs in Hr; cbn [flat_map snd] in Hr. rewrite app_nil_r in Hr.
    clear - Ea Hrs Hrok Hr. set (q := rs ++ r :: post) in *. clearbody q. revert q Hrs Hrok Ea Hr.
    induction rs0 as [|x rs0 IH] using rev_ind; intros q Hrs Hrok Ea Hr.
    - destruct q as [|y q]; [rewrite !app_nil_r in Ea; auto|]. exfalso. cbn [flat_map] in Hrs. symmetry in Hrs.
      apply app_eq_nil in Hrs. inversion Hrok; subst. apply (rec_bytes_ne on y); tauto.
    - destruct q as [|z q2] using rev_ind.
      + exfalso. apply Forall_app in Hr. destruct Hr as (_ & Hr). inversion Hr; subst. rewrite flat_map_app in Hrs.
        apply app_eq_nil in Hrs. destruct Hrs as (_ & Hrs). cbn [flat_map] in Hrs. rewrite app_nil_r in Hrs.
        exact (rec_bytes_ne on x H1 Hrs).
      + clear IHq2. rewrite !app_assoc in Ea. apply snoc_eq in Ea. destruct Ea as (Ea & ->).
        rewrite !flat_map_app in Hrs. apply app_inv_tail in Hrs. apply Forall_app in Hrok. apply Forall_app in Hr.
        destruct (IH q2 Hrs (proj1 Hrok) Ea (proj1 Hr)) as (-> & E2). auto. }
  destruct Ers as (-> & Epre).
  unfold log_ids in Hu, Ho, F2. rewrite map_app in Hu. cbn [map fst] in Hu.
  assert (Hi : increasing (log_ids a1 ++ [id])).
  { destruct Ho as (Ho & _). unfold log_ids in *. rewrite map_app in Ho. auto. }
  rewrite map_app in F2. cbn [map fst] in F2. change (map fst a1) with (log_ids a1) in *.
  rewrite log_recs_app in Hr. apply Forall_app in Hr. destruct Hr as (Hr1 & _).
  unfold short in Hsh. apply Forall_app in Hsh. destruct Hsh as (Hs1 & Hs2). inversion Hs2 as [|? ? Hs3 _]; subst. cbn [snd] in Hs3.
  rewrite flat_map_app in Hs3. cbn [flat_map] in Hs3. rewrite !app_length in Hs3.
  apply Forall_app in Hrok. destruct Hrok as (Hrs1 & Hrs2). inversion Hrs2 as [|? ? Hrr _]; subst.
  set (b := flat_map (rec_bytes on) rs ++ firstn t (rec_bytes on r)) in *.
  assert (Hlen : length (firstn t (rec_bytes on r)) = t) by (rewrite firstn_length; lia).
  assert (Hrd : forall more, (length more < length (rec_bytes on r) - t)%nat ->
     wal_read on (log_files on a1 ++ [(id, b ++ more)]) (log_ids a1 ++ [id]) = (map rec_logged (log_recs a1 ++ rs), Ok tt)).
  { intros more Hm. unfold b. rewrite <- app_assoc. apply read_tail; auto.
    - eapply torn_behind with (r := r) (rest := skipn t (rec_bytes on r)); auto.
      + rewrite firstn_skipn. auto.
      + lia.
      + rewrite skipn_length. auto.
      + lia.
    - rewrite !app_length. lia. }
  assert (Hni : ~ In id (map fst (log_files on a1))).
  { unfold log_files. rewrite map_map. cbn [fst]. change (map (fun x => fst x) a1) with (log_ids a1). intros Hx.
    apply increasing_app in Hi. destruct Hi as (_ & _ & Hi). specialize (Hi id id Hx (or_introl eq_refl)). lia. }
  assert (Hre : exists n, wal_restart on s1 dir base =
     Ok (mk_wal (log_files on a1 ++ [(id, b)]) (log_ids a1 ++ [id]) (Some (id, N.of_nat (length b))) n)).
  { unfold wal_restart, wal_open. rewrite (recover_perm dir (log_ids a1 ++ [id])); [|auto|rewrite <- F2; auto].
    destruct (log_ids a1 ++ [id]) eqn:El; [destruct (log_ids a1); discriminate|]. rewrite <- El in *.
    replace (wal_id_max (log_ids a1 ++ [id])) with id by (unfold wal_id_max; rewrite last_last; auto).
    rewrite Hf1. match goal with |- context [file_of id ?f] =>
      replace (file_of id f) with (Some b) by (symmetry; apply (file_of_last (log_files on a1) id b); auto) end.
    cbv beta iota delta [bind wl_files wl_list wl_current wl_lsn].
    pose proof (Hrd []) as Hrd0. rewrite app_nil_r in Hrd0. specialize (Hrd0 ltac:(cbn; lia)).
    match goal with |- context [wal_read on ?f ?l] =>
      replace (wal_read on f l) with (map rec_logged (log_recs a1 ++ rs), Ok tt) by (symmetry; exact Hrd0) end.
    cbn [bind]. eexists. reflexivity. }
  destruct Hre as (n & Hre). rewrite Hre.
  destruct (run_behind on (log_files on a1) id (log_ids a1 ++ [id]) Hni ls b n Hls) as (s3 & new & R1 & R2 & R3 & R4).
  eexists; exists s3. split; [reflexivity|split; [exact R1|]]. rewrite R2, R3. apply Hrd. lia.
Qed.
