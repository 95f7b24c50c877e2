(* Writing a batch, rollback and commit. *)
From Coq Require Import NArith ZArith List Bool Sorted Lia Arith Permutation.
Import ListNotations.
From Verif Require Import Model.Base Model.Event Model.Rbtree Model.Memtable Model.Mapping Model.Merge
  Model.PartIter Model.Scan Model.Engine Spec.Order Spec.Merged Spec.Files Spec.Layout Spec.View
  Spec.Engine Proof.OrderL Proof.RbtreeL Proof.MemtableL Proof.MemtableL2 Proof.MergeL
  Proof.MappingL Proof.MappingP Proof.ScanL Proof.EngineL.
Local Arguments N.pow : simpl never.
Local Arguments N.add : simpl never.
Local Arguments N.sub : simpl never.
Local Arguments engine_lock : simpl never.
Local Arguments memtable_set : simpl never.
Local Arguments memtable_unset : simpl never.
Implicit Types (s : slice part) (m : mapping part).

Lemma lookup_part p k : part_look p k =
  match lookup (mt_events (pt_mem p)) k with
  | Some e => Some e
  | None => match lookup (mt_events (pt_prev p)) k with
            | Some e => Some e
            | None => lookup (match pt_file p with Some f => concat f | None => [] end) k
            end
  end.
Proof.
  unfold part_look, contents. cbn [concat]. rewrite app_nil_r, !lookup_app. auto.
Qed.

Lemma with_mem_look p t k : part_look (with_mem p t) k =
  match lookup (mt_events t) k with
  | Some e => Some e
  | None => match lookup (mt_events (pt_prev p)) k with
            | Some e => Some e
            | None => lookup (match pt_file p with Some f => concat f | None => [] end) k
            end
  end.
Proof. rewrite lookup_part. reflexivity. Qed.

Lemma upsert_part_look p t e k : ascending (mt_events (pt_mem p)) ->
  mt_events t = upsert e (mt_events (pt_mem p)) ->
  part_look (with_mem p t) k = if same_keyb k e then Some e else part_look p k.
Proof.
  intros Ha Ht. rewrite with_mem_look, Ht, lookup_upsert by auto.
  destruct (same_keyb k e); auto. rewrite lookup_part. auto.
Qed.

Lemma sfine_with_mem lo s t : sfine lo s -> tab lo t -> ids_in (range_of s) (mt_events t) ->
  sfine lo (mk_slice (s_min s) (s_max s) (with_mem (s_data s) t)).
Proof.
  intros [H1 H2 H3 H4] Ht Hi. constructor; simpl; auto.
  unfold ids_in in *. unfold contents in *. cbn [concat] in *.
  rewrite !Forall_app in *. simpl. intuition.
Qed.

Lemma sfine_mem_ids lo s : sfine lo s -> ids_in (range_of s) (mt_events (pt_mem (s_data s))).
Proof.
  intros [_ _ _ H]. unfold ids_in, contents in *. cbn [concat] in H. rewrite Forall_app in H. tauto.
Qed.

Lemma room_ext m m' n : room m n -> ext m m' -> room m' n.
Proof.
  intros [H1 H2] [_ E]. split; auto. intros t Ht. destruct (E t Ht) as [(q & Hq & L)|L].
  - specialize (H2 _ Hq). simpl in H2. destruct L as (L & _). rewrite <- L. auto.
  - destruct L as (L & _). rewrite <- L. simpl. auto.
Qed.

(* the event with the id it gets *)
Definition numbered (en : engine) (ssn : N) (e : event) : event :=
  if (en_serial en && (ev_id e =? u64_max)%N)%bool
  then mk_event ssn (ev_flags e) (ev_key e) (ev_val e) else e.
Definition ssn_after (en : engine) (ssn : N) (e : event) : N :=
  if (en_serial en && (ev_id e =? u64_max)%N)%bool then w64 (ssn + 1) else ssn.

Lemma assigned_cons en ssn a l : length (ev_key (wa_event a)) <= 255 ->
  assigned (en_serial en) ssn (a :: l) =
  numbered en ssn (wa_event a) :: assigned (en_serial en) (ssn_after en ssn (wa_event a)) l.
Proof.
  intros H. cbn [assigned]. destruct (Nat.ltb_spec 255 (length (ev_key (wa_event a)))); [lia|].
  unfold numbered, ssn_after. destruct (en_serial en && (ev_id (wa_event a) =? u64_max)%N)%bool; auto.
Qed.

Lemma lock_fine lo m en e n : minv lo m -> (0 < en_interval en <= u64_max)%N -> event_fine lo en e ->
  room m n ->
  engine_lock part_new m (en_interval en) (ev_id e) false true = Err \/
  exists m1 z s, engine_lock part_new m (en_interval en) (ev_id e) false true = Ok (m1, Some z) /\
    zelem z = Some s /\ ext m m1 /\ minv lo m1 /\ In s (mapping_list m1) /\
    in_range (ev_id e) (range_of s) /\ room m1 n.
Proof.
  intros I Hiv (Hok & Hwin & Hpg & Hcell) Hroom. pose proof I as [G F].
  destruct (covered_dec m (ev_id e)) as [(s & Hs & Hr)|Hn].
  - right. destruct (lock_found lo m (en_interval en) (ev_id e) true G) as (z & s' & H1 & H2 & H3 & H4).
    { destruct Hwin; lia. } { apply covered_slice; eauto. }
    exists m, z, s'. split; auto. split; auto. split; [apply ext_refl|]. auto.
  - destruct Hcell as [Hc|Hc].
    + right. destruct (lock_spec part_new lo m (en_interval en) (ev_id e) G ltac:(lia) Hc)
        as (m1 & z & s & new & H1 & H2 & H3 & H4 & H5 & H6 & _).
      exists m1, z, s. split; auto. split; auto.
      assert (He : ext m m1) by (eapply perm_ext; eauto).
      split; auto. split; [eapply perm_inv; eauto|].
      split; [eapply zelem_in; eauto|]. split; auto. eapply room_ext; eauto.
    + left. apply (lock_refused lo); auto. destruct Hwin; lia.
Qed.

Lemma write_step lo en w a n :
  minv lo (ws_map w) -> (0 < en_interval en <= u64_max)%N ->
  length (ev_key (wa_event a)) <= 255 -> wa_mem a = MemOk ->
  event_fine lo en (numbered en (ws_ssn w) (wa_event a)) -> room (ws_map w) (S n) ->
  let e := numbered en (ws_ssn w) (wa_event a) in
  let ssn := ssn_after en (ws_ssn w) (wa_event a) in
  write_event en w a = Ok (mk_wstate (ws_map w) ssn (log_add :: ws_log w), false) \/
  exists m1 s t, ext (ws_map w) m1 /\ minv lo m1 /\ In s (mapping_list m1) /\
    in_range (ev_id e) (range_of s) /\ room m1 (S n) /\
    tab lo t /\ mt_events t = upsert e (mt_events (pt_mem (s_data s))) /\
    mt_lsn_min t = mt_lsn_min (pt_mem (s_data s)) /\ mt_lsn_max t = mt_lsn_max (pt_mem (s_data s)) /\
    write_event en w a =
      Ok (mk_wstate (ref_put m1 (s_min s) (with_mem (s_data s) t)) ssn
            (mk_logop (Some (s_min s)) (Some e) (lookup (mt_events (pt_mem (s_data s))) e) :: ws_log w), true).
Proof.
  intros I Hiv Hkey Hmem Hfine Hroom e ssn.
  unfold write_event. destruct (Nat.ltb_spec 255 (length (ev_key (wa_event a)))); [lia|].
  rewrite (andb_comm (ev_id (wa_event a) =? u64_max)%N).
  fold (numbered en (ws_ssn w) (wa_event a)). fold (ssn_after en (ws_ssn w) (wa_event a)).
  fold e. fold ssn.
  destruct (lock_fine lo (ws_map w) en e (S n) I Hiv Hfine Hroom) as [->|(m1 & z & s & -> & Hz & He & I1 & Hs & Hr & Hroom1)].
  { left. reflexivity. }
  right. exists m1, s. rewrite Hz. destruct Hfine as (Hok & Hwin & Hpg & _). fold e in Hpg, Hok, Hwin.
  destruct (N.ltb_spec (en_page en) (N.of_nat (14 + length (ev_key e) + length (ev_val e)))); [lia|].
  rewrite Hmem. pose proof I1 as [G1 F1]. rewrite Forall_forall in F1. pose proof (F1 s Hs) as Fs.
  destruct (sf_mem _ _ Fs) as [T1 T2 T3 T4].
  assert (Hlen : length (mt_events (pt_mem (s_data s))) < MEMTABLE_PAGE).
  { destruct Hroom1 as [_ Hrm]. specialize (Hrm s Hs). lia. }
  destruct (set_single lo (pt_mem (s_data s)) _ e T1 T2 T3) as (t & Hset & Hsg & Hsz).
  { split; auto. } { rewrite T4. apply page_pos. } { left. rewrite T4. auto. }
  rewrite Hset. cbn [bind].
  destruct Hsz as (Z1 & Z2 & Z3 & Z4).
  destruct (tab_of lo t _ Hsg) as [Ht Hev].
  { apply upsert_ascending; auto. } { apply upsert_forall; auto. split; auto. } { congruence. }
  exists t. do 5 (split; [assumption|]). split; auto.
Qed.

(* undo of one write, after the later ones have been undone *)
Lemma ext_put lo m1 s p m' q q2 : good_map lo m1 -> good_map lo m' -> In s (mapping_list m1) ->
  ext (ref_put m1 (s_min s) p) m' -> In (mk_slice (s_min s) (s_max s) q) (mapping_list m') ->
  like (s_data s) q2 -> ext m1 (ref_put m' (s_min s) q2).
Proof.
  intros G1 G' Hs [E1 E2] Hq L.
  assert (Hput : forall t, In t (mapping_list (ref_put m' (s_min s) q2)) <->
     t = mk_slice (s_min s) (s_max s) q2 \/ (In t (mapping_list m') /\ t <> mk_slice (s_min s) (s_max s) q)).
  { intros t. exact (put_in lo m' _ q2 t G' Hq). }
  split.
  - intros u Hu. destruct (N.eq_dec (s_min u) (s_min s)) as [E|E].
    + rewrite (min_unique lo m1 u s) by auto. exists q2. split; auto. apply Hput. auto.
    + destruct (E1 u) as (q' & Hq' & L').
      { apply (put_in lo); auto. right. split; auto. congruence. }
      exists q'. split; auto. apply Hput. right. split; auto. intros X. inversion X. congruence.
  - intros t Ht. apply Hput in Ht as [->|[Ht Hne]].
    + left. simpl. exists (s_data s). rewrite slice_eta. auto.
    + destruct (E2 t Ht) as [(q' & Hq' & L')|L']; auto. left.
      apply (put_in lo) in Hq'; auto. destruct Hq' as [X|[Hq' _]]; eauto.
      exfalso. apply Hne. apply (min_unique lo m'); auto. simpl. inversion X. auto.
Qed.

Lemma good_len t : 0 < mt_size_page t -> forall l, single t l -> length l <= mt_size_page t.
Proof. intros _ l H. apply single_len; auto. Qed.

Lemma undo_step lo m1 s t e m' : minv lo m1 -> minv lo m' -> In s (mapping_list m1) ->
  good lo e -> in_range (ev_id e) (range_of s) ->
  mt_events t = upsert e (mt_events (pt_mem (s_data s))) ->
  mt_lsn_min t = mt_lsn_min (pt_mem (s_data s)) -> mt_lsn_max t = mt_lsn_max (pt_mem (s_data s)) ->
  ext (ref_put m1 (s_min s) (with_mem (s_data s) t)) m' ->
  exists m'', undo_op m' (mk_logop (Some (s_min s)) (Some e) (lookup (mt_events (pt_mem (s_data s))) e)) = Ok m'' /\
    minv lo m'' /\ ext m1 m''.
Proof.
  intros I1 I' Hs He Hr Hev Hl1 Hl2 HE. pose proof I1 as [G1 F1]. pose proof I' as [G' F'].
  rewrite Forall_forall in F1, F'. pose proof (F1 s Hs) as Fs.
  destruct (sf_mem _ _ Fs) as [T1 T2 T3 T4].
  destruct (proj1 HE (mk_slice (s_min s) (s_max s) (with_mem (s_data s) t))) as (q & Hq & L).
  { apply (put_in lo); auto. }
  cbn [s_min s_max s_data] in *.
  unfold undo_op. cbn [lo_ref lo_prev lo_event].
  pose proof (ref_get lo m' _ G' Hq) as Hg. cbn [s_min s_data] in Hg. rewrite Hg. cbn [bind].
  pose proof (F' _ Hq) as Fq. destruct (sf_mem _ _ Fq) as [Q1 Q2 Q3 Q4]. cbn [s_data] in *.
  destruct L as (L1 & L2 & L3 & L4 & L5 & L6). cbn [with_mem pt_mem pt_prev pt_file pt_lsn] in *.
  assert (Hqe : mt_events (pt_mem q) = upsert e (mt_events (pt_mem (s_data s)))) by congruence.
  assert (Hfin : forall t2, single t2 (mt_events (pt_mem (s_data s))) -> same_sizes (pt_mem q) t2 ->
     minv lo (ref_put m' (s_min s) (with_mem q t2)) /\ ext m1 (ref_put m' (s_min s) (with_mem q t2))).
  { intros t2 Hsg (Z1 & Z2 & Z3 & Z4).
    destruct (tab_of lo t2 _ Hsg T2 T3) as [Ht2 He2]; [congruence|]. split.
    - apply (put_inv lo m' (mk_slice (s_min s) (s_max s) q)); auto.
      apply (sfine_with_mem lo (mk_slice (s_min s) (s_max s) q)); auto.
      rewrite He2. apply (sfine_mem_ids lo s Fs).
    - eapply (ext_put lo); eauto. unfold like. cbn [with_mem pt_mem pt_prev pt_file pt_lsn].
      rewrite He2. repeat split; congruence. }
  destruct (lookup (mt_events (pt_mem (s_data s))) e) as [pv|] eqn:El.
  - destruct (set_single lo (pt_mem q) _ pv Q1 Q2 Q3) as (t2 & Hset & Hsg & Hsz).
    { exact (lookup_good lo _ e pv T3 El). } { rewrite Q4. apply page_pos. }
    { right. rewrite Hqe, lookup_upsert by auto. destruct (lookup_in _ _ _ El) as [_ Hk].
      apply same_keyb_true in Hk. rewrite same_keyb_sym in Hk. rewrite Hk. discriminate. }
    rewrite Hset. cbn [bind fst]. eexists. split; [reflexivity|]. apply Hfin; auto.
    rewrite Hqe in Hsg. rewrite (upsert_restore e pv) in Hsg; auto.
  - destruct (unset_single lo (pt_mem q) _ e Q1 Q2 Q3 He) as (t2 & Hset & Hsg & Hsz).
    { rewrite Hqe. intros X. pose proof (upsert_length e (mt_events (pt_mem (s_data s))) T2) as Y.
      rewrite El, X in Y. discriminate. }
    rewrite Hset. cbn [bind]. eexists. split; [reflexivity|]. apply Hfin; auto.
    rewrite Hqe in Hsg. rewrite (delete_restore e) in Hsg; auto.
Qed.

Lemma undo_app m l o : undo_ops m (l ++ [o]) = bind (undo_ops m l) (fun m => undo_op m o).
Proof.
  revert m. induction l as [|a l IH]; intros m; simpl.
  - destruct (undo_op m o); auto.
  - destruct (undo_op m a); simpl; auto.
Qed.

(* references of the log entries *)
Definition refs_ok m (l : list logop) : Prop :=
  Forall (fun o => exists r e, lo_ref o = Some r /\ lo_event o = Some e /\
    exists s, In s (mapping_list m) /\ s_min s = r /\ in_range (ev_id e) (range_of s)) l.

Lemma refs_mono m m' l : incl (ranges m) (ranges m') -> refs_ok m l -> refs_ok m' l.
Proof.
  intros Hi. unfold refs_ok. apply Forall_impl. intros o (r & e & H1 & H2 & s & Hs & H3 & H4).
  exists r, e. split; auto. split; auto.
  assert (Hin : In (range_of s) (ranges m')) by (apply Hi, in_map; auto).
  apply in_map_iff in Hin as (s' & E & Hs'). exists s'. split; auto.
  unfold range_of in E. inversion E. rewrite H0. split; auto. unfold in_range, range_of in *. simpl in *. lia.
Qed.

Lemma ext_ranges m m' : ext m m' -> incl (ranges m) (ranges m').
Proof.
  intros [E _] r Hr. apply in_map_iff in Hr as (s & <- & Hs). destruct (E s Hs) as (q & Hq & _).
  apply in_map_iff. eexists; split; [|exact Hq]. auto.
Qed.

Lemma log_written_app a b : log_written (a ++ b) = log_written b ++ log_written a.
Proof. unfold log_written. rewrite rev_app_distr, flat_map_app. auto. Qed.

Definition over (h : list event) (f : event -> option event) (k : event) : option event :=
  match last_write h k with Some e => Some e | None => f k end.

Lemma over_cons e h f k : over (e :: h) f k = over h (fun k => if same_keyb k e then Some e else f k) k.
Proof.
  unfold over, last_write. cbn [rev]. rewrite find_app.
  destruct (find (same_keyb k) (rev h)); auto. simpl. destruct (same_keyb k e); auto.
Qed.

Lemma loop_spec lo en : (0 < en_interval en <= u64_max)%N ->
  forall l w, minv lo (ws_map w) -> Forall (fun a => wa_mem a = MemOk) l ->
  Forall (event_fine lo en) (assigned (en_serial en) (ws_ssn w) l) ->
  room (ws_map w) (length l) ->
  exists w' ok log', write_loop en w l = Ok (w', ok) /\ minv lo (ws_map w') /\
    ws_log w' = log' ++ ws_log w /\
    (exists m'', undo_ops (ws_map w') log' = Ok m'' /\ minv lo m'' /\ ext (ws_map w) m'') /\
    incl (ranges (ws_map w)) (ranges (ws_map w')) /\
    (ok = true -> log_written log' = assigned (en_serial en) (ws_ssn w) l /\
       ws_ssn w' = next_ssn (en_serial en) (ws_ssn w) l /\
       length (assigned (en_serial en) (ws_ssn w) l) = length l /\
       (forall k, look (ws_map w') k = over (assigned (en_serial en) (ws_ssn w) l) (look (ws_map w)) k) /\
       refs_ok (ws_map w') log') /\
    (log' = [] -> match l with [] => True | a :: _ => 255 < length (ev_key (wa_event a)) end).
Proof.
  intros Hiv. induction l as [|a l IH]; intros w I Hm Hf Hroom.
  - exists w, true, []. split; [reflexivity|]. split; auto. split; auto.
    split; [exists (ws_map w); split; [reflexivity|]; split; auto; apply ext_refl|].
    split; [apply incl_refl|]. split; auto.
    intros _. repeat (split; auto). constructor.
  - inversion Hm; subst. cbn [write_loop length] in *.
    destruct (Nat.ltb_spec 255 (length (ev_key (wa_event a)))) as [Hbig|Hsmall].
    { exists w, false, []. unfold write_event.
      destruct (Nat.ltb_spec 255 (length (ev_key (wa_event a)))); [|lia]. cbn [bind].
      split; [reflexivity|]. split; auto. split; auto.
      split; [exists (ws_map w); split; [reflexivity|]; split; auto; apply ext_refl|].
      split; [apply incl_refl|]. split; [discriminate|]. auto. }
    rewrite assigned_cons in Hf by auto. inversion Hf; subst.
    destruct (write_step lo en w a (length l) I Hiv Hsmall H1 H3 Hroom) as [->|Hstep].
    { cbn [bind]. eexists _, false, [log_add]. split; [reflexivity|]. cbn [ws_map ws_log].
      split; auto. split; auto.
      split; [exists (ws_map w); split; [reflexivity|]; split; auto; apply ext_refl|].
      split; [apply incl_refl|]. split; [discriminate|]. discriminate. }
    destruct Hstep as (m1 & s & t & HE & I1 & Hs & Hr & Hrm & Ht & Hev & Hl1 & Hl2 & ->). cbn [bind].
    set (e := numbered en (ws_ssn w) (wa_event a)) in *.
    set (ssn := ssn_after en (ws_ssn w) (wa_event a)) in *.
    pose proof I1 as [G1 F1]. rewrite Forall_forall in F1. pose proof (F1 s Hs) as Fs.
    assert (Hge : good lo e) by (destruct H3 as (Ha & Hb & _); split; auto).
    assert (Fs' : sfine lo (mk_slice (s_min s) (s_max s) (with_mem (s_data s) t))).
    { apply sfine_with_mem; auto. rewrite Hev. apply upsert_forall; auto. apply (sfine_mem_ids lo s Fs). }
    set (m2 := ref_put m1 (s_min s) (with_mem (s_data s) t)).
    assert (I2 : minv lo m2) by (apply put_inv; auto).
    assert (Hroom2 : room m2 (length l)).
    { destruct Hrm as [R1 R2]. split; [lia|]. intros u Hu. apply (put_in lo) in Hu; auto.
      destruct Hu as [->|[Hu _]]; [|specialize (R2 u Hu); lia].
      simpl. rewrite Hev, upsert_length by (apply (sf_mem _ _ Fs)). specialize (R2 s Hs).
      destruct (lookup _ _); lia. }
    destruct (IH (mk_wstate m2 ssn (mk_logop (Some (s_min s)) (Some e)
        (lookup (mt_events (pt_mem (s_data s))) e) :: ws_log w)) I2 H2 H4 Hroom2)
      as (w' & ok & log' & J1 & J2 & J3 & (m'' & J4 & J5 & J6) & J7 & J8 & J9). cbn [ws_map ws_ssn ws_log] in *.
    set (o := mk_logop (Some (s_min s)) (Some e) (lookup (mt_events (pt_mem (s_data s))) e)) in *.
    exists w', ok, (log' ++ [o]). split; [exact J1|]. split; auto.
    split; [rewrite J3, <- app_assoc; auto|].
    assert (Hinc : incl (ranges (ws_map w)) (ranges (ws_map w'))).
    { eapply incl_tran; [apply ext_ranges; exact HE|]. unfold m2 in J7. rewrite put_ranges in J7. auto. }
    split; [|split; [exact Hinc|split]].
    + destruct (undo_step lo m1 s t e m'' I1 J5 Hs Hge Hr Hev Hl1 Hl2 J6) as (m3 & U1 & U2 & U3).
      exists m3. rewrite undo_app, J4. cbn [bind]. split; auto. split; auto.
      eapply ext_trans; eauto.
    + intros Hok. destruct (J8 Hok) as (K1 & K2 & K3 & K4 & K5).
      rewrite assigned_cons by auto. fold e ssn.
      split; [rewrite log_written_app, K1; reflexivity|].
      split; [rewrite K2; reflexivity|]. split; [simpl; rewrite K3; auto|]. split.
      * intros k. rewrite K4, over_cons. unfold over. destruct (last_write _ k); auto.
        unfold m2. rewrite (put_look lo) by auto.
        rewrite (upsert_part_look _ t e) by (auto; apply (sf_mem _ _ Fs)).
        rewrite <- (ext_look lo (ws_map w) m1 k I I1 HE).
        destruct (slice_in s (ev_id k)) eqn:Es.
        -- apply in_slice in Es. rewrite (look_at lo m1 s k I1 Hs Es). auto.
        -- destruct (same_keyb k e) eqn:Ek; auto. apply same_keyb_true in Ek as [Ek _].
           rewrite Ek in Es. apply in_slice in Hr. congruence.
      * apply Forall_app. split; auto. constructor; [|constructor].
        exists (s_min s), e. split; [reflexivity|]. split; [reflexivity|].
        assert (Hin : In (range_of s) (ranges (ws_map w'))).
        { apply J7. unfold m2. rewrite put_ranges. apply in_map; auto. }
        apply in_map_iff in Hin as (s' & E & Hs'). exists s'. split; auto.
        unfold range_of in E. inversion E. split; auto.
        unfold in_range, range_of in *. simpl in *. lia.
    + intros X. destruct log'; discriminate.
Qed.

(* --- commit --- *)
Definition has_ref (l : list logop) s : bool :=
  existsb (fun o => match lo_ref o with Some r => (s_min s =? r)%N | None => false end) l.
Definition followed (lsn : N) (l : list logop) s : slice part :=
  if has_ref l s
  then mk_slice (s_min s) (s_max s) (with_mem (s_data s) (memtable_follow (pt_mem (s_data s)) lsn))
  else s.

Lemma follow_twice t lsn : memtable_follow (memtable_follow t lsn) lsn = memtable_follow t lsn.
Proof.
  unfold memtable_follow. cbn [mt_tree mt_size_page mt_size_split mt_count_pages mt_count mt_lsn_min mt_lsn_max mt_next_page].
  f_equal; lia.
Qed.

Lemma follow_tab lo t lsn : tab lo t -> tab lo (memtable_follow t lsn).
Proof.
  intros [T1 T2 T3 T4].
  assert (E : mt_events (memtable_follow t lsn) = mt_events t) by reflexivity.
  constructor; try rewrite E; auto. inversion T1.
  - apply single_empty; auto.
  - eapply single_page; eauto.
Qed.

Lemma commit_spec lo lsn : forall l m, minv lo m -> refs_ok m l ->
  exists m', engine_commit m lsn l = Ok m' /\ minv lo m' /\
    mapping_list m' = map (followed lsn l) (mapping_list m).
Proof.
  induction l as [|o l IH]; intros m I Hr.
  - exists m. split; auto. split; auto. rewrite <- map_id at 1. apply map_ext. intros; reflexivity.
  - inversion Hr; subst. destruct H1 as (r & e & E1 & E2 & s & Hs & E3 & E4). subst r.
    cbn [engine_commit]. rewrite E1. pose proof I as [G F]. rewrite Forall_forall in F.
    rewrite (ref_get lo m s G Hs). cbn [bind].
    set (p := with_mem (s_data s) (memtable_follow (pt_mem (s_data s)) lsn)).
    assert (I' : minv lo (ref_put m (s_min s) p)).
    { apply put_inv; auto. apply sfine_with_mem; auto; [apply follow_tab; apply (sf_mem _ _ (F s Hs))|].
      apply (sfine_mem_ids lo s (F s Hs)). }
    destruct (IH _ I') as (m' & J1 & J2 & J3).
    { eapply refs_mono; [|exact H2]. rewrite put_ranges. apply incl_refl. }
    exists m'. split; auto. split; auto. rewrite J3, put_list, map_map.
    apply map_ext_in. intros u Hu. unfold followed, has_ref, putf. cbn [existsb]. rewrite E1.
    destruct (N.eqb_spec (s_min u) (s_min s)) as [E|E].
    + rewrite (min_unique lo m u s) in * by auto. cbn [s_min s_max s_data orb].
      destruct (existsb _ l) eqn:Ex; auto. unfold p. cbn [with_mem pt_mem pt_prev pt_file pt_lsn].
      rewrite follow_twice. auto.
    + cbn [orb]. auto.
Qed.

Lemma followed_range lsn l s : range_of (followed lsn l s) = range_of s.
Proof. unfold followed. destruct (has_ref l s); auto. Qed.
Lemma followed_contents lsn l s : contents (s_data (followed lsn l s)) = contents (s_data s).
Proof. unfold followed. destruct (has_ref l s); auto. Qed.

Lemma followed_look m m' lsn l k : mapping_list m' = map (followed lsn l) (mapping_list m) ->
  look m' k = look m k.
Proof.
  intros H. unfold look, all_events. rewrite H. f_equal. generalize (mapping_list m).
  induction l0 as [|s l0 IH]; auto. cbn [map flat_map]. rewrite followed_contents, IH. auto.
Qed.

(* --- a batch --- *)
Lemma write_spec lo en l logged : minv lo (en_map en) -> (0 < en_interval en <= u64_max)%N ->
  batch_fine lo en l ->
  (exists m, engine_write en l logged =
     Ok (mk_engine m (en_interval en) (en_serial en) (next_ssn (en_serial en) (en_ssn en) l)
           (w64 (en_lsn en + 1)) (en_page en) (en_region en),
         Some (assigned (en_serial en) (en_ssn en) l)) /\
     logged = true /\ minv lo m /\ incl (ranges (en_map en)) (ranges m) /\
     length (assigned (en_serial en) (en_ssn en) l) = length l /\
     forall k, look m k = over (assigned (en_serial en) (en_ssn en) l) (look (en_map en)) k) \/
  (exists m ssn, engine_write en l logged =
     Ok (mk_engine m (en_interval en) (en_serial en) ssn (en_lsn en) (en_page en) (en_region en), None) /\
     minv lo m /\ ext (en_map en) m).
Proof.
  intros I Hiv (Hm & (a & t & El & Hk) & Hf & Hroom).
  destruct (loop_spec lo en Hiv l (mk_wstate (en_map en) (en_ssn en) []) I Hm Hf Hroom)
    as (w' & ok & log' & J1 & J2 & J3 & (m'' & J4 & J5 & J6) & J7 & J8 & J9).
  cbn [ws_map ws_ssn ws_log] in *. rewrite app_nil_r in J3.
  unfold engine_write. rewrite J1. cbn [bind].
  destruct (ok && logged)%bool eqn:Eo.
  - left. apply andb_true_iff in Eo as [-> ->]. destruct (J8 eq_refl) as (K1 & K2 & K3 & K4 & K5).
    destruct (commit_spec lo (w64 (en_lsn en + 1)) (rev (ws_log w')) (ws_map w') J2) as (m & C1 & C2 & C3).
    { rewrite J3. unfold refs_ok. apply Forall_rev. exact K5. }
    exists m. cbn [with_ssn en_lsn]. rewrite C1. cbn [bind]. rewrite J3, K1, <- K2.
    split; [reflexivity|]. split; auto. split; auto. split.
    + intros r Hr. apply J7 in Hr. unfold ranges in *. rewrite C3, map_map.
      apply in_map_iff in Hr as (s & <- & Hs). apply in_map_iff. exists s. split; auto. apply followed_range.
    + split; auto. intros k. rewrite (followed_look _ _ _ _ k C3). apply K4.
  - right. unfold engine_rollback. destruct (ws_log w') as [|o lg] eqn:Elog.
    + rewrite <- J3 in J9. specialize (J9 eq_refl). rewrite El in J9. lia.
    + rewrite J3, J4. cbn [bind]. exists m'', (ws_ssn w'). auto.
Qed.
