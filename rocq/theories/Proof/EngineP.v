(* Statements about the engine. *)
From Coq Require Import NArith ZArith List Bool Sorted Lia Arith Permutation.
Import ListNotations.
From Verif Require Import Model.Base Model.Event Model.Rbtree Model.Memtable Model.Mapping Model.Merge
  Model.PartIter Model.Scan Model.Writer Model.Engine Spec.Order Spec.Merged Spec.Files Spec.Layout
  Spec.Regions Spec.View
  Spec.Engine Proof.OrderL Proof.RbtreeL Proof.MemtableL Proof.MemtableL2 Proof.MergeL Proof.PartIterL
  Proof.WriterL Proof.MappingL Proof.MappingP Proof.MappingX Proof.ScanL Proof.EngineL Proof.EngineW
  Proof.EngineR.
Local Arguments N.pow : simpl never.
Local Arguments N.add : simpl never.
Local Arguments N.sub : simpl never.
Local Arguments engine_lock : simpl never.
Implicit Types (s : slice part) (m : mapping part).

Lemma reached lo iv serial page region ops : limits lo iv ->
  hist_fine lo (engine_new iv serial page region) ops ->
  exists en, erun (engine_new iv serial page region) ops = Ok en /\
    einv lo en (acked (engine_new iv serial page region) ops []).
Proof. intros [H1 H2] Hf. apply (run_spec lo); auto. apply einv_new; auto. Qed.

Lemma reached_en lo iv serial page region ops en : limits lo iv ->
  hist_fine lo (engine_new iv serial page region) ops ->
  erun (engine_new iv serial page region) ops = Ok en ->
  einv lo en (acked (engine_new iv serial page region) ops []).
Proof. intros H1 H2 H3. destruct (reached lo iv serial page region ops H1 H2) as (en' & E & I). congruence. Qed.

Lemma scan_history : forall lo iv serial page region ops, limits lo iv ->
  hist_fine lo (engine_new iv serial page region) ops ->
  exists en, erun (engine_new iv serial page region) ops = Ok en /\
    forall key, start_fine lo key ->
    exists out n, (forall fuel, n < fuel -> monotone_scan fuel (en_map en) key = Ok (Some out)) /\
      ascending out /\
      forall e, In e out <-> current (acked (engine_new iv serial page region) ops []) e /\ from key e.
Proof.
  intros lo iv serial page region ops Hl Hf.
  destruct (reached lo iv serial page region ops Hl Hf) as (en & E & I). exists en. split; auto.
  intros key Hk. destruct (scan_engine lo (en_map en) key) as (out & n & H1 & H2 & H3).
  - apply I.
  - destruct key as [k|]; auto. destruct Hk as (A & B & C). split; [split; auto|].
    intros s _. apply past_keys_keyless; auto.
  - exists out, n. split; auto. split; auto. intros e. rewrite H3.
    fold (parts en). rewrite (visible_current lo en _ e I). tauto.
Qed.

Lemma scan_history_keyed : forall lo iv serial page region ops, limits lo iv ->
  hist_fine lo (engine_new iv serial page region) ops ->
  exists en, erun (engine_new iv serial page region) ops = Ok en /\
    forall k, ev_ok k -> win lo k ->
    (forall p, In p (parts en) -> ~ past_keys (file_events p) k) ->
    exists out n, (forall fuel, n < fuel -> monotone_scan fuel (en_map en) (Some k) = Ok (Some out)) /\
      ascending out /\
      forall e, In e out <-> current (acked (engine_new iv serial page region) ops []) e /\ ev_le k e.
Proof.
  intros lo iv serial page region ops Hl Hf.
  destruct (reached lo iv serial page region ops Hl Hf) as (en & E & I). exists en. split; auto.
  intros k Hk1 Hk2 Hp. destruct (scan_engine lo (en_map en) (Some k)) as (out & n & H1 & H2 & H3).
  - apply I.
  - split; [split; auto|]. intros s Hs. apply (Hp (s_data s)). apply in_map; auto.
  - exists out, n. split; auto. split; auto. intros e. rewrite H3.
    fold (parts en). rewrite (visible_current lo en _ e I). simpl. tauto.
Qed.

Lemma ext_same m m' en : ext m m' -> en_map en = m -> forall en', en_map en' = m' -> same_data en en'.
Proof.
  intros [E1 E2] <- en' <-. split.
  - intros s Hs. destruct (E1 s Hs) as (q & Hq & L). eexists; split; [exact Hq|].
    split; auto. simpl. symmetry. apply like_contents; auto.
  - intros t Ht. destruct (E2 t Ht) as [(q & Hq & L)|L].
    + left. eexists; split; [exact Hq|]. split; auto. simpl. symmetry. apply like_contents; auto.
    + right. rewrite <- (like_contents _ _ L). reflexivity.
Qed.

Lemma assigned_short serial l : forall ssn, length (assigned serial ssn l) = length l ->
  Forall (fun a => length (ev_key (wa_event a)) <= 255) l.
Proof.
  induction l as [|a l IH]; intros ssn H; constructor.
  - cbn [assigned] in H. destruct (Nat.ltb_spec 255 (length (ev_key (wa_event a)))); auto. discriminate.
  - cbn [assigned] in H. destruct (Nat.ltb_spec 255 (length (ev_key (wa_event a)))); [discriminate|].
    destruct (serial && _)%bool; simpl in H; inversion H; eauto.
Qed.

Lemma failed_batch : forall lo iv serial page region ops en l logged, limits lo iv ->
  hist_fine lo (engine_new iv serial page region) ops ->
  erun (engine_new iv serial page region) ops = Ok en -> batch_fine lo en l ->
  exists en' r, engine_write en l logged = Ok (en', r) /\
    (logged = false -> r = None) /\
    (Exists (fun a => 255 < length (ev_key (wa_event a))) l -> r = None) /\
    (r = None -> same_data en en' /\ forall e, visible (parts en') e <-> visible (parts en) e).
Proof.
  intros lo iv serial page region ops en l logged Hl Hf He Hb.
  pose proof (reached_en lo iv serial page region ops en Hl Hf He) as [I Hiv _].
  destruct (write_spec lo en l logged I Hiv Hb) as [(m & -> & -> & I' & _ & Hlen & _)|(m & ssn & -> & I' & HE)];
    eexists _, _; (split; [reflexivity|]).
  - split; [discriminate|]. split; [|discriminate]. intros Hx. exfalso.
    apply assigned_short in Hlen. apply Exists_exists in Hx as (a & Ha & Hx).
    rewrite Forall_forall in Hlen. specialize (Hlen a Ha). simpl in *. lia.
  - split; auto. split; auto. intros _. split.
    + eapply ext_same; [exact HE|reflexivity|reflexivity].
    + intros e. unfold parts. cbn [en_map]. rewrite !(visible_look lo) by auto.
      rewrite (ext_look lo (en_map en) m e); tauto.
Qed.

Lemma good_batch : forall lo iv serial page region ops en l logged en' evs, limits lo iv ->
  hist_fine lo (engine_new iv serial page region) ops ->
  erun (engine_new iv serial page region) ops = Ok en -> batch_fine lo en l ->
  engine_write en l logged = Ok (en', Some evs) ->
  evs = assigned (en_serial en) (en_ssn en) l /\ length evs = length l /\
  forall e, visible (parts en') e <->
    current evs e \/ (last_write evs e = None /\ visible (parts en) e).
Proof.
  intros lo iv serial page region ops en l logged en' evs Hl Hf He Hb Hw.
  pose proof (reached_en lo iv serial page region ops en Hl Hf He) as [I Hiv _].
  destruct (write_spec lo en l logged I Hiv Hb) as [(m & E & -> & I' & _ & Hlen & Hlk)|(m & ssn & E & _)];
    rewrite E in Hw; [|discriminate].
  inversion Hw; subst. split; auto. split; auto. intros e. unfold parts, current. cbn [en_map].
  rewrite !(visible_look lo) by auto. rewrite Hlk. unfold over.
  destruct (last_write _ e) as [x|]; intuition congruence.
Qed.

Lemma refresh_visible : forall lo iv serial page region ops en id fails, limits lo iv ->
  hist_fine lo (engine_new iv serial page region) ops ->
  erun (engine_new iv serial page region) ops = Ok en -> op_fine lo en (ERefresh id fails) ->
  (exists e en', engine_refresh en id fails = Ok (en', e) /\ e = negb fails /\
     forall e, visible (parts en') e <-> visible (parts en) e) \/
  (engine_refresh en id fails = Err /\ ~ covered (ranges (en_map en)) id).
Proof.
  intros lo iv serial page region ops en id fails Hl Hf He Ho.
  pose proof (reached_en lo iv serial page region ops en Hl Hf He) as [I Hiv _].
  destruct (refresh_spec lo en id fails I Ho) as [H|(m & -> & I' & _ & Hlk)]; auto.
  left. eexists _, _. split; [reflexivity|]. split; auto.
  intros e. unfold parts. cbn [en_map with_map]. rewrite !(visible_look lo) by auto.
  specialize (Hlk e). split; intros [Hd Hx]; (split; [exact Hd|]).
  - apply (proj2 (liveo_some _ e Hd)). rewrite <- Hlk. apply (proj1 (liveo_some _ e Hd)). auto.
  - apply (proj2 (liveo_some _ e Hd)). rewrite Hlk. apply (proj1 (liveo_some _ e Hd)). auto.
Qed.

Lemma refresh_history : forall lo iv serial page region ops, limits lo iv ->
  hist_fine lo (engine_new iv serial page region) ops ->
  exists en, erun (engine_new iv serial page region) ops = Ok en /\
  forall e, visible (parts en) e <-> current (acked (engine_new iv serial page region) ops []) e.
Proof.
  intros lo iv serial page region ops Hl Hf.
  destruct (reached lo iv serial page region ops Hl Hf) as (en & E & I). exists en. split; auto.
  intros e. apply (visible_current lo); auto.
Qed.

Lemma refresh_file : forall lo iv serial page region ops en s size, limits lo iv ->
  hist_fine lo (engine_new iv serial page region) ops ->
  erun (engine_new iv serial page region) ops = Ok en -> In s (mapping_list (en_map en)) ->
  (region_weight (concat (contents (s_data s))) < 2^32)%N ->
  exists p, refresh_part size (s_data s) = Ok p /\
    contents p = [mt_events (pt_mem (s_data s)); []; file_events p] /\
    file_ok (match pt_file p with Some f => f | None => [] end) /\ pt_file p <> None /\
    forall e, In e (file_events p) <->
      event_is_delete e = false /\ newest [mt_events (pt_prev (s_data s)); file_events (s_data s)] e.
Proof.
  intros lo iv serial page region ops en s size Hl Hf He Hs Hw.
  pose proof (reached_en lo iv serial page region ops en Hl Hf He) as [I Hiv _].
  destruct I as [G F]. rewrite Forall_forall in F. pose proof (F s Hs) as Fs.
  destruct (refresh_part_spec lo size s Fs Hw) as (p & l & E & Fp & P1 & P2 & P3 & P4 & P5 & P6 & P7).
  exists p. split; auto. split.
  { unfold contents, file_events. rewrite P1, P2, P3. reflexivity. }
  pose proof (sf_file _ _ Fp) as Ff. cbn [s_data] in Ff. rewrite P3 in *. destruct Ff as (F1 & F2 & F3).
  split; auto. split; [discriminate|].
  intros e. unfold file_events at 1. rewrite P3, P4.
  assert (Ha : Forall ascending [mt_events (pt_prev (s_data s)); file_events (s_data s)]).
  { destruct (sfine_content lo s Fs) as [C _]. unfold contents in C. inversion C; subst. auto. }
  rewrite <- (lookup_concat_newest _ e Ha). cbn [concat]. rewrite app_nil_r.
  destruct F1 as [F1 _]. rewrite P4 in F1.
  fold (file_events (s_data s)) in P6. split.
  - intros Hin. assert (Hd : event_is_delete e = false) by (rewrite Forall_forall in P7; auto).
    split; auto. apply (proj2 (liveo_some _ e Hd)). rewrite <- P6. apply ascending_lookup; auto. apply same_key_refl.
  - intros [Hd Hx]. apply (proj1 (liveo_some _ e Hd)) in Hx. rewrite <- P6 in Hx. apply lookup_in in Hx. tauto.
Qed.

(* --- serial ids --- *)
Lemma write_event_ssn en w a w' ok : write_event en w a = Ok (w', ok) ->
  (w' = w /\ ok = false /\ 255 < length (ev_key (wa_event a))) \/
  (length (ev_key (wa_event a)) <= 255 /\ ws_ssn w' = ssn_after en (ws_ssn w) (wa_event a)).
Proof.
  unfold write_event. destruct (Nat.ltb_spec 255 (length (ev_key (wa_event a)))) as [Hb|Hb].
  { intros H. inversion H; subst. auto. }
  rewrite (andb_comm (ev_id (wa_event a) =? u64_max)%N).
  fold (numbered en (ws_ssn w) (wa_event a)). fold (ssn_after en (ws_ssn w) (wa_event a)).
  set (e := numbered en (ws_ssn w) (wa_event a)). intros H. right. split; auto.
  destruct (engine_lock part_new (ws_map w) (en_interval en) (ev_id e) false true) as [[m [z|]]| |]; try discriminate.
  2:{ inversion H; subst. auto. }
  destruct (zelem z) as [s|]; [|discriminate].
  destruct (en_page en <? _)%N; [discriminate|].
  destruct (wa_mem a).
  - destruct (memtable_set (pt_mem (s_data s)) e) as [[t pv]| |]; try discriminate. cbn [bind] in H.
    inversion H; subst; auto.
  - inversion H; subst; auto.
  - destruct (memtable_set (pt_mem (s_data s)) e) as [[t pv]| |]; try discriminate. cbn [bind] in H.
    destruct (negb _); inversion H; subst; auto.
Qed.

Definition under (l : list event) : Prop := Forall (fun e => (ev_id e < u64_max)%N) l.

Lemma ssn_next en ssn e : (ev_id (numbered en ssn e) < u64_max)%N -> (ssn <= ssn_after en ssn e)%N.
Proof.
  unfold numbered, ssn_after. destruct (en_serial en && _)%bool; [|lia]. cbn [ev_id]. intros H.
  unfold w64. rewrite N.mod_small; [lia|]. rewrite u64_max_eq in H. change two64 with 18446744073709551616%N. lia.
Qed.

Lemma loop_ssn en : forall l w w' ok, write_loop en w l = Ok (w', ok) ->
  under (assigned (en_serial en) (ws_ssn w) l) -> (ws_ssn w <= ws_ssn w')%N.
Proof.
  induction l as [|a l IH]; intros w w' ok H Hu; cbn [write_loop] in H.
  - inversion H; subst. lia.
  - destruct (write_event en w a) as [[w1 ok1]| |] eqn:E; try discriminate. cbn [bind] in H.
    destruct (write_event_ssn en w a w1 ok1 E) as [(-> & -> & _)|[Hk Hs]].
    + inversion H; subst. lia.
    + rewrite assigned_cons in Hu by auto. inversion Hu; subst.
      pose proof (ssn_next en (ws_ssn w) (wa_event a) H2) as Hn. destruct ok1.
      * assert ((ws_ssn w1 <= ws_ssn w')%N) by (eapply IH; eauto; rewrite Hs; auto). lia.
      * inversion H; subst. lia.
Qed.

Lemma serial_ids_spec en : forall l ssn, under (assigned (en_serial en) ssn l) ->
  length (assigned (en_serial en) ssn l) = length l ->
  StronglySorted N.lt (serial_ids (en_serial en) ssn l) /\
  Forall (fun i => (ssn <= i < next_ssn (en_serial en) ssn l)%N) (serial_ids (en_serial en) ssn l) /\
  (ssn <= next_ssn (en_serial en) ssn l)%N.
Proof.
  induction l as [|a l IH]; intros ssn Hu Hl; cbn [serial_ids next_ssn]; [repeat constructor; lia|].
  assert (Hk : length (ev_key (wa_event a)) <= 255).
  { apply assigned_short in Hl. inversion Hl; auto. }
  rewrite assigned_cons in * by auto. inversion Hu; subst. simpl in Hl. inversion Hl.
  pose proof (ssn_next en ssn (wa_event a) H1) as Hn.
  destruct (IH _ H2 H0) as (A & B & C). unfold ssn_after, numbered in *.
  destruct (en_serial en && _)%bool.
  - cbn [ev_id] in *.
    assert (E : w64 (ssn + 1) = (ssn + 1)%N).
    { unfold w64. rewrite N.mod_small; [lia|]. rewrite u64_max_eq in H1. change two64 with 18446744073709551616%N. lia. }
    rewrite E in *. split; [|split].
    + constructor; auto. eapply Forall_impl; [|exact B]. intros; simpl in *; lia.
    + constructor; [lia|]. eapply Forall_impl; [|exact B]. intros; simpl in *; lia.
    + lia.
  - auto.
Qed.

Lemma fine_under lo en l : (lo + 2^31 <= u64_max)%N -> Forall (event_fine lo en) l -> under l.
Proof.
  intros Hlo. unfold under. apply Forall_impl. intros e (_ & [H1 H2] & _). lia.
Qed.

Lemma sorted_append a b n : StronglySorted N.lt a -> StronglySorted N.lt b ->
  Forall (fun i => (i < n)%N) a -> Forall (fun i => (n <= i)%N) b -> StronglySorted N.lt (a ++ b).
Proof.
  induction a as [|x a IH]; intros Ha Hb H1 H2; auto. inversion Ha; inversion H1; subst. simpl.
  constructor; auto. apply Forall_app. split; auto. eapply Forall_impl; [|exact H2]. intros; simpl in *; lia.
Qed.

Lemma step_ssn lo en h o : einv lo en h -> op_fine lo en o ->
  match estep en o with
  | Ok en' => (en_ssn en <= en_ssn en')%N /\
      StronglySorted N.lt (match o with
                 | EWrite b logged => match engine_write en b logged with
                                      | Ok (_, Some _) => serial_ids (en_serial en) (en_ssn en) b
                                      | _ => []
                                      end
                 | _ => [] end) /\
      Forall (fun i => (en_ssn en <= i < en_ssn en')%N) (match o with
                 | EWrite b logged => match engine_write en b logged with
                                      | Ok (_, Some _) => serial_ids (en_serial en) (en_ssn en) b
                                      | _ => []
                                      end
                 | _ => [] end)
  | _ => True
  end.
Proof.
  intros [I Hiv HL] Hf. pose proof (gm_lo _ _ (mi_map _ _ I)) as Hlo.
  destruct o as [l logged|id fails|id|ref|id|mn mx|n]; cbn [estep op_fine] in *.
  - pose proof Hf as (_ & _ & Hfine & _).
    pose proof (fine_under lo en _ Hlo Hfine) as Hu.
    destruct (write_spec lo en l logged I Hiv Hf) as [(m & E & _ & I' & _ & Hlen & Hl)|(m & ssn & E & I' & HE)].
    + rewrite E. cbn [bind fst en_ssn].
      destruct (serial_ids_spec en l (en_ssn en) Hu Hlen) as (A & B & C). auto.
    + rewrite E. cbn [bind fst en_ssn]. split; [|split; constructor].
      unfold engine_write in E.
      destruct (write_loop en (mk_wstate (en_map en) (en_ssn en) []) l) as [[w ok]| |] eqn:Ew; try discriminate.
      cbn [bind] in E. pose proof (loop_ssn en l _ _ _ Ew Hu) as X. cbn [ws_ssn] in X.
      destruct (ok && logged)%bool.
      * destruct (engine_commit _ _ _); cbn [bind] in E; discriminate.
      * destruct (engine_rollback _ _); cbn [bind] in E; try discriminate. inversion E; subst. auto.
  - destruct (refresh_spec lo en id fails I Hf) as [(-> & _)|(m & -> & _)]; cbn [bind fst]; auto.
    cbn [with_map en_ssn]. repeat split; try lia; constructor.
  - destruct Hf as [Hid Ht]. destruct (begin_spec lo en id I Hid) as [(-> & _)|(s & _ & _ & -> & _)]; cbn [bind fst]; auto.
    cbn [with_map en_ssn]. repeat split; try lia; constructor.
  - destruct Hf as (s & Hin & <- & Hw). destruct (apply_spec lo en s I Hin Hw) as (p & _ & -> & _).
    cbn [with_map en_ssn]. repeat split; try lia; constructor.
  - destruct (drop_look lo en id I Hf) as (m & -> & _). cbn [with_map en_ssn]. repeat split; try lia; constructor.
  - destruct (engine_fill part_new (en_map en) mn mx); cbn [bind]; auto.
    cbn [with_map en_ssn]. repeat split; try lia; constructor.
  - cbn [with_interval en_ssn]. repeat split; try lia; constructor.
Qed.

Lemma handed_sorted lo : forall l en h, einv lo en h -> hist_fine lo en l ->
  StronglySorted N.lt (handed_out en l) /\ Forall (fun i => (en_ssn en <= i)%N) (handed_out en l).
Proof.
  induction l as [|o l IH]; intros en h I Hf; cbn [handed_out hist_fine] in *; [split; constructor|].
  destruct Hf as [H1 H2]. pose proof (step_spec lo en h o I H1) as Hs. pose proof (step_ssn lo en h o I H1) as Hn.
  destruct (estep en o) as [en'| |] eqn:E; try contradiction.
  - destruct Hn as (N1 & N2 & N3). destruct (IH en' _ Hs H2) as [S1 S2]. split.
    + eapply sorted_append with (n := en_ssn en'); auto. eapply Forall_impl; [|exact N3]. simpl; lia.
    + apply Forall_app. split; [eapply Forall_impl; [|exact N3]; simpl; lia|].
      eapply Forall_impl; [|exact S2]. simpl; lia.
  - destruct (IH en _ Hs H2) as [S1 S2].
    assert (X : match o with
           | EWrite b logged => match engine_write en b logged with
                                | Ok (_, Some _) => serial_ids (en_serial en) (en_ssn en) b | _ => [] end
           | _ => [] end = []).
    { destruct o; auto. cbn [estep] in E. destruct (engine_write en l0 logged) as [[? [?|]]| |]; auto; discriminate. }
    rewrite X. auto.
Qed.

Lemma serial_increasing : forall lo iv serial page region ops, limits lo iv ->
  hist_fine lo (engine_new iv serial page region) ops ->
  StronglySorted N.lt (handed_out (engine_new iv serial page region) ops).
Proof.
  intros lo iv serial page region ops [H1 H2] Hf.
  apply (handed_sorted lo ops _ [] (einv_new lo iv serial page region H1 H2) Hf).
Qed.

(* --- continuing after a restart --- *)
Lemma last_max l x : ascending (l ++ [x]) -> forall e, In e (l ++ [x]) -> (ev_id e <= ev_id x)%N.
Proof.
  intros H e He. apply in_app_iff in He as [He|[<-|[]]]; [|lia].
  apply ascending_app in H as (_ & _ & H). specialize (H e x He (or_introl eq_refl)).
  unfold ev_lt, ev_cmp in H. destruct (N.compare_spec (ev_id e) (ev_id x)); try discriminate; lia.
Qed.

Lemma index_max_spec f : ascending (concat f) ->
  match index_max f with
  | Some n => (exists e, In e (concat f) /\ ev_id e = n) /\ forall e, In e (concat f) -> (ev_id e <= n)%N
  | None => concat f = []
  end.
Proof.
  intros H. unfold index_max. destruct (rev (concat f)) as [|x l] eqn:E.
  - rewrite <- (rev_involutive (concat f)), E. auto.
  - assert (E' : concat f = rev l ++ [x]) by (rewrite <- (rev_involutive (concat f)), E; auto).
    rewrite E' in *. split.
    + exists x. split; auto. apply in_app_iff; simpl; auto.
    + apply last_max; auto.
Qed.

Lemma table_max_spec lo t : tab lo t ->
  match memtable_max t with
  | Some x => In x (mt_events t) /\ forall e, In e (mt_events t) -> (ev_id e <= ev_id x)%N
  | None => mt_events t = []
  end.
Proof.
  intros [T1 T2 _ _]. unfold memtable_max. inversion T1 as [E1 E2 E3 E4|c pg E1 E2 E3 E4 E5 E6].
  - rewrite E2. change (0 =? 0)%N with true. cbn iota. congruence.
  - rewrite E2, E1. change (1 =? 0)%N with false. cbn iota. unfold rbtree_max.
    rewrite <- E6 in *.
    assert (X : exists l x, pg_ev pg = l ++ [x]) by (destruct (exists_last E4) as (l & x & E); eauto).
    destruct X as (l & x & E). simpl. rewrite E.
    rewrite app_length. simpl length. replace (Z.of_nat (length l + 1) - 1)%Z with (Z.of_nat (length l)) by lia.
    unfold ev_at. rewrite Nat2Z.id. rewrite app_nth2 by lia. rewrite Nat.sub_diag. simpl nth.
    split; [apply in_app_iff; simpl; auto|]. apply last_max. rewrite <- E. auto.
Qed.

Lemma map_max_last lo m : good_map lo m ->
  match mapping_max m with
  | Some z => exists l s, zelem z = Some s /\ mapping_list m = l ++ [s]
  | None => mapping_list m = []
  end.
Proof.
  intros G. unfold mapping_max. destruct (mp_count m =? 0)%N eqn:Ec.
  - apply (count_zero lo m G) in Ec. apply list_nil_tree; auto.
  - pose proof (rbtree_max_spec (mp_tree m)) as H. destruct (rbtree_max (mp_tree m)) as [z|].
    + destruct H as (H1 & H2 & x & H3). exists (zbefore z), x. split; auto.
      unfold mapping_list. rewrite <- H1, (zelems z x H3), H2. auto.
    + apply list_nil_tree; auto.
Qed.

Lemma serial_restart : forall lo iv serial page region ops en l s, limits lo iv ->
  hist_fine lo (engine_new iv serial page region) ops ->
  erun (engine_new iv serial page region) ops = Ok en ->
  mapping_list (en_map en) = l ++ [s] ->
  mt_events (pt_prev (s_data s)) = [] ->
  mt_events (pt_mem (s_data s)) <> [] \/ file_events (s_data s) <> [] ->
  forall p e, In p (parts en) -> In e (concat (contents p)) ->
    (ev_id e < en_ssn (engine_set_serial en))%N.
Proof.
  intros lo iv serial page region ops en l s Hl Hf He Hml Hprev Hne p e Hp Hin.
  pose proof (reached_en lo iv serial page region ops en Hl Hf He) as [I Hiv _].
  pose proof I as [G F]. rewrite Forall_forall in F.
  assert (Hs : In s (mapping_list (en_map en))) by (rewrite Hml; apply in_app_iff; simpl; auto).
  pose proof (F s Hs) as Fs.
  pose proof (map_max_last lo _ G) as Hm. unfold engine_set_serial.
  destruct (mapping_max (en_map en)) as [z|]; [|rewrite Hm in Hs; contradiction].
  destruct Hm as (l' & s' & Hz & Hl'). rewrite Hml in Hl'. apply app_inj_tail in Hl' as [<- <-]. rewrite Hz.
  assert (Hgood : forall x, In x (concat (contents (s_data s))) -> (ev_id x < u64_max)%N).
  { intros x Hx. destruct (sfine_content lo s Fs) as [_ C]. rewrite Forall_forall in C.
    destruct (C x Hx) as [_ [_ Hw]]. pose proof (gm_lo _ _ G). lia. }
  assert (Hw64 : forall n, (n < u64_max)%N -> w64 (n + 1) = (n + 1)%N).
  { intros n Hn. unfold w64. rewrite N.mod_small; [lia|]. rewrite u64_max_eq in Hn.
    change two64 with 18446744073709551616%N. lia. }
  assert (Hlow : forall x, In x (concat (contents (s_data s))) -> (ev_id x < s_min s)%N -> False).
  { intros x Hx Hlt. pose proof (sf_ids _ _ Fs) as Hi. unfold ids_in in Hi. rewrite Forall_forall in Hi.
    destruct (Hi x Hx) as [Hi1 _]. simpl in Hi1. lia. }
  assert (Hothers : In e (concat (contents (s_data s))) \/ (ev_id e < s_min s)%N).
  { unfold parts in Hp. rewrite Hml, map_app in Hp. apply in_app_iff in Hp as [Hp|[<-|[]]]; auto.
    right. apply in_map_iff in Hp as (t & <- & Ht).
    destruct (proj1 (layout_slices _) (gm_layout _ _ G)) as [S1 _]. rewrite Hml in S1.
    apply sorted_app in S1 as (_ & _ & Sc). specialize (Sc t s Ht (or_introl eq_refl)). unfold slt in Sc.
    assert (Ft : sfine lo t) by (apply F; rewrite Hml; apply in_app_iff; auto).
    pose proof (sf_ids _ _ Ft) as Hi. unfold ids_in in Hi. rewrite Forall_forall in Hi.
    destruct (Hi e Hin) as [_ Hi2]. simpl in Hi2. lia. }
  pose proof (table_max_spec lo _ (sf_mem _ _ Fs)) as HM.
  pose proof (sf_file _ _ Fs) as Ff. unfold file_events in Hne.
  assert (Hcase : forall n, (exists x, In x (concat (contents (s_data s))) /\ ev_id x = n) ->
     (forall x, In x (concat (contents (s_data s))) -> (ev_id x <= n)%N) -> (ev_id e < n + 1)%N /\ (n < u64_max)%N).
  { intros n (x & Hx & <-) Hall. split; [|auto]. destruct Hothers as [Ho|Ho]; [specialize (Hall e Ho); lia|].
    destruct (N.lt_ge_cases (ev_id x) (s_min s)); [exfalso; eauto|lia]. }
  assert (Hcon : forall x, In x (concat (contents (s_data s))) <->
     In x (mt_events (pt_mem (s_data s))) \/ In x (match pt_file (s_data s) with Some f => concat f | None => [] end)).
  { intros x. unfold contents. cbn [concat]. rewrite Hprev, app_nil_r, in_app_iff. simpl. tauto. }
  destruct (memtable_max (pt_mem (s_data s))) as [x|].
  - destruct HM as [M1 M2]. destruct (pt_file (s_data s)) as [f|].
    + destruct Ff as [[F1 _] _]. pose proof (index_max_spec f F1) as HI. destruct (index_max f) as [n|].
      * destruct HI as [(y & I1 & I2) I3]. destruct (N.leb_spec n (ev_id x)).
        -- destruct (Hcase (ev_id x)) as [C1 C2].
           { exists x. split; auto. apply Hcon; auto. }
           { intros w Hw. apply Hcon in Hw as [Hw|Hw]; [auto|specialize (I3 w Hw); lia]. }
           cbn [with_ssn en_ssn]. rewrite Hw64 by auto. auto.
        -- destruct (Hcase n) as [C1 C2].
           { exists y. split; auto. apply Hcon; auto. }
           { intros w Hw. apply Hcon in Hw as [Hw|Hw]; [specialize (M2 w Hw); lia|auto]. }
           cbn [with_ssn en_ssn]. rewrite Hw64 by auto. auto.
      * destruct (N.leb_spec 0 (ev_id x)); [|lia].
        destruct (Hcase (ev_id x)) as [C1 C2].
        { exists x. split; auto. apply Hcon; auto. }
        { intros w Hw. apply Hcon in Hw as [Hw|Hw]; [auto|rewrite HI in Hw; contradiction]. }
        cbn [with_ssn en_ssn]. rewrite Hw64 by auto. auto.
    + destruct (N.leb_spec 0 (ev_id x)); [|lia].
      destruct (Hcase (ev_id x)) as [C1 C2].
      { exists x. split; auto. apply Hcon; auto. }
      { intros w Hw. apply Hcon in Hw as [Hw|Hw]; [auto|contradiction]. }
      cbn [with_ssn en_ssn]. rewrite Hw64 by auto. auto.
  - destruct (pt_file (s_data s)) as [f|]; [|destruct Hne; congruence].
    destruct Ff as [[F1 _] _]. pose proof (index_max_spec f F1) as HI. destruct (index_max f) as [n|].
    + destruct HI as [(y & I1 & I2) I3]. destruct (Hcase n) as [C1 C2].
      { exists y. split; auto. apply Hcon; auto. }
      { intros w Hw. apply Hcon in Hw as [Hw|Hw]; [rewrite HM in Hw; contradiction|auto]. }
      cbn [with_ssn en_ssn]. rewrite Hw64 by auto. auto.
    + destruct Hne; congruence.
Qed.

(* --- no memory for an event --- *)
Lemma write_loop_app en l1 : forall w l2, write_loop en w (l1 ++ l2) =
  bind (write_loop en w l1) (fun r => if snd r then write_loop en (fst r) l2 else Ok r).
Proof.
  induction l1 as [|a l1 IH]; intros w l2; cbn [app write_loop bind]; auto.
  destruct (write_event en w a) as [[w1 ok]| |]; auto. cbn [bind]. destruct ok; auto.
Qed.
Lemma refused_event : forall en l e evs en' t logged,
  engine_write en (l ++ [mk_warg e MemOk]) true = Ok (en', Some evs) ->
  engine_write en (l ++ mk_warg e MemEvent :: t) logged = UB.
Proof.
  intros en l e evs en' t logged. unfold engine_write. rewrite !write_loop_app.
  destruct (write_loop en _ l) as [[w ok]| |]; try discriminate. cbn [bind snd fst].
  destruct ok.
  2:{ cbn [bind andb]. destruct (engine_rollback _ _); discriminate. }
  cbn [write_loop bind]. unfold write_event at 1 2. cbn [wa_event wa_mem].
  destruct (255 <? length (ev_key e)).
  { cbn [bind andb]. destruct (engine_rollback _ _); discriminate. }
  set (e1 := if (_ && _)%bool then _ else e). set (ssn := if (_ && _)%bool then _ else ws_ssn w).
  destruct (engine_lock _ _ _ _ _ _) as [[m [z|]]| |]; try discriminate.
  2:{ cbn [bind andb]. destruct (engine_rollback _ _); discriminate. }
  destruct (zelem z) as [s|]; [|discriminate].
  destruct (en_page en <? _)%N; [discriminate|]. intros _. cbn [bind andb engine_rollback ws_log undo_ops undo_op lo_ref lo_prev lo_event].
  destruct (ref_part _ _) as [p| |] eqn:E; auto.
  unfold ref_part in E. destruct (find _ _); discriminate.
Qed.
