From Coq Require Import NArith ZArith List Bool Sorted Lia Arith.
Import ListNotations.
From Verif Require Import Model.Base Model.Event Model.Rbtree Model.Memtable Model.Mapping Model.Merge
  Model.PartIter Model.Scan Model.Faulty Model.Engine Spec.Order Spec.Merged Spec.Files Spec.Layout Spec.View
  Spec.Engine Spec.Faulty Proof.OrderL Proof.MemtableL Proof.MergeL Proof.PartIterL Proof.MappingL Proof.ScanL
  Proof.EngineL Proof.EngineR Proof.EngineP Proof.FaultyL Proof.FaultyS Proof.FaultyM Proof.FaultyC Proof.FaultyN.
Local Arguments N.pow : simpl never.

Section Reached.
Variables (lo : N) (en : engine) (h : list event) (key : option event).
Hypothesis Inv : einv lo en h.
Hypothesis Hk : start_ok lo en key.
Notation m := (en_map en).

Lemma parts_ok : forall s, In s (mapping_list m) -> slice_ok lo s /\ reads s None.
Proof.
  destruct (ei_map _ _ _ Inv) as [_ F]. rewrite Forall_forall in F. intros s Hs. pose proof (F s Hs) as Fs.
  split; [split; [apply sfine_content; auto|split]|].
  - pose proof (sf_file _ _ Fs) as Ff. destruct (pt_file (s_data s)); auto. destruct Ff as (A & _ & B). auto.
  - exact (sf_ids _ _ Fs).
  - split; [apply (tab_reads lo); auto; apply (sf_mem _ _ Fs)|].
    split; [apply (tab_reads lo); auto; apply (sf_prev _ _ Fs)|].
    pose proof (sf_file _ _ Fs) as Ff. destruct (pt_file (s_data s)) as [f|]; simpl; auto.
    apply file_scan_none. apply Ff.
Qed.
Lemma key_fine : match key with
  | None => (lo + 2^31 < 2^63)%N
  | Some k => good lo k /\ forall s, In s (mapping_list m) -> reads s key
  end.
Proof.
  unfold start_ok in Hk. destruct key as [k|]; auto. destruct Hk as (A & B & C). split; [split; auto|].
  destruct (ei_map _ _ _ Inv) as [_ F]. rewrite Forall_forall in F. intros s Hs. apply (keyed_reads lo); auto.
  - split; auto.
  - apply (C (s_data s)). apply in_map; auto.
Qed.
Lemma map_fine : good_map lo m.
Proof. apply (ei_map _ _ _ Inv). Qed.

Lemma retry bad : exists n, forall fuel, n < fuel ->
  fscan bad fuel m key = Ok (Some None) \/
  exists tr, fscan bad fuel m key = Ok (Some (Some tr)) /\ ascending (saw tr) /\
    forall e, In e (saw tr) <-> visible (map (remains bad key) (mapping_list m)) e /\ from key e.
Proof.
  exists (wt bad key (mapping_list m)). intros fuel Hf.
  destruct (fscan_f bad lo m map_fine parts_ok key key_fine fuel Hf) as [H|(tr & H1 & H2)]; auto.
  right. exists tr. split; auto. rewrite H2. split.
  - apply (total_ascending bad lo m map_fine parts_ok key key_fine).
  - intros e. apply (total_visible bad lo m parts_ok key key_fine).
Qed.

Lemma remains_none k0 s : remains none k0 s = s_data s.
Proof.
  unfold remains, none. cbn [andb]. destruct s as [mn mx [a b f l]]. cbn [s_data pt_mem pt_prev pt_file pt_lsn].
  destruct f as [f|]; auto. f_equal. f_equal. apply readable_none.
Qed.
Lemma total_none : total none m key = sel key (flat_map pv (mapping_list m)).
Proof.
  unfold total. f_equal. apply flat_map_ext. intros s. unfold pvr, pv. rewrite remains_none. auto.
Qed.

Lemma prefix_of bad : exists n out, forall fuel, n < fuel ->
  monotone_scan fuel m key = Ok (Some out) /\
  (fscan bad fuel m key = Ok (Some None) \/
   exists tr rest, fscan bad fuel m key = Ok (Some (Some tr)) /\ out = before_error tr ++ rest /\
     (~ In Failed tr -> saw tr = out)).
Proof.
  set (n := wt bad key (mapping_list m) + wt none key (mapping_list m) + weight (mapping_list m)).
  exists n, (filter live (sel key (flat_map pv (mapping_list m)))). intros fuel Hf.
  pose proof map_fine as G. split.
  - apply (scan_list lo m G).
    + intros s Hs. destruct (parts_ok s Hs) as [(A & _ & B) (C & D & E)]. auto.
    + pose proof key_fine as K. unfold key_ok. destruct key; auto.
    + unfold n in Hf. lia.
  - destruct (fscan_f bad lo m G parts_ok key key_fine fuel ltac:(unfold n in Hf; lia)) as [H|(tr & H1 & H2)]; auto.
    destruct (fscan_f none lo m G parts_ok key key_fine fuel ltac:(unfold n in Hf; lia)) as [H|(tr' & H3 & H4)].
    { exfalso. eapply fscan_none_opens; eauto. }
    right. rewrite total_none in H4. destruct (fscan_same _ _ _ _ _ _ H1 H3) as [(rest & A) B].
    exists tr, rest. split; auto. rewrite <- H4. split; auto. intros X. symmetry. auto.
Qed.

(* no error when every region can be read *)
Lemma calm : exists n, forall fuel, n < fuel -> exists tr out,
  fscan none fuel m key = Ok (Some (Some tr)) /\ monotone_scan fuel m key = Ok (Some out) /\ saw tr = out.
Proof.
  exists (wt none key (mapping_list m) + weight (mapping_list m)). intros fuel Hf. pose proof map_fine as G.
  destruct (fscan_f none lo m G parts_ok key key_fine fuel ltac:(lia)) as [H|(tr & H1 & H2)].
  { exfalso. eapply fscan_none_opens; eauto. }
  exists tr, (filter live (sel key (flat_map pv (mapping_list m)))). split; auto. rewrite H2, total_none. split; auto.
  apply (scan_list lo m G).
  - intros s Hs. destruct (parts_ok s Hs) as [(A & _ & B) (C & D & E)]. auto.
  - pose proof key_fine as K. unfold key_ok. destruct key; auto.
  - lia.
Qed.
End Reached.

Lemma retry_history : forall lo iv serial page region ops en bad key, limits lo iv ->
  hist_fine lo (engine_new iv serial page region) ops ->
  erun (engine_new iv serial page region) ops = Ok en -> start_ok lo en key ->
  exists n, forall fuel, n < fuel ->
  fscan bad fuel (en_map en) key = Ok (Some None) \/
  exists tr, fscan bad fuel (en_map en) key = Ok (Some (Some tr)) /\ ascending (saw tr) /\
    forall e, In e (saw tr) <-> visible (map (remains bad key) (mapping_list (en_map en))) e /\ from key e.
Proof.
  intros lo iv serial page region ops en bad key L F R K.
  exact (retry lo en _ key (reached_en lo iv serial page region ops en L F R) K bad).
Qed.
Lemma prefix_history : forall lo iv serial page region ops en bad key, limits lo iv ->
  hist_fine lo (engine_new iv serial page region) ops ->
  erun (engine_new iv serial page region) ops = Ok en -> start_ok lo en key ->
  exists n out, forall fuel, n < fuel ->
  monotone_scan fuel (en_map en) key = Ok (Some out) /\
  (fscan bad fuel (en_map en) key = Ok (Some None) \/
   exists tr rest, fscan bad fuel (en_map en) key = Ok (Some (Some tr)) /\ out = before_error tr ++ rest /\
     (~ In Failed tr -> saw tr = out)).
Proof.
  intros lo iv serial page region ops en bad key L F R K.
  exact (prefix_of lo en _ key (reached_en lo iv serial page region ops en L F R) K bad).
Qed.
Lemma calm_history : forall lo iv serial page region ops en key, limits lo iv ->
  hist_fine lo (engine_new iv serial page region) ops ->
  erun (engine_new iv serial page region) ops = Ok en -> start_ok lo en key ->
  exists n, forall fuel, n < fuel -> exists tr out,
  fscan (fun _ _ => false) fuel (en_map en) key = Ok (Some (Some tr)) /\ monotone_scan fuel (en_map en) key = Ok (Some out) /\ saw tr = out.
Proof.
  intros lo iv serial page region ops en key L F R K.
  exact (calm lo en _ key (reached_en lo iv serial page region ops en L F R) K).
Qed.

(* what is shown is never an old version *)
Lemma remains_newest bad key s e :
  newest (contents (remains bad key s)) e -> newest (contents (s_data s)) e.
Proof.
  intros (pre & l & post & E & Hl & Hp).
  unfold contents in E. cbn [remains pt_mem pt_prev pt_file] in E.
  destruct pre as [|a [|b [|c pre]]]; cbn [app] in E.
  - injection E as <- _. unfold contents. exists [], (mt_events (pt_mem (s_data s))). eexists. split; [reflexivity|]. auto.
  - injection E as <- <- _. unfold contents. eexists [_], (mt_events (pt_prev (s_data s))), _. split; [reflexivity|]. auto.
  - injection E as <- <- <- _. unfold contents. eexists [_; _], _, []. split; [reflexivity|]. split; auto.
    destruct (pt_file (s_data s)) as [f|]; auto.
    destruct (bad (s_min s) 0 && negb (starts_in key s)); [destruct Hl|]. eapply readable_in; eauto.
  - injection E as _ _ _ E. destruct pre; discriminate.
Qed.
Lemma true_history : forall lo iv serial page region ops en bad key, limits lo iv ->
  hist_fine lo (engine_new iv serial page region) ops ->
  erun (engine_new iv serial page region) ops = Ok en ->
  forall e, visible (map (remains bad key) (mapping_list (en_map en))) e ->
    current (acked (engine_new iv serial page region) ops []) e.
Proof.
  intros lo iv serial page region ops en bad key L F R e (Hd & p & Hp & Hn).
  pose proof (reached_en lo iv serial page region ops en L F R) as I.
  apply (visible_current lo en _ e I). split; auto. apply in_map_iff in Hp as (s & <- & Hs).
  exists (s_data s). split; [apply in_map; auto|]. eapply remains_newest; eauto.
Qed.
Lemma seen_history : forall lo iv serial page region ops en bad key, limits lo iv ->
  hist_fine lo (engine_new iv serial page region) ops ->
  erun (engine_new iv serial page region) ops = Ok en -> start_ok lo en key ->
  exists n, forall fuel tr e, n < fuel -> fscan bad fuel (en_map en) key = Ok (Some (Some tr)) -> In e (saw tr) ->
    current (acked (engine_new iv serial page region) ops []) e /\ from key e.
Proof.
  intros lo iv serial page region ops en bad key L F R K.
  destruct (retry_history lo iv serial page region ops en bad key L F R K) as (n & H). exists n. intros fuel tr e Hf E He.
  destruct (H fuel Hf) as [X|(tr' & X & _ & Y)]; rewrite E in X; [discriminate|]. injection X as <-.
  apply Y in He as [A B]. split; auto. eapply true_history; eauto.
Qed.
