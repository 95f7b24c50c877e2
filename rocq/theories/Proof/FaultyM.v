From Coq Require Import NArith ZArith List Bool Sorted Lia Arith.
Import ListNotations.
From Verif Require Import Model.Base Model.Event Model.Rbtree Model.Memtable Model.Mapping Model.Merge
  Model.PartIter Model.Scan Model.Faulty Spec.Order Spec.Merged Spec.Files Spec.Layout Spec.View Spec.Faulty
  Proof.OrderL Proof.RbtreeL Proof.MemtableL Proof.MergeL Proof.PartIterL Proof.MappingL Proof.ScanL
  Proof.FaultyL Proof.FaultyS.
Local Arguments N.pow : simpl never.

(* --- readable regions --- *)
Lemma readable_in b : forall f i e, In e (concat (readable b i f)) -> In e (concat f).
Proof.
  induction f as [|r f IH]; intros i e H; auto. cbn [readable] in H. cbn [concat]. apply in_app_iff.
  destruct (b i); [right; eauto|]. cbn [concat] in H. apply in_app_iff in H as [H|H]; eauto.
Qed.
Lemma readable_ascending b : forall f i, ascending (concat f) -> ascending (concat (readable b i f)).
Proof.
  induction f as [|r f IH]; intros i H; auto. cbn [readable]. cbn [concat] in H.
  apply ascending_app in H as (H1 & H2 & H3). destruct (b i); auto.
  cbn [concat]. apply ascending_app. split; auto. split; auto. intros x y Hx Hy. apply readable_in in Hy. auto.
Qed.
Lemma readable_app b : forall f g i, readable b i (f ++ g) = readable b i f ++ readable b (i + length f) g.
Proof.
  induction f as [|r f IH]; intros g i; cbn [app readable length]; [f_equal; lia|].
  rewrite IH. replace (i + S (length f)) with (S i + length f) by lia. destruct (b i); auto.
Qed.
Lemma readable_none : forall f i, readable (fun _ => false) i f = f.
Proof. induction f; intros i; cbn [readable]; f_equal; auto. Qed.

Lemma sel_app key a b : sel key (a ++ b) = sel key a ++ sel key b.
Proof. destruct key; auto. apply filter_app. Qed.
Lemma filter_nil_sub {A} (f : A -> bool) l l' : incl l' l -> filter f l = [] -> filter f l' = [].
Proof.
  intros Hi H. destruct (filter f l') as [|x t] eqn:E; auto. exfalso.
  assert (X : In x (filter f l')) by (rewrite E; simpl; auto). apply filter_In in X as [X1 X2].
  assert (Y : In x (filter f l)) by (apply filter_In; auto). rewrite H in Y. destruct Y.
Qed.

Section Files.
Variable bad : N -> nat -> bool.

(* a file that was opened shows the readable events from the start on *)
Lemma file_shows lo mn (f : pfile) key it : file_ok f -> Forall (good lo) (concat f) ->
  (match key with Some k => good lo k | None => True end) -> file_scan f key = sel key (concat f) ->
  fiter_open bad mn f key = Some it ->
  shows bad mn (FFile f it) = sel key (concat (readable (bad mn) 0 f)).
Proof.
  intros Hf Hg Hk Hs Ho. unfold fiter_open in Ho.
  unfold file_scan, part_iterator_open in Hs.
  assert (Z : part_iterator_at (mk_piter None ([], None)) = None) by reflexivity.
  destruct key as [k|].
  - pose proof (good_near lo f Hg) as Hn.
    assert (Hid : (lo <= ev_id k < lo + 2^31 /\ ev_id k < 2^64)%N)
      by (destruct Hk as [[Hb _] [Hw1 Hw2]]; lia).
    pose proof (index_statement lo f k Hf Hn Hid) as Hi. cbn [sel] in *.
    destruct (index_iterator_open f (Some k)) as [p|].
    + destruct (bad mn p) eqn:Eb; [discriminate|]. injection Ho as <-. cbn [shows pi_index pi_region].
      destruct Hi as (r & Hr & _ & Hb).
      rewrite (nth_error_nth _ _ _ Hr) in *. destruct Hf as [Ha Hne].
      assert (Hsr := ascending_concat_region _ _ _ Ha Hr).
      assert (Hgr : Forall (good lo) r).
      { rewrite Forall_forall in *. intros x Hx. apply Hg. eapply concat_nth_in; eauto. }
      destruct (region_open_rest lo r (Some k) Hsr Hgr Hk) as [H1 H2].
      unfold part_iterator_at. cbn [pi_region].
      destruct (region_iterator_at (region_iterator_open r (Some k))) as [x|] eqn:Ea.
      * rewrite H1. assert (Hp : p < length f) by (apply nth_error_Some; congruence).
        assert (L : length (firstn p f) = p) by (apply firstn_length_le; unfold pfile, region in *; lia).
        assert (E : readable (bad mn) 0 f = readable (bad mn) 0 (firstn p f) ++ r :: readable (bad mn) (S p) (skipn (S p) f)).
        { rewrite (split_nth f p r Hr) at 1. rewrite readable_app. f_equal. cbn [readable].
          unfold pfile, region in *. rewrite L. cbn [plus]. rewrite Eb. auto. }
        rewrite E, concat_app. cbn [concat]. rewrite !filter_app.
        rewrite (filter_none _ (concat (readable (bad mn) 0 (firstn p f)))).
        -- cbn [app]. f_equal. unfold later. symmetry. apply filter_all.
           rewrite Forall_forall. intros y Hy. apply readable_in in Hy.
           apply in_skipn_nth in Hy as (i & r' & Hi & Hr' & Hy).
           apply geb_true. pose proof (region_at_rest _ H2) as H3. rewrite Ea, H1 in H3. destruct H3 as [H3 _].
           assert (Hx : In x (filter (geb k) r)) by (rewrite H3; left; auto).
           apply filter_In in Hx as [Hx Hxk]. apply geb_true in Hxk.
           apply ev_lt_le. eapply ev_le_lt_trans; eauto. eapply (ascending_concat_lt f p i); eauto.
        -- rewrite Forall_forall. intros y Hy. apply readable_in in Hy.
           apply in_firstn_nth in Hy as (i & r' & Hi & Hr' & Hy).
           apply geb_false, ids_ev_lt. eapply Hb; eauto.
      * symmetry. eapply filter_nil_sub; [intros e; apply readable_in|]. rewrite <- Hs.
        cbn [part_drain]. unfold part_iterator_at. cbn [pi_region]. rewrite Ea. auto.
    + injection Ho as <-. cbn [shows pi_index]. symmetry.
      eapply filter_nil_sub; [intros e; apply readable_in|]. rewrite <- Hs. auto.
  - destruct f as [|r f]; cbn [index_iterator_open] in Ho.
    + injection Ho as <-. auto.
    + destruct (bad mn 0) eqn:Eb; [discriminate|]. injection Ho as <-. cbn [shows pi_index pi_region nth].
      destruct (region_open_none r) as [H1 H2]. unfold part_iterator_at. cbn [pi_region].
      pose proof (region_at_rest _ H2) as H3. destruct Hf as [_ Hf]. apply Forall_cons_iff in Hf as [Hr _].
      destruct (region_iterator_at (region_iterator_open r None)); [|congruence].
      rewrite H1. cbn [sel readable]. rewrite Eb. reflexivity.
Qed.

(* --- partitions --- *)
Definition pvr (key : option event) (s : slice part) : list event := pview (remains bad key s).

Lemma table_source m key : table_reads m key ->
  exists a, memtable_source m key = Ok a /\ concat a = sel key (mt_events m) /\ incl a [sel key (mt_events m)].
Proof.
  intros [H0 H1]. unfold memtable_source. destruct (N.eqb_spec (mt_count m) 0).
  - rewrite H0 by auto. exists []. split; auto. split; [destruct key; auto|intros x []].
  - rewrite H1 by auto. cbn [bind]. eexists; split; [reflexivity|]. cbn [concat]. rewrite app_nil_r.
    split; [destruct key; auto|]. destruct key; apply incl_refl.
Qed.

Lemma merge_sel lo p key srcs : content_ok lo p -> concat srcs = concat (map (sel key) (contents p)) ->
  incl srcs (map (sel key) (contents p)) -> cmp_ok (concat srcs) /\ merge_all srcs = sel key (pview p).
Proof.
  intros [C1 C2] Hc Hi.
  assert (Has : Forall ascending srcs).
  { rewrite Forall_forall in *. intros x Hx. apply Hi in Hx. apply in_map_iff in Hx as (y & <- & Hy).
    destruct key; simpl; auto. apply filter_ascending; auto. }
  assert (Hg : Forall (good lo) (concat srcs)).
  { rewrite Hc. rewrite Forall_forall in *. intros x Hx. apply C2.
    apply in_concat in Hx as (l & Hl & Hx). apply in_map_iff in Hl as (y & <- & Hy).
    apply in_concat. exists y. split; auto. destruct key; simpl in Hx; auto. apply filter_In in Hx. tauto. }
  split; [eapply good_cmp_ok; eauto|].
  apply (merged_unique (map (sel key) (contents p))).
  - destruct (merge_all_spec srcs Has (good_cmp_ok _ _ Hg)) as [M1 M2]. split; auto.
    intros k. rewrite M2, Hc. auto.
  - pose proof (pview_merged lo p (conj C1 C2)) as M. destruct key as [k|]; simpl sel.
    + apply (filter_merged k) in M. exact M.
    + replace (map (sel None) (contents p)) with (contents p); auto.
Qed.

Definition slice_ok (lo : N) (s : slice part) : Prop :=
  content_ok lo (s_data s) /\
  match pt_file (s_data s) with Some f => file_ok f /\ Forall (good lo) (concat f) | None => True end /\
  Forall (fun e => (s_min s <= ev_id e <= s_max s)%N) (concat (contents (s_data s))).
Definition reads (s : slice part) (key : option event) : Prop :=
  table_reads (pt_mem (s_data s)) key /\ table_reads (pt_prev (s_data s)) key /\
  file_reads (pt_file (s_data s)) key.

Lemma remains_in key s e : In e (concat (contents (remains bad key s))) -> In e (concat (contents (s_data s))).
Proof.
  unfold contents, remains. cbn [pt_mem pt_prev pt_file concat]. rewrite !in_app_iff.
  intros [H|[H|[H|[]]]]; auto. right. right. left.
  destruct (pt_file (s_data s)) as [f|]; auto.
  destruct (bad (s_min s) 0 && negb (starts_in key s)); [destruct H|]. eapply readable_in; eauto.
Qed.
Lemma remains_ok lo key s : content_ok lo (s_data s) -> content_ok lo (remains bad key s).
Proof.
  intros [C1 C2]. split.
  - unfold contents in C1. apply Forall_cons_iff in C1 as [A1 C1]. apply Forall_cons_iff in C1 as [A2 C1].
    apply Forall_cons_iff in C1 as [A3 _]. unfold contents, remains. cbn [pt_mem pt_prev pt_file].
    repeat (apply Forall_cons; auto). destruct (pt_file (s_data s)) as [f|]; auto.
    destruct (bad (s_min s) 0 && negb (starts_in key s)); [constructor|]. apply readable_ascending; auto.
  - rewrite Forall_forall in *. intros e He. apply C2. eapply remains_in; eauto.
Qed.

(* opening a partition with key k0, for a cursor that was started at key *)
Lemma slice_open lo key k0 s : slice_ok lo s -> reads s k0 ->
  (match k0 with Some k => good lo k | None => True end) ->
  (k0 = key \/ (k0 = None /\ starts_in key s = false)) ->
  exists fm ok, fpart_open bad s k0 = Ok (fm, ok) /\ fm_ok fm /\ fahead fm <= regions_of (s_data s) /\
  (ok = true -> exists mg, merge_at mg = fmerge_at fm /\ fpending bad (s_min s) fm = pending mg /\
     match sel k0 (pvr key s) with
     | [] => merge_at mg = None /\ comes (pending mg) []
     | e :: l => merge_at mg = Some e /\ comes (pending mg) l
     end) /\
  (ok = false -> fmerge_at fm = None /\
     (k0 = None -> comes (fpending bad (s_min s) fm) (pvr key s))).
Proof.
  intros (C & F & I) (T1 & T2 & T3) Hk Hkey.
  destruct (table_source _ _ T1) as (a & Ea & Ca & Ia). destruct (table_source _ _ T2) as (b & Eb & Cb & Ib).
  destruct (part_open_f bad s k0 a b Ea Eb) as (fm & ok & E & O & A & H). exists fm, ok.
  split; auto. split; auto. split; auto.
  pose proof (remains_ok lo key s C) as CR.
  assert (K : forall c, concat c = sel k0 (match pt_file (remains bad key s) with Some f => concat f | None => [] end) ->
     incl c [concat c] -> cmp_ok (concat (a ++ b ++ c)) /\ merge_all (a ++ b ++ c) = sel k0 (pvr key s)).
  { intros c Hc Hi. apply (merge_sel lo); auto.
    - unfold contents. cbn [map concat remains pt_mem pt_prev]. cbn [remains pt_file] in Hc.
      rewrite !concat_app, Ca, Cb, Hc, app_nil_r. auto.
    - unfold contents. cbn [map remains pt_mem pt_prev]. cbn [remains pt_file] in Hc.
      intros x Hx. apply in_app_iff in Hx as [Hx|Hx]; [|apply in_app_iff in Hx as [Hx|Hx]].
      + apply Ia in Hx as [<-|[]]. left; auto.
      + apply Ib in Hx as [<-|[]]. right; left; auto.
      + apply Hi in Hx as [<-|[]]. right; right; left. auto. }
  unfold file_src in H. destruct (pt_file (s_data s)) as [f|] eqn:Ef.
  - destruct F as [F1 F2]. destruct (fiter_open bad (s_min s) f k0) as [it|] eqn:Eo.
    + destruct H as (-> & H1 & H2). split; [|discriminate]. intros _.
      cbn [map] in H1, H2. cbn [file_reads] in T3.
      pose proof (file_shows lo (s_min s) f k0 it F1 F2 Hk T3 Eo) as Hsh.
      assert (R : concat (readable (bad (s_min s)) 0 f) =
        match pt_file (remains bad key s) with Some f => concat f | None => [] end).
      { unfold remains. cbn [pt_file]. rewrite Ef.
        destruct (bad (s_min s) 0) eqn:B0; auto. destruct (starts_in key s) eqn:Es; auto. cbn [andb negb].
        (* the first region is the one opened, unless there is none *)
        destruct f as [|r f]; auto. exfalso.
        unfold fiter_open in Eo.
        assert (P : index_iterator_open (r :: f) k0 = Some 0).
        { destruct k0 as [k|]; auto. destruct Hkey as [<-|[? _]]; [|discriminate].
          cbn [starts_in] in Es. apply N.leb_gt in Es.
          pose proof (good_near lo _ F2) as Hn.
          assert (Hid : (lo <= ev_id k < lo + 2^31 /\ ev_id k < 2^64)%N)
            by (destruct Hk as [[Hb _] [Hw1 Hw2]]; lia).
          pose proof (index_open_spec lo (r :: f) k F1 Hn Hid) as Hi.
          assert (M : (ev_id k < index_max_at (r :: f) 0)%N).
          { unfold index_max_at. cbn [nth]. destruct F1 as [A1 A2]. apply Forall_cons_iff in A2 as [A2 _].
            cbn [concat] in A1. apply ascending_app in A1 as [A1 _].
            destruct (region_max_spec r A2 A1) as [(e & He & ->) _].
            rewrite Forall_forall in I. assert (s_min s <= ev_id e <= s_max s)%N; [|lia].
            apply I. unfold contents. rewrite Ef. cbn [concat]. rewrite !in_app_iff. auto. }
          destruct (index_iterator_open (r :: f) (Some k)) as [p|].
          - destruct p; auto. destruct Hi as (_ & _ & Hi). specialize (Hi 0 ltac:(lia)). lia.
          - specialize (Hi 0 ltac:(simpl; lia)). lia. }
        rewrite P, B0 in Eo. discriminate. }
      destruct (K [shows bad (s_min s) (FFile f it)]) as [K1 K2].
      { cbn [concat]. rewrite app_nil_r, Hsh, R. auto. }
      { cbn [concat]. rewrite app_nil_r. apply incl_refl. }
      exists (merge_open (a ++ b ++ [shows bad (s_min s) (FFile f it)])). split; auto. split; auto.
      pose proof (all_comes _ K1) as Hc. rewrite K2 in Hc. rewrite <- (pending_init (a ++ b ++ _)) in Hc.
      apply comes_step in Hc as [Hc1 Hc2]. unfold merge_open. destruct (sel k0 (pvr key s)); auto.
    + destruct H as (-> & H1 & H2). split; [discriminate|]. intros _. split; auto. intros ->.
      destruct (K []) as [K1 K2].
      { cbn [sel concat]. unfold remains. cbn [pt_file]. rewrite Ef.
        unfold fiter_open in Eo. destruct f as [|r f]; [discriminate|]. cbn [index_iterator_open] in Eo.
        destruct (bad (s_min s) 0) eqn:B0; [|discriminate].
        assert (Es : starts_in key s = false) by (destruct Hkey as [<-|[_ ->]]; auto). rewrite Es. auto. }
      { intros x []. }
      rewrite H1. rewrite app_nil_r in K1, K2. cbn [sel] in K2. rewrite <- K2. apply all_comes; auto.
  - destruct H as (-> & H1 & H2). split; [|discriminate]. intros _. cbn [map] in H1, H2.
    destruct (K []) as [K1 K2].
    { unfold remains. cbn [pt_file]. rewrite Ef. destruct k0; auto. }
    { intros x []. }
    exists (merge_open (a ++ b ++ [])). split; auto. split; auto.
    pose proof (all_comes _ K1) as Hc. rewrite K2 in Hc. rewrite <- (pending_init (a ++ b ++ _)) in Hc.
    apply comes_step in Hc as [Hc1 Hc2]. unfold merge_open. destruct (sel k0 (pvr key s)); auto.
Qed.
End Files.
