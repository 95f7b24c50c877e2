(* Failed batches under a cursor *)
From Coq Require Import NArith ZArith List Bool Lia.
Import ListNotations.
From Verif Require Import Model.Base Model.Event Model.Memtable Model.Failed Spec.Order Proof.OrderL Proof.MemtableL Proof.MemtableL2.

Lemma set_pos lo m pg e it : ascending (pg_ev pg) -> Forall (good lo) (pg_ev pg) -> good lo e -> pg_ev pg <> [] ->
  exists pos, let pg' := mk_page (pg_id pg) (upsert e (pg_ev pg)) in
  match lookup (pg_ev pg) e with
  | Some p => nth_error (pg_ev pg) pos = Some p /\ same_key p e /\ replace_at pos e (pg_ev pg) = upsert e (pg_ev pg) /\
      set_with_iter m pg e it = Ok (pg', Some p, memtable_iterator_sync it pg' None pos)
  | None => pos <= length (pg_ev pg) /\ Forall (fun y => ev_lt y e) (firstn pos (pg_ev pg)) /\ Forall (fun y => ev_lt e y) (skipn pos (pg_ev pg)) /\
      insert_at pos e (pg_ev pg) = upsert e (pg_ev pg) /\
      (length (pg_ev pg) < mt_size_page m -> set_with_iter m pg e it = Ok (pg', None, memtable_iterator_sync it pg' None pos))
  end.
Proof.
  intros Hs Hg He Hne. cbv zeta.
  destruct (memtable_search_spec lo (pg_ev pg) e Hs Hg He Hne) as (pos & found & Hse & Hres).
  destruct (search_upsert lo (pg_ev pg) e Hs Hg He Hne) as (pos2 & found2 & Hse2 & Hp & Hres2).
  rewrite Hse in Hse2. injection Hse2 as E1 E2. assert (pos2 = pos) by lia. subst pos2 found2. clear E1.
  exists pos. unfold set_with_iter, memtable_insert. rewrite Hse. cbn [bind]. rewrite Nat2Z.id. destruct found.
  - destruct Hres2 as (x & Hx & Hl & Hr & _). rewrite Hl. destruct Hres as (x' & Hx' & Hk). rewrite Hx in Hx'. injection Hx' as <-.
    split; [exact Hx|]. split; [exact Hk|]. split; [exact Hr|]. cbn [bind]. rewrite Hr. apply nth_error_nth with (d := ev_none) in Hx. now rewrite Hx.
  - destruct Hres2 as (Hl & Hi). rewrite Hl. destruct Hres as (H1 & H2 & H3). split; [exact H1|]. split; [exact H2|]. split; [exact H3|]. split; [exact Hi|].
    intro Hroom. destruct (Nat.eqb_spec (length (pg_ev pg)) (mt_size_page m)); [lia|]. cbn [bind]. now rewrite Hi.
Qed.
Lemma unset_back lo pg evs e it : ascending evs -> Forall (good lo) evs -> good lo e -> lookup evs e = None -> pg_ev pg = upsert e evs ->
  unset_with_iter pg e it = Ok (mk_page (pg_id pg) evs, it).
Proof.
  intros Hs Hg He Hl Hp. unfold unset_with_iter. rewrite Hp.
  assert (Ha := upsert_ascending e evs Hs). assert (Hf := upsert_forall (good lo) e evs He Hg).
  assert (Hne : upsert e evs <> []) by (destruct evs as [|y evs]; cbn; [discriminate|destruct (ev_cmp e y); discriminate]).
  destruct (search_upsert lo (upsert e evs) e Ha Hf He Hne) as (pos & found & Hse & _ & Hres). rewrite Hse. cbn [bind]. rewrite Nat2Z.id.
  assert (Hin : lookup (upsert e evs) e = Some e) by (rewrite lookup_upsert by exact Hs; rewrite (proj2 (same_keyb_true e e) (same_key_refl e)); reflexivity).
  destruct found; [|destruct Hres; congruence]. destruct Hres as (x & _ & _ & _ & ->). rewrite (delete_restore e evs Hs Hl). reflexivity.
Qed.
Lemma good_lookup_up (lo : N) evs e : ascending evs -> lookup (upsert e evs) e = Some e.
Proof. intro Hs. rewrite lookup_upsert by exact Hs. now rewrite (proj2 (same_keyb_true e e) (same_key_refl e)). Qed.
Lemma nth_insert_lt pos (e : event) l c : c < pos -> pos <= length l -> nth_error (insert_at pos e l) c = nth_error l c.
Proof.
  intros H1 H2. unfold insert_at. rewrite nth_error_app1 by (rewrite firstn_length; lia). rewrite <- (firstn_skipn pos l) at 2. rewrite nth_error_app1 by (rewrite firstn_length; lia). reflexivity.
Qed.
Lemma nth_insert_at pos (e : event) l : pos <= length l -> nth_error (insert_at pos e l) pos = Some e.
Proof. intro H. unfold insert_at. rewrite nth_error_app2 by (rewrite firstn_length; lia). rewrite firstn_length, Nat.min_l, Nat.sub_diag by lia. reflexivity. Qed.
Lemma nth_insert_gt pos (e : event) l c : pos <= c -> pos <= length l -> nth_error (insert_at pos e l) (S c) = nth_error l c.
Proof.
  intros H1 H2. unfold insert_at. rewrite nth_error_app2 by (rewrite firstn_length; lia). rewrite firstn_length, Nat.min_l by lia.
  replace (S c - pos) with (S (c - pos)) by lia. cbn [nth_error]. rewrite <- (firstn_skipn pos l) at 2. rewrite nth_error_app2 by (rewrite firstn_length; lia). now rewrite firstn_length, Nat.min_l by lia.
Qed.
Lemma nth_replace_other pos (e : event) l c : c <> pos -> pos < length l -> nth_error (replace_at pos e l) c = nth_error l c.
Proof.
  intros H1 H2. unfold replace_at. destruct (Nat.lt_ge_cases c pos) as [L|L].
  - rewrite nth_error_app1 by (rewrite firstn_length; lia). rewrite <- (firstn_skipn pos l) at 2. rewrite nth_error_app1 by (rewrite firstn_length; lia). reflexivity.
  - rewrite nth_error_app2 by (rewrite firstn_length; lia). rewrite firstn_length, Nat.min_l by lia. replace (c - pos) with (S (c - S pos)) by lia. cbn [nth_error].
    rewrite <- (firstn_skipn (S pos) l) at 2. rewrite nth_error_app2 by (rewrite firstn_length; lia). now rewrite firstn_length, Nat.min_l by lia.
Qed.
Lemma nth_replace_at pos (e : event) l : pos < length l -> nth_error (replace_at pos e l) pos = Some e.
Proof. intro H. unfold replace_at. rewrite nth_error_app2 by (rewrite firstn_length; lia). rewrite firstn_length, Nat.min_l, Nat.sub_diag by lia. reflexivity. Qed.
Lemma skip_greater evs c x : ascending evs -> nth_error evs c = Some x -> skipn (S c) evs = filter (gtb x) evs.
Proof.
  intros Hs Hx. assert (Hsp := split_nth _ _ _ Hx). rewrite Hsp at 2. rewrite filter_app. cbn [filter]. unfold gtb at 2. rewrite ev_cmp_refl.
  rewrite filter_none, filter_all; [reflexivity| |]; apply Forall_forall; intros y Hy.
  - apply skipn_In_nth in Hy as (i & Hi & Hy). unfold gtb. assert (ev_lt x y) by (eapply (ascending_nth evs c i); eauto; lia). now rewrite (proj2 (ev_gt_lt _ _) H).
  - apply firstn_In_nth in Hy as (i & Hi & Hy). unfold gtb. assert (ev_lt y x) by (eapply (ascending_nth evs i c); eauto). unfold ev_lt in H. now rewrite H.
Qed.
(* where the position is *)
Lemma pos_above evs pos e c x : nth_error evs c = Some x -> pos <= length evs -> Forall (fun y => ev_lt e y) (skipn pos evs) -> ev_lt x e -> c < pos.
Proof.
  intros Hx Hp Hhi Hlt. destruct (Nat.ltb_spec c pos); auto. exfalso. assert (I : In x (skipn pos evs)).
  { rewrite <- (firstn_skipn pos evs) in Hx. rewrite nth_error_app2 in Hx by (rewrite firstn_length; lia). eapply nth_error_In; eauto. }
  rewrite Forall_forall in Hhi. apply Hhi in I. eapply ev_lt_irrefl, ev_lt_trans; eauto.
Qed.
Lemma pos_below evs pos e c x : nth_error evs c = Some x -> pos <= length evs -> Forall (fun y => ev_lt y e) (firstn pos evs) -> ev_lt e x -> pos <= c.
Proof.
  intros Hx Hp Hlo Hlt. destruct (Nat.leb_spec pos c); auto. exfalso. assert (I : In x (firstn pos evs)).
  { rewrite <- (firstn_skipn pos evs) in Hx. rewrite nth_error_app1 in Hx by (rewrite firstn_length; lia). eapply nth_error_In; eauto. }
  rewrite Forall_forall in Hlo. apply Hlo in I. eapply ev_lt_irrefl, ev_lt_trans; eauto.
Qed.
Lemma at_same evs i j a b : ascending evs -> nth_error evs i = Some a -> nth_error evs j = Some b -> same_key a b -> i = j.
Proof.
  intros Hs Ha Hb Hk. destruct (Nat.lt_trichotomy i j) as [H|[H|H]]; auto; exfalso.
  - assert (L : ev_lt a b) by (eapply (ascending_nth evs i j); eauto). exact (ev_lt_not_same _ _ L Hk).
  - assert (L : ev_lt b a) by (eapply (ascending_nth evs j i); eauto). exact (ev_lt_not_same _ _ L (same_key_sym _ _ Hk)).
Qed.
Lemma sync_same id c x pg pos : mp_page (mk_pos id c (Some x)) = pg_id pg -> pos = c ->
  memtable_iterator_sync (mk_pos id c (Some x)) pg None pos = mk_pos id c (nth_error (pg_ev pg) c).
Proof. intros E ->. cbn in E. unfold memtable_iterator_sync. cbn. rewrite E, N.eqb_refl, Nat.eqb_refl. reflexivity. Qed.
Lemma sync_above id c x pg pos : id = pg_id pg -> c < pos ->
  memtable_iterator_sync (mk_pos id c (Some x)) pg None pos = mk_pos id c (nth_error (pg_ev pg) c).
Proof.
  intros -> L. unfold memtable_iterator_sync. cbn. rewrite N.eqb_refl. cbn. destruct (Nat.eqb_spec c pos); [lia|]. destruct (Nat.leb_spec pos c); [lia|]. reflexivity.
Qed.
Lemma sync_below id c x pg pos : id = pg_id pg -> pos < c ->
  memtable_iterator_sync (mk_pos id c (Some x)) pg None pos = mk_pos id (S c) (nth_error (pg_ev pg) (S c)).
Proof.
  intros -> L. unfold memtable_iterator_sync. cbn. rewrite N.eqb_refl. cbn. destruct (Nat.eqb_spec c pos); [lia|]. destruct (Nat.leb_spec pos c); [|lia]. reflexivity.
Qed.

Lemma failed_above lo m x : forall es pg c y, ascending (pg_ev pg) -> Forall (good lo) (pg_ev pg) -> Forall (good lo) es ->
  nth_error (pg_ev pg) c = Some y -> same_key y x -> Forall (ev_le x) es -> length (pg_ev pg) + length es <= mt_size_page m ->
  failed_batch m pg (mk_pos (pg_id pg) c (Some y)) es = Ok (pg, mk_pos (pg_id pg) c (Some y)).
Proof.
  induction es as [|e es IH]; intros pg c y Hs Hg Hge Hy Hk Hle Hroom; [reflexivity|]. cbn [failed_batch length] in *.
  inversion Hge as [|? ? He Hges]; subst. inversion Hle as [|? ? Hx Hles]; subst.
  assert (Hne : pg_ev pg <> []) by (intro E; rewrite E in Hy; destruct c; discriminate).
  assert (Hc : c < length (pg_ev pg)) by (apply nth_error_Some; congruence).
  destruct (set_pos lo m pg e (mk_pos (pg_id pg) c (Some y)) Hs Hg He Hne) as (pos & P). cbv zeta in P.
  assert (Ha := upsert_ascending e _ Hs). assert (Hf := upsert_forall (good lo) e _ He Hg).
  destruct (lookup (pg_ev pg) e) as [p|] eqn:Hl.
  - destruct P as (P1 & P2 & P3 & ->). cbn [bind]. assert (Hpos : pos < length (pg_ev pg)) by (apply nth_error_Some; congruence).
    assert (Hcp : c <= pos).
    { destruct (Nat.leb_spec c pos); auto. exfalso. assert (L : ev_lt p y) by (eapply (ascending_nth (pg_ev pg) pos c); eauto).
      unfold ev_lt in L. rewrite (same_key_cmp_l _ _ _ P2), (same_key_cmp_r _ _ _ Hk) in L. apply ev_gt_lt in L. contradiction. }
    set (pg1 := mk_page (pg_id pg) (upsert e (pg_ev pg))) in *.
    assert (Q : exists y1, memtable_iterator_sync (mk_pos (pg_id pg) c (Some y)) pg1 None pos = mk_pos (pg_id pg) c (Some y1) /\ nth_error (pg_ev pg1) c = Some y1 /\ same_key y1 x).
    { destruct (Nat.eq_dec c pos) as [E|E].
      - exists e. rewrite sync_same by (cbn; auto). cbn [pg_ev pg1]. rewrite <- P3, E. rewrite nth_replace_at by lia. split; [reflexivity|]. split; [reflexivity|].
        rewrite <- E in P1. rewrite Hy in P1. injection P1 as <-. eapply same_key_trans; [apply same_key_sym; exact P2|exact Hk].
      - exists y. rewrite sync_above by (cbn; auto; lia). cbn [pg_ev pg1]. rewrite <- P3. rewrite nth_replace_other by lia. rewrite Hy. auto. }
    destruct Q as (y1 & -> & Q1 & Q2).
    assert (Hlen : length (pg_ev pg1) = length (pg_ev pg)) by (cbn; rewrite upsert_length by exact Hs; rewrite Hl; reflexivity).
    change (pg_id pg) with (pg_id pg1). rewrite (IH pg1 c y1); auto; [|lia]. cbn [bind].
    assert (Hp : good lo p) by exact (lookup_good lo _ e p Hg Hl).
    assert (Hne1 : pg_ev pg1 <> []) by (intro E; rewrite E in Q1; destruct c; discriminate).
    destruct (set_pos lo m pg1 p (mk_pos (pg_id pg1) c (Some y1)) Ha Hf Hp Hne1) as (pos' & P'). cbv zeta in P'.
    assert (Hl' : lookup (pg_ev pg1) p = Some e).
    { cbn [pg_ev pg1]. rewrite (lookup_same _ _ _ P2). apply (good_lookup_up lo). exact Hs. }
    rewrite Hl' in P'. destruct P' as (V1 & V2 & V3 & ->). cbn [bind].
    change (upsert p (pg_ev pg1)) with (upsert p (upsert e (pg_ev pg))) in *. rewrite (upsert_restore e p _ Hs Hl) in *.
    assert (pos' = pos).
    { cbn [pg_ev pg1] in V1. rewrite <- P3 in V1. eapply (at_same (replace_at pos e (pg_ev pg))); [rewrite P3; exact Ha|exact V1|apply nth_replace_at; lia|apply same_key_refl]. }
    subst pos'. assert (Epg : mk_page (pg_id pg) (pg_ev pg) = pg) by (destruct pg; reflexivity). cbn [pg_id pg1].
    rewrite Epg. destruct (Nat.eq_dec c pos) as [E|E]; [rewrite sync_same by (cbn; auto)|rewrite sync_above by (cbn; auto; lia)]; rewrite Hy; reflexivity.
  - destruct P as (P0 & P1 & P2 & P3 & P4). rewrite P4 by lia. cbn [bind].
    assert (Hlt : ev_lt y e).
    { assert (L : ev_cmp y e <> Eq). { intro E. apply ev_cmp_eq in E. apply (proj1 (lookup_none _ _) Hl y); [eapply nth_error_In; eauto|now apply same_key_sym]. }
      unfold ev_le in Hx. rewrite <- (same_key_cmp_l _ _ e Hk) in Hx. unfold ev_lt. destruct (ev_cmp y e); congruence. }
    assert (Hcp := pos_above _ _ _ _ _ Hy P0 P2 Hlt). set (pg1 := mk_page (pg_id pg) (upsert e (pg_ev pg))) in *.
    rewrite sync_above by (cbn; auto). assert (Q1 : nth_error (pg_ev pg1) c = Some y) by (cbn [pg_ev pg1]; rewrite <- P3, nth_insert_lt by lia; exact Hy). rewrite Q1.
    change (pg_id pg) with (pg_id pg1). rewrite (IH pg1 c y); auto.
    + cbn [bind]. rewrite (unset_back lo pg1 (pg_ev pg) e _ Hs Hg He Hl eq_refl). cbn [pg_id pg1]. destruct pg; reflexivity.
    + cbn [pg_ev pg1]. rewrite upsert_length by exact Hs. rewrite Hl. lia.
Qed.
Theorem failed_keeps lo m pg c x es : ascending (pg_ev pg) -> Forall (fun a => ev_ok a /\ win lo a) (pg_ev pg) -> Forall (fun a => ev_ok a /\ win lo a) es ->
  nth_error (pg_ev pg) c = Some x -> Forall (ev_le x) es -> length (pg_ev pg) + length es <= mt_size_page m ->
  failed_batch m pg (mk_pos (pg_id pg) c (Some x)) es = Ok (pg, mk_pos (pg_id pg) c (Some x)) /\
  cursor_view pg (mk_pos (pg_id pg) c (Some x)) = (Some x, filter (gtb x) (pg_ev pg)).
Proof.
  intros Hs Hg Hge Hx Hle Hroom. split; [eapply (failed_above lo m x); eauto; apply same_key_refl|].
  unfold cursor_view. cbn [mp_cur mp_pos]. now rewrite (skip_greater _ _ _ Hs Hx).
Qed.

(* one event below the cursor *)
Lemma skipn_tl {A} n (l : list A) : skipn (S n) l = tl (skipn n l).
Proof. revert l. induction n as [|n IH]; intros [|a l]; try reflexivity. apply IH. Qed.
Lemma nth_skip {A} k : forall (l : list A) n, nth_error (skipn k l) n = nth_error l (k + n).
Proof. induction k as [|k IH]; intros [|a l] n; try reflexivity; [now destruct n|apply IH]. Qed.
Lemma skip_skip {A} a b : forall l : list A, skipn a (skipn b l) = skipn (a + b) l.
Proof. induction b as [|b IH]; intros [|x l]; rewrite ?Nat.add_0_r, ?skipn_nil; try reflexivity. rewrite Nat.add_succ_r. apply IH. Qed.
Theorem failed_below lo m pg c x e : ascending (pg_ev pg) -> Forall (fun a => ev_ok a /\ win lo a) (pg_ev pg) -> ev_ok e -> win lo e ->
  nth_error (pg_ev pg) c = Some x -> ev_lt e x -> length (pg_ev pg) < mt_size_page m ->
  let later := filter (gtb x) (pg_ev pg) in
  exists it, failed_batch m pg (mk_pos (pg_id pg) c (Some x)) [e] = Ok (pg, it) /\
  cursor_view pg it =
    match lookup (pg_ev pg) e with
    | Some _ => (nth_error later 1, skipn 2 later)
    | None => if existsb (fun y => match ev_cmp e y, ev_cmp y x with Lt, Lt => true | _, _ => false end) (pg_ev pg)
              then (Some x, tl later) else (Some e, later)
    end.
Proof.
  intros Hs Hg Ho Hw Hx Hlt Hroom. cbv zeta. assert (He : good lo e) by (split; auto). cbn [failed_batch].
  assert (Hne : pg_ev pg <> []) by (intro E; rewrite E in Hx; destruct c; discriminate).
  assert (Hc : c < length (pg_ev pg)) by (apply nth_error_Some; congruence).
  rewrite <- (skip_greater _ _ _ Hs Hx).
  destruct (set_pos lo m pg e (mk_pos (pg_id pg) c (Some x)) Hs Hg He Hne) as (pos & P). cbv zeta in P.
  assert (Ha := upsert_ascending e _ Hs). assert (Hf := upsert_forall (good lo) e _ He Hg).
  assert (Epg : mk_page (pg_id pg) (pg_ev pg) = pg) by (destruct pg; reflexivity).
  set (pg1 := mk_page (pg_id pg) (upsert e (pg_ev pg))) in *.
  destruct (lookup (pg_ev pg) e) as [p|] eqn:Hl.
  - destruct P as (P1 & P2 & P3 & ->). cbn [bind]. assert (Hpos : pos < length (pg_ev pg)) by (apply nth_error_Some; congruence).
    assert (Hcp : pos < c).
    { destruct (Nat.ltb_spec pos c); auto. exfalso. assert (L : ev_lt p x) by (unfold ev_lt; rewrite (same_key_cmp_l _ _ _ P2); exact Hlt).
      destruct (Nat.eq_dec c pos) as [->|]; [rewrite Hx in P1; injection P1 as <-; exact (ev_lt_irrefl _ L)|].
      assert (L' : ev_lt x p) by (eapply (ascending_nth (pg_ev pg) c pos); eauto; lia). eapply ev_lt_irrefl, ev_lt_trans; eauto. }
    rewrite sync_below by (cbn; auto).
    assert (Hp : good lo p) by exact (lookup_good lo _ e p Hg Hl).
    assert (Hn1 : nth_error (pg_ev pg1) (S c) = nth_error (pg_ev pg) (S c)) by (cbn [pg_ev pg1]; rewrite <- P3; apply nth_replace_other; lia).
    assert (Hne1 : pg_ev pg1 <> []) by (cbn [pg_ev pg1]; intro E; apply (f_equal (@length event)) in E; rewrite upsert_length in E by exact Hs; rewrite Hl in E; cbn in E; lia).
    assert (Hl' : lookup (pg_ev pg1) p = Some e) by (cbn [pg_ev pg1]; rewrite (lookup_same _ _ _ P2); apply (good_lookup_up lo); exact Hs).
    destruct (set_pos lo m pg1 p (mk_pos (pg_id pg) (S c) (nth_error (pg_ev pg1) (S c))) Ha Hf Hp Hne1) as (pos' & P'). cbv zeta in P'.
    rewrite Hl' in P'. destruct P' as (V1 & V2 & V3 & V4). rewrite V4. cbn [bind].
    change (upsert p (pg_ev pg1)) with (upsert p (upsert e (pg_ev pg))) in *. rewrite (upsert_restore e p _ Hs Hl) in *. cbn [pg_id pg1] in *. rewrite Epg in *.
    assert (pos' = pos).
    { cbn [pg_ev pg1] in V1. rewrite <- P3 in V1. eapply (at_same (replace_at pos e (pg_ev pg))); [rewrite P3; exact Ha|exact V1|apply nth_replace_at; lia|apply same_key_refl]. }
    subst pos'. eexists. split; [reflexivity|]. rewrite Hn1. destruct (nth_error (pg_ev pg) (S c)) as [z|] eqn:Ez.
    + rewrite sync_below by (cbn; auto; lia). unfold cursor_view. cbn [mp_cur mp_pos]. rewrite nth_skip, skip_skip. replace (S c + 1) with (S (S c)) by lia. replace (2 + S c) with (S (S (S c))) by lia. reflexivity.
    + apply nth_error_None in Ez. rewrite (@skipn_all2 _ (S c) (pg_ev pg)) by lia. unfold memtable_iterator_sync, cursor_view. cbn [mp_page mp_cur negb orb].
      rewrite orb_true_r. cbn [mp_cur mp_pos]. rewrite skipn_all2 by lia. reflexivity.
  - destruct P as (P0 & P1 & P2 & P3 & P4). rewrite P4 by lia. cbn [bind].
    assert (Hcp := pos_below _ _ _ _ _ Hx P0 P1 Hlt).
    rewrite (unset_back lo pg1 (pg_ev pg) e _ Hs Hg He Hl eq_refl). cbn [pg_id pg1]. rewrite Epg. eexists. split; [reflexivity|].
    destruct (existsb _ (pg_ev pg)) eqn:Eb.
    + apply existsb_exists in Eb as (y & Hy & Ey). destruct (ev_cmp e y) eqn:E1; try discriminate. destruct (ev_cmp y x) eqn:E2; try discriminate.
      apply In_nth_error in Hy as (j & Hj). assert (Hjc : j < c).
      { destruct (Nat.lt_trichotomy j c) as [|[->|]]; auto.
        - rewrite Hx in Hj. injection Hj as ->. exfalso. exact (ev_lt_irrefl _ E2).
        - exfalso. assert (ev_lt x y) by (eapply (ascending_nth (pg_ev pg) c j); eauto). eapply ev_lt_irrefl, ev_lt_trans; eauto. }
      assert (Hpj := pos_below _ _ _ _ _ Hj P0 P1 E1). rewrite sync_below by (cbn; auto; lia). unfold cursor_view. cbn [mp_cur mp_pos pg_ev pg1].
      rewrite <- P3, nth_insert_gt by lia. rewrite Hx. rewrite (skipn_tl (S c)). reflexivity.
    + assert (pos = c).
      { destruct (Nat.eq_dec pos c) as [|Hn]; auto. exfalso. destruct (nth_error_some_lt (pg_ev pg) pos ltac:(lia)) as (y & Hy).
        enough (existsb (fun y0 => match ev_cmp e y0, ev_cmp y0 x with Lt, Lt => true | _, _ => false end) (pg_ev pg) = true) by congruence.
        apply existsb_exists. exists y. split; [eapply nth_error_In; eauto|].
        assert (L1 : ev_lt e y). { rewrite Forall_forall in P2. apply P2. rewrite <- (firstn_skipn pos (pg_ev pg)) in Hy. rewrite nth_error_app2 in Hy by (rewrite firstn_length; lia). eapply nth_error_In; eauto. }
        assert (L2 : ev_lt y x) by (eapply (ascending_nth (pg_ev pg) pos c); eauto; lia). unfold ev_lt in L1, L2. now rewrite L1, L2. }
      subst pos. rewrite sync_same by (cbn; auto). unfold cursor_view. cbn [mp_cur mp_pos pg_ev pg1]. rewrite <- P3, nth_insert_at by lia. reflexivity.
Qed.
