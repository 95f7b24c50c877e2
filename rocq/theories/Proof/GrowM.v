(* Taking the last event of a table of any number of pages away again. *)
From Coq Require Import NArith ZArith List Bool Sorted Lia Arith.
Import ListNotations.
From Verif Require Import Model.Base Model.Event Model.Rbtree Model.Memtable Spec.Order
  Proof.OrderL Proof.RbtreeL Proof.MemtableL Proof.MemtableL2.
Local Arguments N.pow : simpl never.

Lemma lookup_behind e l : Forall (fun x => ev_lt x e) l -> lookup l e = None.
Proof.
  intros H. destruct (lookup l e) as [x|] eqn:E; auto. apply lookup_in in E as [Hx Hk].
  rewrite Forall_forall in H. pose proof (H x Hx) as L. unfold ev_lt in L.
  apply ev_cmp_eq in Hk. first [congruence|rewrite ev_cmp_antisym, Hk in L; discriminate].
Qed.

Lemma last_page lo m l e :
  appended m (l ++ [e]) -> ascending (l ++ [e]) -> Forall (good lo) (l ++ [e]) ->
  exists z pg, memtable_search_page m e = Ok z /\ zelem z = Some pg /\
    zroot z = mt_tree m /\ zafter z = [].
Proof.
  intros Ha Hs Hg.
  assert (Hne : elements (mt_tree m) <> []).
  { intros E. pose proof (ap_ev m _ Ha) as X. rewrite E in X. destruct l; discriminate. }
  unfold memtable_search_page.
  destruct (N.eqb_spec (mt_count_pages m) 1) as [E1|E1].
  - pose proof (ap_count_pages m _ Ha) as Hc. rewrite E1 in Hc.
    pose proof (rbtree_min_spec (mt_tree m)) as Hm.
    destruct (rbtree_min (mt_tree m)) as [z|].
    + destruct Hm as (Hr & Hb & pg & Hz). simpl.
      assert (He := zelems z pg Hz). rewrite Hr, Hb in He. rewrite He in Hc. simpl in Hc.
      assert (Haf : zafter z = []) by (destruct (zafter z); auto; simpl in Hc; lia).
      exists z, pg. auto.
    + rewrite Hm in Hc. simpl in Hc. lia.
  - unfold memtable_find, rbtree_get.
    destruct (rb_get (fun pg => memtable_compare pg e) (mt_tree m) [] None 0) as [z rc] eqn:Eg.
    destruct (exists_last Hne) as (front & pl & Hel).
    pose proof (ap_pages m _ Ha) as Hp. unfold pages_ok in Hp. rewrite Hel in Hp.
    pose proof (ap_ev m _ Ha) as Hev. rewrite Hel, flat_map_snoc in Hev.
    apply Forall_app in Hp as [Hp1 Hp2]. inversion Hp2 as [|? ? [Hplne _] _]; subst.
    destruct (exists_last Hplne) as (rest & e' & Epl). rewrite Epl, app_assoc in Hev.
    apply app_inj_tail in Hev as [Hl <-]. subst l.
    assert (Hgt : forall x, In x (flat_map pg_ev front ++ rest) -> ev_lt x e').
    { intros x Hx. apply ascending_app in Hs as (_ & _ & H). apply H; simpl; auto. }
    rewrite Forall_forall in Hg.
    assert (Hneg : forall pg, In pg front -> (memtable_compare pg e' < 0)%Z).
    { intros pg Hpg. rewrite Forall_forall in Hp1. destruct (Hp1 _ Hpg) as [Hnp _].
      unfold memtable_compare. destruct (pg_ev pg) as [|x tl] eqn:Ep; [congruence|].
      assert (Hin : In x (flat_map pg_ev front ++ rest)).
      { apply in_app_iff. left. apply in_flat_map. exists pg. rewrite Ep. simpl; auto. }
      change (ev_at (x :: tl) 0) with x.
      destruct (compare_lt lo x e') as (_ & B & _); [apply Hg, in_app_iff; auto|apply Hg, in_app_iff; simpl; auto|].
      apply B. auto. }
    assert (Hlast : (memtable_compare pl e' <= 0)%Z).
    { unfold memtable_compare. rewrite Epl. destruct rest as [|x tl].
      - change (ev_at ([] ++ [e']) 0) with e'.
        destruct (compare_lt lo e' e') as (_ & _ & C & _); [apply Hg, in_app_iff; simpl; auto..|].
        pose proof (same_key_refl e') as K. apply C in K. lia.
      - change (ev_at ((x :: tl) ++ [e']) 0) with x.
        assert (Hin : In x (flat_map pg_ev front ++ x :: tl)) by (apply in_app_iff; simpl; auto).
        destruct (compare_lt lo x e') as (_ & B & _); [apply Hg, in_app_iff; auto|apply Hg, in_app_iff; simpl; auto|].
        apply Z.lt_le_incl, B. auto. }
    apply rb_get_root in Eg.
    2:{ unfold mono. rewrite Hel. clear -Hneg. induction front as [|a f IH]; cbn [app].
        - repeat constructor.
        - constructor; [apply IH; intros; apply Hneg; simpl; auto|].
          apply Forall_forall. intros. left. apply Hneg. simpl; auto. }
    destruct Eg as [(Hleaf & _)|(zz & -> & Hroot & Hland & Hbef & Haf)].
    { rewrite Hleaf in Hne. cbn [elements] in Hne. congruence. }
    assert (Hall : forall y, In y (elements (mt_tree m)) -> (memtable_compare y e' <= 0)%Z).
    { intros y Hy. rewrite Hel in Hy. apply in_app_iff in Hy as [Hy|[<-|[]]]; auto.
      apply Hneg in Hy. lia. }
    destruct zz as [p [|c lt x rt]]; [contradiction|].
    assert (Hz0 : zafter (p, Node c lt x rt) = []).
    { destruct (zafter (p, Node c lt x rt)) as [|y r2] eqn:Ez; auto. inversion Haf; subst.
      assert (In y (elements (mt_tree m))).
      { rewrite <- Hroot. rewrite (zelems _ x) by auto. rewrite Ez.
        apply in_app_iff. right. right. left. auto. }
      apply Hall in H. lia. }
    destruct Hland as [-> Hland].
    assert (Hx : (memtable_compare x e' <= 0)%Z).
    { apply Hall. rewrite <- Hroot, (zelems _ x) by auto. apply in_app_iff; simpl; auto. }
    rewrite i32_exact by apply i32_range.
    destruct (Z.eqb_spec (memtable_compare x e') 1); [lia|].
    exists (p, Node c lt x rt), x. auto.
Qed.

Lemma unset_last lo m l e :
  appended m (l ++ [e]) -> ascending (l ++ [e]) -> Forall (good lo) (l ++ [e]) ->
  exists m', memtable_unset m e = Ok m' /\ appended m' l /\ same_sizes m m'.
Proof.
  intros Ha Hs Hg. destruct (last_page lo m l e Ha Hs Hg) as (z & pg & Hpage & Hz & Hroot & Haf).
  unfold memtable_unset.
  assert (Hel : elements (mt_tree m) = zbefore z ++ [pg]).
  { rewrite <- Hroot, (zelems z pg Hz), Haf. auto. }
  assert (Hcp : (mt_count_pages m =? 0)%N = false).
  { apply N.eqb_neq. rewrite (ap_count_pages m _ Ha), Hel, app_length. simpl. lia. }
  rewrite Hcp, Hpage. cbn [bind]. rewrite Hz.
  pose proof (ap_ev m _ Ha) as Hev. rewrite Hel, flat_map_snoc in Hev.
  pose proof (ap_pages m _ Ha) as Hpg. unfold pages_ok in Hpg. rewrite Hel in Hpg.
  apply Forall_app in Hpg as [Hpg1 Hpg2]. inversion Hpg2 as [|? ? [Hne Hlen] _]; subst.
  destruct (exists_last Hne) as (rest & e' & Epg). rewrite Epg, app_assoc in Hev.
  apply app_inj_tail in Hev as [Hl <-].
  assert (Hspg : ascending (rest ++ [e'])).
  { rewrite <- Hl, <- app_assoc in Hs. apply ascending_app in Hs. tauto. }
  assert (Hgpg : Forall (good lo) (rest ++ [e'])).
  { rewrite <- Hl, <- app_assoc in Hg. apply Forall_app in Hg. tauto. }
  assert (Hge : good lo e') by (apply Forall_app in Hgpg as [_ X]; inversion X; auto).
  destruct (search_upsert lo (rest ++ [e']) e' Hspg Hgpg Hge) as (pos & found & Hse & Hp & Hres).
  { destruct rest; discriminate. }
  assert (Hb : Forall (fun x => ev_lt x e') rest).
  { apply Forall_forall. intros x Hx. apply ascending_app in Hspg as (_ & _ & X). apply X; simpl; auto. }
  assert (Hlk : lookup (rest ++ [e']) e' = Some e').
  { apply ascending_lookup; auto; [apply in_app_iff; simpl; auto|apply same_key_refl]. }
  rewrite Epg, Hse. cbn [bind]. destruct found; [|destruct Hres; congruence].
  destruct Hres as (x & _ & _ & _ & Hd). rewrite Nat2Z.id, Hd.
  assert (Hdel : delete e' (rest ++ [e']) = rest).
  { rewrite <- (delete_restore e' rest) at 2.
    - f_equal. clear -Hb. induction rest as [|a r IH]; auto. inversion Hb; subst. cbn [upsert app].
      pose proof H1 as L. unfold ev_lt in L. rewrite ev_cmp_antisym, L. cbn [CompOpp]. rewrite <- IH; auto.
    - apply ascending_app in Hspg. tauto.
    - apply lookup_behind; auto. }
  rewrite Hdel.
  assert (Hwf : wf (zroot z)) by (rewrite Hroot; apply (ap_wf m _ Ha)).
  destruct rest as [|r0 rest].
  - destruct (rbtree_remove_spec z pg Hwf Hz) as (t & Ht & Hwt & Het). rewrite Ht. cbn [of_opt bind].
    rewrite Haf, app_nil_r in Het.
    eexists; split; [reflexivity|]. split; [|repeat split].
    constructor; cbn [mt_with mt_tree mt_size_page mt_count_pages mt_count]; rewrite ?Het; auto.
    + rewrite <- Hl, app_nil_r. auto.
    + rewrite (ap_count_pages m _ Ha), Hel, app_length. simpl. lia.
    + rewrite (ap_count m _ Ha), app_length. simpl. lia.
  - destruct (zset_root z pg (mk_page (pg_id pg) (r0 :: rest)) Hz Hwf) as (Hw' & Hb' & Ha' & Hz').
    eexists; split; [reflexivity|]. split; [|repeat split].
    assert (Hel' : elements (zroot (zset z (mk_page (pg_id pg) (r0 :: rest)))) =
                   zbefore z ++ [mk_page (pg_id pg) (r0 :: rest)]).
    { rewrite (zelems _ _ Hz'), Hb', Ha', Haf. auto. }
    fold (zroot (zset z (mk_page (pg_id pg) (r0 :: rest)))).
    constructor; cbn [mt_with mt_tree mt_size_page mt_count_pages mt_count]; auto.
    + rewrite Hel', flat_map_snoc. cbn [pg_ev]. auto.
    + unfold pages_ok. rewrite Hel'. apply Forall_app. split; auto.
      constructor; [|constructor]. cbn [pg_ev]. split; [discriminate|].
      rewrite Epg, app_length in Hlen. cbn [length] in *. lia.
    + rewrite (ap_count_pages m _ Ha), Hel, Hel', !app_length. simpl. lia.
    + rewrite (ap_count m _ Ha), app_length. simpl. lia.
Qed.
