(* Directories of partition files and their validation at start. *)
From Coq Require Import NArith ZArith List Bool Sorted Lia Arith Permutation.
Import ListNotations.
From Verif Require Import Model.Base Model.Event Model.Memtable Model.Mapping Model.PartIter
  Model.Scan Model.Engine Model.Crash.

Implicit Types d : dir.

Lemma dkey_eqb_true a b : dkey_eqb a b = true <-> a = b.
Proof.
  destruct a as [a1 a2], b as [b1 b2]. unfold dkey_eqb. cbn [fst snd].
  rewrite andb_true_iff, !N.eqb_eq. split; [intros [-> ->]; auto|intros H; inversion H; auto].
Qed.
Lemma dkey_eqb_refl a : dkey_eqb a a = true.
Proof. apply dkey_eqb_true; auto. Qed.
Lemma dkey_dec (a b : dkey) : {a = b} + {a <> b}.
Proof.
  destruct (dkey_eqb a b) eqn:E; [left; apply dkey_eqb_true; auto|right].
  intros H. apply dkey_eqb_true in H. congruence.
Qed.
Lemma dkey_eqb_false a b : a <> b -> dkey_eqb a b = false.
Proof. intros H. destruct (dkey_eqb a b) eqn:E; auto. apply dkey_eqb_true in E. contradiction. Qed.

Lemma dget_drop d k k' : dget (drop_key d k) k' = if dkey_dec k k' then no_files else dget d k'.
Proof.
  unfold dget, drop_key. induction d as [|[x s] d IH]; cbn [filter find fst].
  - destruct (dkey_dec k k'); auto.
  - destruct (dkey_eqb x k) eqn:E; cbn [negb].
    + apply dkey_eqb_true in E. subst. rewrite IH. destruct (dkey_dec k k'); auto.
      rewrite dkey_eqb_false by auto. auto.
    + cbn [find fst]. destruct (dkey_eqb x k') eqn:E'; auto. apply dkey_eqb_true in E'. subst.
      destruct (dkey_dec k k') as [->|]; auto. rewrite dkey_eqb_refl in E. discriminate.
Qed.
Lemma dget_set d k s k' : dget (dset d k s) k' = if dkey_dec k k' then s else dget d k'.
Proof.
  unfold dset. destruct (_ || _)%bool eqn:E.
  - unfold dget at 1. cbn [find fst]. destruct (dkey_dec k k') as [->|Hn].
    + rewrite dkey_eqb_refl. auto.
    + rewrite dkey_eqb_false by auto. change (dget (drop_key d k) k' = dget d k'). rewrite dget_drop.
      destruct (dkey_dec k k'); congruence.
  - rewrite dget_drop. destruct (dkey_dec k k'); auto. destruct s as [[] [] []]; simpl in E; try discriminate. auto.
Qed.
Lemma dget_set_same d k s : dget (dset d k s) k = s.
Proof. rewrite dget_set. destruct (dkey_dec k k); congruence. Qed.
Lemma dget_set_other d k s k' : k <> k' -> dget (dset d k s) k' = dget d k'.
Proof. intros H. rewrite dget_set. destruct (dkey_dec k k'); congruence. Qed.
Lemma dget_drop_same d k : dget (drop_key d k) k = no_files.
Proof. rewrite dget_drop. destruct (dkey_dec k k); congruence. Qed.
Lemma dget_drop_other d k k' : k <> k' -> dget (drop_key d k) k' = dget d k'.
Proof. intros H. rewrite dget_drop. destruct (dkey_dec k k'); congruence. Qed.

Definition wfd (d : dir) : Prop := NoDup (map fst d) /\ Forall (fun x => snd x <> no_files) d.

Lemma wfd_nil : wfd [].
Proof. split; constructor. Qed.
Lemma in_drop d k x : In x (drop_key d k) <-> In x d /\ fst x <> k.
Proof.
  unfold drop_key. rewrite filter_In, negb_true_iff. split; intros [H1 H2]; split; auto.
  - intros E. apply dkey_eqb_true in E. congruence.
  - apply dkey_eqb_false; auto.
Qed.
Lemma nodup_filter_fst (f : dkey * slot -> bool) d : NoDup (map fst d) -> NoDup (map fst (filter f d)).
Proof.
  induction d as [|x d IH]; simpl; auto. inversion 1; subst. destruct (f x); auto. simpl. constructor; auto.
  intros Hin. apply H2. apply in_map_iff in Hin as (y & E & Hy). apply filter_In in Hy as [Hy _].
  apply in_map_iff. eauto.
Qed.
Lemma wfd_drop d k : wfd d -> wfd (drop_key d k).
Proof.
  intros [H1 H2]. split; [apply nodup_filter_fst; auto|].
  rewrite Forall_forall in *. intros x Hx. apply in_drop in Hx. apply H2. tauto.
Qed.
Lemma wfd_set d k s : wfd d -> wfd (dset d k s).
Proof.
  intros H. pose proof (wfd_drop d k H) as [H1 H2]. unfold dset. destruct (_ || _)%bool eqn:E; [|split; auto].
  split; simpl.
  - constructor; auto. intros Hin. apply in_map_iff in Hin as (x & Ex & Hx). apply in_drop in Hx. tauto.
  - constructor; auto. simpl. intros ->. discriminate.
Qed.
Lemma in_keys d k : wfd d -> (In k (map fst d) <-> dget d k <> no_files).
Proof.
  intros [H1 H2]. unfold dget. destruct (find _ d) as [x|] eqn:E.
  - apply find_some in E as [E1 E2]. apply dkey_eqb_true in E2. subst. rewrite Forall_forall in H2.
    split; auto. intros _. apply in_map; auto.
  - split; [|congruence]. intros Hin. apply in_map_iff in Hin as (x & <- & Hx).
    eapply find_none in E; eauto. rewrite dkey_eqb_refl in E. discriminate.
Qed.
Lemma has_key d k : wfd d -> existsb (fun x => dkey_eqb (fst x) k) d = true <-> dget d k <> no_files.
Proof.
  intros H. rewrite <- in_keys by auto. rewrite existsb_exists, in_map_iff. split.
  - intros (x & Hx & E). apply dkey_eqb_true in E. eauto.
  - intros (x & E & Hx). exists x. split; auto. apply dkey_eqb_true. auto.
Qed.

Definition only_id (s : slot) : Prop := sl_id s <> None /\ sl_inc s = None /\ sl_comp s = None.
Definition only_comp (s : slot) : Prop := sl_id s = None /\ sl_inc s = None /\ sl_comp s <> None.
(* states that recovery accepts *)
Definition shape (s : slot) : Prop :=
  sl_comp s = None \/ sl_inc s = None.

Record good_dir (storages : list N) (d : dir) : Prop := {
  gd_wf : wfd d;
  gd_st : forall k, dget d k <> no_files -> In (fst k) storages;
  gd_shape : forall k, shape (dget d k);
  gd_id : forall st st' mn, sl_id (dget d (st, mn)) <> None -> sl_id (dget d (st', mn)) <> None -> st = st';
  gd_comp : forall st st' mn, sl_comp (dget d (st, mn)) <> None -> sl_comp (dget d (st', mn)) <> None -> st = st';
  gd_alone : forall st st' mn, only_comp (dget d (st, mn)) -> st <> st' ->
    dget d (st', mn) <> no_files -> sl_id (dget d (st', mn)) <> None
}.

(* the file that is used after a start *)
Definition surv (d : dir) (mn : N) (c : content) : Prop :=
  (exists st, sl_id (dget d (st, mn)) = Some c) \/
  ((forall st, sl_id (dget d (st, mn)) = None) /\ exists st, sl_comp (dget d (st, mn)) = Some c).

Lemma surv_unique storages d mn c c' : good_dir storages d -> surv d mn c -> surv d mn c' -> c = c'.
Proof.
  intros G [(st & H)|[H1 (st & H)]] [(st' & H')|[H1' (st' & H')]].
  - assert (st = st') by (eapply (gd_id _ _ G); [rewrite H|rewrite H']; discriminate). subst. congruence.
  - rewrite H1' in H. discriminate.
  - rewrite H1 in H'. discriminate.
  - assert (st = st') by (eapply (gd_comp _ _ G); [rewrite H|rewrite H']; discriminate). subst. congruence.
Qed.

Lemma find_part_spec storages d k : wfd d -> (forall k, dget d k <> no_files -> In (fst k) storages) ->
  match find_part storages d k with
  | Some s => exists st, st <> fst k /\ s = dget d (st, snd k) /\ s <> no_files
  | None => forall st, st <> fst k -> dget d (st, snd k) = no_files
  end.
Proof.
  intros W S. unfold find_part. destruct (find _ _) as [st|] eqn:E.
  - apply find_some in E as [E1 E2]. apply filter_In in E1 as [_ E1]. apply has_key in E2; auto.
    exists st. split; auto. apply negb_true_iff, N.eqb_neq in E1. auto.
  - intros st Hst.
    destruct (existsb (fun x => dkey_eqb (fst x) (st, snd k)) d) eqn:Ex.
    + assert (Hk : dget d (st, snd k) <> no_files) by (apply has_key; auto).
      eapply find_none in E; [rewrite Ex in E; discriminate|].
      apply filter_In. split; [apply (S (st, snd k)); auto|]. apply negb_true_iff, N.eqb_neq; auto.
    + assert (X : dget d (st, snd k) = no_files \/ dget d (st, snd k) <> no_files).
      { destruct (dget d (st, snd k)) as [[] [] []]; auto; right; discriminate. }
      destruct X as [|X]; auto. apply has_key in X; auto. congruence.
Qed.

(* changes to one entry *)
Lemma good_change storages d d' k : good_dir storages d -> wfd d' ->
  (forall k', k' <> k -> dget d' k' = dget d k') ->
  (dget d' k <> no_files -> In (fst k) storages) -> shape (dget d' k) ->
  (sl_id (dget d' k) <> None -> forall st, st <> fst k -> sl_id (dget d (st, snd k)) = None) ->
  (sl_comp (dget d' k) <> None -> forall st, st <> fst k -> sl_comp (dget d (st, snd k)) = None) ->
  (only_comp (dget d' k) -> forall st, st <> fst k -> dget d (st, snd k) <> no_files ->
     sl_id (dget d (st, snd k)) <> None) ->
  (dget d' k <> no_files -> sl_id (dget d' k) = None -> forall st, st <> fst k ->
     ~ only_comp (dget d (st, snd k))) ->
  good_dir storages d'.
Proof.
  intros G W O S Sh Hi Hc Ha Hb. destruct k as [ks km]. cbn [fst snd] in *. constructor; auto.
  - intros k' Hk. destruct (dkey_dec k' (ks, km)) as [->|Hn]; auto. rewrite O in Hk by auto. apply (gd_st _ _ G k'); auto.
  - intros k'. destruct (dkey_dec k' (ks, km)) as [->|Hn]; auto. rewrite O by auto. apply (gd_shape _ _ G k').
  - intros st st' mn H1 H2. destruct (dkey_dec (st, mn) (ks, km)) as [E|Hn], (dkey_dec (st', mn) (ks, km)) as [E'|Hn'].
    + congruence.
    + inversion E; subst. rewrite (O (st', km)) in H2 by auto. destruct (N.eq_dec st' ks); auto.
      exfalso. apply H2. apply Hi; auto.
    + inversion E'; subst. rewrite (O (st, km)) in H1 by auto. destruct (N.eq_dec st ks); auto.
      exfalso. apply H1. apply Hi; auto.
    + rewrite O in H1, H2 by auto. eapply (gd_id _ _ G); eauto.
  - intros st st' mn H1 H2. destruct (dkey_dec (st, mn) (ks, km)) as [E|Hn], (dkey_dec (st', mn) (ks, km)) as [E'|Hn'].
    + congruence.
    + inversion E; subst. rewrite (O (st', km)) in H2 by auto. destruct (N.eq_dec st' ks); auto.
      exfalso. apply H2. apply Hc; auto.
    + inversion E'; subst. rewrite (O (st, km)) in H1 by auto. destruct (N.eq_dec st ks); auto.
      exfalso. apply H1. apply Hc; auto.
    + rewrite O in H1, H2 by auto. eapply (gd_comp _ _ G); eauto.
  - intros st st' mn H1 Hne H2. destruct (dkey_dec (st, mn) (ks, km)) as [E|Hn], (dkey_dec (st', mn) (ks, km)) as [E'|Hn'].
    + congruence.
    + inversion E; subst. rewrite (O (st', km)) in * by auto. apply Ha; auto.
    + inversion E'; subst. rewrite (O (st, km)) in H1 by auto. intros X. apply (Hb H2 X st); auto.
    + rewrite O in * by auto. eapply (gd_alone _ _ G); eauto.
Qed.

Lemma none_or {A} (o : option A) : o = None \/ o <> None.
Proof. destruct o; auto; right; discriminate. Qed.
Lemma some_is {A} (o : option A) : is_some o = true <-> o <> None.
Proof. destruct o; simpl; split; congruence. Qed.
Lemma none_is {A} (o : option A) : is_some o = false <-> o = None.
Proof. destruct o; simpl; split; congruence. Qed.

Lemma validate_step storages d k : good_dir storages d -> dget d k <> no_files ->
  exists d', recover_validate storages d k = Ok d' /\ good_dir storages d' /\
    (forall k', k' <> k -> dget d' k' = dget d k') /\
    (dget d' k = no_files \/ only_id (dget d' k)) /\
    (forall mn c, surv d' mn c <-> surv d mn c).
Proof.
  intros G Hk. pose proof G as [W S Sh Hid Hc Ha]. destruct k as [ks km].
  (* removing the entry *)
  assert (Rem : sl_id (dget d (ks, km)) = None ->
    (sl_comp (dget d (ks, km)) <> None -> exists st, sl_id (dget d (st, km)) <> None) ->
    exists d', Ok (drop_key d (ks, km)) = Ok d' /\ good_dir storages d' /\
    (forall k', k' <> (ks, km) -> dget d' k' = dget d k') /\
    (dget d' (ks, km) = no_files \/ only_id (dget d' (ks, km))) /\
    (forall mn c, surv d' mn c <-> surv d mn c)).
  { intros Hn Hx. eexists. split; [reflexivity|].
    assert (O : forall k', k' <> (ks, km) -> dget (drop_key d (ks, km)) k' = dget d k').
    { intros; apply dget_drop_other; auto. }
    assert (Z : dget (drop_key d (ks, km)) (ks, km) = no_files) by apply dget_drop_same.
    split; [|split; [exact O|split; [auto|]]].
    - apply (good_change storages d _ (ks, km)); rewrite ?Z; cbn; auto using wfd_drop; try congruence; try tauto.
      + left; reflexivity. 
      + intros [_ [_ X]]. cbn in X. congruence.
    - assert (Zi : forall st mn, sl_id (dget (drop_key d (ks, km)) (st, mn)) = sl_id (dget d (st, mn))).
      { intros st mn. destruct (dkey_dec (st, mn) (ks, km)) as [E|E]; [inversion E; subst; rewrite Z; auto|].
        rewrite O; auto. }
      intros mn c. unfold surv. split; (intros [(st & H)|[H1 (st & H)]]; [left|right]).
      + exists st. rewrite <- Zi. auto.
      + split; [intros st'; rewrite <- Zi; auto|]. exists st.
        destruct (dkey_dec (st, mn) (ks, km)) as [E|E]; [inversion E; subst; rewrite Z in H; discriminate|].
        rewrite O in H; auto.
      + exists st. rewrite Zi. auto.
      + split; [intros st'; rewrite Zi; auto|]. exists st.
        destruct (dkey_dec (st, mn) (ks, km)) as [E|E].
        * inversion E; subst. destruct Hx as (st' & Hx); [congruence|]. rewrite H1 in Hx. congruence.
        * rewrite O; auto. }
  (* keeping the file only *)
  assert (Keep : forall c0, (sl_id (dget d (ks, km)) = Some c0 \/
      (sl_id (dget d (ks, km)) = None /\ sl_inc (dget d (ks, km)) = None /\ sl_comp (dget d (ks, km)) = Some c0 /\
       forall st, st <> ks -> dget d (st, km) = no_files)) ->
    exists d', Ok (dset d (ks, km) (mk_slot (Some c0) None None)) = Ok d' /\ good_dir storages d' /\
    (forall k', k' <> (ks, km) -> dget d' k' = dget d k') /\
    (dget d' (ks, km) = no_files \/ only_id (dget d' (ks, km))) /\
    (forall mn c, surv d' mn c <-> surv d mn c)).
  { intros c0 Hx. eexists. split; [reflexivity|].
    assert (O : forall k', k' <> (ks, km) -> dget (dset d (ks, km) (mk_slot (Some c0) None None)) k' = dget d k').
    { intros; apply dget_set_other; auto. }
    assert (Z : dget (dset d (ks, km) (mk_slot (Some c0) None None)) (ks, km) = mk_slot (Some c0) None None).
    { apply dget_set_same. }
    split; [|split; [exact O|split; [right; rewrite Z; split; [discriminate|auto]|]]].
    - apply (good_change storages d _ (ks, km)); rewrite ?Z; cbn [fst snd sl_id sl_inc sl_comp]; auto using wfd_set; try congruence.
      + intros _. apply (S (ks, km)). auto.
      + left; reflexivity.
      + intros _ st Hst. destruct Hx as [Hx|(_ & _ & _ & Hx)].
        * destruct (none_or (sl_id (dget d (st, km)))) as [|X]; auto. exfalso. apply Hst.
          eapply Hid; [exact X|rewrite Hx; discriminate].
        * rewrite Hx; auto.
      + intros [X _]. cbn in X. discriminate.
    - intros mn c. destruct (N.eq_dec mn km) as [->|Hmn].
      + assert (Hs : surv d km c <-> c = c0).
        { assert (X : surv d km c0).
          { destruct Hx as [Hx|(X1 & _ & X2 & X3)]; [left; eauto|right]. split; [|eauto].
            intros st. destruct (N.eq_dec st ks) as [->|]; auto. rewrite X3; auto. }
          split; [intros X'; eapply surv_unique; eauto|intros ->; auto]. }
        rewrite Hs. unfold surv. split.
        * intros [(st & H)|[H1 _]].
          -- destruct (N.eq_dec st ks) as [->|Hst]; [rewrite Z in H; cbn in H; congruence|].
             rewrite O in H by congruence. exfalso. destruct Hx as [Hx|(_ & _ & _ & Hx)].
             ++ apply Hst. eapply Hid; [rewrite H|rewrite Hx]; discriminate.
             ++ rewrite Hx in H; auto. discriminate.
          -- specialize (H1 ks). rewrite Z in H1. discriminate.
        * intros ->. left. exists ks. rewrite Z. auto.
      + unfold surv. split; (intros [(st & H)|[H1 (st & H)]]; [left; exists st|right; split; [intros st'|exists st]]);
          try (rewrite O in * by congruence; auto); try (rewrite O by congruence; auto).
        all: specialize (H1 st'); rewrite ?O in H1 by congruence; auto. }
  unfold recover_validate.
  destruct (sl_id (dget d (ks, km))) as [ci|] eqn:E1, (sl_inc (dget d (ks, km))) as [cn|] eqn:E2,
    (sl_comp (dget d (ks, km))) as [cc|] eqn:E3; cbn [is_some].
  - destruct (Sh (ks, km)); congruence.
  - apply Keep; auto.
  - apply Keep; auto.
  - exists d. split; auto. split; auto. split; auto. split; [|tauto]. right.
    split; [rewrite E1; discriminate|auto].
  - destruct (Sh (ks, km)); congruence.
  - apply Rem; auto. congruence.
  - pose proof (find_part_spec storages d (ks, km) W S) as Hf. cbn [fst snd] in Hf.
    destruct (find_part storages d (ks, km)) as [o|].
    + destruct Hf as (st & Hst & -> & Hne).
      assert (Hi : sl_id (dget d (st, km)) <> None).
      { apply (Ha ks st km); auto. split; auto. split; auto. congruence. }
      rewrite (proj2 (some_is _) Hi). apply Rem; auto. eauto.
    + apply Keep. right. auto.
  - exfalso. apply Hk. destruct (dget d (ks, km)); simpl in *; subst; auto.
Qed.

Lemma validate_all_spec storages : forall l d, good_dir storages d -> NoDup l ->
  (forall k, In k l -> dget d k <> no_files) ->
  exists d', validate_all storages d l = Ok d' /\ good_dir storages d' /\
    (forall k, ~ In k l -> dget d' k = dget d k) /\
    (forall k, In k l -> dget d' k = no_files \/ only_id (dget d' k)) /\
    (forall mn c, surv d' mn c <-> surv d mn c).
Proof.
  induction l as [|k l IH]; intros d G Hn Hp; cbn [validate_all].
  - exists d. split; auto. split; auto. split; auto. split; [intros k []|tauto].
  - inversion Hn; subst. destruct (validate_step storages d k G) as (d1 & -> & G1 & O1 & K1 & S1).
    { apply Hp; simpl; auto. }
    cbn [bind]. destruct (IH d1 G1 H2) as (d' & E & G' & O' & K' & S').
    { intros k' Hk. rewrite O1; [apply Hp; simpl; auto|]. intros ->. contradiction. }
    exists d'. split; auto. split; auto. split; [|split].
    + intros k' Hk. rewrite O'; [apply O1|]; simpl in Hk; intuition.
    + intros k' [<-|Hk]; auto. rewrite O'; auto.
    + intros mn c. rewrite S'. auto.
Qed.

Lemma worklist_in storages d k : In k (worklist storages d) <-> In k (map fst d) /\ In (fst k) storages.
Proof.
  unfold worklist. rewrite in_flat_map. split.
  - intros (st & H1 & H2). apply filter_In in H2 as [H2 E]. apply N.eqb_eq in E. subst. auto.
  - intros [H1 H2]. exists (fst k). split; auto. apply filter_In. split; auto. apply N.eqb_refl.
Qed.
Lemma nodup_flat {A B} (f : A -> list B) l : NoDup l -> (forall x, NoDup (f x)) ->
  (forall x y b, In b (f x) -> In b (f y) -> x = y) -> NoDup (flat_map f l).
Proof.
  intros H1 H2 H3. induction l as [|a l IH]; simpl; [constructor|]. inversion H1; subst.
  assert (X : forall l1 l2 : list B, NoDup l1 -> NoDup l2 -> (forall b, In b l1 -> ~ In b l2) -> NoDup (l1 ++ l2)).
  { induction l1 as [|b l1 IH1]; intros l2 N1 N2 D; simpl; auto. inversion N1; subst. constructor.
    - rewrite in_app_iff. intros [|X]; auto. apply (D b); simpl; auto.
    - apply IH1; auto. intros b' Hb. apply D; simpl; auto. }
  apply X; auto. intros b Hb Hin. apply in_flat_map in Hin as (y & Hy & Hb').
  rewrite (H3 a y b) in H4; auto.
Qed.
Lemma worklist_nodup storages d : NoDup storages -> wfd d -> NoDup (worklist storages d).
Proof.
  intros H1 [H2 _]. apply nodup_flat; auto.
  - intros x. apply NoDup_filter. auto.
  - intros x y b Hx Hy. apply filter_In in Hx as [_ Hx]. apply filter_In in Hy as [_ Hy].
    apply N.eqb_eq in Hx. apply N.eqb_eq in Hy. congruence.
Qed.
Lemma worklist_good storages d k : good_dir storages d -> (In k (worklist storages d) <-> dget d k <> no_files).
Proof.
  intros G. rewrite worklist_in, in_keys by apply G. split; [tauto|]. intros H. split; auto. apply (gd_st _ _ G); auto.
Qed.

Lemma firstn_in {A} (l : list A) : forall n x, In x (firstn n l) -> In x l.
Proof. induction l as [|a l IH]; intros [|n] x H; simpl in *; auto; try tauto. destruct H; eauto. Qed.
Lemma firstn_nodup {A} (l : list A) : NoDup l -> forall n, NoDup (firstn n l).
Proof.
  induction 1 as [|a l Hn Hl IH]; intros [|n]; simpl; constructor; auto.
  intros Hin. apply Hn. eapply firstn_in; eauto.
Qed.

Lemma interrupted_spec storages : NoDup storages -> forall cuts d, good_dir storages d ->
  exists d', interrupted storages d cuts = Ok d' /\ good_dir storages d' /\
    forall mn c, surv d' mn c <-> surv d mn c.
Proof.
  intros Hs. induction cuts as [|n cuts IH]; intros d G; cbn [interrupted].
  - exists d. split; auto. split; auto. tauto.
  - destruct (validate_all_spec storages (firstn n (worklist storages d)) d G) as (d1 & -> & G1 & _ & _ & S1).
    + apply firstn_nodup, worklist_nodup; auto. apply G.
    + intros k Hk. apply worklist_good with (storages := storages); auto. eapply firstn_in; eauto.
    + cbn [bind]. destruct (IH d1 G1) as (d' & E & G' & S'). exists d'. split; auto. split; auto.
      intros mn c. rewrite S'. auto.
Qed.

(* after validation every partition has exactly its file *)
Definition settled (d : dir) : Prop := forall k, dget d k = no_files \/ only_id (dget d k).
Lemma validated storages d : NoDup storages -> good_dir storages d ->
  exists d', validate_all storages d (worklist storages d) = Ok d' /\ good_dir storages d' /\ settled d' /\
    forall mn c, surv d' mn c <-> surv d mn c.
Proof.
  intros Hs G. destruct (validate_all_spec storages (worklist storages d) d G) as (d' & E & G' & O & K & S).
  - apply worklist_nodup; auto. apply G.
  - intros k Hk. apply (worklist_good storages); auto.
  - exists d'. split; auto. split; auto. split; auto. intros k.
    destruct (in_dec dkey_dec k (worklist storages d)) as [Hin|Hn]; auto.
    left. rewrite O by auto.
    destruct (dget d k) as [[] [] []] eqn:Ed; auto; exfalso; apply Hn; apply worklist_good; auto; rewrite Ed; discriminate.
Qed.
Lemma settled_surv d mn c : settled d -> (surv d mn c <-> exists st, sl_id (dget d (st, mn)) = Some c).
Proof.
  intros H. unfold surv. split; [|auto]. intros [X|[X (st & Hc)]]; auto.
  destruct (H (st, mn)) as [E|(E & _)]; [rewrite E in Hc; discriminate|]. rewrite X in E. congruence.
Qed.
