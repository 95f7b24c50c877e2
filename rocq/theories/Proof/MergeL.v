From Coq Require Import NArith ZArith List Bool Sorted Lia Arith.
Import ListNotations.
From Verif Require Import Model.Base Model.Event Model.Merge Spec.Order Spec.Merged Proof.OrderL.

(* the comparison agrees with the order on these events *)
Definition cmp_ok (l : list event) : Prop :=
  forall a b, In a l -> In b l -> Z.compare (compare a b) 0 = ev_cmp a b.

Definition mark (e : event) (s : list event) : msrc :=
  (s, match s with h :: _ => same_keyb h e | [] => false end).
Definition heads_above (P : event -> Prop) (l : list (list event)) : Prop :=
  Forall (fun s => match s with h :: _ => P h | [] => True end) l.

Definition scanned (srcs : list (list event)) (r : list msrc * option (nat * event)) : Prop :=
  match snd r with
  | None => Forall (fun s => s = []) srcs /\ fst r = map (fun s => (s, false)) srcs
  | Some (i, e) =>
      fst r = map (mark e) srcs /\
      exists d1 t d2, srcs = d1 ++ (e :: t) :: d2 /\ i = length d1 /\
        heads_above (ev_lt e) d1 /\ heads_above (ev_le e) d2
  end.

Lemma heads_impl (P Q : event -> Prop) l : (forall x, P x -> Q x) -> heads_above P l -> heads_above Q l.
Proof. intros H. unfold heads_above. intros F. eapply Forall_impl; [|exact F]. intros [|h s]; auto. Qed.

Lemma mark_above e l : heads_above (ev_lt e) l -> map (mark e) l = map (fun s => (s, false)) l.
Proof.
  induction l; simpl; intros H; auto. inversion H; subst. f_equal; auto.
  unfold mark. destruct a; auto. f_equal. apply same_keyb_false. intros C.
  apply same_key_sym in C. apply ev_lt_not_same in H2. contradiction.
Qed.

Lemma clear_map {A} (f : A -> msrc) l : merge_clear (map f l) = map (fun s => (fst (f s), false)) l.
Proof. unfold merge_clear. rewrite map_map. auto. Qed.

Lemma scan_spec : forall todo done cl mn d,
  cmp_ok (concat (d ++ todo)) ->
  scanned d (done, mn) ->
  scanned (d ++ todo) (merge_scan done (map (fun s => (s, false)) todo) cl mn).
Proof.
  induction todo as [|s todo IH]; intros done cl mn d Hc Hd; simpl.
  - rewrite app_nil_r. auto.
  - replace (if cl then false else false) with false by (destruct cl; auto).
    replace (d ++ s :: todo) with ((d ++ [s]) ++ todo) in * by (rewrite <- app_assoc; auto).
    destruct s as [|row s].
    + apply IH; auto. unfold scanned in *; simpl in *. destruct mn as [[i e]|].
      * destruct Hd as (E & d1 & t & d2 & -> & -> & H1 & H2). split.
        -- rewrite E. rewrite !map_app. auto.
        -- exists d1, t, (d2 ++ [[]]). split; [rewrite <- app_assoc; auto|]. split; auto. split; auto.
           apply Forall_app. split; auto.
      * destruct Hd as [H1 H2]. split; [apply Forall_app; split; auto|]. rewrite H2, map_app. auto.
    + destruct mn as [[i e]|].
      * unfold scanned in Hd; simpl in Hd. destruct Hd as (E & d1 & t & d2 & Ed & Ei & H1 & H2).
        assert (Hcmp : Z.compare (compare e row) 0 = ev_cmp e row).
        { apply Hc; apply in_concat.
          - exists (e :: t). split; [|simpl; auto]. rewrite Ed. rewrite <- !app_assoc. apply in_app_iff. simpl. auto.
          - exists (row :: s). split; [|simpl; auto]. apply in_app_iff. left. apply in_app_iff. simpl; auto. }
        assert (Hle : heads_above (ev_le e) d).
        { rewrite Ed. apply Forall_app. split; [eapply heads_impl; [|exact H1]; intros; apply ev_lt_le; auto|].
          constructor; auto. apply ev_le_refl. }
        destruct (Z.eqb_spec (compare e row) 0) as [Ez|Ez].
        -- apply IH; auto. unfold scanned; simpl. rewrite Ez in Hcmp. simpl in Hcmp. symmetry in Hcmp.
           apply ev_cmp_eq in Hcmp. split.
           ++ rewrite E, map_app. simpl. unfold mark at 3. apply same_key_sym, same_keyb_true in Hcmp. rewrite Hcmp. auto.
           ++ exists d1, t, (d2 ++ [row :: s]). split; [rewrite Ed, <- app_assoc; auto|]. split; auto. split; auto.
              apply Forall_app. split; auto. constructor; auto.
              apply same_key_sym in Hcmp. unfold ev_le. apply same_key_sym, ev_cmp_eq in Hcmp. rewrite Hcmp. discriminate.
        -- destruct (Z.ltb_spec 0 (compare e row)) as [Hz|Hz].
           ++ assert (Hlt : ev_lt row e).
              { apply ev_gt_lt. rewrite <- Hcmp. apply Z.compare_gt_iff. auto. }
              assert (Hab : heads_above (ev_lt row) d).
              { eapply heads_impl; [|exact Hle]. intros. eapply ev_lt_le_trans; eauto. }
              apply IH; auto. unfold scanned; simpl. split.
              ** rewrite E, clear_map, map_app, (mark_above row d Hab). simpl. unfold mark.
                 assert (X : same_keyb row row = true) by (apply same_keyb_true; apply same_key_refl). rewrite X. auto.
              ** exists d, s, []. split; auto. split; [|split; auto; constructor].
                 rewrite E. rewrite map_length. auto.
           ++ assert (Hlt : ev_lt e row).
              { unfold ev_lt. rewrite <- Hcmp. apply Z.compare_lt_iff. lia. }
              apply IH; auto. unfold scanned; simpl. split.
              ** rewrite E, map_app. simpl. unfold mark at 3.
                 assert (X : same_keyb row e = false).
                 { apply same_keyb_false. intros C. apply ev_lt_not_same in Hlt. apply Hlt. apply same_key_sym; auto. }
                 rewrite X. auto.
              ** exists d1, t, (d2 ++ [row :: s]). split; [rewrite Ed, <- app_assoc; auto|]. split; auto. split; auto.
                 apply Forall_app. split; auto. constructor; auto. apply ev_lt_le; auto.
      * unfold scanned in Hd; simpl in Hd. destruct Hd as [H1 H2]. apply IH; auto.
        assert (Hab : heads_above (ev_lt row) d).
        { eapply Forall_impl; [|exact H1]. intros x ->. auto. }
        unfold scanned; simpl. split.
        -- rewrite H2, map_app, (mark_above row d Hab). simpl. unfold mark.
           assert (X : same_keyb row row = true) by (apply same_keyb_true; apply same_key_refl). rewrite X. auto.
        -- exists d, s, []. split; auto. split; [|split; auto; constructor].
           rewrite H2. rewrite map_length. auto.
Qed.

(* the sources after the flagged ones advanced *)
Definition pending (m : merge) : list (list event) :=
  map (fun s : msrc => if snd s then tl (fst s) else fst s) (mg_list m).



Lemma advance_pending m : merge_advance (mg_list m) = map (fun s => (s, false)) (pending m).
Proof.
  unfold merge_advance, pending. rewrite map_map. apply map_ext. intros [s []]; auto.
Qed.

Definition drop_key (e : event) (s : list event) : list event :=
  match s with h :: t => if same_keyb h e then t else s | [] => [] end.

Lemma next_spec m : cmp_ok (concat (pending m)) ->
  (merge_at (merge_next m) = None /\ Forall (fun s => s = []) (pending m)) \/
  (exists e d1 t d2, merge_at (merge_next m) = Some e /\ pending m = d1 ++ (e :: t) :: d2 /\
     heads_above (ev_lt e) d1 /\ heads_above (ev_le e) d2 /\
     pending (merge_next m) = map (drop_key e) (pending m)).
Proof.
  intros Hc. unfold merge_next. rewrite advance_pending.
  pose proof (scan_spec (pending m) [] false None [] Hc) as H.
  assert (H0 : scanned [] ([], None)) by (unfold scanned; simpl; auto).
  specialize (H H0). simpl in H. unfold scanned in H.
  destruct (merge_scan [] (map (fun s : list event => (s, false)) (pending m)) false None) as [l [[i e]|]] eqn:E.
  - cbn [fst snd] in H. destruct H as (E1 & d1 & t & d2 & Ed & Ei & H1 & H2). right.
    exists e, d1, t, d2. split; [|split; [auto|split; [auto|split; [auto|]]]].
    + unfold merge_at. cbn [mg_current mg_list]. rewrite E1, Ed, map_app. rewrite nth_error_app2; rewrite map_length; [|lia].
      replace (i - length d1) with 0 by lia. reflexivity.
    + unfold pending at 1. cbn [mg_list]. rewrite E1, map_map. apply map_ext.
      intros [|h s]; simpl; auto.
  - cbn [fst snd] in H. destruct H as [H1 H2]. left. split; auto.
Qed.

Lemma concat_nil {A} (l : list (list A)) : Forall (fun s => s = []) l -> concat l = [].
Proof. induction l; simpl; intros H; auto. inversion H; subst. auto. Qed.

Lemma lookup_cons a l k : lookup (a :: l) k = if same_keyb k a then Some a else lookup l k.
Proof. reflexivity. Qed.

Lemma in_drop e l x : In x (concat (map (drop_key e) l)) -> In x (concat l).
Proof.
  induction l as [|s l IH]; simpl; auto. rewrite !in_app_iff. intros [H|H]; auto.
  left. destruct s as [|h s]; simpl in *; auto. destruct (same_keyb h e); simpl in *; auto.
Qed.

(* dropping the events with the key of e *)
Lemma drop_lookup e : forall l, Forall ascending l -> heads_above (ev_le e) l ->
  (forall k, ~ same_key k e -> lookup (concat (map (drop_key e) l)) k = lookup (concat l) k) /\
  Forall (ev_lt e) (concat (map (drop_key e) l)).
Proof.
  induction l as [|s l IH]; intros Ha Hh.
  - simpl. split; auto.
  - inversion Ha; inversion Hh; subst. destruct (IH H2 H6) as [I1 I2].
    destruct s as [|h s]; [simpl; auto|].
    apply ascending_cons in H1 as [F A].
    cbn [map concat]. unfold drop_key at 1 3. destruct (same_keyb h e) eqn:E.
    + apply same_keyb_true in E. split.
      * intros k Hk. rewrite <- app_comm_cons, lookup_cons.
        assert (X : same_keyb k h = false).
        { apply same_keyb_false. intros C. apply Hk. eapply same_key_trans; eauto. }
        rewrite X, !lookup_app, I1; auto.
      * apply Forall_app. split; auto. eapply Forall_impl; [|exact F]. intros x Hx.
        unfold ev_lt in *. rewrite <- (same_key_cmp_l _ _ _ E). auto.
    + apply same_keyb_false in E. split.
      * intros k Hk. rewrite !lookup_app, I1; auto.
      * apply Forall_app. split; auto.
        assert (Hlt : ev_lt e h).
        { unfold ev_le in H5. unfold ev_lt. destruct (ev_cmp e h) eqn:C; auto; [|congruence].
          apply ev_cmp_eq in C. exfalso. apply E. apply same_key_sym; auto. }
        constructor; auto. eapply Forall_impl; [|exact F]. intros x Hx. eapply ev_lt_trans; eauto.
Qed.

Lemma lookup_above e l k : Forall (ev_lt e) l -> same_key k e -> lookup l k = None.
Proof.
  intros F Hk. apply lookup_none. intros x Hx C. rewrite Forall_forall in F. apply F in Hx.
  apply ev_lt_not_same in Hx. apply Hx. eapply same_key_trans; [apply same_key_sym; exact Hk|auto].
Qed.

Lemma drop_ascending e l : Forall ascending l -> Forall ascending (map (drop_key e) l).
Proof.
  induction l; simpl; intros H; auto. inversion H; subst. constructor; auto.
  destruct a; simpl; auto. destruct (same_keyb _ _); auto. apply ascending_cons in H2. tauto.
Qed.

Lemma concat_above e l : Forall ascending l -> heads_above (ev_lt e) l -> Forall (ev_lt e) (concat l).
Proof.
  induction l as [|s l IH]; simpl; intros Ha Hh; auto. inversion Ha; inversion Hh; subst.
  apply Forall_app. split; auto. destruct s; auto. apply ascending_cons in H1 as [F _].
  constructor; auto. eapply Forall_impl; [|exact F]. intros. eapply ev_lt_trans; eauto.
Qed.

Lemma length_drop e l : length (concat (map (drop_key e) l)) <= length (concat l).
Proof.
  induction l as [|s l IH]; simpl; auto. rewrite !app_length.
  destruct s as [|h s]; simpl; try lia. destruct (same_keyb h e); simpl; lia.
Qed.

Lemma drain_spec : forall fuel m, Forall ascending (pending m) -> cmp_ok (concat (pending m)) ->
  length (concat (pending m)) < fuel ->
  merged (pending m) (merge_drain fuel (merge_next m)).
Proof.
  induction fuel; intros m Ha Hc Hf; [lia|].
  cbn [merge_drain]. destruct (next_spec m Hc) as [[-> Hn]|(e & d1 & t & d2 & -> & Ep & H1 & H2 & Hp)].
  - split; [constructor|]. intros k. rewrite (concat_nil _ Hn). auto.
  - assert (Hle : heads_above (ev_le e) (pending m)).
    { rewrite Ep. apply Forall_app. split; [eapply heads_impl; [|exact H1]; intros; apply ev_lt_le; auto|].
      constructor; auto. apply ev_le_refl. }
    destruct (drop_lookup e (pending m) Ha Hle) as [D1 D2]. rewrite <- Hp in D1, D2.
    assert (Ha' : Forall ascending (pending (merge_next m))) by (rewrite Hp; apply drop_ascending; auto).
    destruct (IHfuel (merge_next m)) as [I1 I2]; auto.
    { intros a b Ia Ib. rewrite Hp in Ia, Ib. apply in_drop in Ia, Ib. auto. }
    { rewrite Hp, Ep. rewrite Ep in Hf.
      rewrite concat_app, app_length in Hf. cbn [concat] in Hf. rewrite app_length in Hf. simpl in Hf.
      rewrite map_app, concat_app, app_length. cbn [map concat]. rewrite app_length. unfold drop_key at 2.
      assert (X : same_keyb e e = true) by (apply same_keyb_true; apply same_key_refl). rewrite X.
      pose proof (length_drop e d1). pose proof (length_drop e d2). lia. }
    split.
    + apply ascending_cons. split; auto. apply Forall_forall. intros x Hx.
      assert (Hl : lookup (concat (pending (merge_next m))) x = Some x).
      { rewrite <- I2. apply ascending_lookup; auto. apply same_key_refl. }
      apply lookup_in in Hl as [Hl _]. rewrite Forall_forall in D2. auto.
    + intros k. rewrite lookup_cons. destruct (same_keyb k e) eqn:Ek.
      * apply same_keyb_true in Ek. rewrite Ep, concat_app, lookup_app.
        rewrite Ep in Ha. apply Forall_app in Ha as [Ha1 _].
        rewrite (lookup_above e (concat d1) k); auto; [|apply concat_above; auto].
        cbn [concat]. rewrite <- app_comm_cons, lookup_cons. apply same_keyb_true in Ek. rewrite Ek. auto.
      * apply same_keyb_false in Ek. rewrite I2, D1; auto.
Qed.

Lemma pending_init srcs : pending (merge_init srcs) = srcs.
Proof. unfold pending, merge_init. cbn [mg_list]. rewrite map_map. simpl. apply map_id. Qed.

Lemma merge_all_spec srcs : Forall ascending srcs -> cmp_ok (concat srcs) -> merged srcs (merge_all srcs).
Proof.
  intros Ha Hc. unfold merge_all, merge_open.
  pose proof (drain_spec (S (length (concat srcs))) (merge_init srcs)) as H.
  rewrite pending_init in H. apply H; auto.
Qed.

Lemma merged_unique srcs a b : merged srcs a -> merged srcs b -> a = b.
Proof. intros [A1 A2] [B1 B2]. apply ascending_ext; auto. intros. rewrite A2, B2. auto. Qed.

Lemma lookup_concat_newest srcs e : Forall ascending srcs ->
  lookup (concat srcs) e = Some e <-> newest srcs e.
Proof.
  unfold newest. induction srcs as [|s srcs IH]; intros Ha; simpl.
  - split; [discriminate|]. intros (pre & l & post & E & _). destruct pre; discriminate.
  - inversion Ha; subst. rewrite lookup_app. destruct (lookup s e) as [x|] eqn:E.
    + split.
      * intros H; inversion H; subst. apply lookup_in in E as [E _].
        exists [], s, srcs. split; auto.
      * intros (pre & l & post & Ep & Hin & Hn). destruct pre as [|p pre].
        -- inversion Ep; subst. rewrite <- E. apply ascending_lookup; auto. apply same_key_refl.
        -- inversion Ep; subst. apply lookup_in in E as [Ex Ek]. exfalso. apply (Hn p x); simpl; auto.
    + rewrite (IH H2). split.
      * intros (pre & l & post & -> & Hin & Hn). exists (s :: pre), l, post. split; auto. split; auto.
        intros l' e' [<-|Hl] He; eauto. apply (proj1 (lookup_none _ _) E); auto.
      * intros (pre & l & post & Ep & Hin & Hn). destruct pre as [|p pre].
        -- inversion Ep; subst. exfalso. apply (proj1 (lookup_none _ _) E e Hin). apply same_key_refl.
        -- inversion Ep; subst. exists pre, l, post. split; auto. split; auto. intros; eapply Hn; simpl; eauto.
Qed.

Lemma merged_newest srcs out e : Forall ascending srcs -> merged srcs out -> (In e out <-> newest srcs e).
Proof.
  intros Ha [H1 H2]. rewrite <- lookup_concat_newest, <- H2; auto. split.
  - intros. apply ascending_lookup; auto. apply same_key_refl.
  - intros H. apply lookup_in in H. tauto.
Qed.
