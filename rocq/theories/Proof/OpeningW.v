(* Careful programs and the records of the WAL. *)
From Coq Require Import List NArith Bool Lia.
From Verif Require Import Model.Base Model.Wal Model.Opening Spec.Opening Proof.OpeningL Proof.OpeningI Proof.OpeningC Proof.OpeningK.
Import ListNotations.
Local Open Scope N_scope.

Lemma extends_refl : forall a, extends a a.
Proof. intros a id x H. exists []. now rewrite app_nil_r. Qed.
Lemma extends_trans : forall a b c, extends a b -> extends b c -> extends a c.
Proof.
  intros a b c H K id x X. destruct (H _ _ X) as (y & Y). destruct (K _ _ Y) as (z & Z). exists (y ++ z). now rewrite app_assoc.
Qed.

Lemma file_of_in : forall id b l, file_of id l = Some b -> In (id, b) l.
Proof.
  induction l as [|[i x] l IH]; cbn; [discriminate|]. destruct (N.eqb_spec i id) as [->|n]; [|auto].
  intro E. injection E as ->. now left.
Qed.
Lemma in_file_of : forall id b l, NoDup (map fst l) -> In (id, b) l -> file_of id l = Some b.
Proof.
  induction l as [|[i x] l IH]; cbn; [contradiction|]. intros N [E|E].
  - injection E as -> ->. now rewrite N.eqb_refl.
  - apply NoDup_cons_iff in N as [N1 N2]. destruct (N.eqb_spec i id) as [->|n]; [|auto].
    exfalso. apply N1. apply in_map_iff. exists (id, b). auto.
Qed.
Lemma file_of_none : forall id l, file_of id l = None -> ~ In id (map fst l).
Proof.
  induction l as [|[i x] l IH]; cbn; [auto|]. destruct (N.eqb_spec i id) as [->|n]; [discriminate|].
  intros H [E|E]; [congruence|]. now apply IH.
Qed.
Lemma keys_file_put : forall id b l, map fst (file_put id b l) =
  match file_of id l with Some _ => map fst l | None => map fst l ++ [id] end.
Proof.
  induction l as [|[i x] l IH]; cbn; [reflexivity|]. destruct (N.eqb_spec i id) as [->|n]; [reflexivity|].
  cbn. rewrite IH. destruct (file_of id l); reflexivity.
Qed.
Lemma in_file_put : forall id b l k x, NoDup (map fst l) -> In (k, x) (file_put id b l) <->
  (k = id /\ x = b) \/ (k <> id /\ In (k, x) l).
Proof.
  induction l as [|[i y] l IH]; cbn; intros k x N.
  - split; [intros [E|[]]; injection E as -> ->; auto|intros [[-> ->]|[_ []]]; auto].
  - apply NoDup_cons_iff in N as [N1 N2]. destruct (N.eqb_spec i id) as [->|n]; cbn.
    + split.
      * intros [E|E]; [injection E as -> ->; auto|]. right. split; [|auto]. intros ->. apply N1. apply in_map_iff. exists (id, x). auto.
      * intros [[-> ->]|[H [E|E]]]; [auto|congruence|auto].
    + rewrite IH by exact N2. split.
      * intros [E|[E|[H E]]]; [injection E as -> ->; auto|auto|auto].
      * intros [E|[H [E|E]]]; auto.
Qed.
Lemma nodup_file_put : forall id b l, NoDup (map fst l) -> NoDup (map fst (file_put id b l)).
Proof.
  intros id b l H. rewrite keys_file_put. destruct (file_of id l) eqn:E; [exact H|].
  apply file_of_none in E. clear b. induction l as [|[i x] l IH]; cbn; [constructor; [auto|constructor]|].
  cbn in H, E. apply NoDup_cons_iff in H as [H1 H2]. constructor; [|apply IH; auto].
  rewrite in_app_iff. cbn. intros [X|[X|[]]]; [auto|]. subst. auto.
Qed.

Lemma top_spec : forall l n, (forall id b r, In (id, b) l -> In r b -> r <= n) ->
  (n = 0 \/ exists id b, In (id, b) l /\ In n b) -> top l = n.
Proof.
  intros l n H K. unfold top.
  assert (B : forall r, In r (flat_map snd l) -> r <= n).
  { intros r R. apply in_flat_map in R as ([id b] & X & Y). eapply H; eauto. }
  assert (A : fold_right N.max 0 (flat_map snd l) <= n).
  { clear - B. induction (flat_map snd l) as [|x m IH]; cbn; [lia|].
    assert (x <= n) by (apply B; now left). assert (fold_right N.max 0 m <= n) by (apply IH; intros r R; apply B; now right). lia. }
  assert (G : forall m x, In x m -> x <= fold_right N.max 0 m).
  { clear. induction m as [|y m IH]; cbn; [contradiction|]. intros x [->|X]; [lia|]. specialize (IH x X). lia. }
  destruct K as [->|(id & b & X & Y)]; [lia|].
  assert (n <= fold_right N.max 0 (flat_map snd l)) by (apply G; apply in_flat_map; exists (id, b); auto). lia.
Qed.
Lemma top_bound : forall l id b r, In (id, b) l -> In r b -> r <= top l.
Proof.
  intros l id b r X Y. unfold top. assert (I : In r (flat_map snd l)) by (apply in_flat_map; exists (id, b); auto).
  clear X Y. induction (flat_map snd l) as [|y m IH]; cbn; [contradiction|]. destruct I as [->|I]; [lia|]. specialize (IH I). lia.
Qed.
Lemma top_hit : forall l, top l = 0 \/ exists id b, In (id, b) l /\ In (top l) b.
Proof.
  intro l. unfold top. assert (H : fold_right N.max 0 (flat_map snd l) = 0 \/ In (fold_right N.max 0 (flat_map snd l)) (flat_map snd l)).
  { induction (flat_map snd l) as [|y m IH]; cbn; [now left|].
    destruct (N.max_spec y (fold_right N.max 0 m)) as [[A ->]|[A ->]]; [|now right; left].
    destruct IH as [IH|IH]; [left; exact IH|right; right; exact IH]. }
  destruct H as [H|H]; [now left|]. right. apply in_flat_map in H as ([id b] & X & Y). eauto.
Qed.
Lemma fold_left_max : forall l n, fold_left N.max l n = N.max n (fold_right N.max 0 l).
Proof.
  induction l as [|x l IH]; cbn; intro n; [lia|]. rewrite IH. lia.
Qed.

(* a new file *)
Lemma put_new : forall files b, in_step files -> file_of (top files + 1) files = b ->
  let files' := file_put (top files + 1) (match b with Some x => x | None => [] end) files in
  in_step files' /\ top files' = top files /\ extends files files' /\ file_of (top files + 1) files' = Some [].
Proof.
  intros files b [N S] F. cbv zeta.
  assert (E : match b with Some x => x | None => [] end = []).
  { destruct b as [x|]; [|reflexivity]. apply file_of_in in F. destruct (S _ _ F) as [_ X]. auto. }
  rewrite E. set (id := top files + 1) in *.
  assert (T : top (file_put id [] files) = top files).
  { apply top_spec.
    - intros k x r H R. apply in_file_put in H; [|exact N]. destruct H as [[-> ->]|[_ H]]; [contradiction|]. eapply top_bound; eauto.
    - destruct (top_hit files) as [H|(k & x & H & R)]; [now left|]. right. exists k, x. split; [|exact R].
      apply in_file_put; [exact N|]. right. split; [|exact H]. intros ->. destruct (S _ _ H) as [_ X]. rewrite (X eq_refl) in R. contradiction. }
  split; [|split; [exact T|split]].
  - split; [now apply nodup_file_put|]. intros k x H. rewrite T. apply in_file_put in H; [|exact N].
    destruct H as [[-> ->]|[_ H]]; [|auto]. split; [unfold id; lia|auto].
  - intros k x H. exists []. rewrite app_nil_r. apply in_file_put; [exact N|].
    destruct (N.eq_dec k id) as [->|n]; [|auto]. left. split; [reflexivity|]. destruct (S _ _ H) as [_ X]. auto.
  - apply in_file_of; [now apply nodup_file_put|]. apply in_file_put; [exact N|]. auto.
Qed.

(* a new record *)
Lemma put_record : forall files id b, in_step files -> file_of id files = Some b ->
  let files' := file_put id (overwrite (List.length b) [top files + 1] b) files in
  in_step files' /\ top files' = top files + 1 /\ extends files files' /\ file_of id files' = Some (b ++ [top files + 1]).
Proof.
  intros files id b [N S] F. cbv zeta. pose proof (file_of_in _ _ _ F) as Fi.
  assert (O : overwrite (List.length b) [top files + 1] b = b ++ [top files + 1]).
  { unfold overwrite. rewrite firstn_all, skipn_all2; [now rewrite app_nil_r|cbn; lia]. }
  rewrite O. set (r := top files + 1) in *.
  assert (T : top (file_put id (b ++ [r]) files) = r).
  { apply top_spec.
    - intros k x q H R. apply in_file_put in H; [|exact N]. destruct H as [[-> ->]|[_ H]].
      + apply in_app_or in R as [R|[<-|[]]]; [|lia]. pose proof (top_bound _ _ _ _ Fi R). unfold r. lia.
      + pose proof (top_bound _ _ _ _ H R). unfold r. lia.
    - right. exists id, (b ++ [r]). split; [apply in_file_put; auto|]. apply in_or_app. right. now left. }
  split; [|split; [exact T|split]].
  - split; [now apply nodup_file_put|]. intros k x H. rewrite T. apply in_file_put in H; [|exact N].
    destruct H as [[-> ->]|[_ H]].
    + destruct (S _ _ Fi) as [X _]. split; [unfold r; lia|]. intro Q. unfold r in Q. lia.
    + destruct (S _ _ H) as [X _]. split; [unfold r; lia|]. intro Q. unfold r in Q. lia.
  - intros k x H. destruct (N.eq_dec k id) as [->|n].
    + exists [r]. apply in_file_put; [exact N|]. left. split; [reflexivity|].
      apply in_file_of in H; [|exact N]. congruence.
    + exists []. rewrite app_nil_r. apply in_file_put; auto.
  - apply in_file_of; [now apply nodup_file_put|]. apply in_file_put; auto.
Qed.

(* a handle with its file *)
Definition logged (w : world) (e : env) (d : N) : Prop :=
  e_lsn e = top (wal_of w d) /\
  (exists c files, get d (w_dirs w) = Some (mk_folder c (Some files))) /\
  exists id b, e_cur e = Some (d, id, List.length b) /\ file_of id (wal_of w d) = Some b.

Lemma wal_of_put : forall w d c files, wal_of (with_dirs w (put d (mk_folder c (Some files)) (w_dirs w))) d = files.
Proof. intros. unfold wal_of. cbn [with_dirs w_dirs]. now rewrite get_put_same. Qed.

Definition wal_good (w w' : world) (d : N) : Prop :=
  in_step (wal_of w d) -> in_step (wal_of w' d) /\ extends (wal_of w d) (wal_of w' d).
Lemma wal_good_same : forall w w' d, wal_of w' d = wal_of w d -> wal_good w w' d.
Proof. intros w w' d E H. rewrite E. split; [exact H|apply extends_refl]. Qed.
Lemma wal_good_get : forall w w' d, get d (w_dirs w') = get d (w_dirs w) -> wal_good w w' d.
Proof. intros w w' d E. apply wal_good_same. unfold wal_of. now rewrite E. Qed.
Lemma wal_good_trans : forall a b c d, wal_good a b d -> wal_good b c d -> wal_good a c d.
Proof. intros a b c d H K I. destruct (H I) as [I1 E1]. destruct (K I1) as [I2 E2]. split; [exact I2|eapply extends_trans; eauto]. Qed.

Lemma rotate_good : forall w e w' e' r d, rotate w e = (w', e', r) -> e_dir e = Some d ->
  e_lsn e = top (wal_of w d) -> in_step (wal_of w d) ->
  in_step (wal_of w' d) /\ extends (wal_of w d) (wal_of w' d) /\ top (wal_of w' d) = top (wal_of w d) /\
  e_lsn e' = e_lsn e /\
  ((exists c files, get d (w_dirs w) = Some (mk_folder c (Some files))) -> (e_cur e = None \/ logged w e d) -> logged w' e' d).
Proof.
  intros w e w' e' r d H D L S. unfold rotate in H.
  destruct (rotate_ready e) eqn:R.
  2:{ injection H as <- <- <-. split; [exact S|]. split; [apply extends_refl|]. split; [reflexivity|]. split; [reflexivity|].
      intros _ [X|X]; [|exact X]. unfold rotate_ready in R. rewrite X in R. discriminate. }
  rewrite D in H. destruct (get d (w_dirs w)) as [[c [files|]]|] eqn:G.
  - assert (W : wal_of w d = files) by (unfold wal_of; now rewrite G). rewrite W in *.
    rewrite L in H. destruct (put_new files _ S eq_refl) as (A1 & A2 & A3 & A4).
    injection H as <- <- <-. rewrite wal_of_put. split; [exact A1|]. split; [exact A3|]. split; [exact A2|]. split; [cbn; congruence|].
    intros _ _. split; [rewrite wal_of_put; cbn; congruence|]. split.
    + do 2 eexists. cbn [with_dirs w_dirs]. apply get_put_same.
    + exists (top files + 1), []. rewrite wal_of_put. split; [reflexivity|exact A4].
  - injection H as <- <- <-. split; [exact S|]. split; [apply extends_refl|]. split; [reflexivity|]. split; [reflexivity|].
    intros (c0 & f0 & X). discriminate.
  - injection H as <- <- <-. split; [exact S|]. split; [apply extends_refl|]. split; [reflexivity|]. split; [reflexivity|].
    intros (c0 & f0 & X). discriminate.
Qed.

Lemma start_wal_good : forall w e d w' e' r, start_wal w e d = (w', e', r) -> e_dir e = Some d ->
  e_lsn e = 0 -> e_cur e = None -> e_ids e = [] ->
  wal_good w w' d /\ (in_step (wal_of w d) -> r = Done -> logged w' e' d).
Proof.
  intros w e d w' e' r H D L C I. unfold start_wal in H.
  destruct (get d (w_dirs w)) as [[c o]|] eqn:G.
  2:{ injection H as <- <- <-. split; [now apply wal_good_same|discriminate]. }
  set (files := match o with Some l => l | None => [] end) in *.
  assert (W : wal_of w d = files) by (unfold wal_of; rewrite G; reflexivity).
  set (w1 := with_dirs w (put d (mk_folder c (Some files)) (w_dirs w))) in *.
  assert (W1 : wal_of w1 d = files) by apply wal_of_put.
  assert (G1 : get d (w_dirs w1) = Some (mk_folder c (Some files))) by apply get_put_same.
  set (ids := fold_left (fun (l : list N) x => wal_id_add (fst x) l) files (e_ids e)) in *.
  assert (NI : ids = [] -> files = []).
  { unfold ids. rewrite I. clear. destruct files as [|x l]; [reflexivity|]. cbn.
    assert (K : forall i k, wal_id_add i k <> []).
    { intros i k. destruct k as [|y k]; cbn; [discriminate|]. destruct (y <? i); discriminate. }
    assert (J : forall (l : list (N * list N)) (k : list N), k <> [] -> fold_left (fun (l : list N) (x : N * list N) => wal_id_add (fst x) l) l k <> @nil N).
    { clear - K. induction l as [|y l IH]; cbn; [auto|]. intros k _. apply IH. apply K. }
    intro E. exfalso. eapply J; [|exact E]. discriminate. }
  set (e1 := set_wal e (e_lsn e) ids (e_cur e)) in *.
  assert (LM : forall lsn, lsn = 0 \/ lsn = top files -> fold_left N.max (flat_map snd files) lsn = top files).
  { intros lsn Q. rewrite fold_left_max. unfold top. destruct Q as [->|Q]; [lia|]. unfold top in Q. lia. }
  destruct ids as [|i l] eqn:Ei.
  - assert (F0 : files = []) by auto.
    destruct (rotate w1 e1) as [[w2 e2] r2] eqn:Ro.
    assert (T0 : top files = 0) by (rewrite F0; reflexivity).
    assert (S0 : in_step (wal_of w1 d)) by (rewrite W1, F0; split; [constructor|intros ? ? []]).
    assert (E1l : e_lsn e1 = top (wal_of w1 d)) by (rewrite W1, T0; exact L).
    destruct (rotate_good _ _ _ _ _ d Ro D E1l S0) as (A1 & A2 & A3 & A4 & A5).
    assert (LG : logged w2 e2 d) by (apply A5; [eauto|left; exact C]).
    assert (Q : w' = w2 /\ (r = Done -> e' = set_wal e2 (fold_left N.max (flat_map snd files) (e_lsn e2)) (e_ids e2) (e_cur e2))).
    { destruct r2; injection H as <- <- <-; split; auto; discriminate. }
    destruct Q as [-> Q]. split.
    + intros _. split; [exact A1|]. rewrite W, <- W1. exact A2.
    + intros _ Hr. rewrite (Q Hr). destruct LG as (B1 & B2 & B3). split; [|split; [exact B2|exact B3]].
      cbn [set_wal e_lsn]. rewrite LM; [congruence|]. right. congruence.
  - clearbody ids.
    destruct (file_of (wal_id_max (i :: l)) files) as [b|] eqn:F.
    + injection H as <- <- <-. split; [apply wal_good_same; congruence|].
      intros _ _. split; [rewrite W1; cbn [set_wal e_lsn e1]; rewrite LM; [reflexivity|left; exact L]|].
      split; [eauto|]. exists (wal_id_max (i :: l)), b. rewrite W1. auto.
    + injection H as <- <- <-. split; [apply wal_good_same; congruence|discriminate].
Qed.

Lemma open_good : forall w p d u f w' e' r, open_start w (env_init p) d u f = (w', e', r) ->
  wal_good w w' d /\ (in_step (wal_of w d) -> r = Done -> logged w' e' d).
Proof.
  intros w p d u f w' e' r H. unfold open_start in H.
  set (e1 := set_place (env_init p) d u) in *.
  set (there := match get d (w_dirs w) with Some _ => true | None => false end) in *.
  destruct (negb there && hits f F_mkdir) eqn:B.
  { injection H as <- <- <-. split; [now apply wal_good_same|discriminate]. }
  set (w1 := if there then w else with_dirs w (put d (mk_folder None None) (w_dirs w))) in *.
  assert (W1 : wal_of w1 d = wal_of w d).
  { unfold w1, there. destruct (get d (w_dirs w)) eqn:G; [reflexivity|]. unfold wal_of. cbn [with_dirs w_dirs].
    rewrite get_put_same, G. reflexivity. }
  clearbody w1. clear B. clearbody there.
  destruct (hits f F_stat). { injection H as <- <- <-. split; [now apply wal_good_same|discriminate]. }
  destruct (hits f F_open). { injection H as <- <- <-. split; [now apply wal_good_same|discriminate]. }
  destruct (locked w1 d). { injection H as <- <- <-. split; [now apply wal_good_same|discriminate]. }
  destruct (hits f F_flock). { injection H as <- <- <-. split; [now apply wal_good_same|discriminate]. }
  destruct (hits f F_conf). { injection H as <- <- <-. split; [now apply wal_good_same|discriminate]. }
  destruct (match get d _ with Some _ => _ | None => _ end) as [w3 e3] eqn:Q.
  assert (E3 : wal_of w3 d = wal_of w d /\ e_dir e3 = Some d /\ e_lsn e3 = 0 /\ e_cur e3 = None /\ e_ids e3 = []).
  { rewrite <- W1. unfold wal_of. cbn in Q. destruct (get d (w_dirs w1)) as [[[c|] fl]|] eqn:G; injection Q as <- <-;
      cbn [with_dirs w_dirs]; rewrite ?get_put_same, ?G; repeat split. }
  destruct E3 as (E3 & D3 & L3 & C3 & I3). clear Q.
  destruct (hits f F_recover). { injection H as <- <- <-. split; [now apply wal_good_same|discriminate]. }
  destruct (hits f F_wal). { injection H as <- <- <-. split; [now apply wal_good_same|discriminate]. }
  destruct (start_wal w3 (set_catalog e3) d) as [[w5 e5] r5] eqn:S.
  destruct (start_wal_good _ _ _ _ _ _ S) as (A1 & A2); auto.
  assert (A3 : wal_good w w5 d). { unfold wal_good in *. now rewrite <- E3. }
  rewrite E3 in A2.
  destruct r5; [destruct (hits f F_late)| |]; injection H as <- <- <-; (split; [exact A3|]); try discriminate.
  intros X _. exact (A2 X eq_refl).
Qed.

Lemma save_wal : forall w e w' r d, save_config w e = (w', r) -> wal_of w' d = wal_of w d /\
  (forall c files, get d (w_dirs w) = Some (mk_folder c (Some files)) -> exists c', get d (w_dirs w') = Some (mk_folder c' (Some files))).
Proof.
  intros w e w' r d H. destruct (save_shape _ _ _ _ H) as (_ & _ & [[E _]|(d0 & c & l & D & G & _ & E)]).
  - unfold wal_of. rewrite E. split; [reflexivity|eauto].
  - unfold wal_of. rewrite E. destruct (N.eq_dec d d0) as [->|n].
    + rewrite get_put_same, G. split; [reflexivity|]. intros c0 files X. injection X as <- ->. eauto.
    + rewrite get_put_other by exact n. split; [reflexivity|eauto].
Qed.

Lemma act_good : forall w e c w' e' r d, act w e c = Ok (w', e', r) -> ~ is_gc c -> e_dir e = Some d ->
  logged w e d -> in_step (wal_of w d) ->
  in_step (wal_of w' d) /\ extends (wal_of w d) (wal_of w' d) /\ logged w' e' d /\
  (match c with Write _ => exists id b, In (id, b) (wal_of w' d) /\ In (e_lsn e') b /\ e_lsn e' = e_lsn e + 1 | _ => True end).
Proof.
  intros w e c w' e' r d H NG D LG S. destruct c; cbn in H; try discriminate.
  - injection H as H. unfold create_cloud in H. destruct (existsb _ _).
    { injection H as <- <- <-. split; [exact S|]. split; [apply extends_refl|]. split; [exact LG|exact Logic.I]. }
    destruct (save_config w _) as [w1 r1] eqn:Sv. injection H as <- <- <-.
    destruct (save_wal _ _ _ _ d Sv) as (A1 & A2). rewrite A1. split; [exact S|]. split; [apply extends_refl|].
    split; [|exact Logic.I]. destruct LG as (B1 & (c0 & f0 & B2) & B3). unfold logged. rewrite A1.
    destruct (A2 _ _ B2) as (c' & A3). split; [exact B1|]. split; [eauto|exact B3].
  - injection H as H. unfold create_storage in H. destruct (existsb _ _).
    { injection H as <- <- <-. split; [exact S|]. split; [apply extends_refl|]. split; [exact LG|exact Logic.I]. }
    rewrite D in H. destruct (get d (w_dirs w)).
    2:{ injection H as <- <- <-. split; [exact S|]. split; [apply extends_refl|]. split; [exact LG|exact Logic.I]. }
    destruct (save_config w _) as [w1 r1] eqn:Sv. injection H as <- <- <-.
    destruct (save_wal _ _ _ _ d Sv) as (A1 & A2). rewrite A1. split; [exact S|]. split; [apply extends_refl|].
    split; [|exact Logic.I]. destruct LG as (B1 & (c0 & f0 & B2) & B3). unfold logged. rewrite A1.
    destruct (A2 _ _ B2) as (c' & A3). split; [exact B1|]. split; [eauto|exact B3].
  - unfold write in H. destruct (e_storages e); [discriminate|].
    destruct LG as (B1 & (c0 & files & B2) & id & b & B3 & B4). rewrite B3, B2 in H.
    assert (W : wal_of w d = files) by (unfold wal_of; now rewrite B2). rewrite W in *. rewrite B4 in H.
    injection H as <- <- <-. rewrite B1. destruct (put_record files id b S B4) as (A1 & A2 & A3 & A4).
    rewrite wal_of_put. split; [exact A1|]. split; [exact A3|]. split.
    + split; [rewrite wal_of_put, A2; reflexivity|]. split.
      * do 2 eexists. cbn [with_dirs w_dirs]. apply get_put_same.
      * exists id, (b ++ [top files + 1]). rewrite wal_of_put. split; [|exact A4]. cbn. rewrite app_length. cbn. f_equal. f_equal. lia.
    + cbn. exists id, (b ++ [top files + 1]). split; [now apply file_of_in|]. split; [apply in_or_app; right; now left|reflexivity].
  - injection H as H. pose proof LG as (B1 & B2 & _). destruct (rotate_good _ _ _ _ _ d H D B1 S) as (A1 & A2 & A3 & A4 & A5).
    split; [exact A1|]. split; [exact A2|]. split; [auto|exact Logic.I].
  - exfalso. apply NG. exact Logic.I.
Qed.

Definition winv (w : world) (m : past) : Prop :=
  (forall d, in_step (wal_of w d)) /\
  forall h p d, m h = Some (p, [(d, Done)]) -> exists e, get h (w_envs w) = Some e /\ logged w e d.

Lemma logged_same : forall w w' e d, logged w e d -> get d (w_dirs w') = get d (w_dirs w) -> logged w' e d.
Proof. intros w w' e d H E. unfold logged, wal_of in *. now rewrite E. Qed.

Lemma good_step : forall w m c w' r, inv w m -> cinv w m -> winv w m -> careful_call m c -> ~ is_gc c ->
  step w c = Ok (w', r) ->
  winv w' (note m (c, r)) /\ (forall d, extends (wal_of w d) (wal_of w' d)) /\
  (match c with
   | Write h => forall p d, m h = Some (p, [(d, Done)]) ->
       exists e id b, get h (w_envs w') = Some e /\ In (id, b) (wal_of w' d) /\ In (e_lsn e) b /\
         (exists e0, get h (w_envs w) = Some e0 /\ e_lsn e = e_lsn e0 + 1)
   | _ => True end).
Proof.
  intros w m c w' r I K (V1 & V2) Ca NG H.
  destruct (careful_step _ _ _ _ _ I K Ca H) as [_ _ _ KEPT].
  destruct (step_cases _ _ _ _ H) as [p h -> G -> ->|h d u f e w1 e1 -> G O ->|h e w1 e1 A G O ->|h e -> G -> ->|p -> S ->].
  - split; [|split; [intro; apply extends_refl|exact Logic.I]]. split; [exact V1|].
    intros k q d M. cbn [note with_env w_envs] in *. unfold set_past in M. rewrite get_put.
    destruct (N.eq_dec k h); [discriminate M|]. exact (V2 k q d M).
  - destruct Ca as (p & Mh). destruct (k_env _ _ K h p [] Mh) as [[_ G0]|(d0 & r0 & X & _)]; [|discriminate X].
    rewrite G in G0. injection G0 as ->.
    destruct (open_shape _ _ _ _ _ _ _ _ O) as (Ev & Ep & Ed & On & Op & Ol).
    destruct (open_good _ _ _ _ _ _ _ _ O) as (A1 & A2).
    assert (AL : forall k, wal_good w w1 k).
    { intro k. destruct (N.eq_dec k d) as [->|n]; [exact A1|]. apply wal_good_get. now apply On. }
    split; [split|split; [|exact Logic.I]].
    + intro k. apply (AL k (V1 k)).
    + intros k q d' M. cbn [note with_env w_envs] in *. rewrite Mh in M. unfold set_past in M. rewrite get_put, Ev.
      destruct (N.eq_dec k h) as [->|n].
      * injection M as <- <- ->. exists e1. split; [reflexivity|]. apply logged_same with w1; [|reflexivity]. apply A2; [apply V1|reflexivity].
      * destruct (V2 k q d' M) as (x & Gx & Lx). exists x. split; [exact Gx|]. apply logged_same with w; [exact Lx|].
        apply (KEPT k q d' []); [exact M|]. cbn. congruence.
    + intro k. exact (proj2 (AL k (V1 k))).
  - assert (CC : exists p d, m h = Some (p, [(d, Done)])).
    { destruct c; cbn in A, Ca; try contradiction; subst; exact Ca. }
    destruct CC as (p & d & Mh). destruct (V2 _ _ _ Mh) as (e' & G' & Le). rewrite G in G'. injection G' as <-.
    assert (De : e_dir e = Some d).
    { pose proof (i_env _ _ I h) as Z. rewrite Mh in Z. destruct Z as (e2 & G2 & _ & fd & _ & _ & Z & _). congruence. }
    assert (Se : settled w e d).
    { destruct (k_env _ _ K h _ _ Mh) as [[X _]|(d0 & r0 & X & Y)]; [discriminate|]. injection X as <- <-.
      destruct (Y eq_refl) as (e2 & G2 & S2). congruence. }
    destruct (act_settled _ _ _ _ _ _ _ O De Se) as (_ & _ & Oth).
    destruct (act_good _ _ _ _ _ _ _ O NG De Le (V1 d)) as (B1 & B2 & B3 & B4).
    destruct (act_shape _ _ _ _ _ _ O) as ((S1 & S2 & S3) & _).
    assert (M : note m (c, r) = m) by (destruct c; cbn in A; try contradiction; reflexivity).
    assert (AL : forall k, in_step (wal_of w1 k) /\ extends (wal_of w k) (wal_of w1 k)).
    { intro k. destruct (N.eq_dec k d) as [->|n]; [split; assumption|]. apply wal_good_get; [now apply Oth|apply V1]. }
    split; [split|split].
    + intro k. apply (AL k).
    + rewrite M. intros k q d' Mk. cbn [with_env w_envs]. rewrite get_put, S3. destruct (N.eq_dec k h) as [->|n].
      * rewrite Mh in Mk. injection Mk as <- <-. exists e1. split; [reflexivity|]. now apply logged_same with w1.
      * destruct (V2 k q d' Mk) as (x & Gx & Lx). exists x. split; [exact Gx|]. apply logged_same with w; [exact Lx|].
        apply (KEPT k q d' []); [exact Mk|]. destruct c; cbn in A; try contradiction; subst; cbn; congruence.
    + intro k. apply (AL k).
    + destruct c; try exact Logic.I. cbn in A. subst h0. intros q d' Mk. rewrite Mh in Mk. injection Mk as <- <-.
      destruct B4 as (id & b & X1 & X2 & X3). exists e1, id, b. cbn [with_env w_envs]. rewrite get_put_same.
      split; [reflexivity|]. split; [exact X1|]. split; [exact X2|]. exists e. auto.
  - split; [|split; [intro; apply extends_refl|exact Logic.I]]. split; [exact V1|].
    intros k q d M. cbn [note release w_envs] in *. unfold set_past in M. rewrite get_del.
    destruct (N.eq_dec k h); [discriminate M|]. exact (V2 k q d M).
  - cbn in S. injection S as <-. split; [|split; [intro; apply extends_refl|exact Logic.I]]. split; [exact V1|].
    intros k q d M. cbn [note w_envs] in *. destruct (m k) as [[q' l']|] eqn:Mk; [|discriminate].
    destruct (N.eq_dec q' p) as [Q|Q]; [discriminate|]. injection M as <- ->.
    destruct (V2 k q' d Mk) as (x & Gx & Lx). exists x. split; [|exact Lx].
    rewrite (get_filter (fun x => negb (e_proc x =? p))) by apply (i_keys _ _ I). rewrite Gx.
    pose proof (i_env _ _ I k) as Ik. rewrite Mk in Ik. destruct Ik as (y & Gy & Fy & _). assert (x = y) by congruence. subst y.
    rewrite Fy. replace (negb (q' =? p)) with true by (symmetry; apply negb_true_iff, N.eqb_neq, Q). reflexivity.
Qed.

Lemma good_run : forall l w m w' t, inv w m -> cinv w m -> winv w m -> run w l = Ok (w', t) -> careful_from m t ->
  (forall c, In c l -> ~ is_gc c) ->
  inv w' (fold_left note t m) /\ cinv w' (fold_left note t m) /\ winv w' (fold_left note t m) /\
  forall d, extends (wal_of w d) (wal_of w' d).
Proof.
  induction l as [|c l IH]; cbn; intros w m w' t I K V H C NG.
  - injection H as <- <-. split; [exact I|]. split; [exact K|]. split; [exact V|]. intro; apply extends_refl.
  - destruct (step w c) as [[w1 a]| |] eqn:S; try discriminate.
    destruct (run w1 l) as [[w2 t2]| |] eqn:R; try discriminate. injection H as <- <-.
    destruct C as [C1 C2]. destruct (careful_step _ _ _ _ _ I K C1 S) as [A1 _ _ _].
    destruct (good_step _ _ _ _ _ I K V C1 (NG c (or_introl eq_refl)) S) as (B1 & B2 & _).
    destruct (IH w1 (note m (c, a)) w2 t2) as (D1 & D2 & D3 & D4); auto. { eapply inv_step; eauto. }
    split; [exact D1|]. split; [exact D2|]. split; [exact D3|]. intro d. eapply extends_trans; eauto.
Qed.

Lemma winv_start : forall dirs, (forall d f l, get d dirs = Some f -> f_wal f = Some l -> in_step l) -> winv (start dirs) (fun _ => None).
Proof.
  intros dirs H. split; [|discriminate]. intro d. unfold wal_of, start; cbn [w_dirs].
  destruct (get d dirs) as [f|] eqn:G.
  - destruct (f_wal f) as [l|] eqn:F; [eauto|]. split; [constructor|intros ? ? []].
  - split; [constructor|intros ? ? []].
Qed.

(* without a collection, no record of any directory is lost *)
Lemma records : forall dirs l w t d, (forall k f x, get k dirs = Some f -> f_wal f = Some x -> in_step x) ->
  run (start dirs) l = Ok (w, t) -> careful t -> (forall c, In c l -> ~ is_gc c) ->
  extends (wal_of (start dirs) d) (wal_of w d) /\ in_step (wal_of w d).
Proof.
  intros dirs l w t d W R C NG.
  destruct (good_run _ _ _ _ _ (inv_start dirs) (cinv_start dirs) (winv_start dirs W) R C NG) as (_ & _ & V & E).
  split; [apply E|apply V].
Qed.

(* a write that is answered is in the WAL of the directory, under the next number *)
Lemma written : forall dirs l w t h d w' r, (forall k f x, get k dirs = Some f -> f_wal f = Some x -> in_step x) ->
  run (start dirs) l = Ok (w, t) -> careful t -> (forall c, In c l -> ~ is_gc c) -> open_in t h d ->
  step w (Write h) = Ok (w', r) ->
  r = Done /\ exists e id b, get h (w_envs w') = Some e /\ In (id, b) (wal_of w' d) /\ In (e_lsn e) b /\ e_lsn e = top (wal_of w d) + 1.
Proof.
  intros dirs l w t h d w' r W R C NG (p & j & Op) S.
  destruct (good_run _ _ _ _ _ (inv_start dirs) (cinv_start dirs) (winv_start dirs W) R C NG) as (I & K & V & _).
  assert (Op1 : history t h = Some (p, [(d, Done)])).
  { destruct (k_env _ _ K h _ _ Op) as [[X _]|(d0 & r0 & X & _)]; [discriminate|]. injection X as <- <- ->. exact Op. }
  assert (Cc : careful_call (history t) (Write h)) by (exists p, d; exact Op1).
  destruct (good_step _ _ _ _ _ I K V Cc (fun x => x) S) as (_ & _ & B).
  destruct (B p d Op1) as (e & id & b & X1 & X2 & X3 & e0 & X4 & X5).
  split.
  - cbn in S. apply by_handle_ok in S as (e9 & w9 & e8 & G & O & _). unfold write in O.
    destruct (e_storages e9); [discriminate|]. destruct (e_cur e9) as [[[? ?] ?]|]; [|discriminate]. injection O as _ _ <-. reflexivity.
  - exists e, id, b. split; [exact X1|]. split; [exact X2|]. split; [exact X3|].
    destruct (proj2 V h p d Op1) as (e1 & Y1 & Y2 & _). congruence.
Qed.
