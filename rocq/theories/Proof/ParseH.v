(* What the parser takes from a list of tokens is a sentence: the loops and the commands. *)
From Coq Require Import NArith ZArith Arith String List Bool Lia.
Import ListNotations.
From Verif Require Import Model.Base Model.Data Model.Json Model.Lex Model.Uuid Model.Source Model.Catalog Model.Show Model.Parse
  Spec.Units Spec.Command Proof.ParseT Proof.ParseR Proof.ParseG.
Local Open Scope res_scope.
Local Open Scope N_scope.
Ltac one lem := eapply OK_bind; [apply lem|intros ? ? ? _ (? & -> & ?); cbv beta iota; cbn [app]].
Ltac sub lem := eapply OK_bind; [apply lem|intros ? ? ? _ ?; cbv beta iota; cbn [app]].
Ltac step :=
  match goal with
  | |- OK _ _ (Ok (_, _)) => apply OK_ok
  | |- OK _ _ Err => apply OK_err
  | |- OK _ _ (bind (is _ _ _ _) _) => apply OK_is; [discriminate|intros ? ? ? ?; cbv beta iota; cbn [app]|intros ?; cbv beta iota]
  | |- OK _ _ (bind (expect _ _ _ _) _) => apply OK_expect; [discriminate|intros ? ? ? ?; cbv beta iota; cbn [app]]
  | |- OK _ _ (bind (expect_int _ _ _) _) => one OK_int
  | |- OK _ _ (bind (expect_str _ _ _ KNAME) _) => one OK_name
  | |- OK _ _ (bind (expect_str _ _ _ KSTRING) _) => one OK_text
  | |- OK _ _ (bind (parse_if_not_exists _ _ _) _) => sub OK_ine
  | |- OK _ _ (bind (parse_if_exists _ _ _) _) => sub OK_ie
  | |- OK _ _ (bind (parse_if_cloud _ _ _) _) => sub OK_ic
  | |- OK _ _ (bind (parse_on _ _ _) _) => sub OK_on
  end.

Lemma OK_storage_loop : forall f ts s m, (List.length ts < f)%nat ->
  OK ts (fun us p => exists l b ws, us = ws ++ [b] /\ listed storage_item ws l /\ kw RPAREN b /\ p = (set_all s l, bits m l))
     (storage_options_loop TL gnext gif f ts s m).
Proof.
  induction f as [|f IH]; intros ts s m L; [lia|]. cbn [storage_options_loop]. unfold gnext. destruct ts as [|t ts]; [apply OK_err|]. cbn [bind].
  cbn [List.length] in L. apply OK_fit. intro Ft. cbv beta.
  destruct ((t_id t =? KCLOUD) || (t_id t =? KNAME)) eqn:Q; [|apply OK_err].
  assert (V : (kw KNAME t \/ kw KCLOUD t) /\ exists w, t_val t = TStr w false).
  { apply orb_true_iff in Q as [Q|Q]; apply N.eqb_eq in Q; (split; [unfold kw; auto|]); apply (fit_word t Ft); rewrite Q;
      first [vm_compute; discriminate|apply not_symbol_cloud|apply not_symbol_name]. }
  destruct V as (K & w & V). unfold tok_str. rewrite V. cbn [bind].
  eapply OK_bind; [apply OK_storage_option|]. intros p us r E (x & o & -> & En & Sv & ->). cbv beta iota. cbn [app].
  assert (It : storage_item [t; x] o) by (constructor; [exact K|exists false; congruence|exact Sv]).
  step.
  - subst. eapply OK_weak; [|apply IH; cbn [List.length app] in L; lia].
    intros vs p (l & b & ws & -> & Hl & Hb & ->). exists (o :: l), b, ([t; x] ++ t0 :: ws).
    repeat split; [|exact Hb]. apply li_more; assumption.
  - step. step. exists [o], t0, [t; x]. repeat split; [|assumption]. apply li_one, It.
Qed.
Lemma OK_cloud_loop : forall f ts s m, (List.length ts < f)%nat ->
  OK ts (fun us p => exists l b ws, us = ws ++ [b] /\ listed cloud_item ws l /\ kw RPAREN b /\ p = (cset_all s l, cbits m l))
     (cloud_options_loop TL gnext gif f ts s m).
Proof.
  induction f as [|f IH]; intros ts s m L; [lia|]. cbn [cloud_options_loop]. unfold gnext. destruct ts as [|t ts]; [apply OK_err|]. cbn [bind].
  cbn [List.length] in L. apply OK_fit. intro Ft. cbv beta.
  destruct ((t_id t =? KCLOUD) || (t_id t =? KDEBUG) || (t_id t =? KNAME)) eqn:Q; [|apply OK_err].
  assert (V : (kw KNAME t \/ kw KCLOUD t \/ kw KDEBUG t) /\ exists w, t_val t = TStr w false).
  { apply orb_true_iff in Q as [Q|Q]; [apply orb_true_iff in Q as [Q|Q]|]; apply N.eqb_eq in Q; (split; [unfold kw; auto|]); apply (fit_word t Ft); rewrite Q;
      first [vm_compute; discriminate|apply not_symbol_cloud|apply not_symbol_name|apply not_symbol_debug]. }
  destruct V as (K & w & V). unfold tok_str. rewrite V. cbn [bind].
  eapply OK_bind; [apply OK_cloud_option|]. intros p us r E (x & o & n & -> & En & Nm & Sv & ->). cbv beta iota. cbn [app].
  assert (It : cloud_item [t; x] o) by (econstructor; [exact K|exact Nm|exists false; congruence|exact Sv]).
  step.
  - subst. eapply OK_weak; [|apply IH; cbn [List.length app] in L; lia].
    intros vs p (l & b & ws & -> & Hl & Hb & ->). exists (o :: l), b, ([t; x] ++ t0 :: ws).
    repeat split; [|exact Hb]. apply li_more; assumption.
  - step. step. exists [o], t0, [t; x]. repeat split; [|assumption]. apply li_one, It.
Qed.
Lemma OK_tier_loop : forall f ts s, (List.length ts < f)%nat ->
  OK ts (fun us p => exists l b ws, us = ws ++ [b] /\ listed tier_item ws l /\ kw RPAREN b /\ p = tset_all s l)
     (tier_options_loop TL gnext gif f ts s).
Proof.
  induction f as [|f IH]; intros ts s L; [lia|]. cbn [tier_options_loop]. unfold gnext. destruct ts as [|t ts]; [apply OK_err|]. cbn [bind].
  cbn [List.length] in L.
  destruct ((t_id t =? KPARTITIONS) || (t_id t =? KNAME)) eqn:Q; [|apply OK_err].
  assert (V : fit t -> (kw KNAME t \/ kw KPARTITIONS t) /\ ((exists w, t_val t = TStr w false) \/ t = dollar)).
  { intro Ft. apply orb_true_iff in Q as [Q|Q]; apply N.eqb_eq in Q; (split; [unfold kw; auto|]).
    - destruct Ft as [[A B]|[[A B]|[[A B]|[[A B]|[A B]]]]]; [| | |left; exact B|]; [rewrite Q in A; discriminate A..|].
      right. destruct t as [i v]. cbn [t_id t_val] in *. subst. reflexivity.
    - left. apply (fit_name t Ft Q). }
  intro F. pose proof (V (Forall_inv F)) as (K & [(w & W)|W]); clear V.
  2:{ subst t. cbn [tok_str dollar t_val bind]. left. reflexivity. }
  revert F. match goal with |- Forall fit (t :: ts) -> ?P => change (OK (t :: ts) (fun us p => exists l b ws, us = ws ++ [b] /\ listed tier_item ws l /\ kw RPAREN b /\ p = tset_all s l)
     (do n <- tok_str t ; do (t0, l) <- tier_option TL gif n ts s ; do (b, l) <- is TL gif l COMMA ;
      if b then tier_options_loop TL gnext gif f l t0 else do l <- expect TL gif l RPAREN ; Ok (t0, l))) end.
  apply OK_cons. unfold tok_str. rewrite W. cbn [bind].
  eapply OK_bind; [apply OK_tier_option|]. intros p us r E (x & o & n & -> & En & Nm & Sv & ->). cbv beta iota. cbn [app].
  assert (It : tier_item [t; x] o) by (econstructor; [exact K|exists false; congruence|exact Nm|exact Sv]).
  step.
  - subst. eapply OK_weak; [|apply IH; cbn [List.length app] in L; lia].
    intros vs p (l & b & ws & -> & Hl & Hb & ->). exists (o :: l), b, ([t; x] ++ t0 :: ws).
    repeat split; [|exact Hb]. apply li_more; assumption.
  - step. step. exists [o], t0, [t; x]. repeat split; [|assumption]. apply li_one, It.
Qed.
Lemma OK_storage_options f ts s : (List.length ts <= f)%nat ->
  OK ts (fun us p => exists l, options storage_item us l /\ p = (set_all s l, bits 0 l)) (parse_storage_options TL gnext gif f ts s).
Proof.
  intro L. unfold parse_storage_options. step; cbn [negb].
  - step; [step; exists []; split; [constructor; assumption|reflexivity]|].
    eapply OK_weak; [|apply OK_storage_loop; subst; cbn [List.length] in L; lia].
    intros us p (l & b & ws & -> & Hl & Hb & ->). exists l. split; [|reflexivity]. apply op_some; assumption.
  - step. exists []. split; [constructor|reflexivity].
Qed.
Lemma OK_cloud_options f ts s : (List.length ts <= f)%nat ->
  OK ts (fun us p => exists l, options cloud_item us l /\ p = (cset_all s l, cbits 0 l)) (parse_cloud_options TL gnext gif f ts s).
Proof.
  intro L. unfold parse_cloud_options. step; cbn [negb].
  - step; [step; exists []; split; [constructor; assumption|reflexivity]|].
    eapply OK_weak; [|apply OK_cloud_loop; subst; cbn [List.length] in L; lia].
    intros us p (l & b & ws & -> & Hl & Hb & ->). exists l. split; [|reflexivity]. apply op_some; assumption.
  - step. exists []. split; [constructor|reflexivity].
Qed.
Lemma listed_all {A} (item : TL -> A -> Prop) (P : A -> Prop) : (forall us a, item us a -> P a) -> forall us l, listed item us l -> Forall P l.
Proof. intros H us l. induction 1; constructor; eauto. Qed.
Lemma options_all {A} (item : TL -> A -> Prop) (P : A -> Prop) : (forall us a, item us a -> P a) -> forall us l, options item us l -> Forall P l.
Proof. intros H us l [| |]; [constructor|constructor|eapply listed_all; eassumption]. Qed.
Lemma storage_item_ok us o : storage_item us o -> encryption_ok o.
Proof. intros [a b o' _ _ V] s ->. inversion V; subst. assumption. Qed.

(* ---- commands; [after a b] is what a sentence is made of after its first two words ---- *)
Section COMMANDS.
Variable e : env.
Definition tail (a b : token) (us : TL) (c : cmd) : Prop := sentence e (a :: b :: us) (Some c).
Ltac done := rewrite ?app_nil_r, <- ?app_assoc; cbn [app].

Lemma len_app {A} (ts us r : list A) n : ts = us ++ r -> (List.length ts <= n)%nat -> (List.length r <= n)%nat.
Proof. intros ->. rewrite app_length. lia. Qed.

Lemma OK_cloud_create f ts a b : kw KCREATE a -> kw KCLOUD b -> (List.length ts <= f)%nat -> OK ts (tail a b) (parse_cloud_create TL gnext gif f ts).
Proof.
  intros Ha Hb L. unfold parse_cloud_create.
  eapply OK_bind; [apply OK_ine|]. intros x ie r1 E1 H1. cbv beta iota. pose proof (len_app _ _ _ _ E1 L) as L1.
  eapply OK_bind; [apply OK_name|]. intros n us r2 E2 (t & -> & H2). cbv beta iota. pose proof (len_app _ _ _ _ E2 L1) as L2.
  eapply OK_bind; [apply OK_cloud_options, L2|]. intros p os r3 _ (l & H3 & ->). cbv beta iota. apply OK_ok. unfold tail. done.
  rewrite ccreated_gather. apply se_cloud_create; assumption.
Qed.
Lemma OK_cloud_drop ts a b : kw KDROP a -> kw KCLOUD b -> OK ts (tail a b) (parse_cloud_drop TL gif ts).
Proof. intros Ha Hb. unfold parse_cloud_drop. repeat step. unfold tail. done. apply se_cloud_drop; assumption. Qed.
Lemma OK_cloud_alter f ts a b : kw KALTER a -> kw KCLOUD b -> (List.length ts <= f)%nat -> OK ts (tail a b) (parse_cloud_alter TL gnext gif f ts).
Proof.
  intros Ha Hb L. unfold parse_cloud_alter.
  eapply OK_bind; [apply OK_ie|]. intros x ie r1 E1 H1. cbv beta iota. pose proof (len_app _ _ _ _ E1 L) as L1.
  eapply OK_bind; [apply OK_name|]. intros n us r2 E2 (t & -> & H2). cbv beta iota. pose proof (len_app _ _ _ _ E2 L1) as L2.
  apply OK_is; [discriminate| |].
  - intros c r3 E3 H3. cbv beta iota. apply OK_is; [discriminate| |].
    + intros d r4 E4 H4. cbv beta iota. step. step. unfold tail. done. apply se_cloud_rename_to; assumption.
    + intros _. cbv beta iota. step. step. unfold tail. done. apply se_cloud_rename; assumption.
  - intros _. cbv beta iota. apply OK_expect; [discriminate|]. intros c r3 E3 H3. cbv beta.
    eapply OK_bind; [apply OK_cloud_options; subst r2; cbn [List.length] in L2; lia|]. intros p os r4 _ (l & H4 & ->). cbv beta iota.
    destruct (has (cbits 0 l) CLOUD_TYPE) eqn:Ht; [apply OK_err|]. apply OK_ok. unfold tail. done. rewrite caltered_gather.
    apply se_cloud_alter; try assumption. apply type_gather, Ht.
Qed.
Lemma OK_storage_create f ts a b : kw KCREATE a -> kw KSTORAGE b -> (List.length ts <= f)%nat -> OK ts (tail a b) (parse_storage_create TL gnext gif e f ts).
Proof.
  intros Ha Hb L. unfold parse_storage_create.
  eapply OK_bind; [apply OK_ine|]. intros x ie r1 E1 H1. cbv beta iota. pose proof (len_app _ _ _ _ E1 L) as L1.
  eapply OK_bind; [apply OK_name|]. intros n us r2 E2 (t & -> & H2). cbv beta iota. pose proof (len_app _ _ _ _ E2 L1) as L2.
  eapply OK_bind; [apply OK_storage_options, L2|]. intros p os r3 _ (l & H3 & ->). cbv beta iota. apply OK_ok. unfold tail. done.
  rewrite created_gather by (apply (options_all _ _ storage_item_ok _ _ H3)). apply se_storage_create; assumption.
Qed.
Lemma OK_storage_drop ts a b : kw KDROP a -> kw KSTORAGE b -> OK ts (tail a b) (parse_storage_drop TL gif ts).
Proof. intros Ha Hb. unfold parse_storage_drop. repeat step. unfold tail. done. apply se_storage_drop; assumption. Qed.
Lemma OK_storage_alter f ts a b : kw KALTER a -> kw KSTORAGE b -> (List.length ts <= f)%nat -> OK ts (tail a b) (parse_storage_alter TL gnext gif f ts).
Proof.
  intros Ha Hb L. unfold parse_storage_alter.
  eapply OK_bind; [apply OK_ie|]. intros x ie r1 E1 H1. cbv beta iota. pose proof (len_app _ _ _ _ E1 L) as L1.
  eapply OK_bind; [apply OK_name|]. intros n us r2 E2 (t & -> & H2). cbv beta iota. pose proof (len_app _ _ _ _ E2 L1) as L2.
  apply OK_is; [discriminate| |].
  - intros c r3 E3 H3. cbv beta iota. apply OK_is; [discriminate| |].
    + intros d r4 E4 H4. cbv beta iota. step. step. unfold tail. done. apply se_storage_rename_to; assumption.
    + intros _. cbv beta iota. step. step. unfold tail. done. apply se_storage_rename; assumption.
  - intros _. cbv beta iota. apply OK_expect; [discriminate|]. intros c r3 E3 H3. cbv beta.
    eapply OK_bind; [apply OK_storage_options; subst r2; cbn [List.length] in L2; lia|]. intros p os r4 _ (l & H4 & ->). cbv beta iota.
    destruct (has (bits 0 l) SOURCE_UUID) eqn:Ht; [apply OK_err|]. apply OK_ok. unfold tail. done. rewrite altered_gather.
    apply se_storage_alter; try assumption. apply uuid_gather, Ht.
Qed.
Lemma OK_partition_create ts a b : kw KCREATE a -> kw KPARTITION b -> OK ts (tail a b) (parse_partition_create TL gif e ts).
Proof.
  intros Ha Hb. unfold parse_partition_create. step. intro F. unfold gif. destruct r as [|t r]; cbn [bind].
  - change (KEOF =? KINT) with false. exists []. split; [reflexivity|]. unfold tail. apply se_create; assumption.
  - destruct (N.eqb_spec (t_id t) KINT) as [E|E]; cbn [bind].
    + destruct (fit_int t (Forall_inv F) E) as [n V]. unfold tok_int. rewrite V. cbn [bind]. exists [t]. split; [reflexivity|].
      unfold tail. apply se_create_max; try assumption. split; assumption.
    + exists []. split; [reflexivity|]. unfold tail. apply se_create; assumption.
Qed.
Lemma OK_partition_drop ts a b : kw KDROP a -> kw KPARTITION b -> OK ts (tail a b) (parse_partition_drop TL gif ts).
Proof. intros Ha Hb. unfold parse_partition_drop. repeat step. unfold tail. done. apply se_drop; assumption. Qed.
Ltac btw := eapply OK_bind; [apply OK_between|intros [? ?] ? ? _ ?; cbv beta iota; cbn [fst snd] in *].
Lemma OK_partition_drop_range ts a b : kw KDROP a -> kw KPARTITIONS b -> OK ts (tail a b) (parse_partition_drop_range TL gif ts).
Proof. intros Ha Hb. unfold parse_partition_drop_range. btw. repeat step. unfold tail. done. apply se_drop_range; assumption. Qed.
Lemma OK_partition_move ts a b : kw KMOVE a -> kw KPARTITION b -> OK ts (tail a b) (parse_partition_move TL gif ts).
Proof. intros Ha Hb. unfold parse_partition_move. repeat step. unfold tail. done. apply se_move; assumption. Qed.
Lemma OK_partition_move_range ts a b : kw KMOVE a -> kw KPARTITIONS b -> OK ts (tail a b) (parse_partition_move_range TL gif ts).
Proof. intros Ha Hb. unfold parse_partition_move_range. btw. repeat step. unfold tail. done. apply se_move_range; assumption. Qed.
Lemma OK_partition_refresh ts a b : kw KREFRESH a -> kw KPARTITION b -> OK ts (tail a b) (parse_partition_refresh TL gif ts).
Proof. intros Ha Hb. unfold parse_partition_refresh. repeat step. unfold tail. done. apply se_refresh; assumption. Qed.
Lemma OK_partition_refresh_range ts a b : kw KREFRESH a -> kw KPARTITIONS b -> OK ts (tail a b) (parse_partition_refresh_range TL gif ts).
Proof. intros Ha Hb. unfold parse_partition_refresh_range. btw. repeat step. unfold tail. done. apply se_refresh_range; assumption. Qed.
Lemma OK_partition_download ts a b : kw KDOWNLOAD a -> kw KPARTITION b -> OK ts (tail a b) (parse_partition_download TL gif ts).
Proof. intros Ha Hb. unfold parse_partition_download. repeat step. unfold tail. done. apply se_download; assumption. Qed.
Lemma OK_partition_download_range ts a b : kw KDOWNLOAD a -> kw KPARTITIONS b -> OK ts (tail a b) (parse_partition_download_range TL gif ts).
Proof. intros Ha Hb. unfold parse_partition_download_range. btw. repeat step. unfold tail. done. apply se_download_range; assumption. Qed.
Lemma OK_partition_upload ts a b : kw KUPLOAD a -> kw KPARTITION b -> OK ts (tail a b) (parse_partition_upload TL gif ts).
Proof. intros Ha Hb. unfold parse_partition_upload. repeat step. unfold tail. done. apply se_upload; assumption. Qed.
Lemma OK_partition_upload_range ts a b : kw KUPLOAD a -> kw KPARTITIONS b -> OK ts (tail a b) (parse_partition_upload_range TL gif ts).
Proof. intros Ha Hb. unfold parse_partition_upload_range. btw. repeat step. unfold tail. done. apply se_upload_range; assumption. Qed.

Lemma is_eof ts : Forall fit ts -> is TL gif ts KEOF = Ok (match ts with [] => true | _ => false end, ts).
Proof.
  intro F. unfold is, gif. destruct ts as [|t ts]; [reflexivity|].
  rewrite (proj2 (N.eqb_neq _ _) (fit_not_eof t (Forall_inv F))). reflexivity.
Qed.
Lemma expect_eof ts : Forall fit ts -> expect TL gif ts KEOF = match ts with [] => Ok [] | _ => Err end.
Proof. intro F. unfold expect. rewrite is_eof by exact F. destruct ts; reflexivity. Qed.
Lemma OK_is_eof {A} ts (G : TL -> A -> Prop) f :
  (ts = [] -> OK ts G (f (true, ts))) -> (ts <> [] -> OK ts G (f (false, ts))) -> OK ts G (bind (is TL gif ts KEOF) f).
Proof.
  intros H K F. rewrite (is_eof ts F). cbn [bind]. destruct ts; [apply H; [reflexivity|exact F]|apply K; [discriminate|exact F]].
Qed.
Lemma OK_expect_eof {A} ts (G : TL -> A -> Prop) f : (ts = [] -> OK ts G (f ts)) -> OK ts G (bind (expect TL gif ts KEOF) f).
Proof. intros H F. rewrite (expect_eof ts F). destruct ts; [apply H; [reflexivity|exact F]|exact I]. Qed.

Lemma OK_pipeline_set : forall f ts, (List.length ts < f)%nat -> OK ts tiers (parse_pipeline_set TL gnext gif f ts).
Proof.
  induction f as [|f IH]; intros ts L; [lia|]. cbn [parse_pipeline_set]. cbv zeta.
  eapply OK_bind; [apply OK_name|]. intros n us r1 E1 (t & -> & H1). cbv beta iota. subst ts. cbn [List.length app] in L. cbn [app].
  apply OK_is; [discriminate| |].
  { intros c r2 E2 H2. cbv beta iota. subst r1. cbn [List.length] in L.
    eapply OK_bind; [apply IH; lia|]. intros l us r3 _ H3. cbv beta iota. apply OK_ok. rewrite app_nil_r.
    change (tierc_set_name tierc_new n) with (tset_all (tierc_set_name tierc_new n) []). rewrite tier_gather. apply ti_comma; assumption. }
  intros _. cbv beta iota. apply OK_is_eof.
  { intros _. cbv beta iota. apply OK_ok. change (tierc_set_name tierc_new n) with (tset_all (tierc_set_name tierc_new n) []). rewrite tier_gather.
    apply ti_last; assumption. }
  intros _. cbv beta iota. apply OK_expect; [discriminate|]. intros p r2 E2 H2. cbv beta. subst r1. cbn [List.length] in L.
  apply OK_is; [discriminate| |].
  { intros q r3 E3 H3. cbv beta iota. subst r2. cbn [List.length] in L.
    eapply OK_bind; [apply IH; lia|]. intros l us r4 _ H4. cbv beta iota. apply OK_ok. rewrite app_nil_r.
    change (tierc_set_name tierc_new n) with (tset_all (tierc_set_name tierc_new n) []). rewrite tier_gather. apply ti_empty; assumption. }
  intros _. cbv beta iota.
  eapply OK_bind; [apply OK_tier_loop; lia|]. intros v us r3 E3 (l & q & os & -> & H3 & Hq & ->). cbv beta iota. rewrite tier_gather.
  apply OK_is; [discriminate| |].
  { intros c r4 E4 H4. cbv beta iota. subst r3 r2. rewrite !app_length in L. cbn [List.length] in L.
    eapply OK_bind; [apply IH; lia|]. intros m ws r5 _ H5. cbv beta iota. apply OK_ok. rewrite app_nil_r, <- app_assoc. cbn [app].
    apply ti_options_comma; assumption. }
  intros _. cbv beta iota. apply OK_expect_eof. intros _. apply OK_ok. rewrite app_nil_r. apply ti_options_last; assumption.
Qed.
Lemma OK_pipeline_alter f ts a b : kw KALTER a -> kw KPIPELINE b -> (List.length ts <= f)%nat -> OK ts (tail a b) (parse_pipeline_alter TL gnext gif f ts).
Proof.
  intros Ha Hb L. unfold parse_pipeline_alter. apply OK_is; [discriminate| |].
  - intros c r E H. cbv beta iota. apply OK_ok. apply se_pipeline_reset; assumption.
  - intros _. cbv beta iota. apply OK_expect; [discriminate|]. intros c r E H. cbv beta. subst ts. cbn [List.length] in L.
    eapply OK_bind; [apply OK_pipeline_set; lia|]. intros l us r2 _ H2. cbv beta iota. apply OK_ok. unfold tail. rewrite app_nil_r.
    apply se_pipeline_set; assumption.
Qed.

(* ---- SHOW ---- *)
Definition what (ts : TL) (us : TL) (f : bool -> sop) : Prop :=
  shows_what us f \/
  exists t, us = [t] /\ (kw KCONFIG t \/ kw KALL t) /\ f = (fun _ => Op ShowConfig) /\ (forall u r s, ts = t :: u :: r -> ~ word u s /\ ~ kw KSTRING u).
Lemma gname_word t r s : word t s -> gname (t :: r) = Ok (Some (mk_tok KNAME (TStr s false)), r).
Proof. intros [A [e' B]]. unfold gname. rewrite B, (proj2 (N.eqb_neq _ _) A). reflexivity. Qed.
Lemma gname_some ts t r : gname ts = Ok (Some t, r) -> exists w s, ts = w :: r /\ word w s /\ t = mk_tok KNAME (TStr s false).
Proof.
  unfold gname. destruct ts as [|w ts]; [discriminate|]. destruct (t_val w) eqn:V; try discriminate.
  destruct (N.eqb_spec (t_id w) KSTRING); [discriminate|]. intro X. injection X as <- <-. exists w, s. split; [reflexivity|].
  split; [split; [assumption|eexists; exact V]|reflexivity].
Qed.
Lemma gname_none ts r : gname ts = Ok (None, r) -> r = ts /\ forall u v s, ts = u :: v -> ~ word u s.
Proof.
  unfold gname. destruct ts as [|w ts]; [intro X; injection X as <-; split; [reflexivity|discriminate]|].
  destruct (t_val w) eqn:V.
  all: try destruct (N.eqb_spec (t_id w) KSTRING).
  all: intro X; try discriminate X; injection X as <-; (split; [reflexivity|]); intros u v s0 Y [A [e' B]]; injection Y as <- <-; congruence.
Qed.
Ltac by_id Q := apply N.eqb_eq in Q.
Lemma OK_what t ts : OK (t :: ts) (what (t :: ts)) (parse_show_what TL gif gname ts t).
Proof.
  unfold parse_show_what.
  destruct (t_id t =? KMEMORY) eqn:Q; [by_id Q; apply OK_cons, OK_ok; left; constructor; exact Q|clear Q].
  destruct (t_id t =? KWAL) eqn:Q; [by_id Q; apply OK_cons, OK_ok; left; constructor; exact Q|clear Q].
  destruct (t_id t =? KCLOUD) eqn:Q; [by_id Q; apply OK_cons; step; step; left; constructor; assumption|clear Q].
  destruct (t_id t =? KCLOUDS) eqn:Q; [by_id Q; apply OK_cons, OK_ok; left; constructor; exact Q|clear Q].
  destruct (t_id t =? KSTORAGE) eqn:Q; [by_id Q; apply OK_cons; step; step; left; constructor; assumption|clear Q].
  destruct (t_id t =? KSTORAGES) eqn:Q; [by_id Q; apply OK_cons, OK_ok; left; constructor; exact Q|clear Q].
  destruct (t_id t =? KPARTITION) eqn:Q; [by_id Q; apply OK_cons; step; step; left; constructor; assumption|clear Q].
  destruct (t_id t =? KPARTITIONS) eqn:Q.
  { by_id Q. apply OK_cons. intro F. unfold gif. destruct ts as [|u r]; cbn [bind].
    - change (KEOF =? KNAME) with false. exists []. split; [reflexivity|]. left. constructor. exact Q.
    - destruct (N.eqb_spec (t_id u) KNAME) as [E|E]; cbn [bind].
      + destruct (fit_name u (Forall_inv F) E) as [s V]. unfold tok_str. rewrite V. cbn [bind]. exists [u]. split; [reflexivity|].
        left. constructor; [exact Q|]. split; [exact E|exists false; exact V].
      + exists []. split; [reflexivity|]. left. constructor. exact Q. }
  clear Q. destruct (t_id t =? KPIPELINE) eqn:Q; [by_id Q; apply OK_cons, OK_ok; left; constructor; exact Q|clear Q].
  destruct ((t_id t =? KCONFIG) || (t_id t =? KALL)) eqn:Q.
  { assert (Q' : kw KCONFIG t \/ kw KALL t) by (apply orb_true_iff in Q as [Q|Q]; by_id Q; unfold kw; auto). clear Q.
    apply OK_cons. intro F. destruct (gname ts) as [[[w|] r]| |] eqn:Gn; [| |discriminate Gn|discriminate Gn].
    - destruct (gname_some _ _ _ Gn) as (u & s & -> & W & ->). cbn [bind tok_str t_val]. exists [u]. split; [reflexivity|].
      left. apply sw_variable; auto.
    - destruct (gname_none _ _ Gn) as [-> N]. cbn [bind]. unfold gif. destruct ts as [|u r]; cbn [bind].
      + change (KEOF =? KSTRING) with false. exists []. split; [reflexivity|]. right. exists t. repeat split; [exact Q'|congruence..].
      + destruct (N.eqb_spec (t_id u) KSTRING) as [E|E]; cbn [bind].
        * destruct (fit_text u (Forall_inv F) E) as (s & x & V). unfold tok_str. rewrite V. cbn [bind]. exists [u]. split; [reflexivity|].
          left. apply sw_variable; [exact Q'|]. right. split; [exact E|exists x; exact V].
        * exists []. split; [reflexivity|]. right. exists t. split; [reflexivity|]. split; [exact Q'|]. split; [reflexivity|].
          intros u' r' s X. injection X as <- <-. split; [apply (N u r s eq_refl)|exact E]. }
  clear Q. destruct ((t_id t =? KNAME) || (t_id t =? KSTRING)) eqn:Q; [|apply OK_err].
  apply OK_fit. intro Ft.
  assert (W : exists s x, t_val t = TStr s x /\ (name t s \/ text t s)).
  { apply orb_true_iff in Q as [Q|Q]; by_id Q.
    - destruct (fit_name t Ft Q) as [s V]. exists s, false. split; [exact V|]. left. split; [exact Q|exists false; exact V].
    - destruct (fit_text t Ft Q) as (s & x & V). exists s, x. split; [exact V|]. right. split; [exact Q|exists x; exact V]. }
  destruct W as (s & x & V & W). unfold tok_str. rewrite V. cbn [bind]. apply OK_ok. left. constructor. exact W.
Qed.
Lemma what_nonempty ts us f : what ts us f -> us <> [].
Proof. intros [[]|(t & -> & _)]; discriminate. Qed.
(* CONFIG is not followed by DEBUG: that would be a word *)
Lemma fit_debug t : fit t -> kw KDEBUG t -> exists s, word t s.
Proof.
  intros F K. destruct (fit_word t F) as [s V]; [rewrite K; vm_compute; discriminate|rewrite K; apply not_symbol_debug|].
  exists s. split; [rewrite K; discriminate|exists false; exact V].
Qed.
Lemma shows_what_config f us : shows_what us f -> f false <> Op ShowConfig /\ f true <> Op ShowConfig.
Proof. intros []; split; discriminate. Qed.
Lemma OK_isf {A} ts id (G : TL -> A -> Prop) f : id <> KEOF ->
  (forall t r, ts = t :: r -> kw id t -> fit t -> OK r (fun ws w => G (t :: ws) w) (f (true, r))) ->
  (~ starts id ts -> OK ts G (f (false, ts))) -> OK ts G (bind (is TL gif ts id) f).
Proof.
  intros Ne H K F. apply OK_is; [exact Ne| |exact K|exact F]. intros t r E Kt. apply H; [exact E|exact Kt|]. subst ts. apply (Forall_inv F).
Qed.
Lemma OK_show : forall f ts, (List.length ts < f)%nat -> OK ts shows (parse_show TL gnext gif gname f ts).
Proof.
  induction f as [|f IH]; intros ts L; [lia|]. cbn [parse_show]. unfold gnext. destruct ts as [|t ts]; [apply OK_err|]. cbn [bind].
  cbn [List.length] in L.
  eapply OK_bind; [apply OK_what|]. intros g us r E W. cbv beta iota. pose proof (what_nonempty _ _ _ W) as Ne.
  assert (Lr : (List.length r < f)%nat).
  { destruct us; [congruence|]. apply (f_equal (@List.length _)) in E. cbn in E. rewrite app_length in E. lia. }
  apply OK_isf; [discriminate| |].
  - intros d r2 E2 H2 Fd. cbv beta iota. subst r. cbn [List.length] in Lr.
    assert (Sw : shows_what us g).
    { destruct W as [W|(c & -> & _ & _ & X)]; [exact W|]. exfalso. injection E as <- ->.
      destruct (fit_debug d Fd H2) as [s Ws]. apply (proj1 (X d r2 s eq_refl)), Ws. }
    assert (It : shows_item (us ++ [d]) (g true)) by (constructor; assumption).
    apply OK_isf; [discriminate| |].
    + intros c r3 E3 H3 Fc. cbv beta iota. subst r2. cbn [List.length] in Lr.
      eapply OK_bind; [apply IH; lia|]. intros ops vs r4 _ H4. cbv beta iota. apply OK_ok. rewrite app_nil_r.
      change (us ++ d :: c :: vs) with (us ++ [d] ++ c :: vs). rewrite app_assoc. apply sh_more; try assumption.
      intro X. elim (proj2 (shows_what_config _ _ Sw) X).
    + intros _. cbv beta iota. apply OK_ok. apply sh_one, It.
  - intros _. cbv beta iota.
    assert (It : shows_item us (g false)).
    { destruct W as [W|(c & -> & K & -> & X)]; [apply si_plain, W|apply si_config, K]. }
    apply OK_isf; [discriminate| |].
    + intros c r3 E3 H3 Fc. cbv beta iota. subst r. cbn [List.length] in Lr.
      eapply OK_bind; [apply IH; lia|]. intros ops vs r4 _ H4. cbv beta iota. apply OK_ok. rewrite app_nil_r. apply sh_more; try assumption.
      intros X s Ws. destruct W as [W|(c' & -> & K & -> & Y)]; [elim (proj1 (shows_what_config _ _ W) X)|].
      injection E as <- ->. apply (proj1 (Y c r3 s eq_refl)), Ws.
    + intros _. cbv beta iota. apply OK_ok. rewrite app_nil_r. apply sh_one, It.
Qed.

(* ---- SET, DEBUG and the whole command ---- *)
Lemma OK_debug ts a : kw KDEBUG a -> OK ts (fun us c => sentence e (a :: us) (Some c)) (parse_debug TL gif ts).
Proof.
  intro Ha. unfold parse_debug. step.
  assert (D : forall nm i, In (nm, i) debug_names -> v = chars nm -> OK r (fun ws w => sentence e (a :: x :: ws) (Some w)) (Ok (CmdDebug i, r))).
  { intros nm i Hi ->. apply OK_ok. eapply se_debug; eassumption. }
  destruct (same_bytes v (chars "wal_create")) eqn:E1; [apply same_bytes_eq in E1; apply (D "wal_create"%string); [left; reflexivity|exact E1]|].
  destruct (same_bytes v (chars "wal_gc")) eqn:E2; [apply same_bytes_eq in E2; apply (D "wal_gc"%string); [right; left; reflexivity|exact E2]|].
  destruct (same_bytes v (chars "wal_read")) eqn:E3; [apply same_bytes_eq in E3; apply (D "wal_read"%string); [right; right; left; reflexivity|exact E3]|].
  destruct (same_bytes v (chars "memory_gc")) eqn:E4; [apply same_bytes_eq in E4; apply (D "memory_gc"%string); [right; right; right; left; reflexivity|exact E4]|].
  apply OK_err.
Qed.
(* SET takes one more token, or the end *)
Lemma OK_set ts a : kw KSET a -> OK ts (fun us c => sentence e (a :: us) (Some c)) (parse_set TL gnext gif gname ts).
Proof.
  intro Ha. unfold parse_set. intro F. destruct (gname ts) as [[[w|] r]| |] eqn:Gn; [|exact I|discriminate Gn|discriminate Gn].
  destruct (gname_some _ _ _ Gn) as (u & s & -> & W & ->). cbn [bind tok_str t_val]. revert F.
  match goal with |- Forall fit (u :: r) -> match ?x with _ => _ end => change (OK (u :: r) (fun us c => sentence e (a :: us) (Some c)) x) end.
  apply OK_cons. apply OK_expect; [discriminate|]. intros t r2 -> Ht. cbv beta. unfold gnext. destruct r2 as [|v r2]; cbn [bind].
  - apply OK_ok. eapply se_set_nothing; eassumption.
  - apply OK_cons, OK_ok. eapply se_set; eassumption.
Qed.

Definition cases_ok (a : token) (n : nat) (c : list (N * (TL -> res (cmd * TL)))) : Prop :=
  Forall (fun x => fst x <> KEOF /\ forall b ts, kw (fst x) b -> (List.length ts <= n)%nat -> OK ts (tail a b) (snd x ts)) c.
Lemma OK_one_of a n : forall c, cases_ok a n c -> forall ts, (List.length ts <= n)%nat ->
  OK ts (fun us c => sentence e (a :: us) (Some c)) (parse_one_of TL gif ts c).
Proof.
  induction 1 as [|[i p] c [Ne H] _ IH]; intros ts L; cbn [parse_one_of]; [apply OK_err|]. cbn [fst snd] in *.
  apply OK_is; [exact Ne| |].
  - intros b r E Kb. cbv beta iota. subst ts. apply H; [exact Kb|cbn [List.length] in L; lia].
  - intros _. cbv beta iota. apply IH, L.
Qed.
Lemma OK_first f ts : (List.length ts <= f)%nat -> OK ts (sentence e) (parse_first TL gnext gif gname e f ts).
Proof.
  intro L. unfold parse_first. cbv zeta. unfold gnext. destruct ts as [|t ts]; cbn [bind].
  { intros _. exists []. split; [reflexivity|constructor]. }
  cbn [List.length] in L.
  assert (W : forall x : res (cmd * TL), OK ts (fun us c => sentence e (t :: us) (Some c)) x -> OK (t :: ts) (sentence e) (do (c, l) <- x ; Ok (Some c, l))).
  { intros x H. apply OK_cons. eapply OK_bind; [exact H|]. intros c us r _ Hc. cbv beta iota. apply OK_ok. rewrite app_nil_r. exact Hc. }
  destruct (N.eqb_spec (t_id t) KSET) as [E|_]; [apply W, OK_set, E|].
  destruct (N.eqb_spec (t_id t) KSHOW) as [E|_].
  { apply W. eapply OK_bind; [apply OK_show; lia|]. intros l us r _ H. cbv beta iota. apply OK_ok. rewrite app_nil_r. apply se_show; assumption. }
  destruct (N.eqb_spec (t_id t) KDEBUG) as [E|_]; [apply W, OK_debug, E|].
  destruct (N.eqb_spec (t_id t) KCHECKPOINT) as [E|_]; [apply OK_cons, OK_ok; constructor; exact E|].
  destruct (N.eqb_spec (t_id t) KSERVICE) as [E|_]; [apply OK_cons, OK_ok; constructor; exact E|].
  destruct (N.eqb_spec (t_id t) KREBALANCE) as [E|_]; [apply OK_cons, OK_ok; constructor; exact E|].
  destruct (N.eqb_spec (t_id t) KCREATE) as [E|_].
  { apply W. apply (OK_one_of t f); [|lia]. repeat (constructor; [split; [discriminate|cbn [fst snd]; intros]|]); [| | |constructor].
    apply OK_cloud_create; assumption. apply OK_storage_create; assumption. apply OK_partition_create; assumption. }
  destruct (N.eqb_spec (t_id t) KDROP) as [E|_].
  { apply W. apply (OK_one_of t f); [|lia]. repeat (constructor; [split; [discriminate|cbn [fst snd]; intros]|]); [| | | |constructor].
    apply OK_cloud_drop; assumption. apply OK_storage_drop; assumption. apply OK_partition_drop; assumption. apply OK_partition_drop_range; assumption. }
  destruct (N.eqb_spec (t_id t) KALTER) as [E|_].
  { apply W. apply (OK_one_of t f); [|lia]. repeat (constructor; [split; [discriminate|cbn [fst snd]; intros]|]); [| | |constructor].
    apply OK_cloud_alter; assumption. apply OK_storage_alter; assumption. apply OK_pipeline_alter; assumption. }
  destruct (N.eqb_spec (t_id t) KMOVE) as [E|_].
  { apply W. apply (OK_one_of t f); [|lia]. repeat (constructor; [split; [discriminate|cbn [fst snd]; intros]|]); [| |constructor].
    apply OK_partition_move; assumption. apply OK_partition_move_range; assumption. }
  destruct (N.eqb_spec (t_id t) KREFRESH) as [E|_].
  { apply W. apply (OK_one_of t f); [|lia]. repeat (constructor; [split; [discriminate|cbn [fst snd]; intros]|]); [| |constructor].
    apply OK_partition_refresh; assumption. apply OK_partition_refresh_range; assumption. }
  destruct (N.eqb_spec (t_id t) KDOWNLOAD) as [E|_].
  { apply W. apply (OK_one_of t f); [|lia]. repeat (constructor; [split; [discriminate|cbn [fst snd]; intros]|]); [| |constructor].
    apply OK_partition_download; assumption. apply OK_partition_download_range; assumption. }
  destruct (N.eqb_spec (t_id t) KUPLOAD) as [E|_].
  { apply W. apply (OK_one_of t f); [|lia]. repeat (constructor; [split; [discriminate|cbn [fst snd]; intros]|]); [| |constructor].
    apply OK_partition_upload; assumption. apply OK_partition_upload_range; assumption. }
  apply OK_fit. intro Ft. rewrite (proj2 (N.eqb_neq _ _) (fit_not_eof t Ft)). apply OK_err.
Qed.
Lemma all_sound f ts : (List.length ts <= f)%nat -> Forall fit ts ->
  match parse_all TL gnext gif gname e f ts with Ok c => sentence e ts c | Err => True | UB => In dollar ts end.
Proof.
  intros L F. unfold parse_all. pose proof (OK_first f ts L F) as H.
  destruct (parse_first TL gnext gif gname e f ts) as [[c r]| |]; cbn [bind]; [|exact I|exact H].
  destruct H as (us & E & H). pose proof F as F'. rewrite E in F'. apply Forall_app in F' as [_ F']. rewrite (expect_eof r F').
  destruct r; cbn [bind]; [|exact I]. rewrite app_nil_r in E. subst us. exact H.
Qed.
End COMMANDS.
