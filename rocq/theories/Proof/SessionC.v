(* What the words of a command allow to be saved. *)
From Coq Require Import NArith ZArith String List Bool Lia.
Import ListNotations.
From Verif Require Import Model.Base Model.Lex Model.Uuid Model.Source Model.Config Model.Catalog Model.Startup Model.Parse Model.Session
  Spec.Value Spec.JsonText Spec.Settings Spec.UuidText Spec.Catalog Spec.Units Spec.Command Spec.Session
  Proof.UuidL Proof.SourceL Proof.CatalogT.

Definition cfine (k : cloudc) : Prop :=
  carried (cc_name k) /\ carried (cc_type k) /\ carried (cc_login k) /\ carried (cc_password k) /\ carried (cc_url k).
Definition sfine (s : source) : Prop :=
  carried (so_name s) /\ carried (so_path s) /\ carried (so_cloud s) /\ carried (so_compression s) /\ carried (so_encryption s) /\ carried (so_key s).
Definition ifine (z : Z) : Prop := (Z.abs z < 2 ^ 63 - 48)%Z.
Definition tfine (t : tierc) : Prop :=
  carried (tc_name t) /\ ifine (tc_partitions t) /\ ifine (tc_size t) /\ ifine (tc_events t) /\ ifine (tc_duration t).
Definition ofine (o : option (list byte)) : Prop := forall s, o = Some s -> carried s.
Definition command_fine (c : command) : Prop :=
  match c with
  | CloudCreate k _ => cfine k
  | CloudAlter _ a _ => ofine (ac_login a) /\ ofine (ac_password a) /\ ofine (ac_url a)
  | CloudRename _ m _ => carried m
  | StorageCreate s _ => sfine s
  | StorageAlter _ a _ => ofine (al_path a) /\ ofine (al_cloud a) /\ ofine (al_compression a) /\ ofine (al_encryption a) /\ ofine (al_key a)
  | StorageRename _ m _ => carried m
  | PipelineAlter l => Forall tfine l
  | _ => True
  end.
Definition vfine (v : view) : Prop := Forall cfine (vw_clouds v) /\ Forall sfine (vw_storages v) /\ Forall tfine (vw_tiers v).

Lemma carried_nil : carried [].
Proof. split; [reflexivity|vm_compute; reflexivity]. Qed.

(* lists of options *)
Lemma last_in {A B} (f : A -> option B) l x : last_of f l = Some x -> exists o, In o l /\ f o = Some x.
Proof.
  unfold last_of. assert (G : forall acc, fold_left (fun a o => match f o with Some y => Some y | None => a end) l acc = Some x ->
    acc = Some x \/ exists o, In o l /\ f o = Some x).
  { induction l as [|a l IH]; intros acc H; [left; exact H|]. cbn [fold_left] in H. apply IH in H. destruct H as [H|(o & I & E)].
    - destruct (f a) eqn:E; [right; exists a; split; [left; reflexivity|congruence]|left; exact H].
    - right. exists o. split; [right; exact I|exact E]. }
  intro H. apply G in H. destruct H as [H|H]; [discriminate|exact H].
Qed.
Lemma listed_in {A} (item : list token -> A -> Prop) ts l o : listed item ts l -> In o l -> exists us, item us o /\ incl us ts.
Proof.
  induction 1 as [ts a H|ts a c rs l H K L IH]; intros [->|I].
  - exists ts. split; [exact H|apply incl_refl].
  - destruct I.
  - exists ts. split; [exact H|]. apply incl_appl, incl_refl.
  - destruct (IH I) as (us & U & V). exists us. split; [exact U|]. apply incl_appr, incl_tl, V.
Qed.
Lemma options_in {A} (item : list token -> A -> Prop) ts l o : options item ts l -> In o l -> exists us, item us o /\ incl us ts.
Proof.
  intros [|a b _ _|a us b m _ L _] I; [destruct I|destruct I|]. destruct (listed_in item _ _ _ L I) as (vs & V & W). exists vs. split; [exact V|].
  apply incl_tl, incl_appl, W.
Qed.
Lemma text_carried t s : token_carried t -> string_of t s -> carried s.
Proof. intros H [e E]. unfold token_carried in H. rewrite E in H. exact H. Qed.
Lemma int_carried t n : token_carried t -> int t n -> ifine (signed n).
Proof.
  intros H [_ E]. unfold token_carried in H. rewrite E in H. unfold ifine, signed, i64_of_u64, w64, two64. rewrite N.mod_small by lia. cbv zeta.
  destruct (Z.ltb_spec (Z.of_N n) (2 ^ 63)); lia.
Qed.
Lemma storage_item_fine ts l os o : Forall token_carried os -> options storage_item os l -> incl os ts -> In o l ->
  match o with SPath s | SCloud s | SCompression s | SEncryption s | SKey s => carried s | SUuid u => (u_a u < 2 ^ 64)%N /\ (u_b u < 2 ^ 64)%N | _ => True end.
Proof.
  intros F O _ I. destruct (options_in _ _ _ _ O I) as (us & U & V). destruct U as [a b o N S X].
  assert (Fb : token_carried b) by (rewrite Forall_forall in F; apply F, V; right; left; reflexivity).
  destruct X; try exact Logic.I; try (eapply text_carried; [exact Fb|]; match goal with H : text _ _ |- _ => apply H end).
  eapply uuid_bits. eassumption.
Qed.
Lemma cloud_item_fine os l o : Forall token_carried os -> options cloud_item os l -> In o l ->
  match o with CType s | CUrl s | CLogin s | CPassword s => carried s | _ => True end.
Proof.
  intros F O I. destruct (options_in _ _ _ _ O I) as (us & U & V). destruct U as [a b n o N C S X].
  assert (Fb : token_carried b) by (rewrite Forall_forall in F; apply F, V; right; left; reflexivity).
  destruct X; try exact Logic.I; eapply text_carried; [exact Fb|apply H|exact Fb|apply H|exact Fb|apply H|exact Fb|apply H].
Qed.
Ltac given_by L F O := 
  let s := fresh in let H := fresh in intros s H; apply last_in in H; destruct H as (o & I & E);
  pose proof (L o I) as X; destruct o; try discriminate; cbn in E; injection E as ->; exact X.
Lemma altered_fine os l : Forall token_carried os -> options storage_item os l ->
  ofine (al_path (Spec.Command.altered l)) /\ ofine (al_cloud (Spec.Command.altered l)) /\ ofine (al_compression (Spec.Command.altered l)) /\
  ofine (al_encryption (Spec.Command.altered l)) /\ ofine (al_key (Spec.Command.altered l)).
Proof.
  intros F O. assert (L := fun o => storage_item_fine os l os o F O (incl_refl os)).
  unfold Spec.Command.altered. cbn [al_path al_cloud al_compression al_encryption al_key]. repeat (match goal with |- _ /\ _ => apply conj end); given_by L F O.
Qed.
Lemma caltered_fine os l : Forall token_carried os -> options cloud_item os l ->
  ofine (ac_login (caltered l)) /\ ofine (ac_password (caltered l)) /\ ofine (ac_url (caltered l)) /\ ofine (last_type l).
Proof.
  intros F O. assert (L := fun o => cloud_item_fine os l o F O).
  unfold caltered, last_type. cbn [ac_login ac_password ac_url]. repeat (match goal with |- _ /\ _ => apply conj end); given_by L F O.
Qed.
Lemma given_fine a o : carried a -> ofine o -> carried (given_or a o).
Proof. intros A O. destruct o; [apply O; reflexivity|exact A]. Qed.
Lemma created_fine e nm os l : carried nm -> carried (en_compression e) -> carried (en_key e) -> (u_a (en_uuid e) < 2 ^ 64)%N -> (u_b (en_uuid e) < 2 ^ 64)%N ->
  Forall token_carried os -> options storage_item os l ->
  sfine (created e nm l) /\ (u_a (so_uuid (created e nm l)) < 2 ^ 64)%N /\ (u_b (so_uuid (created e nm l)) < 2 ^ 64)%N.
Proof.
  intros Hn Hc Hk U1 U2 F O. destruct (altered_fine os l F O) as (A1 & A2 & A3 & A4 & A5).
  assert (U : (u_a (so_uuid (created e nm l)) < 2 ^ 64)%N /\ (u_b (so_uuid (created e nm l)) < 2 ^ 64)%N).
  { unfold created. cbn [so_uuid]. destruct (last_of _ l) as [u|] eqn:E; cbn [given_or]; [|split; assumption]. apply last_in in E. destruct E as (o & I & E).
    pose proof (storage_item_fine os l os o F O (incl_refl os) I) as X. destruct o; try discriminate. injection E as ->. exact X. }
  split; [|exact U]. unfold created. cbv zeta. cbn [so_name so_path so_cloud so_compression so_encryption so_key]. unfold sfine. cbn [so_name so_path so_cloud so_compression so_encryption so_key]. split; [exact Hn|].
  repeat (match goal with |- _ /\ _ => apply conj end); try (apply given_fine; auto using carried_nil; fail).
  - assert (G : carried (given_or [] (al_key (Spec.Command.altered l)))) by (apply given_fine; auto using carried_nil).
    repeat match goal with |- context [match ?x with _ => _ end] => destruct x end; first [exact G|exact Hk].
Qed.
Lemma ccreated_fine nm os l : carried nm -> Forall token_carried os -> options cloud_item os l -> cfine (ccreated nm l).
Proof.
  intros Hn F O. destruct (caltered_fine os l F O) as (A1 & A2 & A3 & A4). unfold ccreated. cbv zeta.
  unfold cfine. cbn [cc_name cc_type cc_login cc_password cc_url]. split; [exact Hn|]. repeat (match goal with |- _ /\ _ => apply conj end); apply given_fine; auto using carried_nil.
Qed.
Lemma tier_fine nm ts l : carried nm -> Forall token_carried ts -> (l = [] \/ listed tier_item ts l) -> tfine (tier_of nm l).
Proof.
  intros Hn F L.
  assert (G : forall f : tsetting -> option Z, (forall o z, f o = Some z -> z = tsetting_int o) -> ifine (given_or (-1)%Z (last_of f l))).
  { intros f Hf. destruct (last_of f l) as [z|] eqn:E; cbn [given_or]; [|vm_compute; reflexivity]. apply last_in in E. destruct E as (o & I & E).
    destruct L as [->|L]; [destruct I|]. destruct (listed_in _ _ _ _ L I) as (us & U & V). destruct U as [a b n o _ _ B T]. rewrite (Hf _ _ E), T.
    apply (int_carried b); [|exact B]. rewrite Forall_forall in F. apply F, V. right. left. reflexivity. }
  unfold tier_of, tfine. cbn [tc_name tc_partitions tc_size tc_events tc_duration]. split; [exact Hn|].
  repeat split; apply G; intros oo zz; destruct oo; intro H; try discriminate; injection H as <-; reflexivity.
Qed.
Lemma tiers_fine ts l : tiers ts l -> Forall token_carried ts -> Forall tfine l.
Proof.
  induction 1 as [n nm N|n nm c r l N _ T IH|n nm a b r l N _ _ T IH|n nm a os b l N _ L _|n nm a os b l c r ts N _ L _ _ T IH]; intro F.
  - apply Forall_cons_iff in F. destruct F as [Fn _]. constructor; [|constructor]. apply (tier_fine nm []); [eapply text_carried; [exact Fn|apply N]|constructor|left; reflexivity].
  - apply Forall_cons_iff in F. destruct F as [Fn F]. apply Forall_cons_iff in F. destruct F as [_ F].
    constructor; [|apply IH, F]. apply (tier_fine nm []); [eapply text_carried; [exact Fn|apply N]|constructor|left; reflexivity].
  - apply Forall_cons_iff in F. destruct F as [Fn F]. apply Forall_cons_iff in F. destruct F as [_ F]. apply Forall_cons_iff in F. destruct F as [_ F].
    constructor; [|apply IH, F]. apply (tier_fine nm []); [eapply text_carried; [exact Fn|apply N]|constructor|left; reflexivity].
  - apply Forall_cons_iff in F. destruct F as [Fn F]. apply Forall_cons_iff in F. destruct F as [_ F]. apply Forall_app in F. destruct F as [F _].
    constructor; [|constructor]. apply (tier_fine nm os); [eapply text_carried; [exact Fn|apply N]|exact F|right; exact L].
  - apply Forall_cons_iff in F. destruct F as [Fn F]. apply Forall_cons_iff in F. destruct F as [_ F]. apply Forall_app in F. destruct F as [F1 F].
    apply Forall_cons_iff in F. destruct F as [_ F]. apply Forall_cons_iff in F. destruct F as [_ F].
    constructor; [|apply IH, F]. apply (tier_fine nm os); [eapply text_carried; [exact Fn|apply N]|exact F1|right; exact L].
Qed.

(* names are words *)
Definition named (t : token) : Prop := forall s, name t s -> s <> [].
Lemma tokens_named strtod s ts : tokens strtod s ts -> Forall named ts.
Proof.
  induction 1 as [s K|s s' t r ts K T _ IH]; [constructor|]. constructor; [|exact IH]. intros x [N [e E]]. unfold kw in N.
  destruct T; cbn in N, E; try discriminate. injection E as <- _. discriminate.
Qed.
Lemma units_named ts : Forall named ts -> Forall named (with_units ts).
Proof.
  assert (G : forall n ts, List.length ts <= n -> Forall named ts -> Forall named (with_units ts)).
  { induction n as [|n IH]; intros [|t us] L F; cbn [List.length] in L; try (constructor; fail); [lia|]. apply Forall_cons_iff in F. destruct F as [Ft F].
    cbn [with_units]. destruct (t_id t =? KINT)%N; [|constructor; [exact Ft|apply IH; [lia|exact F]]].
    destruct (t_val t); try (constructor; [exact Ft|apply IH; [lia|exact F]]). destruct us as [|u us]; [constructor; [exact Ft|constructor]|].
    destruct (factor (t_id u)); [|constructor; [exact Ft|apply IH; [cbn in *; lia|exact F]]].
    constructor; [|apply IH; [cbn in L; lia|apply Forall_cons_iff in F; apply F]]. intros x [_ [e E]]. discriminate. }
  apply (G (List.length ts)). lia.
Qed.
Lemma Forall_mid {A} (P : A -> Prop) a b x y : Forall P (a ++ x :: b) -> (forall z, In z (x :: y) -> In z (x :: b)) -> Forall P (x :: y).
Proof. intros F S. rewrite Forall_forall in *. intros z Z. apply F, in_or_app. right. apply S, Z. Qed.

Lemma sentence_fine e ts c : carried (en_compression e) -> carried (en_key e) -> (u_a (en_uuid e) < 2 ^ 64)%N -> (u_b (en_uuid e) < 2 ^ 64)%N ->
  sentence e ts (Some (CmdCatalog c)) -> Forall token_carried ts -> Forall named ts -> command_fine c /\ command_ok c.
Proof.
  intros Hc Hk U1 U2 S F M. remember (Some (CmdCatalog c)) as x eqn:X.
  assert (T : forall t s, In t ts -> name t s -> carried s /\ s <> []).
  { intros t s I N. rewrite Forall_forall in F, M. split; [eapply text_carried; [apply F, I|apply N]|apply (M t I s N)]. }
  destruct S; try discriminate; injection X as <-; cbn [command_fine command_ok]; try (split; exact I).
  - assert (N : carried nm /\ nm <> []) by (apply (T n); [right; right; apply in_or_app; right; left; reflexivity|assumption]).
    split; [|apply N]. apply (ccreated_fine nm os l); [apply N| |assumption].
    rewrite Forall_forall in *. intros z Z. apply F. right. right. apply in_or_app. right. right. exact Z.
  - assert (N : carried mm /\ mm <> []) by (apply (T m); [right; right; apply in_or_app; right; right; right; left; reflexivity|assumption]).
    assert (N' : carried nm /\ nm <> []) by (apply (T n); [right; right; apply in_or_app; right; left; reflexivity|assumption]). tauto.
  - assert (N : carried mm /\ mm <> []) by (apply (T m); [right; right; apply in_or_app; right; right; right; right; left; reflexivity|assumption]).
    assert (N' : carried nm /\ nm <> []) by (apply (T n); [right; right; apply in_or_app; right; left; reflexivity|assumption]). tauto.
  - split; [|exact I]. assert (Q : Forall token_carried os).
    { rewrite Forall_forall in *. intros z Z. apply F. right. right. apply in_or_app. right. right. right. exact Z. }
    destruct (caltered_fine os l Q) as (A1 & A2 & A3 & _); [assumption|]. auto.
  - assert (N : carried nm /\ nm <> []) by (apply (T n); [right; right; apply in_or_app; right; left; reflexivity|assumption]).
    assert (Q : Forall token_carried os).
    { rewrite Forall_forall in *. intros z Z. apply F. right. right. apply in_or_app. right. right. exact Z. }
    destruct (created_fine e nm os l) as (A & B); auto. apply N.
  - assert (N : carried mm /\ mm <> []) by (apply (T m); [right; right; apply in_or_app; right; right; right; left; reflexivity|assumption]). tauto.
  - assert (N : carried mm /\ mm <> []) by (apply (T m); [right; right; apply in_or_app; right; right; right; right; left; reflexivity|assumption]). tauto.
  - split; [|exact I]. assert (Q : Forall token_carried os).
    { rewrite Forall_forall in *. intros z Z. apply F. right. right. apply in_or_app. right. right. right. exact Z. }
    destruct (altered_fine os l Q) as (A1 & A2 & A3 & A4 & A5); [assumption|]. auto.
  - split; [constructor|exact I].
  - split; [|exact I]. apply (tiers_fine ts); [assumption|].
    rewrite Forall_forall in *. intros z Z. apply F. right. right. right. exact Z.
Qed.
