(* Every sentence is taken. *)
From Coq Require Import NArith ZArith Arith String List Bool Lia.
Import ListNotations.
From Verif Require Import Model.Base Model.Data Model.Json Model.Lex Model.Uuid Model.Source Model.Catalog Model.Show Model.Parse
  Spec.Units Spec.Command Proof.ParseT Proof.ParseR Proof.ParseG Proof.ParseH.
Local Open Scope res_scope.
Local Open Scope N_scope.

Lemma expect_hit t r id : kw id t -> expect TL gif (t :: r) id = Ok r.
Proof. intro H. unfold expect. rewrite is_hit by exact H. reflexivity. Qed.
Lemma int_hit t r n : int t n -> expect_int TL gif (t :: r) = Ok (n, r).
Proof. intros [K V]. unfold expect_int, gif. rewrite K, N.eqb_refl. cbn [bind]. unfold tok_int. rewrite V. reflexivity. Qed.
Lemma str_hit t r id s : kw id t -> string_of t s -> expect_str TL gif (t :: r) id = Ok (s, r).
Proof. intros K [e V]. unfold expect_str, gif. rewrite K, N.eqb_refl. cbn [bind]. unfold tok_str. rewrite V. reflexivity. Qed.
Lemma name_hit t r s : name t s -> expect_str TL gif (t :: r) KNAME = Ok (s, r).
Proof. intros [K V]. apply str_hit; assumption. Qed.
Lemma text_hit t r s : text t s -> expect_str TL gif (t :: r) KSTRING = Ok (s, r).
Proof. intros [K V]. apply str_hit; assumption. Qed.
Lemma z_hit t r n : int t n -> parse_int TL gif (t :: r) = Ok (signed n, r).
Proof. intro H. unfold parse_int. rewrite (int_hit t r n H). reflexivity. Qed.
Lemma kw_int t n : int t n -> kw KINT t. Proof. intros [K _]. exact K. Qed.
Lemma kw_name t n : name t n -> kw KNAME t. Proof. intros [K _]. exact K. Qed.
Lemma kw_text t n : text t n -> kw KSTRING t. Proof. intros [K _]. exact K. Qed.
Lemma flag_hit t r b : flag t b -> parse_bool TL gif (t :: r) = Ok (b, r).
Proof.
  unfold flag, parse_bool. destruct b; intro K.
  - rewrite is_hit by exact K. reflexivity.
  - rewrite is_miss; [|discriminate|cbn [starts]; rewrite K; discriminate]. cbn [bind]. rewrite is_hit by exact K. reflexivity.
Qed.
Ltac miss := cbn [starts app]; intro; unfold kw, name, text, int in *;
  repeat match goal with H : _ /\ _ |- _ => destruct H end; unfold kw in *;
  match goal with H : t_id ?t = _, X : t_id ?t = _ |- _ => rewrite H in X; discriminate X | X : False |- _ => exact X end.
Ltac go :=
  repeat (first
    [ rewrite is_hit by (assumption || (eapply kw_name; eassumption))
    | rewrite expect_hit by assumption
    | erewrite int_hit by eassumption
    | erewrite name_hit by eassumption
    | erewrite text_hit by eassumption
    | erewrite z_hit by eassumption
    | rewrite is_miss; [|discriminate|first [assumption|miss]] ]; cbn [bind app]).

Lemma ine_K us x r : if_not_exists us x -> ~ starts KIF r -> parse_if_not_exists TL gif (us ++ r) = Ok (x, r).
Proof. intros [|a b c A B C] N; unfold parse_if_not_exists; cbn [app]; go; reflexivity. Qed.
Lemma ie_K us x r : if_exists us x -> ~ starts KIF r -> parse_if_exists TL gif (us ++ r) = Ok (x, r).
Proof. intros [|a b A B] N; unfold parse_if_exists; cbn [app]; go; reflexivity. Qed.
Lemma ic_K us x r : if_cloud us x -> ~ starts KIF r -> parse_if_cloud TL gif (us ++ r) = Ok (x, r).
Proof. intros [|a b A B] N; unfold parse_if_cloud; cbn [app]; go; reflexivity. Qed.
Lemma on_K us x r : copies us x -> ~ starts KON r -> parse_on TL gif (us ++ r) = Ok (x, r).
Proof. intros [|a b A B|a b A B] N; unfold parse_on; cbn [app]; go; cbn [negb bind]; go; reflexivity. Qed.
Lemma between_K us n m r : between us n m -> parse_between TL gif (us ++ r) = Ok (n, m, r).
Proof. intros [a b c d n' m' A B C D]. unfold parse_between. cbn [app]. go. reflexivity. Qed.

(* ---- options ---- *)
Lemma same_bytes_refl : forall a, same_bytes a a = true.
Proof. induction a as [|x a IH]; [reflexivity|]. cbn [same_bytes]. rewrite N.eqb_refl, IH. reflexivity. Qed.
Ltac pick_name := repeat match goal with |- context [same_bytes (chars ?a) (chars ?b)] =>
  let v := eval vm_compute in (same_bytes (chars a) (chars b)) in change (same_bytes (chars a) (chars b)) with v; cbv iota end.
Lemma storage_option_K t o s r : setting_value t o -> storage_option TL gif (chars (setting_name o)) (t :: r) s = Ok (set_one s o, bit_of o, r).
Proof.
  intro V. unfold storage_option. destruct V; cbn [setting_name]; pick_name; unfold parse_uuid, parse_string.
  - go. rewrite H0. reflexivity.
  - go. reflexivity.
  - go. reflexivity.
  - erewrite flag_hit by eassumption. reflexivity.
  - erewrite flag_hit by eassumption. reflexivity.
  - erewrite flag_hit by eassumption. reflexivity.
  - go. reflexivity.
  - go. rewrite (proj2 (Z.eqb_neq _ _) H0). reflexivity.
  - go. destruct H0 as [<-|[<-|[<-|[<-|[]]]]]; reflexivity.
  - go. reflexivity.
  - go. destruct H0 as [<-|[<-|[<-|[]]]]; reflexivity.
  - go. destruct H0 as [->|E]; [reflexivity|]. rewrite (proj2 (Nat.eqb_eq _ _) E). rewrite andb_false_r. reflexivity.
Qed.
Lemma cloud_option_K t o m s r : csetting_name o m -> csetting_value t o -> cloud_option TL gif (chars m) (t :: r) s = Ok (cset_one s o, cbit_of o, r).
Proof.
  intros Nm V. unfold cloud_option. cbv zeta. destruct V; cbn [csetting_name] in Nm; try destruct Nm as [Nm|Nm]; subst m; pick_name; unfold parse_string;
    try (erewrite flag_hit by eassumption); go; reflexivity.
Qed.
Lemma tier_option_K t o n s r : int t n -> tsetting_int o = signed n -> tier_option TL gif (chars (tsetting_name o)) (t :: r) s = Ok (tset_one s o, r).
Proof.
  intros V E. unfold tier_option. destruct o; cbn [tsetting_name tsetting_int] in *; pick_name; go; subst; reflexivity.
Qed.
Lemma listed_len {A} (item : TL -> A -> Prop) (H : forall us a, item us a -> (1 <= List.length us)%nat) us l : listed item us l -> (1 <= List.length us)%nat.
Proof. intros [ts a I|ts a c rs m I _ _]; [eauto|]. rewrite app_length. apply H in I. lia. Qed.

Lemma storage_loop_K us l : listed storage_item us l -> forall f s m b r, (List.length us < f)%nat -> kw RPAREN b ->
  storage_options_loop TL gnext gif f (us ++ b :: r) s m = Ok (set_all s l, bits m l, r).
Proof.
  induction 1 as [ts o I|ts o c rs l I C _ IH]; intros [|f] s m b r L Hb; try (cbn [List.length] in L; lia).
  - destruct I as [a x o K [e' V] Sv]. cbn [app storage_options_loop gnext bind].
    assert (Q : (t_id a =? KCLOUD) || (t_id a =? KNAME) = true) by (destruct K as [K|K]; rewrite K; reflexivity).
    rewrite Q. unfold tok_str. rewrite V. cbn [bind]. rewrite storage_option_K by exact Sv. cbn [bind]. go. reflexivity.
  - destruct I as [a x o K [e' V] Sv]. cbn [app storage_options_loop gnext bind].
    assert (Q : (t_id a =? KCLOUD) || (t_id a =? KNAME) = true) by (destruct K as [K|K]; rewrite K; reflexivity).
    rewrite Q. unfold tok_str. rewrite V. cbn [bind]. rewrite storage_option_K by exact Sv. cbn [bind]. go.
    rewrite IH; [reflexivity| |exact Hb]. cbn [app List.length] in L. lia.
Qed.
Lemma cloud_loop_K us l : listed cloud_item us l -> forall f s m b r, (List.length us < f)%nat -> kw RPAREN b ->
  cloud_options_loop TL gnext gif f (us ++ b :: r) s m = Ok (cset_all s l, cbits m l, r).
Proof.
  induction 1 as [ts o I|ts o c rs l I C _ IH]; intros [|f] s m b r L Hb; try (cbn [List.length] in L; lia).
  - destruct I as [a x n o K Nm [e' V] Sv]. cbn [app cloud_options_loop gnext bind].
    assert (Q : (t_id a =? KCLOUD) || (t_id a =? KDEBUG) || (t_id a =? KNAME) = true) by (destruct K as [K|[K|K]]; rewrite K; reflexivity).
    rewrite Q. unfold tok_str. rewrite V. cbn [bind]. rewrite (cloud_option_K x o n) by assumption. cbn [bind]. go. reflexivity.
  - destruct I as [a x n o K Nm [e' V] Sv]. cbn [app cloud_options_loop gnext bind].
    assert (Q : (t_id a =? KCLOUD) || (t_id a =? KDEBUG) || (t_id a =? KNAME) = true) by (destruct K as [K|[K|K]]; rewrite K; reflexivity).
    rewrite Q. unfold tok_str. rewrite V. cbn [bind]. rewrite (cloud_option_K x o n) by assumption. cbn [bind]. go.
    rewrite IH; [reflexivity| |exact Hb]. cbn [app List.length] in L. lia.
Qed.
Lemma tier_loop_K us l : listed tier_item us l -> forall f s b r, (List.length us < f)%nat -> kw RPAREN b ->
  tier_options_loop TL gnext gif f (us ++ b :: r) s = Ok (tset_all s l, r).
Proof.
  induction 1 as [ts o I|ts o c rs l I C _ IH]; intros [|f] s b r L Hb; try (cbn [List.length] in L; lia).
  - destruct I as [a x n o K [e' V] Nm Sv]. cbn [app tier_options_loop gnext bind].
    assert (Q : (t_id a =? KPARTITIONS) || (t_id a =? KNAME) = true) by (destruct K as [K|K]; rewrite K; reflexivity).
    rewrite Q. unfold tok_str. rewrite V. cbn [bind]. rewrite (tier_option_K x o n) by assumption. cbn [bind]. go. reflexivity.
  - destruct I as [a x n o K [e' V] Nm Sv]. cbn [app tier_options_loop gnext bind].
    assert (Q : (t_id a =? KPARTITIONS) || (t_id a =? KNAME) = true) by (destruct K as [K|K]; rewrite K; reflexivity).
    rewrite Q. unfold tok_str. rewrite V. cbn [bind]. rewrite (tier_option_K x o n) by assumption. cbn [bind]. go.
    rewrite IH; [reflexivity| |exact Hb]. cbn [app List.length] in L. lia.
Qed.
(* the first token of a list of options is not the closing parenthesis *)
Lemma listed_head {A} (item : TL -> A -> Prop) id us l : (forall vs a r, item vs a -> ~ starts id (vs ++ r)) -> listed item us l -> forall r, ~ starts id (us ++ r).
Proof. intros H [ts a I|ts a c rs m I _ _] r; [apply (H _ _ _ I)|]. rewrite <- app_assoc. apply (H _ _ _ I). Qed.
Lemma storage_head us o r : storage_item us o -> ~ starts RPAREN (us ++ r).
Proof. intros [a b o' K _ _]. cbn [app starts]. destruct K as [K|K]; rewrite K; discriminate. Qed.
Lemma cloud_head us o r : cloud_item us o -> ~ starts RPAREN (us ++ r).
Proof. intros [a b n o' K _ _ _]. cbn [app starts]. destruct K as [K|[K|K]]; rewrite K; discriminate. Qed.
Lemma tier_head us o r : tier_item us o -> ~ starts RPAREN (us ++ r).
Proof. intros [a b n o' K _ _ _]. cbn [app starts]. destruct K as [K|K]; rewrite K; discriminate. Qed.
Lemma storage_options_K f us l s : options storage_item us l -> (List.length us <= f)%nat ->
  parse_storage_options TL gnext gif f us s = Ok (set_all s l, bits 0 l, []).
Proof.
  intros [|a b A B|a ts b m A H B] L; unfold parse_storage_options.
  - go. reflexivity.
  - go. cbn [negb]. go. reflexivity.
  - go. cbn [negb]. rewrite is_miss; [|discriminate|apply (listed_head _ _ _ _ storage_head H)]. cbn [bind].
    cbn [List.length] in L. apply storage_loop_K; [exact H| |exact B]. rewrite app_length in L. cbn [List.length] in L. lia.
Qed.
Lemma cloud_options_K f us l s : options cloud_item us l -> (List.length us <= f)%nat ->
  parse_cloud_options TL gnext gif f us s = Ok (cset_all s l, cbits 0 l, []).
Proof.
  intros [|a b A B|a ts b m A H B] L; unfold parse_cloud_options.
  - go. reflexivity.
  - go. cbn [negb]. go. reflexivity.
  - go. cbn [negb]. rewrite is_miss; [|discriminate|apply (listed_head _ _ _ _ cloud_head H)]. cbn [bind].
    cbn [List.length] in L. apply cloud_loop_K; [exact H| |exact B]. rewrite app_length in L. cbn [List.length] in L. lia.
Qed.

Lemma pipeline_set_K ts l : tiers ts l -> forall f, (List.length ts < f)%nat -> parse_pipeline_set TL gnext gif f ts = Ok (l, []).
Proof.
  assert (T : forall nm, tierc_set_name tierc_new nm = tier_of nm []) by reflexivity.
  induction 1 as [n nm H|n nm c r l H C _ IH|n nm a b r l H A B _ IH|n nm a os b l H A Hl B|n nm a os b l c r ts H A Hl B C _ IH];
    intros [|f] L; try lia; cbn [parse_pipeline_set]; cbv zeta; cbn [List.length] in L; erewrite name_hit by eassumption; cbn [bind].
  - go. rewrite T. reflexivity.
  - go. rewrite IH by lia. rewrite T. reflexivity.
  - rewrite is_miss; [|discriminate|miss]. cbn [bind]. change (is TL gif (a :: b :: r) KEOF) with (is TL gif (a :: b :: r) KEOF).
    assert (Z : is TL gif (a :: b :: r) KEOF = Ok (false, a :: b :: r)) by (unfold is, gif; rewrite A; reflexivity).
    rewrite Z. cbn [bind]. go. rewrite IH by lia. rewrite T. reflexivity.
  - rewrite is_miss; [|discriminate|miss]. cbn [bind].
    assert (Z : is TL gif (a :: os ++ [b]) KEOF = Ok (false, a :: os ++ [b])) by (unfold is, gif; rewrite A; reflexivity).
    rewrite Z. cbn [bind]. go. rewrite is_miss; [|discriminate|apply (listed_head _ _ _ _ tier_head Hl)]. cbn [bind].
    rewrite app_length in L. cbn [List.length] in L. rewrite (tier_loop_K os l Hl) by (exact B || lia). cbn [bind]. go.
    cbn. rewrite tier_gather. reflexivity.
  - rewrite is_miss; [|discriminate|miss]. cbn [bind].
    assert (Z : is TL gif (a :: os ++ b :: c :: r) KEOF = Ok (false, a :: os ++ b :: c :: r)) by (unfold is, gif; rewrite A; reflexivity).
    rewrite Z. cbn [bind]. go. rewrite is_miss; [|discriminate|apply (listed_head _ _ _ _ tier_head Hl)]. cbn [bind].
    rewrite app_length in L. cbn [List.length] in L. rewrite (tier_loop_K os l Hl) by (exact B || lia). cbn [bind]. go.
    rewrite IH by lia. rewrite tier_gather. reflexivity.
Qed.

(* ---- SHOW ---- *)
Ltac ids := repeat match goal with |- context [?a =? ?b] => let v := eval vm_compute in (a =? b) in
  match v with true => idtac | false => idtac end; change (a =? b) with v end; cbn [orb].
Lemma what_K us g : shows_what us g -> exists t us', us = t :: us' /\ forall r, ~ starts KNAME r -> parse_show_what TL gif gname (us' ++ r) t = Ok (g, r).
Proof.
  intros H. destruct H; eexists _, _; (split; [reflexivity|]); intros r N; unfold parse_show_what; cbn [app].
  - unfold kw in H; rewrite H. ids. reflexivity.
  - unfold kw in H; rewrite H. ids. reflexivity.
  - unfold kw in H; rewrite H. ids. go. reflexivity.
  - unfold kw in H; rewrite H. ids. reflexivity.
  - unfold kw in H; rewrite H. ids. go. reflexivity.
  - unfold kw in H; rewrite H. ids. reflexivity.
  - unfold kw in H; rewrite H. ids. go. reflexivity.
  - unfold kw in H; rewrite H. ids. unfold gif. destruct r as [|t0 r]; [reflexivity|]. cbn [starts] in N. rewrite (proj2 (N.eqb_neq _ _) N). reflexivity.
  - unfold kw in H; rewrite H. ids. destruct H0 as [K [e V]]. unfold gif. rewrite K. ids. cbn [bind]. unfold tok_str. rewrite V. reflexivity.
  - unfold kw in H; rewrite H. ids. reflexivity.
  - assert (D : forall A (x y : A), (if (t_id t =? KCONFIG) || (t_id t =? KALL) then x else y) = x) by (intros; unfold kw in H; destruct H as [K|K]; rewrite K; ids; reflexivity).
    assert (D' : forall id, In id [KMEMORY; KWAL; KCLOUD; KCLOUDS; KSTORAGE; KSTORAGES; KPARTITION; KPARTITIONS; KPIPELINE] -> (t_id t =? id) = false).
    { intros id I. destruct H as [K|K]; rewrite K; repeat (destruct I as [<-|I]; [reflexivity|]); destruct I. }
    rewrite !D' by (cbn [In]; tauto). rewrite D. destruct H0 as [W|[K [e V]]].
    + rewrite (gname_word _ _ _ W). reflexivity.
    + unfold gname. unfold kw in K; rewrite V, K. ids. cbn [bind]. unfold gif. rewrite K. ids. cbn [bind]. unfold tok_str. rewrite V. reflexivity.
  - assert (D : forall A (x y : A), (if (t_id t =? KNAME) || (t_id t =? KSTRING) then x else y) = x) by (intros; unfold name, text, kw in H; destruct H as [[K _]|[K _]]; rewrite K; ids; reflexivity).
    assert (D' : forall id, In id [KMEMORY; KWAL; KCLOUD; KCLOUDS; KSTORAGE; KSTORAGES; KPARTITION; KPARTITIONS; KPIPELINE; KCONFIG; KALL] -> (t_id t =? id) = false).
    { intros id I. destruct H as [[K _]|[K _]]; rewrite K; repeat (destruct I as [<-|I]; [reflexivity|]); destruct I. }
    rewrite !D' by (cbn [In]; tauto). cbn [orb]. rewrite D. destruct H as [[_ [e V]]|[_ [e V]]]; unfold tok_str; rewrite V; reflexivity.
Qed.
Definition follows (o : sop) (r : TL) : Prop :=
  match r with [] => True | c :: _ => kw COMMA c /\ (o = Op ShowConfig -> forall s, ~ word c s) end.
Lemma item_K us o f r : shows_item us o -> follows o r -> parse_show TL gnext gif gname (S f) (us ++ r) =
  do (b, l) <- is TL gif r COMMA ; if b then do (ops, l) <- parse_show TL gnext gif gname f l ; Ok (o :: ops, l) else Ok ([o], l).
Proof.
  intros H F.
  assert (Nn : forall id, id <> COMMA -> ~ starts id r).
  { intros id Hid X. destruct r as [|c r]; [exact X|]. destruct F as [K _]. cbn [starts] in X. unfold kw in K. congruence. }
  destruct H as [ts g H|ts g t H K|t K].
  - destruct (what_K ts g H) as (w & ws & -> & Hw). cbn [app parse_show gnext bind]. rewrite Hw by (apply Nn; discriminate).
    cbn [bind]. rewrite is_miss; [|discriminate|apply Nn; discriminate]. reflexivity.
  - destruct (what_K ts g H) as (w & ws & -> & Hw). rewrite <- app_assoc. cbn [app parse_show gnext bind].
    rewrite Hw by (cbn [starts]; rewrite K; discriminate). cbn [bind]. rewrite is_hit by exact K. reflexivity.
  - cbn [app parse_show gnext bind]. unfold parse_show_what.
    assert (D : forall A (x y : A), (if (t_id t =? KCONFIG) || (t_id t =? KALL) then x else y) = x) by (intros; unfold kw in K; destruct K as [K|K]; rewrite K; ids; reflexivity).
    assert (D' : forall id, In id [KMEMORY; KWAL; KCLOUD; KCLOUDS; KSTORAGE; KSTORAGES; KPARTITION; KPARTITIONS; KPIPELINE] -> (t_id t =? id) = false).
    { intros id I. destruct K as [K|K]; rewrite K; repeat (destruct I as [<-|I]; [reflexivity|]); destruct I. }
    rewrite !D' by (cbn [In]; tauto). rewrite D.
    assert (Gn : gname r = Ok (None, r)).
    { destruct r as [|c r]; [reflexivity|]. destruct F as [Kc Nw]. unfold gname. destruct (t_val c) as [|n|x|s x] eqn:V; try reflexivity.
      elim (Nw eq_refl s). split; [rewrite Kc; discriminate|eexists; exact V]. }
    assert (Gi : gif r KSTRING = Ok (None, r)).
    { destruct r as [|c r]; [reflexivity|]. destruct F as [Kc _]. unfold gif. rewrite Kc. reflexivity. }
    rewrite Gn. cbn [bind]. rewrite Gi. cbn [bind]. rewrite is_miss; [|discriminate|apply Nn; discriminate]. reflexivity.
Qed.
Lemma show_K ts l : shows ts l -> forall f, (List.length ts < f)%nat -> parse_show TL gnext gif gname f ts = Ok (l, []).
Proof.
  induction 1 as [ts o H|ts o c r l H C N _ IH]; intros [|f] L; try lia.
  - pose proof (item_K ts o f [] H I) as E. rewrite app_nil_r in E. rewrite E. rewrite is_miss; [reflexivity|discriminate|intros []].
  - rewrite (item_K ts o f (c :: r) H) by (split; assumption). rewrite is_hit by exact C. cbn [bind].
    rewrite app_length in L. cbn [List.length] in L. rewrite IH by lia. reflexivity.
Qed.

(* ---- the whole command ---- *)
Ltac first_word K := unfold parse_all, parse_first; cbv zeta; cbn [gnext bind]; unfold kw in K; rewrite K; ids.
Lemma end_K (c : option cmd) : (do (c, l) <- Ok (c, []) ; do _ <- expect TL gif l KEOF ; Ok c) = Ok c.
Proof. reflexivity. Qed.
Ltac fin := cbn [bind]; reflexivity.
Lemma all_complete e ts c f : sentence e ts c -> (List.length ts <= f)%nat -> parse_all TL gnext gif gname e f ts = Ok c.
Proof.
  intros H L.
  destruct H; cbn [List.length] in L; try (first_word H; cbn [parse_one_of]; go); try reflexivity.
  - unfold parse_set. rewrite (gname_word _ _ _ H0). cbn [bind tok_str t_val]. go. reflexivity.
  - unfold parse_set. rewrite (gname_word _ _ _ H0). cbn [bind tok_str t_val]. go. reflexivity.
  - rewrite (show_K ts l H0) by lia. reflexivity.
  - unfold parse_debug. go. repeat (destruct H1 as [H1|H1]; [injection H1 as <- <-; reflexivity|]). destruct H1.
  - unfold parse_cloud_create. rewrite app_length in L. cbn [List.length] in L. rewrite (ine_K ie x) by (assumption || miss). cbn [bind]. go.
    rewrite (cloud_options_K f os l) by (assumption || lia). rewrite ccreated_gather. reflexivity.
  - unfold parse_cloud_drop. rewrite (ie_K ie x) by (assumption || miss). cbn [bind]. go. reflexivity.
  - unfold parse_cloud_alter. rewrite (ie_K ie x) by (assumption || miss). cbn [bind]. go. reflexivity.
  - unfold parse_cloud_alter. rewrite (ie_K ie x) by (assumption || miss). cbn [bind]. go. reflexivity.
  - unfold parse_cloud_alter. rewrite app_length in L. cbn [List.length] in L. rewrite (ie_K ie x) by (assumption || miss). cbn [bind]. go.
    rewrite (cloud_options_K f os l) by (assumption || lia). cbn [bind]. rewrite (proj2 (type_gather l)) by assumption. rewrite caltered_gather. reflexivity.
  - unfold parse_storage_create. rewrite app_length in L. cbn [List.length] in L. rewrite (ine_K ie x) by (assumption || miss). cbn [bind]. go.
    rewrite (storage_options_K f os l) by (assumption || lia). cbn [bind].
    rewrite created_gather by (apply (options_all _ _ storage_item_ok os l); assumption). reflexivity.
  - unfold parse_storage_drop. rewrite (ie_K ie x) by (assumption || miss). cbn [bind]. go. reflexivity.
  - unfold parse_storage_alter. rewrite (ie_K ie x) by (assumption || miss). cbn [bind]. go. reflexivity.
  - unfold parse_storage_alter. rewrite (ie_K ie x) by (assumption || miss). cbn [bind]. go. reflexivity.
  - unfold parse_storage_alter. rewrite app_length in L. cbn [List.length] in L. rewrite (ie_K ie x) by (assumption || miss). cbn [bind]. go.
    rewrite (storage_options_K f os l) by (assumption || lia). cbn [bind]. rewrite (proj2 (uuid_gather l)) by assumption. rewrite altered_gather. reflexivity.
  - unfold parse_pipeline_alter. go. reflexivity.
  - unfold parse_pipeline_alter. go. rewrite (pipeline_set_K ts l) by (assumption || lia). reflexivity.
  - unfold parse_partition_create. go. reflexivity.
  - unfold parse_partition_create. go. destruct H2 as [K V]. unfold gif at 1. rewrite K. ids. cbn [bind]. unfold tok_int. rewrite V. reflexivity.
  - unfold parse_partition_drop. rewrite (ie_K ie x) by (assumption || miss). cbn [bind]. go.
    rewrite <- (app_nil_r on), (on_K on mask) by (assumption || miss). reflexivity.
  - unfold parse_partition_drop_range. rewrite (between_K bt n m) by assumption. cbn [bind].
    rewrite <- (app_nil_r on), (on_K on mask) by (assumption || miss). reflexivity.
  - unfold parse_partition_move. rewrite (ie_K ie x) by (assumption || miss). cbn [bind]. go. reflexivity.
  - unfold parse_partition_move_range. rewrite (between_K bt n m) by assumption. cbn [bind]. go. reflexivity.
  - unfold parse_partition_refresh. rewrite (ie_K ie x) by (assumption || miss). cbn [bind]. go. reflexivity.
  - unfold parse_partition_refresh_range. rewrite <- (app_nil_r bt), (between_K bt n m) by assumption. reflexivity.
  - unfold parse_partition_download. rewrite (ie_K ie x) by (assumption || miss). cbn [bind]. go.
    rewrite <- (app_nil_r ic), (ic_K ic y) by (assumption || miss). reflexivity.
  - unfold parse_partition_download_range. rewrite (between_K bt n m) by assumption. cbn [bind].
    rewrite <- (app_nil_r ic), (ic_K ic y) by (assumption || miss). reflexivity.
  - unfold parse_partition_upload. rewrite (ie_K ie x) by (assumption || miss). cbn [bind]. go.
    rewrite <- (app_nil_r ic), (ic_K ic y) by (assumption || miss). reflexivity.
  - unfold parse_partition_upload_range. rewrite (between_K bt n m) by assumption. cbn [bind].
    rewrite <- (app_nil_r ic), (ic_K ic y) by (assumption || miss). reflexivity.
Qed.
