(* A command is accepted only if the whole text is made of tokens. *)
From Coq Require Import NArith ZArith Arith List Bool Lia String.
Import ListNotations.
From Verif Require Import Model.Base Model.Json Model.Lex Model.Uuid Model.Source Model.Catalog Model.Show Model.Parse
  Spec.Units Spec.Command Proof.ParseT Proof.ParseR.
Local Open Scope res_scope.
Local Open Scope N_scope.

(* ---- what the operations keep, the parser keeps ---- *)
Section U.
Variable L : Type.
Variable next : L -> res (token * L).
Variable accept : L -> N -> res (option token * L).
Variable accept_name : L -> res (option token * L).
Variable J : L -> Prop.
Definition U {A} (x : res (A * L)) : Prop := match x with Ok (_, l) => J l | _ => True end.
Hypothesis next_U : forall l, J l -> U (next l).
Hypothesis accept_U : forall l id, J l -> U (accept l id).
Hypothesis name_U : forall l, J l -> U (accept_name l).

Lemma U_bind {A B} (x : res (A * L)) (f : A * L -> res (B * L)) : U x -> (forall a l, J l -> U (f (a, l))) -> U (bind x f).
Proof. destruct x as [[a l]| |]; cbn [bind]; intros H K; [apply K, H|exact I|exact I]. Qed.
Lemma U_same {A B} (x : res A) (f : A -> res (B * L)) : (forall a, U (f a)) -> U (bind x f).
Proof. destruct x; cbn [bind]; auto; intros; exact I. Qed.
Lemma is_U l id : J l -> U (is L accept l id).
Proof. intro H. unfold is. apply U_bind; [apply accept_U, H|]. intros a l' H'. exact H'. Qed.
Lemma U_expect {B} l id (f : L -> res (B * L)) : J l -> (forall l, J l -> U (f l)) -> U (bind (expect L accept l id) f).
Proof.
  intros H K. unfold expect. pose proof (is_U l id H) as X. destruct (is L accept l id) as [[[] l']| |]; cbn [bind]; try exact I. apply K, X.
Qed.
Ltac step :=
  match goal with
  | |- U (Ok (_, _)) => assumption
  | |- U Err => exact I
  | |- U UB => exact I
  | |- U (bind (expect _ _ _ _) _) => apply U_expect; [assumption|intros ? ?; cbv beta]
  | |- U (bind (tok_str _) _) => apply U_same; intro; cbv beta
  | |- U (bind (tok_int _) _) => apply U_same; intro; cbv beta
  | |- U (bind (accept _ _) _) => apply U_bind; [apply accept_U; assumption|intros ? ? ?; cbv beta iota]
  | |- U (bind (accept_name _) _) => apply U_bind; [apply name_U; assumption|intros ? ? ?; cbv beta iota]
  | |- U (bind (next _) _) => apply U_bind; [apply next_U; assumption|intros ? ? ?; cbv beta iota]
  | |- U (bind (is _ _ _ _) _) => apply U_bind; [apply is_U; assumption|intros ? ? ?; cbv beta iota]
  | |- U (bind (if ?c then tok_str _ else Err) _) => apply U_same; intro; cbv beta
  | |- U (if ?c then _ else _) => destruct c
  | |- U (match ?o with Some _ => _ | None => _ end) => destruct o
  | |- U (let '(_, _) := ?p in _) => destruct p; cbv beta iota
  end.
Ltac use lem := apply U_bind; [apply lem; assumption|intros ? ? ?; cbv beta iota].
Lemma expect_int_U l : J l -> U (expect_int L accept l).
Proof. intro. unfold expect_int. repeat step. Qed.
Lemma expect_str_U l id : J l -> U (expect_str L accept l id).
Proof. intro. unfold expect_str. repeat step. Qed.
Lemma ine_U l : J l -> U (parse_if_not_exists L accept l).
Proof. intro. unfold parse_if_not_exists. repeat step. Qed.
Lemma ie_U l : J l -> U (parse_if_exists L accept l).
Proof. intro. unfold parse_if_exists. repeat step. Qed.
Lemma ic_U l : J l -> U (parse_if_cloud L accept l).
Proof. intro. unfold parse_if_cloud. repeat step. Qed.
Lemma int_U l : J l -> U (parse_int L accept l).
Proof. intro. unfold parse_int. use expect_int_U. step. Qed.
Lemma bool_U l : J l -> U (parse_bool L accept l).
Proof. intro. unfold parse_bool. repeat step. Qed.
Lemma uuid_U l : J l -> U (parse_uuid L accept l).
Proof. intro. unfold parse_uuid. use expect_str_U. repeat step. Qed.
Ltac step2 :=
  first [ step
        | match goal with
          | |- U (bind (expect_int _ _ _) _) => use expect_int_U
          | |- U (bind (expect_str _ _ _ _) _) => use expect_str_U
          | |- U (bind (parse_string _ _ _) _) => use expect_str_U
          | |- U (bind (parse_if_not_exists _ _ _) _) => use ine_U
          | |- U (bind (parse_if_exists _ _ _) _) => use ie_U
          | |- U (bind (parse_if_cloud _ _ _) _) => use ic_U
          | |- U (bind (parse_int _ _ _) _) => use int_U
          | |- U (bind (parse_bool _ _ _) _) => use bool_U
          | |- U (bind (parse_uuid _ _ _) _) => use uuid_U
          end ].
Lemma cloud_option_U n k l : J l -> U (cloud_option L accept n l k).
Proof. intro. unfold cloud_option. repeat step2. Qed.
Lemma cloud_loop_U : forall f l k m, J l -> U (cloud_options_loop L next accept f l k m).
Proof. induction f as [|f IH]; intros l k m H; cbn [cloud_options_loop]; [exact I|]. step. step. use cloud_option_U. step. step. step; [apply IH; assumption|]. step. step. Qed.
Lemma cloud_options_U f l k : J l -> U (parse_cloud_options L next accept f l k).
Proof. intro. unfold parse_cloud_options. repeat step2. apply cloud_loop_U. assumption. Qed.
Lemma storage_option_U n k l : J l -> U (storage_option L accept n l k).
Proof. intro. unfold storage_option. repeat step2. Qed.
Lemma storage_loop_U : forall f l k m, J l -> U (storage_options_loop L next accept f l k m).
Proof. induction f as [|f IH]; intros l k m H; cbn [storage_options_loop]; [exact I|]. step. step. use storage_option_U. step. step. step; [apply IH; assumption|]. step. step. Qed.
Lemma storage_options_U f l k : J l -> U (parse_storage_options L next accept f l k).
Proof. intro. unfold parse_storage_options. repeat step2. apply storage_loop_U. assumption. Qed.
Lemma tier_option_U n k l : J l -> U (tier_option L accept n l k).
Proof. intro. unfold tier_option. repeat step2. Qed.
Lemma tier_loop_U : forall f l k, J l -> U (tier_options_loop L next accept f l k).
Proof. induction f as [|f IH]; intros l k H; cbn [tier_options_loop]; [exact I|]. step. step. use tier_option_U. step. step; [apply IH; assumption|]. step. step. Qed.
Lemma pipeline_set_U : forall f l, J l -> U (parse_pipeline_set L next accept f l).
Proof.
  induction f as [|f IH]; intros l H; cbn [parse_pipeline_set]; [exact I|]. cbv zeta. step2. step2. step2. { use IH. step. }
  step2. step2; [step|]. step. step. step. { use IH. step. } use tier_loop_U. step. step. { use IH. step. } step. step.
Qed.
Lemma between_U l : J l -> U (parse_between L accept l).
Proof. intro. unfold parse_between. repeat step2. Qed.
Lemma on_U l : J l -> U (parse_on L accept l).
Proof. intro. unfold parse_on. repeat step2. Qed.
Ltac step3 :=
  first [ step2
        | match goal with
          | |- U (bind (parse_cloud_options _ _ _ _ _ _) _) => use cloud_options_U
          | |- U (bind (parse_storage_options _ _ _ _ _ _) _) => use storage_options_U
          | |- U (bind (parse_pipeline_set _ _ _ _ _) _) => use pipeline_set_U
          | |- U (bind (parse_between _ _ _) _) => use between_U
          | |- U (bind (parse_on _ _ _) _) => use on_U
          end ].
Lemma what_U tk l : J l -> U (parse_show_what L accept accept_name l tk).
Proof. intro. unfold parse_show_what. repeat step2. Qed.
Lemma show_U : forall f l, J l -> U (parse_show L next accept accept_name f l).
Proof.
  induction f as [|f IH]; intros l H; cbn [parse_show]; [exact I|]. step. use what_U. step. step. step; [use IH; step|step].
Qed.
Lemma one_of_U : forall c, Forall (fun x => forall l, J l -> U (snd x l)) c -> forall l, J l -> U (parse_one_of L accept l c).
Proof.
  induction 1 as [|[i p] c H _ IH]; intros l S; cbn [parse_one_of]; [exact I|]. cbn [snd] in H. step. destruct a; [apply H|apply IH]; assumption.
Qed.
Lemma first_U e f l : J l -> U (parse_first L next accept accept_name e f l).
Proof.
  intro H. unfold parse_first. cbv zeta. step.
  repeat match goal with |- U (if ?c then _ else _) => destruct c end; try step; apply U_bind; try (intros; assumption).
  - unfold parse_set. repeat step2.
  - use show_U. step.
  - unfold parse_debug. repeat step2.
  - apply one_of_U; [|assumption]. repeat (constructor; [cbn [snd]; intros; unfold parse_cloud_create, parse_storage_create, parse_partition_create; repeat step3|]). constructor.
  - apply one_of_U; [|assumption].
    repeat (constructor; [cbn [snd]; intros; unfold parse_cloud_drop, parse_storage_drop, parse_partition_drop, parse_partition_drop_range; repeat step3|]). constructor.
  - apply one_of_U; [|assumption].
    repeat (constructor; [cbn [snd]; intros; unfold parse_cloud_alter, parse_storage_alter, parse_pipeline_alter; repeat step3|]). constructor.
  - apply one_of_U; [|assumption]. repeat (constructor; [cbn [snd]; intros; unfold parse_partition_move, parse_partition_move_range; repeat step3|]). constructor.
  - apply one_of_U; [|assumption]. repeat (constructor; [cbn [snd]; intros; unfold parse_partition_refresh, parse_partition_refresh_range; repeat step3|]). constructor.
  - apply one_of_U; [|assumption]. repeat (constructor; [cbn [snd]; intros; unfold parse_partition_download, parse_partition_download_range; repeat step3|]). constructor.
  - apply one_of_U; [|assumption]. repeat (constructor; [cbn [snd]; intros; unfold parse_partition_upload, parse_partition_upload_range; repeat step3|]). constructor.
Qed.
End U.

Section V.
Variable strtod : list byte -> option (N * nat).
Notation rawl := (rawl strtod).
Definition made (s : list byte) : Prop := exists rs, rawl s rs.
Variable G : Prop.
Definition J (l : lex) : Prop := (made (lx_rest l) -> G) /\ (forall t, In t (lx_back l) -> t_id t = KEOF -> G).

Lemma raw_key s t r : raw1 strtod false s = Ok (Some (t, r)) -> exists t', raw1 strtod true s = Ok (Some (t', r)).
Proof.
  unfold raw1. destruct (skip_blank false s) as [|b l]; [discriminate|].
  destruct (negb (b =? 34) && negb (b =? 39) && negb (b =? 95) && ispunct b); [eauto|].
  destruct (isdigit b); [eauto|].
  destruct (isalpha b || (b =? 95)); [destruct (scan_name (b :: l)) as [w u]; intro X; injection X as <- <-; eauto|]. eauto.
Qed.
Lemma raw_end_on s : raw1 strtod false s = Ok None -> raw1 strtod true s = Ok None.
Proof.
  unfold raw1. destruct (skip_blank false s) as [|b l]; [auto|].
  destruct (negb (b =? 34) && negb (b =? 39) && negb (b =? 95) && ispunct b); [discriminate|].
  destruct (isdigit b); [auto|]. destruct (isalpha b || (b =? 95)); [destruct (scan_name (b :: l)); discriminate|]. auto.
Qed.
Lemma raw_made kw s t r : raw1 strtod kw s = Ok (Some (t, r)) -> made r -> made s.
Proof.
  intros H [rs Q]. destruct kw; [exists (t :: rs); econstructor; eassumption|].
  destruct (raw_key s t r H) as [t' H']. exists (t' :: rs). econstructor; eassumption.
Qed.
Lemma raw_not_eof kw s t r : raw1 strtod kw s = Ok (Some (t, r)) -> t_id t <> KEOF.
Proof.
  destruct kw.
  - intro H. apply fit_not_eof, (raw_fit strtod s t r H).
  - intro H. destruct (raw_key s t r H) as [t' H']. pose proof (raw_unkey strtod s t' r H') as X. rewrite X in H. injection H as <-.
    pose proof (raw_fit strtod s t' r H') as F. unfold unkey. destruct (t_val t'); try (apply fit_not_eof, F).
    destruct (t_id t' =? KSTRING); [apply fit_not_eof, F|discriminate].
Qed.
Lemma fresh_J : forall f s kw, (made s -> G) ->
  match lex_next_fuel strtod f (mk_lex s kw []) with Ok (tk, l') => J l' /\ (t_id tk = KEOF -> G) | _ => True end.
Proof.
  induction f as [|f IH]; intros s kw H; [exact I|]. rewrite lex_raw. destruct (raw1 strtod kw s) as [[[t r]|]| |] eqn:E; try exact I.
  - pose proof (raw_not_eof kw s t r E) as Ne. assert (Hr : made r -> G) by (intro X; apply H, (raw_made kw s t r E X)).
    destruct (t_id t =? KINT).
    + specialize (IH r kw Hr). destruct (lex_next_fuel strtod f (mk_lex r kw [])) as [[tk l]| |]; cbn [bind fst snd]; try exact I.
      destruct IH as [IH1 IH2]. destruct (factor (t_id tk)); [split; [exact IH1|discriminate]|].
      unfold lex_push. destruct (_ <? _)%nat; cbn [bind]; [|exact I]. split; [|congruence]. destruct IH1 as [A B].
      split; [exact A|]. cbn [lx_back]. intros x [<-|X]; [exact IH2|apply B, X].
    + split; [|congruence]. split; [exact Hr|intros x []].
  - assert (g : G) by (apply H; exists []; constructor; destruct kw; [exact E|apply raw_end_on, E]).
    split; [split; [intros _; exact g|intros x []]|intros _; exact g].
Qed.
Lemma next_J l : J l -> match lex_next strtod l with Ok (tk, l') => J l' /\ (t_id tk = KEOF -> G) | _ => True end.
Proof.
  destruct l as [s kw back]. intros [A B]. cbn [lx_rest lx_back] in *. unfold lex_next. cbn [lx_rest]. destruct back as [|t back]; [apply fresh_J, A|].
  cbn [lex_next_fuel lx_back lx_rest lx_kw]. split; [split; [exact A|intros x X; apply B; right; exact X]|]. apply B. left. reflexivity.
Qed.
Lemma if_J l id : J l -> match lex_if strtod l id with Ok (o, l') => J l' /\ (id = KEOF -> o <> None -> G) | _ => True end.
Proof.
  intro H. unfold lex_if. pose proof (next_J l H) as X. destruct (lex_next strtod l) as [[tk l']| |]; cbn [bind fst snd]; try exact I.
  destruct X as [X Y]. destruct (N.eqb_spec (t_id tk) id) as [E|E]; [split; [exact X|intros I0 _; apply Y; congruence]|].
  unfold lex_push. destruct (_ <? _)%nat; cbn [bind]; [|exact I]. split; [|congruence]. destruct X as [A B].
  split; [exact A|]. cbn [lx_back]. intros x [<-|Z]; [exact Y|apply B, Z].
Qed.
Lemma accepted e f l c : J l -> parse_all lex (lex_next strtod) (lex_if strtod) (lex_if_name strtod) e f l = Ok c -> G.
Proof.
  intros H. unfold parse_all.
  pose proof (first_U lex (lex_next strtod) (lex_if strtod) (lex_if_name strtod) J) as F.
  assert (X : U lex J (parse_first lex (lex_next strtod) (lex_if strtod) (lex_if_name strtod) e f l)).
  { apply F; [| | |exact H].
    - intros l0 H0. pose proof (next_J l0 H0) as X. unfold U. destruct (lex_next strtod l0) as [[]| |]; tauto.
    - intros l0 id H0. pose proof (if_J l0 id H0) as X. unfold U. destruct (lex_if strtod l0 id) as [[]| |]; tauto.
    - intros l0 H0. unfold lex_if_name. pose proof (if_J (lex_keywords l0 false) KNAME H0) as X.
      destruct (lex_if strtod (lex_keywords l0 false) KNAME) as [[o l']| |]; cbn [bind fst snd U]; try exact I. exact (proj1 X). }
  destruct (parse_first _ _ _ _ e f l) as [[c' l']| |]; cbn [bind]; try discriminate. cbn [U] in X.
  unfold expect, is. pose proof (if_J l' KEOF X) as Y. destruct (lex_if strtod l' KEOF) as [[[t|] l2]| |]; cbn [bind]; try discriminate.
  intros _. apply (proj2 Y); [reflexivity|discriminate].
Qed.
End V.
Lemma accepted_tokens strtod e text c : parse strtod e text = Ok c -> exists rs, rawl strtod text rs.
Proof. apply accepted. split; [intro X; exact X|intros t []]. Qed.
