(* Every function of the parser, over the lexer and over the list of tokens. *)
From Coq Require Import NArith ZArith Arith List Bool Lia String.
Import ListNotations.
From Verif Require Import Model.Base Model.Json Model.Lex Model.Uuid Model.Source Model.Catalog Model.Show Model.Parse
  Spec.Units Spec.Command Proof.ParseT Proof.ParseR.
Local Open Scope res_scope.
Local Open Scope N_scope.

Section S.
Variable strtod : list byte -> option (N * nat).
Variable b : bool.
Notation lexif := (lex_if strtod).
Notation lexnext := (lex_next strtod).
Notation lexname := (lex_if_name strtod).
Notation TL := (list token).
Notation sees := (sees strtod b).
Notation R := (R strtod b).
Notation RL := (RL strtod b).

Lemma R_bind {A B} (x : res (A * lex)) (y : res (A * TL)) (f : A * lex -> res (B * lex)) (g : A * TL -> res (B * TL)) :
  R x y -> (forall a l ts, sees l ts -> R (f (a, l)) (g (a, ts))) -> R (bind x f) (bind y g).
Proof.
  unfold ParseR.R at 1. destruct x as [[a l]| |], y as [[a' ts]| |]; cbn [bind]; intros H K; try contradiction; try exact I; try exact H.
  - destruct H as [-> H]. apply K, H.
  - unfold ParseR.R. destruct (g (a', ts)) as [[]| |]; auto.
Qed.
Lemma RL_bind {B} (x : res lex) (y : res TL) (f : lex -> res (B * lex)) (g : TL -> res (B * TL)) :
  RL x y -> (forall l ts, sees l ts -> R (f l) (g ts)) -> R (bind x f) (bind y g).
Proof.
  unfold ParseR.RL. destruct x as [l| |], y as [ts| |]; cbn [bind]; intros H K; try contradiction; try exact I; try exact H.
  - apply K, H.
  - unfold ParseR.R. destruct (g ts) as [[]| |]; auto.
Qed.
Lemma R_same {A B} (x : res A) (f : A -> res (B * lex)) (g : A -> res (B * TL)) : (forall a, R (f a) (g a)) -> R (bind x f) (bind x g).
Proof. intro K. destruct x; cbn [bind]; [apply K|exact I|exact I]. Qed.
Lemma R_ok {A} (a : A) l ts : sees l ts -> R (Ok (a, l)) (Ok (a, ts)).
Proof. intro H. split; [reflexivity|exact H]. Qed.
Lemma R_err {A} : @ParseR.R strtod b A Err Err. Proof. exact I. Qed.
Lemma R_ub {A} : @ParseR.R strtod b A UB UB. Proof. exact I. Qed.

Lemma is_R l ts id : sees l ts -> R (is lex lexif l id) (is TL gif ts id).
Proof. intro H. unfold is. eapply R_bind; [apply accept_R, H|]. intros a l' ts' H'. apply R_ok, H'. Qed.
Lemma expect_R l ts id : sees l ts -> RL (expect lex lexif l id) (expect TL gif ts id).
Proof.
  intro H. unfold expect. pose proof (is_R l ts id H) as X. unfold ParseR.R in X.
  destruct (is lex lexif l id) as [[x l']| |], (is TL gif ts id) as [[y ts']| |]; try contradiction; cbn [bind RL].
  - destruct X as [-> X]. destruct y; [exact X|exact I].
  - exact I.
  - destruct y; exact X.
  - exact X.
  - exact I.
Qed.

Ltac step :=
  match goal with
  | |- R (Ok _) (Ok _) => apply R_ok; assumption
  | |- R Err Err => exact I
  | |- R UB UB => exact I
  | |- R (bind (expect _ _ _ _) _) (bind (expect _ _ _ _) _) => eapply RL_bind; [apply expect_R; assumption|intros ? ? ?; cbv beta]
  | |- R (bind (tok_str _) _) _ => apply R_same; intro; cbv beta
  | |- R (bind (tok_int _) _) _ => apply R_same; intro; cbv beta
  | |- R (bind (lex_if _ _ _) _) _ => eapply R_bind; [apply accept_R; assumption|intros ? ? ? ?; cbv beta iota]
  | |- R (bind (lex_next _ _) _) _ => eapply R_bind; [apply next_R; assumption|intros ? ? ? ?; cbv beta iota]
  | |- R (bind (is _ _ _ _) _) _ => eapply R_bind; [apply is_R; assumption|intros ? ? ? ?; cbv beta iota]
  | |- R (bind (if ?c then tok_str _ else Err) _) _ => apply R_same; intro; cbv beta
  | |- R (if ?c then _ else _) _ => destruct c
  | |- R (match ?o with Some _ => _ | None => _ end) _ => destruct o
  | |- R (let '(_, _) := ?p in _) _ => destruct p; cbv beta iota
  end.
Ltac use lem := eapply R_bind; [apply lem; assumption|intros ? ? ? ?; cbv beta iota].

Lemma expect_int_R l ts : sees l ts -> R (expect_int lex lexif l) (expect_int TL gif ts).
Proof. intro. unfold expect_int. repeat step. Qed.
Lemma expect_str_R l ts id : sees l ts -> R (expect_str lex lexif l id) (expect_str TL gif ts id).
Proof. intro. unfold expect_str. repeat step. Qed.
Lemma ine_R l ts : sees l ts -> R (parse_if_not_exists lex lexif l) (parse_if_not_exists TL gif ts).
Proof. intro. unfold parse_if_not_exists. repeat step. Qed.
Lemma ie_R l ts : sees l ts -> R (parse_if_exists lex lexif l) (parse_if_exists TL gif ts).
Proof. intro. unfold parse_if_exists. repeat step. Qed.
Lemma ic_R l ts : sees l ts -> R (parse_if_cloud lex lexif l) (parse_if_cloud TL gif ts).
Proof. intro. unfold parse_if_cloud. repeat step. Qed.
Lemma int_R l ts : sees l ts -> R (parse_int lex lexif l) (parse_int TL gif ts).
Proof. intro. unfold parse_int. use expect_int_R. repeat step. Qed.
Lemma bool_R l ts : sees l ts -> R (parse_bool lex lexif l) (parse_bool TL gif ts).
Proof. intro. unfold parse_bool. repeat step. Qed.
Lemma string_R l ts : sees l ts -> R (parse_string lex lexif l) (parse_string TL gif ts).
Proof. intro. apply expect_str_R. assumption. Qed.
Lemma uuid_R l ts : sees l ts -> R (parse_uuid lex lexif l) (parse_uuid TL gif ts).
Proof. intro. unfold parse_uuid. use expect_str_R. repeat step. Qed.

Ltac step2 :=
  first [ step
        | match goal with
          | |- R (bind (expect_int _ _ _) _) _ => use expect_int_R
          | |- R (bind (expect_str _ _ _ _) _) _ => use expect_str_R
          | |- R (bind (parse_if_not_exists _ _ _) _) _ => use ine_R
          | |- R (bind (parse_if_exists _ _ _) _) _ => use ie_R
          | |- R (bind (parse_if_cloud _ _ _) _) _ => use ic_R
          | |- R (bind (parse_int _ _ _) _) _ => use int_R
          | |- R (bind (parse_bool _ _ _) _) _ => use bool_R
          | |- R (bind (parse_string _ _ _) _) _ => use string_R
          | |- R (bind (parse_uuid _ _ _) _) _ => use uuid_R
          end ].

Lemma debug_R l ts : sees l ts -> R (parse_debug lex lexif l) (parse_debug TL gif ts).
Proof. intro. unfold parse_debug. repeat step2. Qed.
Lemma cloud_option_R n k l ts : sees l ts -> R (cloud_option lex lexif n l k) (cloud_option TL gif n ts k).
Proof. intro. unfold cloud_option. repeat step2. Qed.
Lemma cloud_loop_R : forall f l ts k m, sees l ts -> R (cloud_options_loop lex lexnext lexif f l k m) (cloud_options_loop TL gnext gif f ts k m).
Proof.
  induction f as [|f IH]; intros l ts k m H; cbn [cloud_options_loop]; [exact I|]. step. step.
  eapply R_bind; [apply cloud_option_R; assumption|intros [] ? ? ?; cbv beta iota]. step. step; [apply IH; assumption|]. step. step.
Qed.
Lemma cloud_options_R f l ts k : sees l ts -> R (parse_cloud_options lex lexnext lexif f l k) (parse_cloud_options TL gnext gif f ts k).
Proof. intro. unfold parse_cloud_options. repeat step2. apply cloud_loop_R. assumption. Qed.
Lemma cloud_create_R f l ts : sees l ts -> R (parse_cloud_create lex lexnext lexif f l) (parse_cloud_create TL gnext gif f ts).
Proof. intro. unfold parse_cloud_create. repeat step2. eapply R_bind; [apply cloud_options_R; assumption|intros [] ? ? ?; cbv beta iota]. repeat step2. Qed.
Lemma cloud_drop_R l ts : sees l ts -> R (parse_cloud_drop lex lexif l) (parse_cloud_drop TL gif ts).
Proof. intro. unfold parse_cloud_drop. repeat step2. Qed.
Lemma cloud_alter_R f l ts : sees l ts -> R (parse_cloud_alter lex lexnext lexif f l) (parse_cloud_alter TL gnext gif f ts).
Proof. intro. unfold parse_cloud_alter. repeat step2. eapply R_bind; [apply cloud_options_R; assumption|intros [] ? ? ?; cbv beta iota]. repeat step2. Qed.

Lemma storage_option_R n s l ts : sees l ts -> R (storage_option lex lexif n l s) (storage_option TL gif n ts s).
Proof. intro. unfold storage_option. repeat step2. Qed.
Lemma storage_loop_R : forall f l ts k m, sees l ts -> R (storage_options_loop lex lexnext lexif f l k m) (storage_options_loop TL gnext gif f ts k m).
Proof.
  induction f as [|f IH]; intros l ts k m H; cbn [storage_options_loop]; [exact I|]. step. step.
  eapply R_bind; [apply storage_option_R; assumption|intros [] ? ? ?; cbv beta iota]. step. step; [apply IH; assumption|]. step. step.
Qed.
Lemma storage_options_R f l ts k : sees l ts -> R (parse_storage_options lex lexnext lexif f l k) (parse_storage_options TL gnext gif f ts k).
Proof. intro. unfold parse_storage_options. repeat step2. apply storage_loop_R. assumption. Qed.
Lemma storage_create_R e f l ts : sees l ts -> R (parse_storage_create lex lexnext lexif e f l) (parse_storage_create TL gnext gif e f ts).
Proof. intro. unfold parse_storage_create. repeat step2. eapply R_bind; [apply storage_options_R; assumption|intros [] ? ? ?; cbv beta iota]. repeat step2. Qed.
Lemma storage_drop_R l ts : sees l ts -> R (parse_storage_drop lex lexif l) (parse_storage_drop TL gif ts).
Proof. intro. unfold parse_storage_drop. repeat step2. Qed.
Lemma storage_alter_R f l ts : sees l ts -> R (parse_storage_alter lex lexnext lexif f l) (parse_storage_alter TL gnext gif f ts).
Proof. intro. unfold parse_storage_alter. repeat step2. eapply R_bind; [apply storage_options_R; assumption|intros [] ? ? ?; cbv beta iota]. repeat step2. Qed.

Lemma tier_option_R n s l ts : sees l ts -> R (tier_option lex lexif n l s) (tier_option TL gif n ts s).
Proof. intro. unfold tier_option. repeat step2. Qed.
Lemma tier_loop_R : forall f l ts k, sees l ts -> R (tier_options_loop lex lexnext lexif f l k) (tier_options_loop TL gnext gif f ts k).
Proof.
  induction f as [|f IH]; intros l ts k H; cbn [tier_options_loop]; [exact I|]. step. step.
  use tier_option_R. step. step; [apply IH; assumption|]. step. step.
Qed.
Lemma pipeline_set_R : forall f l ts, sees l ts -> R (parse_pipeline_set lex lexnext lexif f l) (parse_pipeline_set TL gnext gif f ts).
Proof.
  induction f as [|f IH]; intros l ts H; cbn [parse_pipeline_set]; [exact I|]. cbv zeta. step2. step2. step2.
  { use IH. step. }
  step2. step2; [step|]. step. step. step. { use IH. step. }
  use tier_loop_R. step. step. { use IH. step. } step. step.
Qed.
Lemma pipeline_alter_R f l ts : sees l ts -> R (parse_pipeline_alter lex lexnext lexif f l) (parse_pipeline_alter TL gnext gif f ts).
Proof. intro. unfold parse_pipeline_alter. repeat step2. use pipeline_set_R. step. Qed.

Lemma between_R l ts : sees l ts -> R (parse_between lex lexif l) (parse_between TL gif ts).
Proof. intro. unfold parse_between. repeat step2. Qed.
Lemma on_R l ts : sees l ts -> R (parse_on lex lexif l) (parse_on TL gif ts).
Proof. intro. unfold parse_on. repeat step2. Qed.
Ltac useb := eapply R_bind; [apply between_R; assumption|intros [] ? ? ?; cbv beta iota].
Lemma partition_create_R e l ts : sees l ts -> R (parse_partition_create lex lexif e l) (parse_partition_create TL gif e ts).
Proof. intro. unfold parse_partition_create. repeat step2. Qed.
Lemma partition_drop_R l ts : sees l ts -> R (parse_partition_drop lex lexif l) (parse_partition_drop TL gif ts).
Proof. intro. unfold parse_partition_drop. repeat step2. use on_R. step. Qed.
Lemma partition_drop_range_R l ts : sees l ts -> R (parse_partition_drop_range lex lexif l) (parse_partition_drop_range TL gif ts).
Proof. intro. unfold parse_partition_drop_range. useb. use on_R. step. Qed.
Lemma partition_move_R l ts : sees l ts -> R (parse_partition_move lex lexif l) (parse_partition_move TL gif ts).
Proof. intro. unfold parse_partition_move. repeat step2. Qed.
Lemma partition_move_range_R l ts : sees l ts -> R (parse_partition_move_range lex lexif l) (parse_partition_move_range TL gif ts).
Proof. intro. unfold parse_partition_move_range. useb. repeat step2. Qed.
Lemma partition_refresh_R l ts : sees l ts -> R (parse_partition_refresh lex lexif l) (parse_partition_refresh TL gif ts).
Proof. intro. unfold parse_partition_refresh. repeat step2. Qed.
Lemma partition_refresh_range_R l ts : sees l ts -> R (parse_partition_refresh_range lex lexif l) (parse_partition_refresh_range TL gif ts).
Proof. intro. unfold parse_partition_refresh_range. useb. repeat step2. Qed.
Lemma partition_download_R l ts : sees l ts -> R (parse_partition_download lex lexif l) (parse_partition_download TL gif ts).
Proof. intro. unfold parse_partition_download. repeat step2. Qed.
Lemma partition_download_range_R l ts : sees l ts -> R (parse_partition_download_range lex lexif l) (parse_partition_download_range TL gif ts).
Proof. intro. unfold parse_partition_download_range. useb. repeat step2. Qed.
Lemma partition_upload_R l ts : sees l ts -> R (parse_partition_upload lex lexif l) (parse_partition_upload TL gif ts).
Proof. intro. unfold parse_partition_upload. repeat step2. Qed.
Lemma partition_upload_range_R l ts : sees l ts -> R (parse_partition_upload_range lex lexif l) (parse_partition_upload_range TL gif ts).
Proof. intro. unfold parse_partition_upload_range. useb. repeat step2. Qed.

Definition Rcases (c : list (N * (lex -> res (cmd * lex)))) (d : list (N * (TL -> res (cmd * TL)))) : Prop :=
  Forall2 (fun x y => fst x = fst y /\ forall l ts, sees l ts -> R (snd x l) (snd y ts)) c d.
Lemma one_of_R : forall c d, Rcases c d -> forall l ts, sees l ts -> R (parse_one_of lex lexif l c) (parse_one_of TL gif ts d).
Proof.
  induction 1 as [|[i p] [j q] c d [E H] _ IH]; intros l ts S; cbn [parse_one_of]; [exact I|]. cbn [fst snd] in *. subst j.
  step. destruct a; [apply H; assumption|apply IH; assumption].
Qed.

(* ---- the commands that read a name with the keywords off ---- *)
Lemma set_R l ts : sees l ts -> lx_back l = [] -> R (parse_set lex lexnext lexif lexname l) (parse_set TL gnext gif gname ts).
Proof.
  intros H E. unfold parse_set. destruct (name_R strtod b l ts H E) as [X|[(l' & X & Y & _)|[X Y]]].
  - eapply R_bind; [exact X|intros ? ? ? ?; cbv beta iota]. repeat step.
  - rewrite X, Y. exact I.
  - rewrite X. cbn [bind]. unfold ParseR.R. destruct (bind (gname ts) _) as [[]| |]; auto.
Qed.

Definition R2 {A} (x : res (A * lex)) (y : res (A * TL)) : Prop :=
  match x, y with
  | Ok (a, l), Ok (a', ts) => a = a' /\ (sees l ts \/ doomed l ts)
  | Err, Err => True
  | UB, UB => True
  | UB, _ => b = false
  | _, _ => False
  end.
Lemma R_R2 {A} (x : res (A * lex)) y : R x y -> R2 x y.
Proof. unfold ParseR.R, R2. destruct x as [[]| |], y as [[]| |]; tauto. Qed.
Lemma R2_bind {A B} (x : res (A * lex)) (y : res (A * TL)) (f : A * lex -> res (B * lex)) (g : A * TL -> res (B * TL)) :
  R2 x y -> (forall a l ts, sees l ts -> R2 (f (a, l)) (g (a, ts))) -> (forall a l ts, doomed l ts -> R2 (f (a, l)) (g (a, ts))) -> R2 (bind x f) (bind y g).
Proof.
  unfold R2 at 1. destruct x as [[a l]| |], y as [[a' ts]| |]; cbn [bind]; intros H K D; try contradiction; try exact I; try exact H.
  - destruct H as [-> [H|H]]; [apply K, H|apply D, H].
  - unfold R2. destruct (g (a', ts)) as [[]| |]; auto.
Qed.
Lemma R2_step {A B} (x : res (A * lex)) (y : res (A * TL)) (f : A * lex -> res (B * lex)) (g : A * TL -> res (B * TL)) :
  R x y -> (forall a l ts, sees l ts -> R2 (f (a, l)) (g (a, ts))) -> R2 (bind x f) (bind y g).
Proof.
  unfold ParseR.R. destruct x as [[a l]| |], y as [[a' ts]| |]; cbn [bind]; intros H K; try contradiction; try exact I; try exact H.
  - destruct H as [-> H]. apply K, H.
  - unfold R2. destruct (g (a', ts)) as [[]| |]; auto.
Qed.
Lemma R2_ok {A} (a : A) l ts : sees l ts \/ doomed l ts -> R2 (Ok (a, l)) (Ok (a, ts)).
Proof. intro H. split; [reflexivity|exact H]. Qed.

Lemma name_case l ts : sees l ts -> lx_back l = [] ->
  R2 (do (o, l) <- lexname l ;
      match o with
      | Some t => do s <- tok_str t ; Ok (fun _ : bool => Op (ShowName s), l)
      | None =>
        do (o, l) <- lexif l KSTRING ;
        match o with
        | Some t => do s <- tok_str t ; Ok (fun _ => Op (ShowName s), l)
        | None => Ok (fun _ => Op ShowConfig, l)
        end
      end)
     (do (o, l) <- gname ts ;
      match o with
      | Some t => do s <- tok_str t ; Ok (fun _ : bool => Op (ShowName s), l)
      | None =>
        do (o, l) <- gif l KSTRING ;
        match o with
        | Some t => do s <- tok_str t ; Ok (fun _ => Op (ShowName s), l)
        | None => Ok (fun _ => Op ShowConfig, l)
        end
      end).
Proof.
  intros H E. destruct (name_R strtod b l ts H E) as [X|[(l' & X & Y & D)|[X Y]]].
  - apply R_R2. eapply R_bind; [exact X|intros ? ? ? ?; cbv beta iota]. repeat step.
  - rewrite X, Y. cbn [bind]. destruct (doomed_if strtod l' ts KSTRING D ltac:(discriminate)) as [-> ->]. cbn [bind].
    apply R2_ok. right. exact D.
  - rewrite X. cbn [bind]. unfold R2. match goal with |- match ?y with _ => _ end => destruct y as [[]| |] end; auto.
Qed.
Lemma show_what_R l ts tk : sees l ts -> (t_id tk <> KINT -> lx_back l = []) -> 
  R2 (parse_show_what lex lexif lexname l tk) (parse_show_what TL gif gname ts tk).
Proof.
  intros H E. unfold parse_show_what.
  repeat match goal with |- R2 (if ?c then _ else _) _ => destruct c eqn:? end;
    try (apply R_R2; repeat step2; fail).
  apply name_case; [exact H|]. apply E. intro X. rewrite X in *. discriminate.
Qed.
Lemma show_R : forall f l ts, sees l ts -> R2 (parse_show lex lexnext lexif lexname f l) (parse_show TL gnext gif gname f ts).
Proof.
  induction f as [|f IH]; intros l ts H; cbn [parse_show]; [exact I|].
  pose proof (next_after strtod b l ts H) as N. pose proof (next_R strtod b l ts H) as NR.
  destruct (lexnext l) as [[tk l1]| |]; [|contradiction|].
  2:{ cbn [bind]. unfold R2. match goal with |- match ?y with _ => _ end => destruct y as [[]| |] end; auto. }
  destruct N as (S1 & Etk & Ni & _). unfold gnext in NR |- *. cbn [bind].
  destruct ts as [|t ts]; cbn [tl hd] in *; subst tk; cbn [bind].
  all: eapply R2_bind; [apply show_what_R; assumption| |].
  all: intros a l2 ts2 D; cbv beta iota.
  2,4: unfold is; destruct (doomed_if strtod _ _ KDEBUG D ltac:(discriminate)) as [-> ->]; cbn [bind];
       destruct (doomed_if strtod _ _ COMMA D ltac:(discriminate)) as [-> ->]; cbn [bind]; apply R2_ok; right; exact D.
  all: eapply R2_step; [apply is_R, D|]; intros d l3 ts3 S3; cbv beta iota;
       eapply R2_step; [apply is_R, S3|]; intros c l4 ts4 S4; cbv beta iota;
       destruct c; [|apply R2_ok; left; exact S4];
       eapply R2_bind; [apply IH, S4| |]; intros ops l5 ts5 S5; cbv beta iota; apply R2_ok; [left|right]; exact S5.
Qed.

Lemma first_R e f l ts : sees l ts ->
  R2 (parse_first lex lexnext lexif lexname e f l) (parse_first TL gnext gif gname e f ts).
Proof.
  intro H. unfold parse_first. cbv zeta.
  pose proof (next_after strtod b l ts H) as N. pose proof (next_R strtod b l ts H) as NR.
  destruct (lexnext l) as [[tk l1]| |]; [|contradiction|].
  2:{ cbn [bind]. unfold R2. match goal with |- match ?y with _ => _ end => destruct y as [[]| |] end; auto. }
  destruct N as (S1 & Etk & Ni & _). unfold gnext in NR |- *.
  assert (G : exists ts1, match ts with [] => (EOF, []) | t :: r => (t, r) end = (tk, ts1) /\ sees l1 ts1).
  { destruct ts as [|t ts]; cbn [tl hd] in *; subst tk; eauto. }
  destruct G as (ts1 & -> & S1'). clear NR S1 Etk H. cbn [bind].
  assert (W : forall (x : res (cmd * lex)) (y : res (cmd * TL)), R x y ->
            R2 (do (c, l) <- x ; Ok (Some c, l)) (do (c, l) <- y ; Ok (Some c, l))).
  { intros x y X. apply R_R2. eapply R_bind; [exact X|]. intros c l2 ts2 S2. apply R_ok, S2. }
  repeat match goal with |- R2 (if ?c then _ else _) _ => destruct c eqn:? end; try (apply R2_ok; left; exact S1'); try exact I.
  - apply W, set_R; [exact S1'|]. apply Ni. intro X. rewrite X in *. discriminate.
  - eapply R2_bind; [eapply R2_bind; [apply show_R, S1'| |]; intros c l2 ts2 S2; cbv beta iota; apply R2_ok; [left|right]; exact S2| |];
      intros c l2 ts2 S2; cbv beta iota; apply R2_ok; [left|right]; exact S2.
  - apply W, debug_R, S1'.
  - apply W, one_of_R; [|exact S1']. repeat (constructor; [split; [reflexivity|cbn [snd]; intros]|]); [| | |constructor].
    apply cloud_create_R; assumption. apply storage_create_R; assumption. apply partition_create_R; assumption.
  - apply W, one_of_R; [|exact S1']. repeat (constructor; [split; [reflexivity|cbn [snd]; intros]|]); [| | | |constructor].
    apply cloud_drop_R; assumption. apply storage_drop_R; assumption. apply partition_drop_R; assumption. apply partition_drop_range_R; assumption.
  - apply W, one_of_R; [|exact S1']. repeat (constructor; [split; [reflexivity|cbn [snd]; intros]|]); [| | |constructor].
    apply cloud_alter_R; assumption. apply storage_alter_R; assumption. apply pipeline_alter_R; assumption.
  - apply W, one_of_R; [|exact S1']. repeat (constructor; [split; [reflexivity|cbn [snd]; intros]|]); [| |constructor].
    apply partition_move_R; assumption. apply partition_move_range_R; assumption.
  - apply W, one_of_R; [|exact S1']. repeat (constructor; [split; [reflexivity|cbn [snd]; intros]|]); [| |constructor].
    apply partition_refresh_R; assumption. apply partition_refresh_range_R; assumption.
  - apply W, one_of_R; [|exact S1']. repeat (constructor; [split; [reflexivity|cbn [snd]; intros]|]); [| |constructor].
    apply partition_download_R; assumption. apply partition_download_range_R; assumption.
  - apply W, one_of_R; [|exact S1']. repeat (constructor; [split; [reflexivity|cbn [snd]; intros]|]); [| |constructor].
    apply partition_upload_R; assumption. apply partition_upload_range_R; assumption.
Qed.

Definition gparse (e : env) (f : nat) (ts : TL) : res (option cmd) := parse_all TL gnext gif gname e f ts.
Lemma all_R e f l ts : sees l ts ->
  match parse_all lex lexnext lexif lexname e f l, gparse e f ts with
  | Ok c, Ok c' => c = c'
  | Err, Err => True
  | UB, UB => True
  | UB, _ => b = false
  | _, _ => False
  end.
Proof.
  intro H. unfold gparse, parse_all. pose proof (first_R e f l ts H) as X. unfold R2 in X.
  destruct (parse_first lex lexnext lexif lexname e f l) as [[c l1]| |], (parse_first TL gnext gif gname e f ts) as [[c' ts1]| |];
    try contradiction; cbn [bind]; try exact I; try exact X.
  - destruct X as [-> [S|D]].
    + pose proof (expect_R l1 ts1 KEOF S) as Y. unfold ParseR.RL in Y.
      destruct (expect lex lexif l1 KEOF), (expect TL gif ts1 KEOF); cbn [bind]; try contradiction; try exact I; try reflexivity; exact Y.
    + unfold expect, is. destruct (doomed_if strtod l1 ts1 KEOF D ltac:(discriminate)) as [-> ->]. exact I.
  - destruct (expect TL gif ts1 KEOF); cbn [bind]; auto.
Qed.
End S.
