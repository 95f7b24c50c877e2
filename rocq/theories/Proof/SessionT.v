(* Sessions: what is true after every history. *)
From Coq Require Import NArith ZArith String List Bool Lia.
Import ListNotations.
From Verif Require Import Model.Base Model.Data Model.Json Model.Lex Model.Uuid Model.Source Model.Config Model.Catalog Model.Startup Model.Parse Model.Session
  Spec.Value Spec.JsonText Spec.Settings Spec.Catalog Spec.Permitted Spec.Command Spec.Session
  Proof.DataL Proof.ConfigL Proof.ConfigE Proof.CatalogB Proof.CatalogO Proof.CatalogT Proof.CatalogP Proof.ParseL Proof.ParseX Proof.SessionC Proof.SessionL.

Definition new_view (cfg : config) (u : uuid) : view :=
  mk_view [] [main_source u (var_bytes cfg "compression") (Z.of_N (var_number cfg "compression_level"))] [].
Lemma new_fine cfg u : core cfg -> vfine (new_view cfg u) /\ few (new_view cfg u).
Proof.
  intro C. split; [|vm_compute; auto]. split; [constructor|]. split; [|constructor]. constructor; [|constructor].
  unfold sfine, main_source. cbn [so_name so_path so_cloud so_compression so_encryption so_key].
  repeat (match goal with |- _ /\ _ => apply conj end); auto using carried_nil, core_compression. all: vm_compute; auto.
Qed.
Lemma new_view_same a b u : agree a b -> core a -> core b -> new_view a u = new_view b u.
Proof. intros A [Ta _] [Tb _]. unfold new_view. rewrite (agree_compression _ _ A (proj1 Tb)), (agree_level _ _ A Ta Tb). reflexivity. Qed.
Lemma start_new w cfg : core cfg -> in_vars cfg (mk_view [] [] []) ->
  exists u, uuid_from_string (var_bytes cfg "uuid") = Some u /\
    (forall c, catalog_start w cfg = Ok c -> consistent c /\ view_of c = new_view cfg u) /\ (wo_mkdir w = true -> exists c, catalog_start w cfg = Ok c).
Proof.
  intros C (H1 & H2 & H3). cbn [vw_clouds vw_storages vw_tiers map] in *. destruct (uuid_from_string (var_bytes cfg "uuid")) as [u|] eqn:U; [|elim (proj2 (proj2 C)); exact U].
  exists u. split; [reflexivity|]. split.
  - intros c E. destruct (opened w _ _ _ (mk_view [] [] []) _ _ _ c fit_empty H1 H2 H3 E) as [K [[[] _]|(u' & U' & _ & V)]]. split; [exact K|].
    rewrite U in U'. injection U' as <-. exact V.
  - intro M. unfold catalog_start. rewrite (open_steps w _ _ _ (mk_view [] [] []) _ _ _ fit_empty H1 H2 H3). cbn [vw_clouds vw_storages vw_tiers steps bind].
    unfold create_main. rewrite U. unfold storage_create, empty_catalog. cbn [storage_find ca_storages find]. rewrite M. cbn [negb].
    unfold storage_create_object, storage_set_cloud. cbn [source_copy main_source so_cloud]. eexists. reflexivity.
Qed.
Lemma start_saved w cfg c : core cfg -> consistent c -> settings_json (view_of c) -> in_vars cfg (view_of c) ->
  exists c', catalog_start w cfg = Ok c' /\ view_of c' = view_of c /\ consistent c'.
Proof.
  intros (_ & _ & U) C J (H1 & H2 & H3). destruct (reopened c w (var_bytes cfg "uuid") (var_bytes cfg "compression") (Z.of_N (var_number cfg "compression_level")) _ _ _ (proj1 C) J U H1 H2 H3) as [R _].
  apply R, consistent_names, C.
Qed.

Section SESSION.
Variable strtod : list byte -> option (N * nat).
Variable fmt_real : N -> list byte.
Notation say := (say strtod fmt_real).
Notation deploy := (deploy strtod fmt_real).
Notation reached := (reached strtod fmt_real).
Notation sayable := (sayable strtod).

(* a file from which the next start makes this catalog *)
Definition in_file (cfg : config) (v : view) (file : option (list byte)) : Prop :=
  exists cfg0 text, file = Some text /\ core cfg0 /\ config_text fmt_real cfg0 = Ok text /\ agree cfg0 cfg /\
    (in_vars cfg0 v \/ in_vars cfg0 (mk_view [] [] []) /\ exists u, uuid_from_string (var_bytes cfg0 "uuid") = Some u /\ v = new_view cfg0 u).
Definition inv (s : session) : Prop :=
  core (se_cfg s) /\ consistent (se_cat s) /\ vfine (view_of (se_cat s)) /\ few (view_of (se_cat s)) /\ in_vars (se_cfg s) (view_of (se_cat s)) /\
  in_file (se_cfg s) (view_of (se_cat s)) (cd_file (se_dir s)).

Lemma open_text cfg0 text d old : core cfg0 -> config_text fmt_real cfg0 = Ok text -> table d ->
  config_open strtod fmt_real d (mk_cdir (Some text) old) = Ok (load_all cfg0 d, mk_cdir (Some text) old).
Proof.
  intros C T [S _]. apply open_loads; [apply core_table, C|apply C| |exact T]. destruct C as [[Sc _] _]. unfold same_shape in *. congruence.
Qed.
Lemma empty_json : settings_json (mk_view [] [] []).
Proof. repeat split; (constructor; [vm_compute; reflexivity|constructor]). Qed.

(* a start from a file *)
Lemma deploy_inv s w d s' : inv s -> table d -> deploy w d (se_dir s) = Ok s' ->
  inv s' /\ view_of (se_cat s') = view_of (se_cat s) /\ kept_settings s' = kept_settings s /\ se_dir s' = se_dir s.
Proof.
  intros (C & K & F & W & V & cfg0 & text & E & C0 & T0 & A0 & H) Td D. destruct (se_dir s) as [f old] eqn:Ed. cbn [cd_file] in E. subst f.
  unfold Model.Session.deploy in D. rewrite (open_text cfg0 text d old C0 T0 Td) in D. cbn [bind] in D.
  destruct (load_core cfg0 d C0 Td) as [CL AL]. set (cfg := load_all cfg0 d) in *.
  destruct (catalog_start w cfg) as [cat| |] eqn:ES; [|discriminate|discriminate]. cbn [bind] in D. injection D as <-.
  assert (J := view_json _ (proj1 K) F W).
  assert (G : consistent cat /\ view_of cat = view_of (se_cat s)).
  { destruct H as [H|[H (u & U & Ev)]].
    - destruct (start_saved w cfg (se_cat s) CL K J) as (c' & E1 & E2 & E3); [apply in_vars_load; [apply C0|apply Td|exact J|exact H]|].
      rewrite ES in E1. injection E1 as <-. auto.
    - destruct (start_new w cfg CL) as (u' & U' & X & _); [apply in_vars_load; [apply C0|apply Td|apply empty_json|exact H]|].
      destruct (X _ ES) as [X1 X2]. split; [exact X1|]. rewrite X2, Ev. rewrite (agree_uuid _ _ AL (proj1 (proj1 C0))), U in U'. injection U' as <-. apply new_view_same; assumption. }
  destruct G as [Kc Vc]. assert (J' : settings_json (view_of cat)) by (rewrite Vc; exact J).
  destruct (store_ok cfg cat CL (proj1 Kc) J') as (Cs & As & Vs). cbn [se_cat se_cfg se_dir].
  assert (Q : agree cfg0 (catalog_store cfg cat)) by (apply agree_sym, (agree_trans _ _ _ As AL)).
  split; [|split; [exact Vc|split; [|reflexivity]]].
  - unfold inv. cbn [se_cfg se_cat se_dir cd_file]. rewrite Vc in *. repeat (split; [assumption|]). exists cfg0, text. auto 10.
  - unfold kept_settings. cbn [se_cfg]. apply agree_kept. apply (agree_trans _ _ _ As), (agree_trans _ _ _ AL), A0.
Qed.
Lemma deploy_ok s w d : inv s -> table d -> wo_mkdir w = true -> exists s', deploy w d (se_dir s) = Ok s'.
Proof.
  intros (C & K & F & W & V & cfg0 & text & E & C0 & T0 & A0 & H) Td M. destruct (se_dir s) as [f old] eqn:Ed. cbn [cd_file] in E. subst f.
  unfold Model.Session.deploy. rewrite (open_text cfg0 text d old C0 T0 Td). cbn [bind]. destruct (load_core cfg0 d C0 Td) as [CL AL]. set (cfg := load_all cfg0 d) in *.
  assert (J := view_json _ (proj1 K) F W). destruct H as [H|[H (u & U & Ev)]].
  - destruct (start_saved w cfg (se_cat s) CL K J) as (c' & E1 & _); [apply in_vars_load; [apply C0|apply Td|exact J|exact H]|]. rewrite E1. eexists. reflexivity.
  - destruct (start_new w cfg CL) as (u' & U' & _ & X); [apply in_vars_load; [apply C0|apply Td|apply empty_json|exact H]|]. destruct (X M) as [c' ->]. eexists. reflexivity.
Qed.
Lemma start_core d : table_for_start d -> core d /\ in_vars d (mk_view [] [] []).
Proof.
  intros (T & S & U & H1 & H2 & H3). split; [split; [exact T|split; assumption]|]. unfold in_vars. rewrite H1, H2, H3. repeat split; apply holds_nil.
Qed.
Lemma new_inv w d old s : table_for_start d -> deploy w d (mk_cdir None old) = Ok s ->
  inv s /\ exists u, uuid_from_string (var_bytes d "uuid") = Some u /\ view_of (se_cat s) = new_view d u.
Proof.
  intros H D. destruct (start_core d H) as [C V]. unfold Model.Session.deploy, config_open in D. cbn [cd_file] in D.
  pose proof (text_of fmt_real d (core_table d C) (proj1 (proj2 C))) as T. match type of T with _ = Ok ?t => set (text := t) in * end. rewrite T in D. cbn [bind cd_old] in D.
  destruct (catalog_start w d) as [cat| |] eqn:ES; [|discriminate|discriminate]. cbn [bind] in D. injection D as <-.
  destruct (start_new w d C V) as (u & U & X & _). destruct (X _ ES) as [X1 X2]. destruct (new_fine d u C) as [F W]. rewrite <- X2 in F, W.
  destruct (store_ok d cat C (proj1 X1) (view_json _ (proj1 X1) F W)) as (Cs & As & Vs). cbn [se_cat]. split; [|eauto].
  unfold inv. cbn [se_cfg se_cat se_dir cd_file]. repeat (split; [assumption|]). exists d, text. repeat (split; [reflexivity || assumption|]).
  split; [apply agree_sym, As|]. right. split; [exact V|]. exists u. auto.
Qed.
Lemma new_ok w d old : table_for_start d -> wo_mkdir w = true -> exists s, deploy w d (mk_cdir None old) = Ok s.
Proof.
  intros H M. destruct (start_core d H) as [C V]. unfold Model.Session.deploy, config_open. cbn [cd_file].
  rewrite (text_of fmt_real d (core_table d C) (proj1 (proj2 C))). cbn [bind]. destruct (start_new w d C V) as (u & U & _ & X). destruct (X M) as [c ->]. eexists. reflexivity.
Qed.

(* SET *)
Lemma token_json t tok x : token_carried tok -> token_value t tok = Some x -> json_ok x.
Proof.
  unfold token_carried, token_value. intros H E. destruct t.
  - destruct (_ =? _)%N; [injection E as <-; constructor|]. destruct (_ =? _)%N; [injection E as <-; constructor|discriminate].
  - destruct (t_val tok); try discriminate. destruct (_ =? _)%N; [|discriminate]. injection E as <-. constructor.
    unfold i64_of_u64, w64, two64. rewrite N.mod_small by lia. cbv zeta. destruct (Z.ltb_spec (Z.of_N n) (2 ^ 63)); lia.
  - destruct (t_val tok); try discriminate. destruct (_ =? _)%N; [|discriminate]. injection E as <-. apply carried_json, H.
  - discriminate.
Qed.
Lemma carried_ok tok : token_carried tok -> token_ok tok.
Proof. unfold token_carried, token_ok. destruct (t_val tok); auto. lia. Qed.
Lemma running_names cfg n v tok : same_shape cfg defaults -> config_find cfg n = Some v -> allowed true v tok ->
  n <> chars "uuid" /\ n <> chars "clouds" /\ n <> chars "storages" /\ n <> chars "pipeline".
Proof.
  intros S F (_ & R & x & X & _).
  assert (U : forall name, (exists w, config_find defaults (chars name) = Some w /\ (at_run w = false \/ v_type w = VAR_DATA)) -> n <> chars name).
  { intros name (w & Fw & H) ->. destruct (find_shape cfg defaults _ w S Fw) as (y & Fy & Ey). rewrite F in Fy. injection Fy as <-. apply shape_parts in Ey. destruct Ey as (_ & E2 & E3).
    destruct H as [H|H]; [unfold at_run in *; congruence|]. rewrite E2, H in X. unfold token_value in X. destruct (t_val tok); discriminate. }
  repeat split; apply U; vm_compute; eexists; split; try reflexivity; auto.
Qed.
Lemma set_core cfg n tok cfg' b : core cfg -> token_carried tok -> execute_set true cfg n tok = Ok (cfg', b) ->
  exists v x, config_find cfg n = Some v /\ allowed true v tok /\ token_value (v_type v) tok = Some x /\ core cfg' /\ b = negb (ephemeral v) /\
    settings cfg' = assign n x (settings cfg) /\ (b = false -> agree cfg' cfg) /\ forall w, in_vars cfg w -> in_vars cfg' w.
Proof.
  intros C Hc E. assert (T := core_table cfg C). pose proof (carried_ok tok Hc) as Ht. destruct C as ([S I] & Sv & U).
  destruct (config_find cfg n) as [v|] eqn:F; [|rewrite set_none in E by exact F; discriminate].
  destruct (set_cases true cfg n tok v Ht F) as [(A & v' & x & E' & Sh & Tv & Hs & Td & Hi)|[_ E']]; [|congruence].
  rewrite E' in E. injection E as <- <-. exists v, x. split; [reflexivity|]. split; [exact A|]. split; [exact Tv|].
  pose proof (set_effect true cfg n tok _ _ Ht (proj1 T) E') as (v0 & x0 & F0 & Tv0 & _ & Sh0 & Set0). rewrite F in F0. injection F0 as <-. rewrite Tv in Tv0. injection Tv0 as <-.
  pose proof (set_saves true cfg n tok _ _ v x Ht T Sv I E' F Tv (token_json _ _ _ Hc Tv)) as (T' & Sv' & I').
  destruct (running_names cfg n v tok S F A) as (N1 & N2 & N3 & N4). assert (Nv : v_name v' = n) by (apply shape_parts in Sh; destruct Sh as [-> _]; apply (find_name _ _ _ F)).
  split; [|split; [reflexivity|split; [exact Set0|split]]].
  - split; [split; [unfold same_shape in *; congruence|exact I']|]. split; [exact Sv'|]. unfold var_bytes. rewrite find_put_other by congruence. exact U.
  - intro Eb. cbn [andb] in Eb. apply (agree_put cfg n v v' F Sh). left. destruct (ephemeral v); [reflexivity|discriminate].
  - intro w. apply in_vars_find; apply find_put_other; congruence.
Qed.
Lemma save_ok cfg cat dir : core cfg -> in_vars cfg (view_of cat) -> cd_file dir <> None ->
  exists text, save fmt_real cfg cat dir = Ok (mk_session cfg cat (mk_cdir (Some text) None), true) /\ in_file cfg (view_of cat) (Some text).
Proof.
  intros C V D. destruct (save_text fmt_real cfg dir (core_table cfg C) (proj1 (proj2 C)) D) as (text & T & S). exists text. unfold save. rewrite S. split; [reflexivity|].
  exists cfg, text. repeat (split; [reflexivity || assumption|]). split; [apply agree_refl|]. left. exact V.
Qed.
Lemma in_file_agree cfg cfg' v f : agree cfg cfg' -> in_file cfg v f -> in_file cfg' v f.
Proof. intros A (c0 & t & E & C0 & T & A0 & H). exists c0, t. repeat (split; [assumption|]). split; [apply (agree_trans _ _ _ A0 A)|exact H]. Qed.
Lemma in_file_some cfg v f : in_file cfg v f -> f <> None.
Proof. intros (c0 & t & -> & _). discriminate. Qed.

(* the parser *)
Lemma parsed s u key text c : sayable u key s text -> parse strtod (env_of (se_cfg s) u key) text = Ok (Some c) ->
  exists ts, tokens strtod text ts /\ sentence (env_of (se_cfg s) u key) (with_units ts) (Some c) /\ Forall token_carried (with_units ts) /\ Forall named (with_units ts).
Proof.
  intros (_ & _ & _ & H) P. apply accepts in P. destruct P as (ts & T & S). exists ts. destruct (H ts T) as [F _]. repeat (split; [assumption|]).
  apply units_named, (tokens_named strtod text), T.
Qed.
Lemma set_token s u key text n v : sayable u key s text -> parse strtod (env_of (se_cfg s) u key) text = Ok (Some (CmdSet n v)) -> token_carried v.
Proof.
  intros H P. destruct (parsed s u key text _ H P) as (ts & _ & S & F & _). remember (Some (CmdSet n v)) as c eqn:X. destruct S; try discriminate; injection X as <- <-.
  - rewrite Forall_forall in F. apply F. right. right. right. left. reflexivity.
  - exact I.
Qed.
Lemma catalog_fine s u key text c : core (se_cfg s) -> sayable u key s text -> parse strtod (env_of (se_cfg s) u key) text = Ok (Some (CmdCatalog c)) ->
  command_fine c /\ command_ok c /\ once (se_cat s) c.
Proof.
  intros C H P. destruct (parsed s u key text _ H P) as (ts & T & S & F & M). destruct H as (U1 & U2 & K & H).
  destruct (sentence_fine (env_of (se_cfg s) u key) (with_units ts) c (core_compression _ C) K U1 U2 S F M) as [A B]. split; [exact A|]. split; [exact B|]. apply (proj2 (H ts T) c S).
Qed.
Lemma executed s w c cat ok : inv s -> command_fine c -> command_ok c -> once (se_cat s) c -> execute w (se_cat s) c = (cat, ok) -> (ok = false -> cat = se_cat s) ->
  few (view_of cat) -> consistent cat /\ vfine (view_of cat) /\ view_of cat = (if ok then effect c (view_of (se_cat s)) else view_of (se_cat s)) /\
    core (catalog_store (se_cfg s) cat) /\ agree (catalog_store (se_cfg s) cat) (se_cfg s) /\ in_vars (catalog_store (se_cfg s) cat) (view_of cat).
Proof.
  intros (C & K & F & W & V & IF) Hf Hk Ho E Hn Hw.
  assert (Kc : consistent cat). { pose proof (execute_consistent w (se_cat s) c K Hk Ho) as X. rewrite E in X. apply X. exact Hn. }
  assert (Vc : view_of cat = (if ok then effect c (view_of (se_cat s)) else view_of (se_cat s))).
  { pose proof (command_result w (se_cat s) c cat ok (proj1 K) E) as X. destruct ok; [apply X, Ho|rewrite Hn; reflexivity]. }
  assert (Fc : vfine (view_of cat)) by (rewrite Vc; destruct ok; [apply effect_fine; assumption|exact F]).
  destruct (store_ok (se_cfg s) cat C (proj1 Kc) (view_json _ (proj1 Kc) Fc Hw)) as (X & Y & Z). auto 10.
Qed.

Lemma say_inv w u key s text s' ok : inv s -> sayable u key s text -> say w u key s text = Ok (s', ok) ->
  (ok = false -> se_cat s' = se_cat s) -> few (view_of (se_cat s')) -> inv s'.
Proof.
  intros I H E Hn Hw. unfold Model.Session.say in E. destruct (parse strtod (env_of (se_cfg s) u key) text) as [[c|]| |] eqn:P; try discriminate; try (injection E as <- <-; exact I).
  destruct c; try (injection E as <- <-; exact I).
  - pose proof (set_token s u key text _ _ H P) as Tk. destruct I as (C & K & F & W & V & IF).
    destruct (execute_set true (se_cfg s) name value) as [[cfg b]| |] eqn:X; [|injection E as <- <-; repeat (split; [assumption|]); exact IF|discriminate].
    destruct (set_core _ _ _ _ _ C Tk X) as (v & x & _ & _ & _ & C' & _ & _ & A & V'). destruct b.
    + destruct (save_ok cfg (se_cat s) (se_dir s) C' (V' _ V) (in_file_some _ _ _ IF)) as (t & Sv & IF'). rewrite Sv in E. injection E as <- <-.
      unfold inv. cbn [se_cfg se_cat se_dir cd_file]. repeat (split; [auto|]). exact IF'.
    + injection E as <- <-. unfold inv. cbn [se_cfg se_cat se_dir]. repeat (split; [auto|]). apply (in_file_agree (se_cfg s)); [apply agree_sym, A; reflexivity|exact IF].
  - destruct (catalog_fine s u key text c (proj1 I) H P) as (Hf & Hk & Ho). destruct (execute w (se_cat s) c) as [cat b] eqn:X.
    assert (Ec : se_cat s' = cat).
    { destruct b; [|injection E as <- <-; reflexivity]. unfold save in E. destruct (config_save _ _ _); [| |discriminate]; injection E as <- <-; reflexivity. }
    assert (Eb : b = false -> cat = se_cat s) by (intros ->; injection E as <- <-; rewrite <- Ec; apply Hn; reflexivity).
    rewrite Ec in Hw. destruct (executed s w c cat b I Hf Hk Ho X Eb Hw) as (Kc & Fc & Vc & C' & A' & V'). destruct I as (C & K & F & W & V & IF). destruct b.
    + destruct (save_ok (catalog_store (se_cfg s) cat) cat (se_dir s) C' V' (in_file_some _ _ _ IF)) as (t & Sv & IF'). rewrite Sv in E. injection E as <- <-.
      unfold inv. cbn [se_cfg se_cat se_dir cd_file]. repeat (split; [auto|]). exact IF'.
    + injection E as <- <-. unfold inv. cbn [se_cfg se_cat se_dir]. repeat (split; [auto|]). rewrite Vc. apply (in_file_agree (se_cfg s)); [apply agree_sym, A'|exact IF].
Qed.
Lemma parts_same s name l : consistent (se_cat s) -> consistent (se_cat (parts s name l)) /\ view_of (se_cat (parts s name l)) = view_of (se_cat s).
Proof.
  intro K. unfold parts. cbn [se_cat]. set (w := mk_world true true true). destruct (execute w (se_cat s) (Parts name l)) as [cat b] eqn:E. cbn [fst].
  pose proof (command_result w (se_cat s) _ cat b (proj1 K) E) as R. assert (O : once (se_cat s) (Parts name l)) by (intros n m e X; discriminate).
  assert (N : b = false -> cat = se_cat s) by (intros ->; destruct R as [R|(n & a & e & m & X & _)]; [exact R|discriminate]).
  split.
  - pose proof (execute_consistent w (se_cat s) (Parts name l) K I O) as X. rewrite E in X. apply X, N.
  - destruct b; [apply R, O|rewrite N; reflexivity].
Qed.
Lemma reached_inv s : reached s -> inv s.
Proof.
  induction 1 as [w d old s H D|w u key s text s' ok _ IH H E Hn Hw|s name l _ IH|w d s s' _ IH T D].
  - apply (new_inv w d old s H D).
  - apply (say_inv w u key s text s' ok IH H E Hn Hw).
  - destruct IH as (C & K & F & W & V & IF). destruct (parts_same s name l K) as [K' V']. unfold inv. rewrite V'. change (se_cfg (parts s name l)) with (se_cfg s). change (se_dir (parts s name l)) with (se_dir s). auto 10.
  - apply (deploy_inv s w d s' IH T D).
Qed.

(* ---- theorems ---- *)
Theorem restarts s w d : reached s -> table d -> wo_mkdir w = true ->
  exists s', deploy w d (se_dir s) = Ok s' /\ view_of (se_cat s') = view_of (se_cat s) /\ kept_settings s' = kept_settings s /\
    se_dir s' = se_dir s /\ consistent (se_cat s').
Proof.
  intros R T M. apply reached_inv in R. destruct (deploy_ok s w d R T M) as [s' E]. exists s'. destruct (deploy_inv s w d s' R T E) as (I & A & B & D).
  repeat (split; [assumption|]). apply I.
Qed.
Theorem starts w d old : table_for_start d -> wo_mkdir w = true -> exists s u, deploy w d (mk_cdir None old) = Ok s /\
  uuid_from_string (var_bytes d "uuid") = Some u /\
  view_of (se_cat s) = mk_view [] [main_source u (var_bytes d "compression") (Z.of_N (var_number d "compression_level"))] [].
Proof. intros H M. destruct (new_ok w d old H M) as [s E]. destruct (new_inv w d old s H E) as (_ & u & U & V). exists s, u. auto. Qed.
Theorem says s w u key text ts c : reached s -> sayable u key s text -> tokens strtod text ts ->
  sentence (env_of (se_cfg s) u key) (with_units ts) (Some (CmdCatalog c)) -> few (effect c (view_of (se_cat s))) ->
  (permitted w (se_cat s) c -> exists s', say w u key s text = Ok (s', true) /\ reached s' /\
     view_of (se_cat s') = effect c (view_of (se_cat s)) /\ kept_settings s' = kept_settings s) /\
  (~ permitted w (se_cat s) c -> exists s', say w u key s text = Ok (s', false) /\ se_dir s' = se_dir s /\
     (se_cat s' = se_cat s \/ exists n a e m, c = StorageAlter n a e /\ al_cloud a = Some m /\ m <> [])).
Proof.
  intros R H T S Hw. pose proof (reached_inv s R) as I. assert (P : parse strtod (env_of (se_cfg s) u key) text = Ok (Some (CmdCatalog c))) by (apply accepts; eauto).
  destruct (catalog_fine s u key text c (proj1 I) H P) as (Hf & Hk & Ho). pose proof I as (C & K & F & W & V & IF).
  destruct (execute w (se_cat s) c) as [cat b] eqn:X. pose proof (succeeds w (se_cat s) c (proj1 K)) as Y. rewrite X in Y. cbn [snd] in Y.
  pose proof (command_result w (se_cat s) c cat b (proj1 K) X) as Z. split; intro Hp.
  - apply Y in Hp. subst b. specialize (Z Ho). assert (Hw' : few (view_of cat)) by (rewrite Z; exact Hw).
    destruct (executed s w c cat true I Hf Hk Ho X ltac:(discriminate) Hw') as (Kc & Fc & Vc & C' & A' & V').
    destruct (save_ok (catalog_store (se_cfg s) cat) cat (se_dir s) C' V' (in_file_some _ _ _ IF)) as (t & Sv & IF').
    assert (E : say w u key s text = Ok (mk_session (catalog_store (se_cfg s) cat) cat (mk_cdir (Some t) None), true)) by (unfold Model.Session.say; rewrite P, X; exact Sv).
    eexists. split; [exact E|]. split; [|split; [exact Z|]].
    + apply (Spec.Session.said strtod fmt_real w u key s text _ true R H E); [discriminate|exact Hw'].
    + unfold kept_settings. cbn [se_cfg]. apply agree_kept, A'.
  - destruct b; [elim Hp; apply Y; reflexivity|]. exists (mk_session (catalog_store (se_cfg s) cat) cat (se_dir s)). split; [unfold Model.Session.say; rewrite P, X; reflexivity|].
    split; [reflexivity|exact Z].
Qed.
Lemma find_assign cfg cfg' n x v : config_find cfg n = Some v -> settings cfg' = assign n x (settings cfg) -> value_at (settings cfg') n = Some x.
Proof. intros F E. rewrite E. apply value_assign. rewrite value_find, F. eexists. reflexivity. Qed.
Theorem sets s w u key text ts n tok : reached s -> sayable u key s text -> tokens strtod text ts ->
  sentence (env_of (se_cfg s) u key) (with_units ts) (Some (CmdSet n tok)) ->
  (forall v, config_find (se_cfg s) n = Some v -> allowed true v tok -> exists s' x, say w u key s text = Ok (s', true) /\ reached s' /\
     token_value (v_type v) tok = Some x /\ settings (se_cfg s') = assign n x (settings (se_cfg s)) /\ se_cat s' = se_cat s /\
     (ephemeral v = false -> forall w' d, table d -> wo_mkdir w' = true -> exists s2, deploy w' d (se_dir s') = Ok s2 /\
        value_at (settings (se_cfg s2)) n = Some x /\ view_of (se_cat s2) = view_of (se_cat s))) /\
  ((forall v, config_find (se_cfg s) n = Some v -> ~ allowed true v tok) -> say w u key s text = Ok (s, false)).
Proof.
  intros R H T S. pose proof (reached_inv s R) as I. assert (P : parse strtod (env_of (se_cfg s) u key) text = Ok (Some (CmdSet n tok))) by (apply accepts; eauto).
  pose proof (set_token s u key text _ _ H P) as Tk. pose proof I as (C & K & F & W & V & IF). pose proof (carried_ok tok Tk) as Ht.
  pose proof (set_decided true (se_cfg s) n tok Ht) as [D NU]. split.
  - intros v Fv A. destruct (proj2 D) as [[cfg b] X]; [eauto|]. destruct (set_core _ _ _ _ _ C Tk X) as (v' & x & Fv' & _ & Tx & C' & Eb & St & Ag & V').
    rewrite Fv in Fv'. injection Fv' as <-.
    assert (E : exists s', say w u key s text = Ok (s', true) /\ se_cfg s' = cfg /\ se_cat s' = se_cat s).
    { unfold Model.Session.say. rewrite P, X. destruct b; [|eexists; repeat split].
      destruct (save_ok cfg (se_cat s) (se_dir s) C' (V' _ V) (in_file_some _ _ _ IF)) as (t & -> & _). eexists. repeat split. }
    destruct E as (s' & E & Ecfg & Ecat). exists s', x. assert (R' : reached s') by (apply (Spec.Session.said strtod fmt_real w u key s text _ true R H E); [discriminate|rewrite Ecat; exact W]).
    rewrite Ecfg. repeat (split; [assumption|]). intros Ev w' d Td M. destruct (restarts s' w' d R' Td M) as (s2 & E2 & V2 & K2 & _). exists s2. split; [exact E2|]. split; [|congruence].
    pose proof (reached_inv s' R') as I'. destruct (deploy_inv s' w' d s2 I' Td E2) as (I2 & _).
    assert (A2 : agree (se_cfg s2) (se_cfg s')).
    { destruct I' as (_ & _ & _ & _ & _ & cfg0 & text0 & E0 & C0 & T0 & A0 & _). destruct (se_dir s') as [f old] eqn:Ed. cbn [cd_file] in E0. subst f.
      unfold Model.Session.deploy in E2. rewrite (open_text cfg0 text0 d old C0 T0 Td) in E2. cbn [bind] in E2. destruct (load_core cfg0 d C0 Td) as [CL AL].
      destruct (catalog_start w' (load_all cfg0 d)) as [cat| |]; [|discriminate|discriminate]. cbn [bind] in E2. injection E2 as <-. cbn [se_cfg].
      apply (agree_trans _ (load_all cfg0 d)); [|apply (agree_trans _ _ _ AL A0)].
      unfold catalog_store. destruct (data_vars _ (proj1 (proj1 CL))) as (D1 & _ & _). destruct (set_bytes_table _ "clouds" (va_clouds cat) D1 (proj1 CL)) as [T1 G1].
      destruct (data_vars _ (proj1 T1)) as (_ & D2 & _). destruct (set_bytes_table _ "storages" (va_storages cat) D2 T1) as [T2 G2].
      destruct (data_vars _ (proj1 T2)) as (_ & _ & D3). destruct (set_bytes_table _ "pipeline" (va_pipeline cat) D3 T2) as [T3 G3].
      apply (agree_trans _ _ _ G3), (agree_trans _ _ _ G2), G1. }
    assert (Vx := find_assign _ _ _ _ _ Fv St). rewrite <- Ecfg in Vx. rewrite value_find in *. destruct (config_find (se_cfg s') n) as [y|] eqn:Fy; [|discriminate].
    destruct (agree_find _ _ _ y A2 Fy) as (z & Fz & [Sz Hz]). rewrite Fz. cbn [option_map] in *. rewrite Hz; [exact Vx| |].
    + destruct (find_shape (se_cfg s) (se_cfg s') n y) as (q & Fq & Sq); [|exact Fy|].
      * pose proof (proj1 (proj1 (proj1 I'))) as S1. pose proof (proj1 (proj1 C)) as S2. unfold same_shape in *. congruence.
      * rewrite Fv in Fq. injection Fq as <-. apply shape_parts in Sq. destruct Sq as (_ & _ & Sq). unfold ephemeral in *. congruence.
    + destruct (find_shape (se_cfg s) (se_cfg s') n y) as (q & Fq & Sq); [|exact Fy|].
      * pose proof (proj1 (proj1 (proj1 I'))) as S1. pose proof (proj1 (proj1 C)) as S2. unfold same_shape in *. congruence.
      * rewrite Fv in Fq. injection Fq as <-. apply shape_parts in Sq. destruct Sq as (_ & Sq & _). rewrite <- Sq. intro Q. rewrite Q in Tx. unfold token_value in Tx. destruct (t_val tok); discriminate.
  - intro N. unfold Model.Session.say. rewrite P. destruct (execute_set true (se_cfg s) n tok) as [r| |] eqn:X; [|reflexivity|congruence].
    exfalso. destruct (proj1 D) as (v & Fv & A); [eauto|]. apply (N v Fv A).
Qed.
Theorem safe s w u key text ts : reached s -> sayable u key s text -> tokens strtod text ts -> ~ crowded (with_units ts) -> ~ In dollar (with_units ts) ->
  (forall c, sentence (env_of (se_cfg s) u key) (with_units ts) (Some (CmdCatalog c)) -> few (effect c (view_of (se_cat s)))) ->
  exists s' ok, say w u key s text = Ok (s', ok) /\
    ((forall c, ~ sentence (env_of (se_cfg s) u key) (with_units ts) c) -> s' = s /\ ok = false).
Proof.
  intros R H T NC ND Hf. pose proof (safe_text strtod (env_of (se_cfg s) u key) text ts T NC ND) as NU.
  destruct (parse strtod (env_of (se_cfg s) u key) text) as [o| |] eqn:P; [|exists s, false; unfold Model.Session.say; rewrite P; auto|congruence].
  assert (X : forall us, tokens strtod text us -> us = ts).
  { intros us U. pose proof P as Q. apply accepts in Q. destruct Q as (vs & V & S). apply ParseT.tokens_rawl in T, U. symmetry. apply (ParseT.rawl_fun strtod text ts T us U). }
  pose proof P as Q. apply accepts in Q. destruct Q as (us & U & S). rewrite (X us U) in S.
  assert (G : exists s' ok, say w u key s text = Ok (s', ok)).
  { unfold Model.Session.say. rewrite P. destruct o as [c|]; [|eauto]. destruct c; eauto.
    - destruct (sets s w u key text ts name value R H T S) as [A B]. unfold Model.Session.say in A, B. rewrite P in A, B.
      pose proof (set_token s u key text _ _ H P) as Tk. destruct (set_decided true (se_cfg s) name value (carried_ok _ Tk)) as [D _].
      destruct (execute_set true (se_cfg s) name value) as [r| |] eqn:Xs; [|eauto|].
      + destruct (proj1 D) as (v & Fv & Al); [eauto|]. destruct (A v Fv Al) as (s' & x & E & _). eauto.
      + exfalso. destruct (set_decided true (se_cfg s) name value (carried_ok _ Tk)) as [_ N]. congruence.
    - destruct (says s w u key text ts c R H T S (Hf c S)) as [A B]. unfold Model.Session.say in A, B. rewrite P in A, B.
      pose proof (succeeds w (se_cat s) c) as Sc. destruct (execute w (se_cat s) c) as [cat b] eqn:X2. cbn [snd] in Sc. destruct b; [|eauto].
      destruct A as (s' & E & _); [|eauto]. apply Sc; [|reflexivity]. apply (reached_inv s R). }
  destruct G as (s' & ok & E). exists s', ok. split; [exact E|]. intro N. elim (N o S).
Qed.
Lemma number_var cfg n : same_shape cfg defaults ->
  (exists v, config_find defaults (chars n) = Some v /\ v_type v = VAR_INT) ->
  value_at (settings cfg) (chars n) = Some (VInt (i64_of_u64 (var_number cfg n))).
Proof.
  intros S (v & F & T). destruct (find_shape cfg defaults _ v S F) as (x & Fx & Ex). apply shape_parts in Ex. destruct Ex as (_ & X2 & _).
  rewrite value_find. unfold var_number. rewrite Fx. cbn [option_map]. unfold Spec.Settings.setting. rewrite X2, T. reflexivity.
Qed.
Theorem asked s u key : reached s -> exists c level interval,
  value_at (settings (se_cfg s)) (chars "compression") = Some (VStr c) /\
  value_at (settings (se_cfg s)) (chars "compression_level") = Some (VInt (i64_of_u64 level)) /\
  value_at (settings (se_cfg s)) (chars "interval") = Some (VInt (i64_of_u64 interval)) /\
  env_of (se_cfg s) u key = mk_env u key c (Z.of_N level) interval.
Proof.
  intros R. destruct (reached_inv s R) as (C & _). destruct C as ([Sh _] & _).
  exists (var_bytes (se_cfg s) "compression"), (var_number (se_cfg s) "compression_level"), (var_number (se_cfg s) "interval").
  split; [|split; [|split; [|reflexivity]]].
  - destruct (string_var (se_cfg s) "compression" Sh) as (v & F & T & E); [vm_compute; eexists; repeat split; reflexivity|].
    rewrite value_find. unfold var_bytes. rewrite F. cbn [option_map]. unfold Spec.Settings.setting. rewrite T. reflexivity.
  - apply number_var; [exact Sh|]. vm_compute. eexists. repeat split; reflexivity.
  - apply number_var; [exact Sh|]. vm_compute. eexists. repeat split; reflexivity.
Qed.
Theorem silent s w u key text ts o : tokens strtod text ts -> sentence (env_of (se_cfg s) u key) (with_units ts) o ->
  (forall n tok, o <> Some (CmdSet n tok)) -> (forall c, o <> Some (CmdCatalog c)) ->
  exists ok, say w u key s text = Ok (s, ok) /\ (o = None -> ok = true).
Proof.
  intros T S N1 N2. assert (P : parse strtod (env_of (se_cfg s) u key) text = Ok o) by (apply accepts; eauto).
  exists true. split; [|reflexivity].
  unfold Model.Session.say. rewrite P. destruct o as [c|]; [|reflexivity]. destruct c; try reflexivity; [elim (N1 name value); reflexivity|elim (N2 c); reflexivity].
Qed.
Theorem stops s s' w d t ph st : reached s -> reached s' -> cd_file (se_dir s') = Some t -> In (ph, st) (config_save_states t (se_dir s)) ->
  table d -> wo_mkdir w = true ->
  match ph with
  | Before => exists s2, deploy w d st = Ok s2 /\ view_of (se_cat s2) = view_of (se_cat s) /\ kept_settings s2 = kept_settings s
  | Gone => table_for_start d -> exists s2 u, deploy w d st = Ok s2 /\ uuid_from_string (var_bytes d "uuid") = Some u /\
      view_of (se_cat s2) = mk_view [] [main_source u (var_bytes d "compression") (Z.of_N (var_number d "compression_level"))] []
  | Partial => deploy w d st = Err
  | Done => exists s2, deploy w d st = Ok s2 /\ view_of (se_cat s2) = view_of (se_cat s') /\ kept_settings s2 = kept_settings s'
  end.
Proof.
  intros R R' Et Hin Td M. pose proof (reached_inv s R) as I. pose proof (reached_inv s' R') as I'.
  assert (G : forall x f, inv x -> cd_file (se_dir x) = cd_file f -> exists s2, deploy w d f = Ok s2 /\ view_of (se_cat s2) = view_of (se_cat x) /\ kept_settings s2 = kept_settings x).
  { intros x f Ix Ef. set (y := mk_session (se_cfg x) (se_cat x) f). assert (Iy : inv y) by (unfold inv, y; cbn [se_cfg se_cat se_dir]; rewrite <- Ef; exact Ix).
    destruct (deploy_ok y w d Iy Td M) as [s2 E]. exists s2. destruct (deploy_inv y w d s2 Iy Td E) as (_ & A & B & _). auto. }
  unfold config_save_states in Hin. destruct (cd_file (se_dir s)) as [f|] eqn:Ef; [|destruct I as (_ & _ & _ & _ & _ & IF); rewrite Ef in IF; elim (in_file_some _ _ _ IF eq_refl)].
  destruct Hin as [Hin|[Hin|[Hin|Hin]]]; [| | |apply in_app_iff in Hin; destruct Hin as [Hin|[Hin|[]]]].
  - injection Hin as <- <-. apply (G s (se_dir s) I). reflexivity.
  - injection Hin as <- <-. apply (G s _ I). cbn [cd_file]. exact Ef.
  - injection Hin as <- <-. intro H. apply (starts w d (Some f) H M).
  - apply in_map_iff in Hin. destruct Hin as (k & E & Hk). apply in_seq in Hk. injection E as <- <-. destruct (Nat.eqb_spec k (length t)) as [->|Nk].
    + apply (G s' _ I'). cbn [cd_file]. rewrite firstn_all. exact Et.
    + destruct I' as (_ & _ & _ & _ & _ & cfg0 & t0 & E0 & C0 & T0 & _). rewrite Et in E0. injection E0 as <-.
      unfold Model.Session.deploy. rewrite (open_cut strtod fmt_real cfg0 d t (Some f) k (core_table _ C0) (proj1 (proj2 C0)) T0) by lia. reflexivity.
  - injection Hin as <- <-. apply (G s' _ I'). cbn [cd_file]. exact Et.
Qed.
End SESSION.
