(* Tables of settings that agree, and catalogs that can be saved. *)
From Coq Require Import NArith ZArith String List Bool Lia.
Import ListNotations.
From Verif Require Import Model.Base Model.Data Model.Json Model.Lex Model.Uuid Model.Source Model.Config Model.Catalog Model.Startup Model.Parse Model.Session
  Spec.Value Spec.JsonText Spec.Settings Spec.UuidText Spec.Catalog Spec.Session
  Proof.DataL Proof.JsonL Proof.ConfigL Proof.ConfigE Proof.UuidL Proof.SourceL Proof.CatalogB Proof.CatalogO Proof.CatalogT Proof.SessionC.

(* ---- views ---- *)
Lemma carried_json s : carried s -> json_ok (VStr s).
Proof. intros [A B]. constructor; assumption. Qed.
Lemma kept_int_range z : (- 2 ^ 31 <= kept_int z < 2 ^ 31)%Z.
Proof. unfold kept_int. pose proof (Z.mod_pos_bound (z + 2 ^ 31) (2 ^ 32) ltac:(lia)). lia. Qed.
Lemma uuid_text_carried u : carried (uuid_to_string u).
Proof.
  destruct (to_string_text u) as [(g1 & g2 & g3 & g4 & g5 & G1 & G2 & G3 & G4 & G5 & ->) L]. split; [|rewrite L; vm_compute; reflexivity]. apply plain_closed.
  assert (H : forall k g, group k g -> plain g). { intros k g [_ F]. revert F. apply Forall_impl. intros b Hb. unfold is_hex in Hb. lia. }
  assert (D : plain [45%N]) by (constructor; [split; discriminate|constructor]).
  unfold plain in *. repeat (apply Forall_app; split); eauto.
Qed.
Lemma source_json s : sfine s -> as_created s = s -> json_ok (source_value s).
Proof.
  intros (A & B & C & D & E & F) G. unfold source_value, pair. 
  assert (I : forall z, (- 2 ^ 31 <= z < 2 ^ 31)%Z -> json_ok (VInt z)) by (intros z Hz; constructor; lia).
  assert (I1 : json_ok (VInt (so_refresh_wm s))) by (apply I; rewrite <- G; apply kept_int_range).
  assert (I2 : json_ok (VInt (so_region_size s))) by (apply I; rewrite <- G; apply kept_int_range).
  assert (I3 : json_ok (VInt (so_level s))) by (apply I; rewrite <- G; apply kept_int_range).
  constructor; [vm_compute; reflexivity|].
  repeat (constructor; [cbn [fst snd]; split; [eexists; reflexivity|split; [apply short_ok; vm_compute; reflexivity|]]|]); try assumption; try (apply carried_json; assumption); try constructor; apply uuid_text_carried.
Qed.
Lemma cloud_json k : cfine k -> json_ok (cloud_value k).
Proof.
  intros (A & B & C & D & E). unfold cloud_value, pair. constructor; [vm_compute; reflexivity|].
  repeat (constructor; [cbn [fst snd]; split; [eexists; reflexivity|split; [apply short_ok; vm_compute; reflexivity|]]|]); try (apply carried_json; assumption); constructor.
Qed.
Lemma tier_json t : tfine t -> json_ok (tier_value t).
Proof.
  intros (A & B & C & D & E). unfold tier_value, pair. constructor; [vm_compute; reflexivity|].
  repeat (constructor; [cbn [fst snd]; split; [eexists; reflexivity|split; [apply short_ok; vm_compute; reflexivity|]]|]); try (apply carried_json; assumption); try constructor; assumption.
Qed.
Lemma view_json c : sound c -> vfine (view_of c) -> few (view_of c) -> settings_json (view_of c).
Proof.
  intros S (A & B & C) (L1 & L2 & L3). repeat split; (constructor; [rewrite map_length; assumption|]); rewrite Forall_map.
  - revert A. apply Forall_impl, cloud_json.
  - rewrite Forall_forall in *. intros s I. apply source_json; [apply B, I|]. cbn [view_of vw_storages] in I. apply in_map_iff in I. destruct I as (x & <- & I).
    pose proof (so_bits c S) as X. rewrite Forall_forall in X. apply (X x I).
  - revert C. apply Forall_impl, tier_json.
Qed.
Lemma change_fine {A} (P : A -> Prop) name n f l : Forall P l -> (forall a, P a -> P (f a)) -> Forall P (change name n f l).
Proof. intros F H. unfold change. rewrite Forall_map. revert F. apply Forall_impl. intros a Ha. destruct (is _ _); auto. Qed.
Lemma without_fine {A} (P : A -> Prop) name n (l : list A) : Forall P l -> Forall P (without name n l).
Proof. intro F. unfold without. rewrite Forall_forall in *. intros a I. apply filter_In in I. apply F, I. Qed.
Lemma or_fine o a : ofine o -> carried a -> carried (or_else o a).
Proof. intros O A. destruct o; [apply O; reflexivity|exact A]. Qed.
Lemma effect_fine c v : vfine v -> command_fine c -> vfine (effect c v).
Proof.
  intros (A & B & C) F. destruct c; cbn [effect command_fine] in *.
  - destruct (has _ _ _); [split; auto|]. split; [|auto]. cbn. apply Forall_app. auto.
  - split; [|auto]. cbn. apply without_fine, A.
  - split; [|auto]. cbn. apply change_fine; [exact A|]. intros x (X1 & X2 & X3 & X4 & X5). unfold cfine, cloud_altered. cbn. destruct F as (F1 & F2 & F3). auto 10 using or_fine.
  - split; [|split]; cbn; [| |exact C].
    + apply change_fine; [exact A|]. intros x (X1 & X2 & X3 & X4 & X5). unfold cfine. cbn. auto.
    + apply change_fine; [exact B|]. intros x (X1 & X2 & X3 & X4 & X5 & X6). unfold sfine, source_set_cloud. cbn. auto 10.
  - destruct (has _ _ _); [split; auto|]. split; [exact A|]. split; [|exact C]. cbn. apply Forall_app. split; [exact B|]. constructor; [|constructor]. exact F.
  - split; [exact A|]. split; [|exact C]. cbn. apply without_fine, B.
  - split; [exact A|]. split; [|exact C]. cbn. apply change_fine; [exact B|]. intros x (X1 & X2 & X3 & X4 & X5 & X6). unfold sfine, altered. cbn. destruct F as (F1 & F2 & F3 & F4 & F5). auto 12 using or_fine.
  - split; [exact A|]. split; cbn.
    + apply change_fine; [exact B|]. intros x (X1 & X2 & X3 & X4 & X5 & X6). unfold sfine, source_set_name. cbn. auto 10.
    + apply change_fine; [exact C|]. intros x (X1 & X2 & X3 & X4 & X5). unfold tfine. cbn. auto.
  - split; [exact A|]. split; [exact B|]. exact F.
  - split; auto.
Qed.

(* ---- tables that agree on what is kept, the catalog apart ---- *)
Definition alike (a b : var) : Prop := shape a = shape b /\ (ephemeral b = false -> v_type b <> VAR_DATA -> setting a = setting b).
Definition agree (c d : config) : Prop := Forall2 alike c d.
Lemma alike_refl a : alike a a.
Proof. split; auto. Qed.
Lemma alike_same a b : alike a b -> ephemeral a = ephemeral b /\ v_type a = v_type b /\ v_name a = v_name b.
Proof. intros [S _]. apply shape_parts in S. destruct S as (A & B & C). unfold ephemeral. rewrite C. auto. Qed.
Lemma alike_trans a b c : alike a b -> alike b c -> alike a c.
Proof.
  intros X Y. pose proof (alike_same _ _ Y) as (E & T & _). destruct X as [S1 H1], Y as [S2 H2]. split; [congruence|]. intros Hc Ht. rewrite H1, H2; congruence.
Qed.
Lemma agree_refl c : agree c c.
Proof. induction c; constructor; [apply alike_refl|assumption]. Qed.
Lemma agree_trans a b c : agree a b -> agree b c -> agree a c.
Proof.
  intro X. revert c. induction X as [|x y a b X _ IH]; intros c Y; inversion Y as [|? z ? c' YZ YC]; subst; constructor; [apply (alike_trans _ _ _ X YZ)|apply IH, YC].
Qed.
Lemma agree_sym a b : agree a b -> agree b a.
Proof.
  induction 1 as [|x y a b X _ IH]; constructor; [|exact IH]. pose proof (alike_same _ _ X) as (E & T & _). destruct X as [S H]. split; [congruence|].
  intros A B. symmetry. apply H; congruence.
Qed.
Lemma agree_shape a b : agree a b -> same_shape a b.
Proof. unfold same_shape. induction 1 as [|x y a b [X _] _ IH]; [reflexivity|]. cbn [map]. congruence. Qed.
Lemma agree_find a b n v : agree a b -> config_find b n = Some v -> exists u, config_find a n = Some u /\ alike u v.
Proof.
  induction 1 as [|x y a b X _ IH]; [discriminate|]. cbn [config_find]. destruct (alike_same _ _ X) as (_ & _ & ->).
  destruct (same_bytes (v_name y) n); [|exact IH]. intro H. injection H as <-. eauto.
Qed.
Lemma agree_put c n v v' : config_find c n = Some v -> shape v' = shape v -> ephemeral v = true \/ v_type v = VAR_DATA -> agree (config_put c v') c.
Proof.
  intros F S H. pose proof (find_name _ _ _ F) as N. assert (N' : v_name v' = n) by (apply shape_parts in S; destruct S as [-> _]; exact N).
  induction c as [|a c IH]; [discriminate|]. cbn [config_find config_put] in *. rewrite N'. destruct (same_bytes (v_name a) n).
  - injection F as ->. constructor; [|apply agree_refl]. split; [exact S|]. intros E T. destruct H; congruence.
  - constructor; [apply alike_refl|apply IH, F].
Qed.
Lemma agree_load c : forall d, same_shape c d -> saves c -> agree (load_all c d) c.
Proof.
  induction c as [|v c IH]; intros [|w d] H S; try discriminate; [constructor|].
  unfold same_shape in H. cbn [map] in H. injection H as Ha Hb Hc H. assert (Hs : shape v = shape w) by (unfold shape; congruence).
  inversion S as [|x y S1 S2]; subst x y. unfold load_all. cbn [combine map fst snd]. constructor; [|apply IH; assumption].
  split; [rewrite shape_load; congruence|]. intros E T. rewrite setting_load by assumption. rewrite E. reflexivity.
Qed.
Lemma agree_kept a b : agree a b ->
  settings (filter (fun v => negb (ephemeral v) && match v_type v with VAR_DATA => false | _ => true end) a) =
  settings (filter (fun v => negb (ephemeral v) && match v_type v with VAR_DATA => false | _ => true end) b).
Proof.
  induction 1 as [|x y a b X _ IH]; [reflexivity|]. cbn [filter]. destruct (alike_same _ _ X) as (E & T & N). rewrite E, T.
  destruct (ephemeral y) eqn:Ey; cbn [negb andb]; [exact IH|]. destruct X as [S H].
  destruct (v_type y) eqn:Ty; try exact IH; (unfold settings in *; cbn [map]; rewrite N, H by congruence; rewrite IH; reflexivity).
Qed.

(* tables of a running database *)
Definition core (cfg : config) : Prop := table cfg /\ saves cfg /\ uuid_from_string (var_bytes cfg "uuid") <> None.
Lemma core_table cfg : core cfg -> table_ok cfg.
Proof. intros [[S _] _]. apply (table_shape cfg defaults S (proj1 defaults_table)). Qed.
Lemma string_var cfg n : same_shape cfg defaults ->
  (exists v, config_find defaults (chars n) = Some v /\ v_type v = VAR_STRING /\ ephemeral v = false) ->
  exists v, config_find cfg (chars n) = Some v /\ v_type v = VAR_STRING /\ ephemeral v = false.
Proof.
  intros S (v & F & T & E). destruct (find_shape cfg defaults _ v S F) as (x & Fx & Ex). apply shape_parts in Ex. destruct Ex as (_ & X2 & X3).
  exists x. unfold ephemeral in *. repeat split; congruence.
Qed.
Lemma agree_string a b n : agree a b -> same_shape b defaults ->
  (exists v, config_find defaults (chars n) = Some v /\ v_type v = VAR_STRING /\ ephemeral v = false) -> var_bytes a n = var_bytes b n.
Proof.
  intros A S D. destruct (string_var b n S D) as (v & F & T & E). destruct (agree_find a b _ v A F) as (u & Fu & [Su Hu]).
  unfold var_bytes. rewrite F, Fu. specialize (Hu E ltac:(congruence)). unfold setting in Hu. apply shape_parts in Su. destruct Su as (_ & Tu & _).
  rewrite Tu, T in Hu. injection Hu as ->. reflexivity.
Qed.
Lemma find_in c n v : config_find c n = Some v -> In v c.
Proof. induction c as [|a c IH]; [discriminate|]. cbn [config_find]. destruct (same_bytes _ _); [intro H; injection H as ->; left; reflexivity|right; auto]. Qed.
Lemma agree_level a b : agree a b -> table a -> table b -> var_number a "compression_level" = var_number b "compression_level".
Proof.
  intros A [Sa Ia] [Sb Ib].
  assert (D : exists v, config_find defaults (chars "compression_level") = Some v /\ v_type v = VAR_INT /\ ephemeral v = false) by (vm_compute; eexists; repeat split; reflexivity).
  destruct D as (v & F & T & E). destruct (find_shape b defaults _ v Sb F) as (x & Fx & Ex). apply shape_parts in Ex. destruct Ex as (_ & X2 & X3).
  destruct (agree_find a b _ x A Fx) as (u & Fu & [Su Hu]). unfold var_number. rewrite Fx, Fu. unfold ephemeral in *.
  specialize (Hu ltac:(congruence) ltac:(congruence)). unfold setting in Hu. apply shape_parts in Su. destruct Su as (_ & Tu & _).
  rewrite Tu, X2, T in Hu. injection Hu as Hu. rewrite Forall_forall in Ia, Ib.
  rewrite <- (i64_mod (v_int u)), <- (i64_mod (v_int x)), Hu; [reflexivity| |]; [apply Ib|apply Ia]; eapply find_in; eassumption.
Qed.
Lemma agree_uuid a b : agree a b -> same_shape b defaults -> var_bytes a "uuid" = var_bytes b "uuid".
Proof. intros A S. apply agree_string; [exact A|exact S|]. vm_compute. eexists. repeat split; reflexivity. Qed.
Lemma agree_compression a b : agree a b -> same_shape b defaults -> var_bytes a "compression" = var_bytes b "compression".
Proof. intros A S. apply agree_string; [exact A|exact S|]. vm_compute. eexists. repeat split; reflexivity. Qed.
Lemma core_compression cfg : core cfg -> carried (var_bytes cfg "compression").
Proof.
  intros ([S _] & V & _). destruct (string_var cfg "compression" S) as (v & F & T & E); [vm_compute; eexists; repeat split; reflexivity|].
  unfold var_bytes. rewrite F. unfold saves in V. rewrite Forall_forall in V. destruct (V v (find_in _ _ _ F) E) as (_ & J & _). unfold setting in J. rewrite T in J.
  inversion J. split; assumption.
Qed.

(* loading keeps a table of a running database *)
Lemma load_core c d : core c -> table d -> core (load_all c d) /\ agree (load_all c d) c.
Proof.
  intros ([S I] & V & U) [Sd Id]. assert (Sh : same_shape c d) by (unfold same_shape in *; congruence). pose proof (agree_load c d Sh V) as A. split; [|exact A].
  assert (S' : same_shape (load_all c d) defaults). { pose proof (shape_load_all c d Sh) as X. unfold same_shape in *. congruence. }
  split; [split; [exact S'|]|split].
  - clear - I Id Sh. revert d Id Sh. induction c as [|v c IH]; intros [|w d] Id Sh; try discriminate; [constructor|].
    unfold same_shape in Sh. cbn [map] in Sh. injection Sh as Ha Hb Hc Sh. inversion I as [|x y I1 I2]; subst x y. inversion Id as [|x y J1 J2]; subst x y.
    unfold load_all. cbn [combine map fst snd]. constructor; [|apply (IH I2 d J2 Sh)]. unfold load. destruct (ephemeral v); [exact J1|].
    destruct (v_type v); cbn [var_int_set var_string_set v_int]; try assumption. destruct (negb _); reflexivity.
  - clear - V I Id Sh. revert d Id Sh. unfold saves in *. induction c as [|v c IH]; intros [|w d] Id Sh; try discriminate; [constructor|].
    unfold same_shape in Sh. cbn [map] in Sh. injection Sh as Ha Hb Hc Sh. assert (Hs : shape v = shape w) by (unfold shape; congruence).
    inversion I as [|x y I1 I2]; subst x y. inversion Id as [|x y J1 J2]; subst x y. inversion V as [|x y V1 V2]; subst x y.
    unfold load_all. cbn [combine map fst snd]. constructor; [|apply (IH I2 V2 d J2 Sh)]. intro E.
    assert (Ev : ephemeral v = false). { pose proof (shape_load v w) as X. apply shape_parts in X. destruct X as (_ & _ & X). unfold ephemeral in *. congruence. }
    specialize (V1 Ev). split; [|split].
    + unfold load. rewrite Ev. destruct (v_type v); cbn [var_int_set var_string_set v_int]; try assumption. destruct (negb _); reflexivity.
    + rewrite setting_load by auto. rewrite Ev. apply V1.
    + intro T. unfold load in *. rewrite Ev in *. destruct (v_type v) eqn:Tv; cbn [var_int_set var_string_set v_type] in T; try congruence.
      right. exists (setting v). split; [apply V1|]. right. reflexivity.
  - rewrite (agree_uuid _ _ A S). exact U.
Qed.

(* the three variables hold a view *)
Definition in_vars (cfg : config) (v : view) : Prop :=
  holds (var_bytes cfg "clouds") (map cloud_value (vw_clouds v)) /\
  holds (var_bytes cfg "storages") (map source_value (vw_storages v)) /\
  holds (var_bytes cfg "pipeline") (map tier_value (vw_tiers v)).
Lemma data_vars cfg : same_shape cfg defaults -> data_var cfg "clouds" /\ data_var cfg "storages" /\ data_var cfg "pipeline".
Proof.
  intro S. assert (DV : forall name, (exists v, config_find defaults (chars name) = Some v /\ v_type v = VAR_DATA /\ ephemeral v = false) -> data_var cfg name).
  { intros name (v & F & T & E). destruct (find_shape cfg defaults _ v S F) as (x & Fx & Ex). apply shape_parts in Ex. destruct Ex as (_ & E2 & E3). exists x. unfold ephemeral in *. repeat split; congruence. }
  repeat split; apply DV; vm_compute; eexists; repeat split; reflexivity.
Qed.
Lemma set_bytes_table cfg name b : data_var cfg name -> table cfg -> table (set_bytes cfg name b) /\ agree (set_bytes cfg name b) cfg.
Proof.
  intros (v & F & T & E) [S I]. unfold set_bytes. rewrite F. assert (A : agree (config_put cfg (var_string_set v b)) cfg) by (apply (agree_put cfg (chars name) v); auto).
  split; [|exact A]. split; [pose proof (agree_shape _ _ A) as X; unfold same_shape in *; congruence|].
  pose proof (find_in _ _ _ F) as Iv. assert (Hv : (v_int v < 2 ^ 64)%N) by (rewrite Forall_forall in I; apply I, Iv). clear - I Hv.
  induction cfg as [|a c IH]; [constructor|]. inversion I as [|x y I1 I2]; subst x y. cbn [config_put]. destruct (same_bytes _ _); constructor; auto.
Qed.
Lemma store_ok cfg c : core cfg -> sound c -> settings_json (view_of c) ->
  core (catalog_store cfg c) /\ agree (catalog_store cfg c) cfg /\ in_vars (catalog_store cfg c) (view_of c).
Proof.
  intros (T & Sv & U) S (J1 & J2 & J3). destruct (so_kept c S) as (K1 & K2 & K3).
  destruct (data_vars cfg (proj1 T)) as (D1 & _ & _). destruct (set_bytes_table cfg "clouds" (va_clouds c) D1 T) as [T1 G1].
  destruct (set_bytes_ok cfg "clouds" _ (va_clouds c) D1 Sv J1 K1) as (A1 & A2 & (v1 & A3 & A4 & A5 & A6) & A7). set (cf1 := set_bytes cfg "clouds" (va_clouds c)) in *.
  destruct (data_vars cf1 (proj1 T1)) as (_ & D2 & _). destruct (set_bytes_table cf1 "storages" (va_storages c) D2 T1) as [T2 G2].
  destruct (set_bytes_ok cf1 "storages" _ (va_storages c) D2 A1 J2 K2) as (B1 & B2 & (v2 & B3 & B4 & B5 & B6) & B7). set (cf2 := set_bytes cf1 "storages" (va_storages c)) in *.
  destruct (data_vars cf2 (proj1 T2)) as (_ & _ & D3). destruct (set_bytes_table cf2 "pipeline" (va_pipeline c) D3 T2) as [T3 G3].
  destruct (set_bytes_ok cf2 "pipeline" _ (va_pipeline c) D3 B1 J3 K3) as (E1 & E2 & (v3 & E3 & E4 & E5 & E6) & E7).
  unfold catalog_store. fold cf1. fold cf2. set (cf3 := set_bytes cf2 "pipeline" (va_pipeline c)) in *.
  assert (G : agree cf3 cfg) by (apply (agree_trans _ _ _ G3), (agree_trans _ _ _ G2), G1).
  split; [|split; [exact G|]].
  - split; [exact T3|]. split; [exact E1|]. rewrite (agree_uuid _ _ G (proj1 T)). exact U.
  - assert (Q1 : config_find cf3 (chars "clouds") = Some v1) by (unfold cf3; rewrite E7, B7 by (vm_compute; discriminate); exact A3).
    assert (Q2 : config_find cf3 (chars "storages") = Some v2) by (unfold cf3; rewrite E7 by (vm_compute; discriminate); exact B3).
    unfold in_vars, var_bytes. rewrite Q1, Q2, E3, A4, B4, E4. auto.
Qed.
Lemma in_vars_load cfg d v : same_shape cfg defaults -> same_shape d defaults -> settings_json v -> in_vars cfg v -> in_vars (load_all cfg d) v.
Proof.
  intros S Sd (J1 & J2 & J3) (H1 & H2 & H3). assert (Sh : same_shape cfg d) by (unfold same_shape in *; congruence).
  destruct (data_vars cfg S) as ((v1 & F1 & T1 & E1) & (v2 & F2 & T2 & E2) & (v3 & F3 & T3 & E3)). unfold var_bytes in H1, H2, H3. rewrite F1 in H1. rewrite F2 in H2. rewrite F3 in H3.
  repeat split; [apply (loaded_bytes cfg d "clouds" _ v1)|apply (loaded_bytes cfg d "storages" _ v2)|apply (loaded_bytes cfg d "pipeline" _ v3)]; assumption.
Qed.
Lemma in_vars_find a b v : config_find a (chars "clouds") = config_find b (chars "clouds") -> config_find a (chars "storages") = config_find b (chars "storages") ->
  config_find a (chars "pipeline") = config_find b (chars "pipeline") -> in_vars b v -> in_vars a v.
Proof. intros E1 E2 E3. unfold in_vars, var_bytes. rewrite E1, E2, E3. auto. Qed.
