(* Opening a catalog from the variables of the settings. *)
From Coq Require Import NArith ZArith Arith String List Bool Lia Permutation.
Import ListNotations.
From Verif Require Import Model.Base Model.Data Model.Lex Model.Uuid Model.Source Model.Catalog.
From Verif Require Import Spec.Value Spec.JsonText Spec.Catalog.
From Verif Require Import Proof.DataL Proof.JsonL Proof.SourceL Proof.CatalogB Proof.CatalogS Proof.CatalogE Proof.CatalogK.

Fixpoint steps {A} (step : catalog -> A -> option catalog) (c : catalog) (l : list A) : res catalog :=
  match l with
  | [] => Ok c
  | a :: l => match step c a with Some c => steps step c l | None => Err end
  end.

Lemma read_all_steps {A} (val : A -> value) read (step : catalog -> A -> option catalog) w r : forall xs c,
  Forall (fun x => forall r, read (enc w (val x) ++ r) = Ok (x, r)) xs ->
  read_all (length xs) read step c (flat_map (enc w) (map val xs) ++ r) = steps step c xs.
Proof.
  induction xs as [|x xs IH]; intros c H; [reflexivity|]. inversion H as [|? ? H1 H2]; subst. cbn [length read_all map flat_map steps].
  rewrite <- app_assoc, H1. cbn [bind]. destruct (step c x); [apply IH, H2|reflexivity].
Qed.
Lemma open_var_enc {A} (val : A -> value) read (step : catalog -> A -> option catalog) w c xs :
  (N.of_nat (length xs) < 2 ^ 31)%N -> Forall (fun x => forall w r, read (enc w (val x) ++ r) = Ok (x, r)) xs ->
  open_var read step c (enc w (VArr (map val xs))) = steps step c xs.
Proof.
  intros Hl H. rewrite enc_arr, map_length. unfold open_var. 
  destruct (any_len_head w MN_ARRAYV0 (N.of_nat (length xs)) (flat_map (enc w) (map val xs))) as (t & u & E & Ht).
  rewrite E. assert (G : (t =? MN_NULL)%N = false) by (apply N.eqb_neq; unfold MN_ARRAYV0, MN_NULL in *; lia). rewrite G, <- E, any_len_read by exact Hl.
  cbn [bind]. replace (Z.to_nat (Z.of_N (N.of_nat (length xs)))) with (length xs) by lia.
  rewrite <- (app_nil_r (flat_map (enc w) (map val xs))). apply read_all_steps. revert H. apply Forall_impl. auto.
Qed.
Lemma open_var_holds {A} (val : A -> value) read (step : catalog -> A -> option catalog) c var xs :
  holds var (map val xs) -> (N.of_nat (length xs) < 2 ^ 31)%N -> Forall (fun x => forall w r, read (enc w (val x) ++ r) = Ok (x, r)) xs ->
  open_var read step c var = steps step c xs.
Proof.
  intros [->|[->|[E [->| ->]]]] Hl H.
  - apply (open_var_enc val read step false c xs Hl H).
  - apply (open_var_enc val read step true c xs Hl H).
  - apply map_eq_nil in E. subst xs. reflexivity.
  - apply map_eq_nil in E. subst xs. reflexivity.
Qed.

Lemma array_ok {A} (val : A -> value) xs : json_ok (VArr (map val xs)) -> (N.of_nat (length xs) < 2 ^ 31)%N /\ Forall (fun x => value_ok (val x)) xs.
Proof.
  intro H. inversion H as [| | | |l Hl Hf|]; subst. rewrite map_length in Hl. split; [exact Hl|]. rewrite Forall_map in Hf.
  revert Hf. apply Forall_impl. intros x Hx. apply json_ok_value, Hx.
Qed.

(* the clouds *)
Definition type_fine (k : cloudc) : Prop := cc_type k = chars "mock" \/ cc_type k = chars "s3".
Lemma create_object_iff c k : (exists c', cloud_create_object c k = Some c') <-> type_fine k.
Proof.
  unfold cloud_create_object, type_fine. destruct (cloud_interface (cc_type k)) eqn:E.
  - split; [intros _; apply interface_ok, E|intros _; eexists; reflexivity].
  - split; [intros [? ?]; discriminate|]. intros [H|H]; rewrite H in E; discriminate.
Qed.
Definition same_vars (c c' : catalog) : Prop := va_clouds c' = va_clouds c /\ va_storages c' = va_storages c /\ va_pipeline c' = va_pipeline c.
Lemma clouds_opened mn : forall ks c c', bcat_ mn c -> NoDup (map cc_name (confs c) ++ map cc_name ks) -> steps cloud_create_object c ks = Ok c' ->
  bcat_ mn c' /\ confs c' = confs c ++ ks /\ ca_storages c' = ca_storages c /\ ca_tiers c' = ca_tiers c /\ same_vars c c'.
Proof.
  induction ks as [|k ks IH]; intros c c' B D H; cbn [steps] in H.
  - injection H as <-. rewrite app_nil_r. unfold same_vars. auto 10.
  - destruct (cloud_create_object c k) as [c1|] eqn:E; [|discriminate].
    assert (B1 : bcat_ mn c1).
    { eapply create_object_base; [exact B| |exact E]. cbn [map] in D. apply NoDup_remove_2 in D. intro Hn. apply D. apply in_or_app. left. unfold confs. rewrite map_map. exact Hn. }
    unfold cloud_create_object in E. destruct (cloud_interface _); [|discriminate]. injection E as <-.
    apply IH in H; [|exact B1|].
    + destruct H as (H1 & H2 & H3 & H4 & H5). split; [exact H1|]. split; [|auto]. rewrite H2. unfold confs. cbn [fresh set_clouds ca_clouds]. rewrite map_app, <- app_assoc. reflexivity.
    + unfold confs. cbn [fresh set_clouds ca_clouds]. rewrite !map_app. cbn [map cl_conf]. rewrite <- app_assoc. cbn [app map] in *. exact D.
Qed.
Lemma clouds_open : forall ks c, Forall type_fine ks -> exists c', steps cloud_create_object c ks = Ok c'.
Proof.
  induction ks as [|k ks IH]; intros c H; [eexists; reflexivity|]. inversion H as [|? ? H1 H2]; subst. apply (proj2 (create_object_iff c k)) in H1. destruct H1 as [c1 E].
  cbn [steps]. rewrite E. apply IH, H2.
Qed.

(* the storages *)
Definition cloud_known (names : list (list byte)) (s : source) : Prop := so_cloud s = [] \/ In (so_cloud s) names.
Lemma create_storage_iff w c s : (exists c', storage_create_object w false c s = Some c') <-> cloud_known (map cl_name (ca_clouds c)) s.
Proof.
  unfold storage_create_object, storage_set_cloud, cloud_known. cbn [source_copy so_cloud]. destruct (so_cloud s) as [|b t] eqn:E.
  - split; [auto|intros _; eexists; reflexivity].
  - set (c1 := fresh _). rewrite (find_same_clouds c1 c) by reflexivity. destruct (cloud_find c (b :: t)) as [k|] eqn:F.
    + cbn [andb]. split; [|intros _; eexists; reflexivity]. intros _. right. apply cloud_find_some in F. destruct F as [F1 F2]. rewrite <- F2. apply in_map, F1.
    + split; [intros [? ?]; discriminate|]. intros [H|H]; [discriminate|]. elim (cloud_find_none _ _ F H).
Qed.
Definition uuid_fine (s : source) : Prop := (u_a (so_uuid s) < 2 ^ 64)%N /\ (u_b (so_uuid s) < 2 ^ 64)%N.
Lemma create_object_tiers w at_ c s c' : storage_create_object w at_ c s = Some c' -> ca_tiers c' = ca_tiers c.
Proof.
  unfold storage_create_object. destruct (storage_set_cloud _ _ _ _ _) as [c2 ok] eqn:E. destruct ok; [|discriminate]. intro H. injection H as <-.
  apply set_cloud_done in E. destruct E as [E _]. exact E.
Qed.
Lemma storages_opened mn w : forall ss c c', bcat_ mn c -> links (ca_storages c) (ca_tiers c) -> NoDup (map so_name (sources c) ++ map so_name ss) -> Forall uuid_fine ss ->
  steps (storage_create_object w false) c ss = Ok c' ->
  bcat_ mn c' /\ links (ca_storages c') (ca_tiers c') /\ confs c' = confs c /\ sources c' = sources c ++ map as_created ss /\ ca_tiers c' = ca_tiers c /\ same_vars c c'.
Proof.
  induction ss as [|s ss IH]; intros c c' B L D U H; cbn [steps] in H.
  - injection H as <-. cbn [map]. rewrite app_nil_r. unfold same_vars. auto 10.
  - destruct (storage_create_object w false c s) as [c1|] eqn:E; [|discriminate]. inversion U as [|? ? U1 U2]; subst.
    assert (B1 : bcat_ mn c1).
    { eapply create_object_storage; [exact B| |apply U1|apply U1|exact E]. cbn [map] in D. apply NoDup_remove_2 in D. intro Hn. apply D. apply in_or_app. left. unfold sources. rewrite map_map. exact Hn. }
    pose proof (create_object_links _ _ _ _ _ _ B L E) as L1. pose proof (create_object_tiers _ _ _ _ _ E) as T1.
    apply create_object_settings in E. destruct E as (E1 & E2 & _ & E4 & E5 & E6).
    apply IH in H; [|exact B1|exact L1| |exact U2].
    + destruct H as (H1 & H2 & H3 & H4 & H5 & H6 & H7 & H8). split; [exact H1|]. split; [exact H2|]. split; [congruence|]. split; [|split; [congruence|unfold same_vars; repeat split; congruence]].
      rewrite H4, E2, <- app_assoc. reflexivity.
    + rewrite E2, map_app, <- app_assoc. exact D.
Qed.
Lemma storages_open w : forall ss c, (exists c', steps (storage_create_object w false) c ss = Ok c') <-> Forall (cloud_known (map cc_name (confs c))) ss.
Proof.
  induction ss as [|s ss IH]; intro c; cbn [steps]; [split; [constructor|intros _; eexists; reflexivity]|].
  pose proof (create_storage_iff w c s) as I. assert (Ec : map cl_name (ca_clouds c) = map cc_name (confs c)) by (unfold confs; rewrite map_map; reflexivity). rewrite Ec in I.
  destruct (storage_create_object w false c s) as [c1|] eqn:E.
  - apply create_object_settings in E. destruct E as (E1 & _). rewrite IH, E1. split; intro H.
    + constructor; [apply I; eexists; reflexivity|exact H].
    + inversion H; assumption.
  - split; [intros [? ?]; discriminate|]. intro H. inversion H as [|? ? H1 H2]; subst. apply I in H1. destruct H1; discriminate.
Qed.

(* the tiers *)
Lemma tier_step c t c' mn : bcat_ mn c -> links (ca_storages c) (ca_tiers c) -> pipeline_open_step c t = Some c' ->
  bcat_ mn c' /\ links (ca_storages c') (ca_tiers c') /\ confs c' = confs c /\ sources c' = sources c /\ tconfs c' = tconfs c ++ [t] /\ same_vars c c'.
Proof.
  intros B L H. unfold pipeline_open_step in H. destruct (storage_find c (tc_name t)) as [s|] eqn:F; [|discriminate]. injection H as <-.
  apply storage_find_some in F. destruct F as [Hs En]. set (new := mk_tier t (st_id s)).
  split; [|split; [|unfold same_vars; repeat split]].
  - unfold bcat_. cbn [storage_ref set_storages set_tiers ca_clouds ca_storages ca_tiers ca_next]. unfold on_storage.
    rewrite (map_ext (fun x => if st_id x =? st_id s then storage_add_refs 1 x else x) (fun x => storage_add_refs ((fun i => if (i =? st_id s)%nat then 1%Z else 0%Z) (st_id x)) x)).
    + apply (refs_moved _ _ _ _ _ _ (fun i => if (i =? st_id s)%nat then 1%Z else 0%Z) B).
      * apply Forall_app. split; [exact (b_tiers _ _ _ _ _ B)|]. constructor; [|constructor]. cbn [new ti_storage]. apply in_map, Hs.
      * intros x _. unfold cnt. rewrite filter_app, app_length. cbn [filter new uses_storage]. unfold uses_storage at 2. cbn [ti_storage new]. rewrite (Nat.eqb_sym (st_id s)). destruct (_ =? _); cbn [length]; lia.
    + intro x. destruct (_ =? _); [reflexivity|]. destruct x. unfold storage_add_refs. cbn. f_equal. lia.
  - cbn [storage_ref set_storages set_tiers ca_storages ca_tiers]. eapply links_core; [apply core_refs|]. destruct L as [A L]. split; [exact A|].
    apply Forall_app. split; [exact L|]. constructor; [|constructor]. intros x Hx Ex. cbn [new ti_storage] in Ex.
    assert (x = s) by (apply (name_unique st_id (ca_storages c)); [exact (b_sids _ _ _ _ _ B)|exact Hx|exact Hs|exact Ex]). subst x. symmetry. exact En.
  - unfold sources. cbn [storage_ref set_storages set_tiers ca_storages]. unfold on_storage. rewrite map_map. apply map_ext. intro x. destruct (_ =? _); reflexivity.
  - unfold tconfs. cbn [storage_ref set_storages set_tiers ca_tiers]. rewrite map_app. reflexivity.
Qed.
Lemma tiers_opened mn : forall ts c c', bcat_ mn c -> links (ca_storages c) (ca_tiers c) -> steps pipeline_open_step c ts = Ok c' ->
  bcat_ mn c' /\ links (ca_storages c') (ca_tiers c') /\ confs c' = confs c /\ sources c' = sources c /\ tconfs c' = tconfs c ++ ts /\ same_vars c c'.
Proof.
  induction ts as [|t ts IH]; intros c c' B L H; cbn [steps] in H.
  - injection H as <-. rewrite app_nil_r. unfold same_vars. auto 10.
  - destruct (pipeline_open_step c t) as [c1|] eqn:E; [|discriminate]. destruct (tier_step c t c1 mn B L E) as (B1 & L1 & E1 & E2 & E3 & E4 & E5 & E6).
    destruct (IH c1 c' B1 L1 H) as (H1 & H2 & H3 & H4 & H5 & H6 & H7 & H8). split; [exact H1|]. split; [exact H2|]. split; [congruence|]. split; [congruence|].
    split; [rewrite H5, E3, <- app_assoc; reflexivity|unfold same_vars; repeat split; congruence].
Qed.
Lemma step_sources c t c' : pipeline_open_step c t = Some c' -> sources c' = sources c.
Proof.
  unfold pipeline_open_step. destruct (storage_find _ _); [|discriminate]. intro H. injection H as <-.
  unfold sources. cbn [storage_ref set_storages set_tiers ca_storages]. unfold on_storage. rewrite map_map. apply map_ext. intro x. destruct (_ =? _); reflexivity.
Qed.
Lemma tiers_open : forall ts c, (exists c', steps pipeline_open_step c ts = Ok c') <-> Forall (fun t => In (tc_name t) (map so_name (sources c))) ts.
Proof.
  induction ts as [|t ts IH]; intro c; cbn [steps]; [split; [constructor|intros _; eexists; reflexivity]|].
  assert (Ec : map st_name (ca_storages c) = map so_name (sources c)) by (unfold sources; rewrite map_map; reflexivity).
  destruct (pipeline_open_step c t) as [c1|] eqn:E.
  - rewrite IH, (step_sources _ _ _ E). split; intro H; [|inversion H; assumption]. constructor; [|exact H]. unfold pipeline_open_step in E.
    destruct (storage_find c (tc_name t)) as [s|] eqn:F; [|discriminate]. apply storage_find_some in F. destruct F as [F1 F2]. rewrite <- Ec, <- F2. apply in_map, F1.
  - split; [intros [? ?]; discriminate|]. intro H. inversion H as [|? ? H1 H2]; subst. unfold pipeline_open_step in E.
    destruct (storage_find c (tc_name t)) eqn:F; [discriminate|]. apply storage_find_none in F. rewrite Ec in F. contradiction.
Qed.

(* the main storage *)
Lemma main_opened w c id cm lv c' : bcat_ false c -> links (ca_storages c) (ca_tiers c) -> create_main w c id cm lv = Ok c' ->
  bcat c' /\ links (ca_storages c') (ca_tiers c') /\ confs c' = confs c /\ ca_tiers c' = ca_tiers c /\
  va_clouds c' = va_clouds c /\ va_pipeline c' = va_pipeline c /\
  ((In main_name (map so_name (sources c)) /\ sources c' = sources c /\ va_storages c' = va_storages c) \/
   (exists u, uuid_from_string id = Some u /\ ~ In main_name (map so_name (sources c)) /\
      sources c' = sources c ++ [main_source u cm lv] /\ kepts c')).
Proof.
  intros B L. unfold create_main. destruct (uuid_from_string id) as [u|] eqn:U; [|discriminate]. unfold storage_create. cbn [main_source so_name].
  assert (Ec : map st_name (ca_storages c) = map so_name (sources c)) by (unfold sources; rewrite map_map; reflexivity).
  destruct (storage_find c main_name) as [s|] eqn:F.
  - intro H. injection H as <-. assert (G : In main_name (map st_name (ca_storages c))) by (apply storage_find_some in F; destruct F as [F1 F2]; rewrite <- F2; apply in_map, F1).
    split; [|rewrite <- Ec; auto 10]. destruct B. constructor; try assumption. intros _. exact G.
  - destruct (negb (wo_mkdir w)); [discriminate|]. destruct (storage_create_object w true c (main_source u cm lv)) as [c1|] eqn:E; [|discriminate]. intro H. injection H as <-.
    apply storage_find_none in F. pose proof (uuid_bits _ _ U) as [U1 U2].
    assert (B1 : bcat_ false c1) by exact (create_object_storage false w true c (main_source u cm lv) c1 B F U1 U2 E).
    pose proof (create_object_links _ _ _ _ _ _ B L E) as L1. pose proof (create_object_tiers _ _ _ _ _ E) as T1. pose proof (create_object_settings _ _ _ _ _ E) as (E1 & E2 & _ & E4 & E5 & E6).
    assert (E2' : as_created (main_source u cm lv) = main_source u cm lv).
    { unfold as_created, main_source. cbn [so_uuid so_name so_path so_cloud so_drop_local so_sync so_crc so_refresh_wm so_region_size so_compression so_level so_encryption so_key].
      f_equal. destruct cm; [reflexivity|]. rewrite narrow_kept. apply kept_kept. }
    rewrite E2' in E2. split; [|split; [exact L1|]].
    + change (bcat c1). destruct B1. constructor; try assumption. intros _. assert (Ec1 : map st_name (ca_storages c1) = map so_name (sources c1)) by (unfold sources; rewrite map_map; reflexivity).
      rewrite Ec1, E2, map_app. apply in_or_app. right. left. reflexivity.
    + split; [exact E1|]. split; [exact T1|]. split; [exact E4|]. split; [exact E6|]. right. exists u. split; [reflexivity|]. split; [rewrite <- Ec; exact F|]. split; [exact E2|]. apply saved_storages.
Qed.

Definition empty_catalog cs ss ps := mk_catalog [] [] [] 0 cs ss ps.
Lemma empty_base cs ss ps : bcat_ false (empty_catalog cs ss ps).
Proof. constructor; cbn; try constructor; discriminate. Qed.
Lemma empty_links cs ss ps : links (ca_storages (empty_catalog cs ss ps)) (ca_tiers (empty_catalog cs ss ps)).
Proof. split; constructor. Qed.

(* what the settings must be for any of this *)
Record fit (v : view) : Prop := mk_fit {
  ft_cnames : NoDup (map cc_name (vw_clouds v));
  ft_snames : NoDup (map so_name (vw_storages v));
  ft_types : Forall type_fine (vw_clouds v);
  ft_bits : Forall (fun s => as_created s = s /\ uuid_fine s) (vw_storages v);
  ft_json : settings_json v }.

Lemma fit_view c : bcat c -> settings_json (view_of c) -> fit (view_of c).
Proof.
  intros B J. constructor; cbn [view_of vw_clouds vw_storages vw_tiers]; rewrite ?map_map.
  - exact (b_cnames _ _ _ _ _ B).
  - exact (b_snames _ _ _ _ _ B).
  - apply Forall_map. exact (b_types _ _ _ _ _ B).
  - apply Forall_map. exact (b_bits _ _ _ _ _ B).
  - exact J.
Qed.

(* opening in terms of the lists *)
Lemma open_steps w id cm lv v cs ss ps : fit v -> 
  holds cs (map cloud_value (vw_clouds v)) -> holds ss (map source_value (vw_storages v)) -> holds ps (map tier_value (vw_tiers v)) ->
  catalog_open w id cm lv cs ss ps =
  bind (steps cloud_create_object (empty_catalog cs ss ps) (vw_clouds v)) (fun c =>
  bind (steps (storage_create_object w false) c (vw_storages v)) (fun c =>
  bind (create_main w c id cm lv) (fun c => steps pipeline_open_step c (vw_tiers v)))).
Proof.
  intros [_ _ _ Bi (J1 & J2 & J3)] H1 H2 H3. unfold catalog_open. fold (empty_catalog cs ss ps).
  apply array_ok in J1. apply array_ok in J2. apply array_ok in J3. destruct J1 as [L1 J1], J2 as [L2 J2], J3 as [L3 J3].
  rewrite (open_var_holds cloud_value cloudc_read cloud_create_object _ cs (vw_clouds v) H1 L1); [|revert J1; apply Forall_impl; intros x Hx w' r; apply cloudc_read_enc, Hx].
  destruct (steps cloud_create_object _ _) as [c1| |]; [|reflexivity|reflexivity]. cbn [bind].
  rewrite (open_var_holds source_value source_read _ c1 ss (vw_storages v) H2 L2).
  2:{ rewrite Forall_forall in J2, Bi |- *. intros x Hx w' r. destruct (Bi x Hx) as [_ [U1 U2]]. apply source_read_enc; [apply J2, Hx|exact U1|exact U2]. }
  destruct (steps (storage_create_object w false) c1 _) as [c2| |]; [|reflexivity|reflexivity]. cbn [bind].
  destruct (create_main w c2 id cm lv) as [c3| |]; [|reflexivity|reflexivity]. cbn [bind].
  rewrite (open_var_holds tier_value tierc_read pipeline_open_step c3 ps (vw_tiers v) H3 L3); [reflexivity|]. revert J3. apply Forall_impl. intros x Hx w' r. apply tierc_read_enc, Hx.
Qed.

Definition with_main (v : view) (s : source) : view := mk_view (vw_clouds v) (vw_storages v ++ [s]) (vw_tiers v).
(* a catalog that was opened *)
Theorem opened w id cm lv v cs ss ps c' : fit v ->
  holds cs (map cloud_value (vw_clouds v)) -> holds ss (map source_value (vw_storages v)) -> holds ps (map tier_value (vw_tiers v)) ->
  catalog_open w id cm lv cs ss ps = Ok c' ->
  consistent c' /\ ((In main_name (map so_name (vw_storages v)) /\ view_of c' = v) \/
    (exists u, uuid_from_string id = Some u /\ ~ In main_name (map so_name (vw_storages v)) /\ view_of c' = with_main v (main_source u cm lv))).
Proof.
  intros F H1 H2 H3. rewrite (open_steps _ _ _ _ v _ _ _ F H1 H2 H3).
  destruct (steps cloud_create_object _ _) as [c1| |] eqn:E1; try discriminate. cbn [bind].
  destruct (steps (storage_create_object w false) c1 _) as [c2| |] eqn:E2; try discriminate. cbn [bind].
  destruct (create_main w c2 id cm lv) as [c3| |] eqn:E3; try discriminate. cbn [bind]. intro E4.
  apply (clouds_opened false) in E1; [|apply empty_base|exact (ft_cnames v F)]. destruct E1 as (B1 & C1 & S1 & T1 & A1 & A2 & A3). cbn [empty_catalog ca_storages ca_tiers va_clouds va_storages va_pipeline] in S1, T1, A1, A2, A3.
  change (confs (empty_catalog cs ss ps)) with (@nil cloudc) in C1. cbn [app] in C1.
  apply (storages_opened false) in E2; [|exact B1|rewrite S1, T1; exact (empty_links cs ss ps)| |].
  2:{ unfold sources. rewrite S1. exact (ft_snames v F). }
  2:{ generalize (ft_bits v F). apply Forall_impl. intros s Hs. apply Hs. }
  destruct E2 as (B2 & L2 & C2 & S2 & T2 & D1 & D2 & D3). unfold sources in S2 at 2. rewrite S1 in S2. cbn [map app] in S2. fold (sources c2) in S2.
  assert (Em : map as_created (vw_storages v) = vw_storages v).
  { rewrite <- (map_id (vw_storages v)) at 2. apply map_ext_in. intros s Hs. pose proof (ft_bits v F) as G. rewrite Forall_forall in G. apply G, Hs. }
  rewrite Em in S2.
  apply main_opened in E3; [|exact B2|exact L2]. destruct E3 as (B3 & L3 & C3 & T3 & G1 & G3 & M).
  apply (tiers_opened true) in E4; [|exact B3|exact L3]. destruct E4 as (B4 & L4 & C4 & S4 & T4 & K1 & K2 & K3).
  assert (Tn : tconfs c3 = []) by (unfold tconfs; rewrite T3, T2, T1; reflexivity). rewrite Tn in T4. cbn [app] in T4.
  assert (Cn : confs c' = vw_clouds v) by congruence.
  destruct M as [(Hm & S3 & V3)|(u & Hu & Hm & S3 & V3)].
  - assert (Sn : sources c' = vw_storages v) by congruence. assert (Ev : view_of c' = v).
    { unfold view_of. fold (confs c') (sources c') (tconfs c'). rewrite Cn, Sn, T4. destruct v; reflexivity. }
    split; [|left; split; [congruence|exact Ev]]. split; [|apply linked_links, L4]. apply sound_base. split; [exact B4|].
    unfold kept. rewrite Ev. replace (va_clouds c') with cs by congruence. replace (va_storages c') with ss by congruence. replace (va_pipeline c') with ps by congruence. auto.
  - assert (Sn : sources c' = vw_storages v ++ [main_source u cm lv]) by congruence. assert (Ev : view_of c' = with_main v (main_source u cm lv)).
    { unfold view_of. fold (confs c') (sources c') (tconfs c'). rewrite Cn, Sn, T4. reflexivity. }
    split; [|right; exists u; split; [exact Hu|]; split; [congruence|exact Ev]]. split; [|apply linked_links, L4]. apply sound_base. split; [exact B4|].
    unfold kept. rewrite Ev. cbn [with_main vw_clouds vw_storages vw_tiers]. replace (va_clouds c') with cs by congruence. replace (va_pipeline c') with ps by congruence.
    split; [exact H1|]. split; [|exact H3]. unfold kepts in V3. rewrite S3, S2, <- K2 in V3. exact V3.
Qed.

(* it can be opened when every name refers to something, and only then *)
Theorem open_iff w id cm lv v cs ss ps : fit v -> In main_name (map so_name (vw_storages v)) -> uuid_from_string id <> None ->
  holds cs (map cloud_value (vw_clouds v)) -> holds ss (map source_value (vw_storages v)) -> holds ps (map tier_value (vw_tiers v)) ->
  ((exists c', catalog_open w id cm lv cs ss ps = Ok c') <-> names_ok v).
Proof.
  intros F Hm Hu H1 H2 H3. rewrite (open_steps _ _ _ _ v _ _ _ F H1 H2 H3).
  destruct (clouds_open (vw_clouds v) (empty_catalog cs ss ps) (ft_types v F)) as [c1 E1]. rewrite E1. cbn [bind].
  apply (clouds_opened false) in E1; [|apply empty_base|exact (ft_cnames v F)]. destruct E1 as (B1 & C1 & S1 & T1 & _). cbn [empty_catalog ca_storages ca_tiers] in S1, T1.
  change (confs (empty_catalog cs ss ps)) with (@nil cloudc) in C1. cbn [app] in C1.
  pose proof (storages_open w (vw_storages v) c1) as I. rewrite C1 in I. unfold names_ok.
  assert (I2 : Forall (cloud_known (map cc_name (vw_clouds v))) (vw_storages v) <-> forall s, In s (vw_storages v) -> so_cloud s = [] \/ In (so_cloud s) (map cc_name (vw_clouds v))) by apply Forall_forall.
  rewrite <- I2, <- I. clear I I2.
  destruct (steps (storage_create_object w false) c1 _) as [c2| |] eqn:E2.
  2,3: cbn [bind]; split; [intros [? ?]; discriminate|intros [[? ?] _]; discriminate].
  cbn [bind]. apply (storages_opened false) in E2; [|exact B1|rewrite S1, T1; exact (empty_links cs ss ps)| |].
  2:{ unfold sources. rewrite S1. exact (ft_snames v F). }
  2:{ generalize (ft_bits v F). apply Forall_impl. intros s Hs. apply Hs. }
  destruct E2 as (B2 & L2 & C2 & S2 & T2 & _). unfold sources in S2 at 2. rewrite S1 in S2. cbn [map app] in S2. fold (sources c2) in S2.
  assert (Em : map as_created (vw_storages v) = vw_storages v).
  { rewrite <- (map_id (vw_storages v)) at 2. apply map_ext_in. intros s Hs. pose proof (ft_bits v F) as G. rewrite Forall_forall in G. apply G, Hs. }
  rewrite Em in S2.
  assert (E3 : create_main w c2 id cm lv = Ok c2).
  { unfold create_main. destruct (uuid_from_string id) as [u|]; [|elim Hu; reflexivity]. unfold storage_create. cbn [main_source so_name].
    destruct (storage_find c2 main_name) eqn:Q; [reflexivity|]. apply storage_find_none in Q. elim Q. rewrite <- S2 in Hm. unfold sources in Hm. rewrite map_map in Hm. exact Hm. }
  rewrite E3. cbn [bind]. rewrite tiers_open, S2, Forall_forall. split; [intro G; split; [eexists; reflexivity|exact G]|intros [_ G]; exact G].
Qed.
