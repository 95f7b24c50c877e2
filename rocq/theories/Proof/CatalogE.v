(* What commands do to the settings, and that the variables follow. *)
From Coq Require Import NArith ZArith Arith String List Bool Lia Permutation.
Import ListNotations.
From Verif Require Import Model.Base Model.Data Model.Lex Model.Uuid Model.Source Model.Catalog.
From Verif Require Import Spec.Value Spec.JsonText Spec.Catalog.
From Verif Require Import Proof.DataL Proof.SourceL Proof.CatalogB Proof.CatalogS.

Lemma is_eq a b : is a b = true <-> a = b.
Proof. unfold is. destruct (name_dec a b); intuition congruence. Qed.
Lemma is_neq a b : is a b = false <-> a <> b.
Proof. unfold is. destruct (name_dec a b); intuition congruence. Qed.
Lemma is_same a b : is a b = same_bytes a b.
Proof. destruct (same_bytes a b) eqn:E; [apply is_eq, same_bytes_eq, E|apply is_neq, same_bytes_neq, E]. Qed.

Lemma cloud_id_name c k x : bcat c -> In k (ca_clouds c) -> In x (ca_clouds c) -> (cl_id x =? cl_id k) = is (cl_name x) (cl_name k).
Proof.
  intros B Hk Hx. destruct (cl_id x =? cl_id k) eqn:E; symmetry.
  - apply Nat.eqb_eq in E. apply is_eq. f_equal. apply (name_unique cl_id _ _ _ (b_cids _ _ _ _ _ B) Hx Hk E).
  - apply is_neq. intro En. apply Nat.eqb_neq in E. apply E. f_equal. apply (name_unique cl_name _ _ _ (b_cnames _ _ _ _ _ B) Hx Hk En).
Qed.
Lemma storage_id_name c k x : bcat c -> In k (ca_storages c) -> In x (ca_storages c) -> (st_id x =? st_id k) = is (st_name x) (st_name k).
Proof.
  intros B Hk Hx. destruct (st_id x =? st_id k) eqn:E; symmetry.
  - apply Nat.eqb_eq in E. apply is_eq. f_equal. apply (name_unique st_id _ _ _ (b_sids _ _ _ _ _ B) Hx Hk E).
  - apply is_neq. intro En. apply Nat.eqb_neq in E. apply E. f_equal. apply (name_unique st_name _ _ _ (b_snames _ _ _ _ _ B) Hx Hk En).
Qed.

Lemma change_cloud c k f g : bcat c -> In k (ca_clouds c) -> (forall x, f x = g x) ->
  map cl_conf (on_cloud (cl_id k) (with_conf f) (ca_clouds c)) = change cc_name (cl_name k) g (map cl_conf (ca_clouds c)).
Proof.
  intros B Hk Hf. unfold on_cloud, change. rewrite !map_map. apply map_ext_in. intros x Hx. rewrite (cloud_id_name c k x B Hk Hx).
  change (cc_name (cl_conf x)) with (cl_name x). destruct (is (cl_name x) (cl_name k)); [apply Hf|reflexivity].
Qed.
Lemma change_storage c k f g : bcat c -> In k (ca_storages c) -> (forall x, In x (ca_storages c) -> st_id x = st_id k -> f (st_source x) = g (st_source x)) ->
  map st_source (on_storage (st_id k) (with_source f) (ca_storages c)) = change so_name (st_name k) g (map st_source (ca_storages c)).
Proof.
  intros B Hk Hf. unfold on_storage, change. rewrite !map_map. apply map_ext_in. intros x Hx. pose proof (storage_id_name c k x B Hk Hx) as E.
  change (so_name (st_source x)) with (st_name x). rewrite <- E. destruct (Nat.eqb_spec (st_id x) (st_id k)); [apply Hf; assumption|reflexivity].
Qed.
Lemma drop_cloud c k : bcat c -> In k (ca_clouds c) ->
  map cl_conf (filter (fun x => negb (cl_id x =? cl_id k)) (ca_clouds c)) = without cc_name (cl_name k) (map cl_conf (ca_clouds c)).
Proof.
  intros B Hk. unfold without. assert (G : forall l, (forall x, In x l -> In x (ca_clouds c)) ->
    map cl_conf (filter (fun x => negb (cl_id x =? cl_id k)) l) = filter (fun a => negb (is (cc_name a) (cl_name k))) (map cl_conf l)); [|apply G; auto].
  induction l as [|x l IH]; intro H; [reflexivity|]. cbn [filter map]. rewrite (cloud_id_name c k x B Hk (H x (or_introl eq_refl))).
  change (cc_name (cl_conf x)) with (cl_name x). destruct (is (cl_name x) (cl_name k)); cbn [negb map]; rewrite IH; auto; intros y Hy; apply H; right; exact Hy.
Qed.
Lemma drop_storage c k : bcat c -> In k (ca_storages c) ->
  map st_source (filter (fun x => negb (st_id x =? st_id k)) (ca_storages c)) = without so_name (st_name k) (map st_source (ca_storages c)).
Proof.
  intros B Hk. unfold without. assert (G : forall l, (forall x, In x l -> In x (ca_storages c)) ->
    map st_source (filter (fun x => negb (st_id x =? st_id k)) l) = filter (fun a => negb (is (so_name a) (st_name k))) (map st_source l)); [|apply G; auto].
  induction l as [|x l IH]; intro H; [reflexivity|]. cbn [filter map]. rewrite (storage_id_name c k x B Hk (H x (or_introl eq_refl))).
  change (so_name (st_source x)) with (st_name x). destruct (is (st_name x) (st_name k)); cbn [negb map]; rewrite IH; auto; intros y Hy; apply H; right; exact Hy.
Qed.

Lemma has_in {A} (name : A -> list byte) n l : has name n l = true <-> In n (map name l).
Proof.
  unfold has. rewrite existsb_exists, in_map_iff. split; intros (x & H & E); exists x; [apply is_eq in E; auto|split; [exact E|apply is_eq; exact H]].
Qed.
Lemma change_none {A} (name : A -> list byte) n f l : ~ In n (map name l) -> change name n f l = l.
Proof.
  intro H. unfold change. rewrite <- (map_id l) at 2. apply map_ext_in. intros x Hx. destruct (is (name x) n) eqn:E; [|reflexivity].
  apply is_eq in E. elim H. rewrite <- E. apply in_map, Hx.
Qed.
Lemma without_none {A} (name : A -> list byte) n l : ~ In n (map name l) -> without name n l = l.
Proof.
  intro H. unfold without. induction l as [|x l IH]; [reflexivity|]. cbn [filter]. rewrite (proj2 (is_neq _ _)) by (intro E; apply H; left; exact E).
  cbn [negb]. rewrite IH; [reflexivity|]. intro Hx. apply H. right. exact Hx.
Qed.
Lemma cl_names c : map cl_name (ca_clouds c) = map cc_name (vw_clouds (view_of c)).
Proof. cbn. rewrite map_map. reflexivity. Qed.
Lemma st_names c : map st_name (ca_storages c) = map so_name (vw_storages (view_of c)).
Proof. cbn. rewrite map_map. reflexivity. Qed.

(* changes that are not settings *)
Lemma conf_refs d i l : map cl_conf (on_cloud i (cloud_add_refs d) l) = map cl_conf l.
Proof. unfold on_cloud. rewrite map_map. apply map_ext. intro x. destruct (_ =? _); reflexivity. Qed.
Lemma source_cloud o i l : map st_source (on_storage i (with_cloud o) l) = map st_source l.
Proof. unfold on_storage. rewrite map_map. apply map_ext. intro x. destruct (_ =? _); reflexivity. Qed.
Lemma source_parts o i l : map st_source (on_storage i (with_parts o) l) = map st_source l.
Proof. unfold on_storage. rewrite map_map. apply map_ext. intro x. destruct (_ =? _); reflexivity. Qed.

(* the settings of the three lists, separately *)
Definition confs (c : catalog) := map cl_conf (ca_clouds c).
Definition sources (c : catalog) := map st_source (ca_storages c).
Definition tconfs (c : catalog) := map ti_conf (ca_tiers c).
Definition keptc c := holds (va_clouds c) (map cloud_value (confs c)).
Definition kepts c := holds (va_storages c) (map source_value (sources c)).
Definition keptt c := holds (va_pipeline c) (map tier_value (tconfs c)).
Lemma kept_parts c : kept c <-> keptc c /\ kepts c /\ keptt c.
Proof. reflexivity. Qed.
Lemma saved_clouds c : keptc (cloud_save c).
Proof.
  left. cbn [cloud_save va_clouds]. rewrite (dump_value _ (fun k => cloud_value (cl_conf k))); [unfold confs; rewrite map_map; reflexivity|].
  intro. apply cloudc_write_value.
Qed.
Lemma saved_storages c : kepts (storage_save c).
Proof.
  left. cbn [storage_save va_storages]. rewrite (dump_value _ (fun k => source_value (st_source k))); [unfold sources; rewrite map_map; reflexivity|].
  intro. apply source_write_value.
Qed.
Lemma saved_tiers c : keptt (pipeline_save c).
Proof.
  left. cbn [pipeline_save va_pipeline]. rewrite (dump_value _ (fun k => tier_value (ti_conf k))); [unfold tconfs; rewrite map_map; reflexivity|].
  intro. apply tierc_write_value.
Qed.

(* what storage_set_cloud leaves *)
Definition same_settings (c c' : catalog) : Prop :=
  confs c' = confs c /\ sources c' = sources c /\ tconfs c' = tconfs c /\
  va_clouds c' = va_clouds c /\ va_storages c' = va_storages c /\ va_pipeline c' = va_pipeline c.
Lemma same_trans a b c : same_settings a b -> same_settings b c -> same_settings a c.
Proof. intros (A1 & A2 & A3 & A4 & A5 & A6) (B1 & B2 & B3 & B4 & B5 & B6). repeat split; congruence. Qed.
Lemma same_kept c c' : same_settings c c' -> kept c -> kept c'.
Proof.
  intros (A1 & A2 & A3 & A4 & A5 & A6). rewrite !kept_parts. unfold keptc, kepts, keptt. rewrite A1, A2, A3, A4, A5, A6. auto.
Qed.
Lemma same_view c c' : same_settings c c' -> view_of c' = view_of c.
Proof. intros (A1 & A2 & A3 & _). unfold view_of. unfold confs, sources, tconfs in *. congruence. Qed.
Lemma same_refl c : same_settings c c.
Proof. repeat split. Qed.
Lemma same_cloud_ref c i : same_settings c (cloud_ref c i).
Proof. repeat split. apply conf_refs. Qed.
Lemma same_cloud_unref c i : same_settings c (cloud_unref c i).
Proof. repeat split. apply conf_refs. Qed.
Lemma same_unlink c o : same_settings c (unlink_cloud c o).
Proof. destruct o; [apply same_cloud_unref|apply same_refl]. Qed.
Lemma same_with_cloud c i o : same_settings c (set_storages c (on_storage i (with_cloud o) (ca_storages c))).
Proof. repeat split. apply source_cloud. Qed.
Lemma same_set_cloud w at_ c i s : same_settings c (fst (storage_set_cloud w at_ c i s)).
Proof.
  unfold storage_set_cloud. destruct (so_cloud s); [apply same_refl|]. destruct (cloud_find c _) as [k|]; [|apply same_refl].
  destruct (_ && _); [apply same_refl|]. cbn [fst]. eapply same_trans; [apply same_with_cloud|apply same_cloud_ref].
Qed.
Lemma create_object_settings w at_ c s c' : storage_create_object w at_ c s = Some c' ->
  confs c' = confs c /\ sources c' = sources c ++ [as_created s] /\ tconfs c' = tconfs c /\
  va_clouds c' = va_clouds c /\ va_storages c' = va_storages c /\ va_pipeline c' = va_pipeline c.
Proof.
  unfold storage_create_object. set (c1 := fresh _). intro H. pose proof (same_set_cloud w at_ c1 (ca_next c) (source_copy s)) as G.
  destruct (storage_set_cloud w at_ c1 (ca_next c) (source_copy s)) as [c2 ok]. destruct ok; [|discriminate]. injection H as <-. cbn [fst] in G.
  destruct G as (-> & -> & -> & -> & -> & ->). repeat split. unfold sources. cbn [c1 fresh set_storages ca_storages]. rewrite map_app. cbn. rewrite source_copy_created. reflexivity.
Qed.

(* the effect of commands that succeed *)

Lemma rename_first_effect n m l : length (filter (fun t => is (ti_name t) n) l) <= 1 ->
  map ti_conf (match rename_first n m l with Some r => r | None => l end)
  = change tc_name n (fun t => mk_tierc m (tc_partitions t) (tc_size t) (tc_events t) (tc_duration t)) (map ti_conf l).
Proof.
  induction l as [|t l IH]; intro H; [reflexivity|]. cbn [rename_first filter] in *. rewrite <- is_same. unfold change. cbn [map].
  change (tc_name (ti_conf t)) with (ti_name t). destruct (is (ti_name t) n) eqn:E.
  - cbn [map ti_conf]. f_equal. symmetry. apply change_none. intro Hn. rewrite map_map in Hn. apply in_map_iff in Hn. destruct Hn as (x & Ex & Hx).
    cbn [length] in H. destruct (filter (fun t => is (ti_name t) n) l) as [|y r] eqn:F; [|cbn in H; lia].
    assert (In x []) by (rewrite <- F; apply filter_In; split; [exact Hx|apply is_eq, Ex]). contradiction.
  - specialize (IH H). unfold change in IH. destruct (rename_first n m l) as [r|]; cbn [map]; f_equal; exact IH.
Qed.

Lemma set_cloud_true c' (p : catalog * bool) : p = (c', true) -> fst p = c'.
Proof. intros ->. reflexivity. Qed.

Theorem execute_effect w c cmd c' : bcat c -> once c cmd -> execute w c cmd = (c', true) -> view_of c' = effect cmd (view_of c).
Proof.
  intros B Ho H. destruct cmd as [k e|n e|n a e|n m e|s e|n e|n a e|n m e|l|n l]; cbn [execute effect] in *.
  - unfold cloud_create in H. destruct (cloud_find c (cc_name k)) as [x|] eqn:F.
    + injection H as <- _. apply cloud_find_some in F. destruct F as [Hx En]. rewrite (proj2 (has_in _ _ _)); [reflexivity|].
      rewrite <- cl_names, <- En. apply in_map, Hx.
    + apply cloud_find_none in F. unfold cloud_create_object in H. destruct (cloud_interface (cc_type k)); [|discriminate]. injection H as <-.
      destruct (has cc_name (cc_name k) (vw_clouds (view_of c))) eqn:G; [apply has_in in G; rewrite <- cl_names in G; contradiction|].
      unfold view_of. cbn. rewrite map_app. reflexivity.
  - unfold cloud_drop in H. destruct (cloud_find c n) as [k|] eqn:F.
    + destruct (0 <? cl_refs k)%Z; [discriminate|]. injection H as <-. apply cloud_find_some in F. destruct F as [Hk <-].
      unfold view_of. cbn [cloud_save set_clouds ca_clouds ca_storages ca_tiers vw_clouds vw_storages vw_tiers]. rewrite drop_cloud by assumption. reflexivity.
    + injection H as <- _. apply cloud_find_none in F. rewrite cl_names in F. rewrite without_none by exact F. destruct (view_of c); reflexivity.
  - unfold cloud_alter in H. destruct (cloud_find c n) as [k|] eqn:F.
    + injection H as <-. apply cloud_find_some in F. destruct F as [Hk <-].
      unfold view_of. cbn [cloud_save set_clouds ca_clouds ca_storages ca_tiers vw_clouds vw_storages vw_tiers]. rewrite (change_cloud c k _ (cloud_altered a)); auto.
    + injection H as <- _. apply cloud_find_none in F. rewrite cl_names in F. rewrite change_none by exact F. destruct (view_of c); reflexivity.
  - assert (R : forall l, map st_source (map (fun s => if same_bytes (so_cloud (st_source s)) n then with_source (fun x => source_set_cloud x m) s else s) l)
                = change so_cloud n (fun s => source_set_cloud s m) (map st_source l)).
    { intro l. unfold change. rewrite !map_map. apply map_ext. intro s. rewrite is_same. destruct (same_bytes _ _); reflexivity. }
    unfold cloud_rename in H. destruct (cloud_find c n) as [k|] eqn:F.
    + destruct (cloud_find c m); [discriminate|]. injection H as <-. apply cloud_find_some in F. destruct F as [Hk <-].
      unfold view_of. cbn [storage_rename_cloud storage_save cloud_save set_storages set_clouds ca_clouds ca_storages ca_tiers vw_clouds vw_storages vw_tiers].
      rewrite R. rewrite (change_cloud c k _ (fun k => mk_cloudc m (cc_type k) (cc_login k) (cc_password k) (cc_url k) (cc_debug k))); auto.
    + destruct e; [|discriminate]. injection H as <-. apply cloud_find_none in F. rewrite cl_names in F. rewrite change_none by exact F.
      unfold view_of. cbn [storage_rename_cloud storage_save set_storages ca_clouds ca_storages ca_tiers vw_clouds vw_storages vw_tiers]. rewrite R. reflexivity.
  - unfold storage_create in H. destruct (storage_find c (so_name s)) as [x|] eqn:F.
    + injection H as <- _. apply storage_find_some in F. destruct F as [Hx En]. rewrite (proj2 (has_in _ _ _)); [reflexivity|]. rewrite <- st_names, <- En. apply in_map, Hx.
    + apply storage_find_none in F. destruct (negb (wo_mkdir w)); [discriminate|]. destruct (storage_create_object w true c s) as [c1|] eqn:E; [|discriminate]. injection H as <-.
      destruct (has so_name (so_name s) (vw_storages (view_of c))) eqn:G; [apply has_in in G; rewrite <- st_names in G; contradiction|].
      apply create_object_settings in E. destruct E as (E1 & E2 & E3 & _). unfold view_of. unfold confs, sources, tconfs in *.
      cbn [storage_save ca_clouds ca_storages ca_tiers vw_clouds vw_storages vw_tiers]. rewrite E1, E2, E3. reflexivity.
  - unfold storage_drop in H. destruct (same_bytes n main_name); [discriminate|]. destruct (storage_find c n) as [k|] eqn:F.
    + destruct (0 <? st_refs k)%Z; [discriminate|]. destruct (negb (_ =? 0)); [discriminate|]. destruct (match st_cloud k with Some _ => _ | None => _ end); [discriminate|].
      injection H as <-. apply storage_find_some in F. destruct F as [Hk <-]. pose proof (same_unlink (set_storages c (filter (fun x => negb (st_id x =? st_id k)) (ca_storages c))) (st_cloud k)) as G.
      apply same_view in G. unfold storage_save at 1. unfold view_of in *. cbn [ca_clouds ca_storages ca_tiers vw_clouds vw_storages vw_tiers]. rewrite G.
      cbn [set_storages ca_clouds ca_storages ca_tiers]. rewrite drop_storage by assumption. reflexivity.
    + injection H as <- _. apply storage_find_none in F. rewrite st_names in F. rewrite without_none by exact F. destruct (view_of c); reflexivity.
  - unfold storage_alter in H. destruct (storage_find c n) as [k|] eqn:F.
    + destruct (given (al_crc a) && _); [discriminate|]. destruct (given (al_path a) && _); [discriminate|]. destruct (given (al_path a) && _); [discriminate|].
      destruct ((given (al_encryption a) || given (al_key a)) && _); [discriminate|]. destruct (given (al_cloud a) && existsb _ _); [discriminate|]. destruct (_ && _ && _); [discriminate|].
      apply storage_find_some in F. destruct F as [Hk <-]. cbv zeta in H. set (src := source_alter (st_source k) a) in *.
      set (c1 := storage_save (set_storages c (on_storage (st_id k) (with_source (fun _ => src)) (ca_storages c)))) in *.
      assert (E1 : view_of c1 = mk_view (vw_clouds (view_of c)) (change so_name (st_name k) (altered a) (vw_storages (view_of c))) (vw_tiers (view_of c))).
      { unfold view_of. cbn [c1 storage_save set_storages ca_clouds ca_storages ca_tiers vw_clouds vw_storages vw_tiers]. rewrite (change_storage c k _ (altered a)); auto.
        intros x Hx E. unfold src. rewrite source_alter_altered. f_equal. f_equal. symmetry. apply (name_unique st_id _ _ _ (b_sids _ _ _ _ _ B) Hx Hk E). }
      destruct (given (al_cloud a)).
      * apply set_cloud_true in H. rewrite <- H, <- E1. apply same_view. eapply same_trans; [|apply same_set_cloud]. eapply same_trans; [apply same_unlink|apply same_with_cloud].
      * injection H as <-. exact E1.
    + injection H as <- _. apply storage_find_none in F. rewrite st_names in F. rewrite change_none by exact F. destruct (view_of c); reflexivity.
  - specialize (Ho n m e eq_refl). unfold storage_rename in H. destruct (same_bytes n main_name); [discriminate|].
    pose proof (rename_first_effect n m (ca_tiers c) Ho) as Rt.
    assert (Rv : forall c1, ca_tiers c1 = ca_tiers c -> view_of (pipeline_rename c1 n m) = mk_view (vw_clouds (view_of c1)) (vw_storages (view_of c1))
      (change tc_name n (fun t => mk_tierc m (tc_partitions t) (tc_size t) (tc_events t) (tc_duration t)) (vw_tiers (view_of c)))).
    { intros c1 E. unfold pipeline_rename. rewrite E. cbn [view_of vw_tiers]. rewrite <- Rt. destruct (rename_first n m (ca_tiers c)); [reflexivity|].
      unfold view_of. rewrite E. reflexivity. }
    destruct (storage_find c n) as [k|] eqn:F.
    + destruct (storage_find c m); [discriminate|]. injection H as <-. apply storage_find_some in F. destruct F as [Hk <-]. rewrite Rv by reflexivity.
      f_equal. cbn [view_of storage_save set_storages ca_storages vw_storages]. rewrite (change_storage c k _ (fun s => source_set_name s m)); auto.
    + destruct e; [|discriminate]. injection H as <-. rewrite Rv by reflexivity. apply storage_find_none in F. rewrite st_names in F. rewrite (change_none so_name) by exact F. reflexivity.
  - unfold pipeline_alter in H. destruct (negb (pipeline_validate l)); [discriminate|]. destruct (tiers_resolve c l) as [r|] eqn:E; [|discriminate]. injection H as <-.
    apply resolve_ids in E. destruct E as (E & _).
    rewrite (fold_ref_lists (fun l i => on_storage i (storage_add_refs 1) l) storage_ref) by reflexivity.
    rewrite (fold_ref_lists (fun l i => on_storage i (storage_add_refs (-1)) l) storage_unref) by reflexivity.
    unfold view_of. cbn [pipeline_save set_tiers set_storages ca_clouds ca_storages ca_tiers vw_clouds vw_storages]. rewrite !fold_refs, !map_map, E. reflexivity.
  - destruct (storage_find c n) as [k|]; [|discriminate]. injection H as <-. unfold view_of. cbn [set_storages ca_clouds ca_storages ca_tiers]. rewrite source_parts. reflexivity.
Qed.

(* the variables follow, whatever the outcome *)
Theorem execute_kept w c cmd : kept c -> kept (fst (execute w c cmd)).
Proof.
  intro K. pose proof K as (Kc & Ks & Kt). destruct cmd as [k e|n e|n a e|n m e|s e|n e|n a e|n m e|l|n l]; cbn [execute].
  - unfold cloud_create. destruct (cloud_find c _); [exact K|]. unfold cloud_create_object. destruct (cloud_interface _); [|exact K].
    cbn [fst]. split; [apply saved_clouds|]. split; [exact Ks|exact Kt].
  - unfold cloud_drop. destruct (cloud_find c n); [|exact K]. destruct (_ <? _)%Z; [exact K|]. cbn [fst]. split; [apply saved_clouds|]. split; [exact Ks|exact Kt].
  - unfold cloud_alter. destruct (cloud_find c n); [|exact K]. cbn [fst]. split; [apply saved_clouds|]. split; [exact Ks|exact Kt].
  - assert (G : forall c1, keptc c1 -> keptt c1 -> kept (storage_rename_cloud c1 n m)).
    { intros c1 H1 H3. unfold storage_rename_cloud. split; [exact H1|]. split; [apply saved_storages|exact H3]. }
    unfold cloud_rename. destruct (cloud_find c n); [destruct (cloud_find c m); [exact K|]|destruct e; [|exact K]]; cbn [fst]; apply G; auto.
    apply saved_clouds.
  - unfold storage_create. destruct (storage_find c _); [exact K|]. destruct (negb _); [exact K|]. destruct (storage_create_object w true c s) as [c1|] eqn:E; [|exact K].
    apply create_object_settings in E. destruct E as (E1 & E2 & E3 & E4 & E5 & E6). cbn [fst].
    split; [|split; [apply saved_storages|]].
    + change (keptc c1). unfold keptc. rewrite E1, E4. exact Kc.
    + change (keptt c1). unfold keptt. rewrite E3, E6. exact Kt.
  - unfold storage_drop. destruct (same_bytes _ _); [exact K|]. destruct (storage_find c n) as [k|]; [|exact K]. destruct (_ <? _)%Z; [exact K|]. destruct (negb _); [exact K|].
    destruct (match st_cloud k with Some _ => _ | None => _ end); [exact K|]. cbn [fst].
    pose proof (same_unlink (set_storages c (filter (fun x => negb (st_id x =? st_id k)) (ca_storages c))) (st_cloud k)) as (A1 & A2 & A3 & A4 & A5 & A6).
    split; [|split; [apply saved_storages|]].
    + change (keptc (unlink_cloud (set_storages c (filter (fun x => negb (st_id x =? st_id k)) (ca_storages c))) (st_cloud k))). unfold keptc. rewrite A1, A4. exact Kc.
    + change (keptt (unlink_cloud (set_storages c (filter (fun x => negb (st_id x =? st_id k)) (ca_storages c))) (st_cloud k))). unfold keptt. rewrite A3, A6. exact Kt.
  - unfold storage_alter. destruct (storage_find c n) as [k|]; [|exact K].
    destruct (given (al_crc a) && _); [exact K|]. destruct (given (al_path a) && _); [exact K|]. destruct (given (al_path a) && _); [exact K|].
    destruct ((given (al_encryption a) || given (al_key a)) && _); [exact K|]. destruct (given (al_cloud a) && existsb _ _); [exact K|]. destruct (_ && _ && _); [exact K|].
    cbv zeta. set (c1 := storage_save _). assert (K1 : kept c1) by (split; [exact Kc|split; [apply saved_storages|exact Kt]]).
    destruct (given (al_cloud a)); [|exact K1]. revert K1. apply same_kept. eapply same_trans; [|apply same_set_cloud]. eapply same_trans; [apply same_unlink|apply same_with_cloud].
  - assert (G : forall c1, kept c1 -> kept (pipeline_rename c1 n m)).
    { intros c1 (H1 & H2 & H3). unfold pipeline_rename. destruct (rename_first _ _ _); [|split; auto]. split; [exact H1|]. split; [exact H2|apply saved_tiers]. }
    unfold storage_rename. destruct (same_bytes _ _); [exact K|]. destruct (storage_find c n); [destruct (storage_find c m); [exact K|]|destruct e; [|exact K]]; cbn [fst]; apply G; auto.
    split; [exact Kc|]. split; [apply saved_storages|exact Kt].
  - unfold pipeline_alter. destruct (negb _); [exact K|]. destruct (tiers_resolve c l) as [r|]; [|exact K]. cbn [fst].
    rewrite (fold_ref_lists (fun l i => on_storage i (storage_add_refs 1) l) storage_ref) by reflexivity.
    rewrite (fold_ref_lists (fun l i => on_storage i (storage_add_refs (-1)) l) storage_unref) by reflexivity.
    split; [exact Kc|]. split; [|apply saved_tiers]. 
    cbn [pipeline_save set_tiers set_storages ca_clouds ca_storages ca_tiers va_storages view_of vw_storages]. rewrite !fold_refs, !map_map. 
    cbn [storage_add_refs st_source]. cbn [view_of vw_storages] in Ks. rewrite map_map in Ks. exact Ks.
  - destruct (storage_find c n) as [k|]; [|exact K]. cbn [fst]. split; [exact Kc|]. split; [|exact Kt].
    cbn [set_storages ca_storages va_storages view_of vw_storages]. rewrite source_parts. exact Ks.
Qed.

(* a command that fails has no effect, except on the cloud of a storage *)
Theorem execute_failed w c cmd c' : execute w c cmd = (c', false) ->
  c' = c \/ exists n a e m, cmd = StorageAlter n a e /\ al_cloud a = Some m /\ m <> [].
Proof.
  intro H. destruct cmd as [k e|n e|n a e|n m e|s e|n e|n a e|n m e|l|n l]; cbn [execute] in H.
  - left. unfold cloud_create in H. destruct (cloud_find c _); [congruence|]. unfold cloud_create_object in H. destruct (cloud_interface _); congruence.
  - left. unfold cloud_drop in H. destruct (cloud_find c n); [|congruence]. destruct (_ <? _)%Z; congruence.
  - left. unfold cloud_alter in H. destruct (cloud_find c n); congruence.
  - left. unfold cloud_rename in H. destruct (cloud_find c n); [destruct (cloud_find c m); congruence|]. destruct e; congruence.
  - left. unfold storage_create in H. destruct (storage_find c _); [congruence|]. destruct (negb _); [congruence|]. destruct (storage_create_object w true c s); congruence.
  - left. unfold storage_drop in H. destruct (same_bytes _ _); [congruence|]. destruct (storage_find c n) as [k|]; [|congruence]. destruct (_ <? _)%Z; [congruence|].
    destruct (negb _); [congruence|]. destruct (match st_cloud k with Some _ => _ | None => _ end); congruence.
  - unfold storage_alter in H. destruct (storage_find c n) as [k|]; [|left; congruence].
    destruct (given (al_crc a) && _); [left; congruence|]. destruct (given (al_path a) && _); [left; congruence|]. destruct (given (al_path a) && _); [left; congruence|].
    destruct ((given (al_encryption a) || given (al_key a)) && _); [left; congruence|]. destruct (given (al_cloud a) && existsb _ _); [left; congruence|]. destruct (_ && _ && _); [left; congruence|].
    cbv zeta in H. destruct (al_cloud a) as [m|] eqn:Ea; cbn [given] in H; [|congruence].
    right. exists n, a, e, m. split; [reflexivity|]. split; [exact Ea|]. intros ->. unfold storage_set_cloud in H. cbn [source_alter so_cloud] in H. rewrite Ea in H. cbn [pick] in H. congruence.
  - left. unfold storage_rename in H. destruct (same_bytes _ _); [congruence|]. destruct (storage_find c n); [destruct (storage_find c m); congruence|]. destruct e; congruence.
  - left. unfold pipeline_alter in H. destruct (negb _); [congruence|]. destruct (tiers_resolve c l); congruence.
  - left. destruct (storage_find c n); congruence.
Qed.
