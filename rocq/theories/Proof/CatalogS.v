(* Every command keeps a catalog sound. *)
From Coq Require Import NArith ZArith Arith String List Bool Lia Permutation.
Import ListNotations.
From Verif Require Import Model.Base Model.Data Model.Lex Model.Uuid Model.Source Model.Catalog.
From Verif Require Import Spec.Value Spec.JsonText Spec.Catalog.
From Verif Require Import Proof.DataL Proof.SourceL Proof.CatalogB.

Definition bcat_ (mn : bool) (c : catalog) : Prop := base mn (ca_clouds c) (ca_storages c) (ca_tiers c) (ca_next c).
Notation bcat := (bcat_ true).

Lemma cloud_find_some c n k : cloud_find c n = Some k -> In k (ca_clouds c) /\ cl_name k = n.
Proof. intro H. apply find_some in H. destruct H as [H E]. apply same_bytes_eq in E. auto. Qed.
Lemma cloud_find_none c n : cloud_find c n = None -> ~ In n (map cl_name (ca_clouds c)).
Proof.
  intros H Hn. apply in_map_iff in Hn. destruct Hn as (k & E & Hk). apply (find_none _ _ H) in Hk. apply same_bytes_neq in Hk. contradiction.
Qed.
Lemma storage_find_some c n k : storage_find c n = Some k -> In k (ca_storages c) /\ st_name k = n.
Proof. intro H. apply find_some in H. destruct H as [H E]. apply same_bytes_eq in E. auto. Qed.
Lemma storage_find_none c n : storage_find c n = None -> ~ In n (map st_name (ca_storages c)).
Proof.
  intros H Hn. apply in_map_iff in Hn. destruct Hn as (k & E & Hk). apply (find_none _ _ H) in Hk. apply same_bytes_neq in Hk. contradiction.
Qed.
Lemma name_unique {A B} (f : A -> B) l a b : NoDup (map f l) -> In a l -> In b l -> f a = f b -> a = b.
Proof.
  induction l as [|x l IH]; intros Hd Ha Hb E; [contradiction|]. cbn in Hd. apply NoDup_cons_iff in Hd. destruct Hd as [Hx Hd].
  destruct Ha as [->|Ha], Hb as [->|Hb]; auto.
  - elim Hx. rewrite E. apply in_map, Hb.
  - elim Hx. rewrite <- E. apply in_map, Ha.
Qed.
Lemma cloud_find_in c n k : NoDup (map cl_name (ca_clouds c)) -> In k (ca_clouds c) -> cl_name k = n -> cloud_find c n = Some k.
Proof.
  intros Hd Hk E. destruct (cloud_find c n) as [x|] eqn:F.
  - apply cloud_find_some in F. destruct F as [Hx Ex]. f_equal. apply (name_unique cl_name _ _ _ Hd Hx Hk). congruence.
  - apply cloud_find_none in F. elim F. rewrite <- E. apply in_map, Hk.
Qed.
Lemma storage_find_in c n k : NoDup (map st_name (ca_storages c)) -> In k (ca_storages c) -> st_name k = n -> storage_find c n = Some k.
Proof.
  intros Hd Hk E. destruct (storage_find c n) as [x|] eqn:F.
  - apply storage_find_some in F. destruct F as [Hx Ex]. f_equal. apply (name_unique st_name _ _ _ Hd Hx Hk). congruence.
  - apply storage_find_none in F. elim F. rewrite <- E. apply in_map, Hk.
Qed.

Lemma interface_ok k : cloud_interface (cc_type k) = true -> cc_type k = chars "mock" \/ cc_type k = chars "s3".
Proof. unfold cloud_interface. intro H. apply orb_true_iff in H. destruct H as [H|H]; apply same_bytes_eq in H; auto. Qed.

Lemma create_object_base mn c k c' : bcat_ mn c -> ~ In (cc_name k) (map cl_name (ca_clouds c)) -> cloud_create_object c k = Some c' -> bcat_ mn c'.
Proof.
  unfold cloud_create_object. intros B Hn H. destruct (cloud_interface (cc_type k)) eqn:E; [|discriminate]. injection H as <-. unfold bcat_. cbn [ca_clouds ca_storages ca_tiers ca_next fresh set_clouds].
  apply base_perm with (mk_cloud (ca_next c) k 0 :: ca_clouds c) (ca_storages c); [apply Permutation_cons_append|reflexivity|].
  apply cloud_added; auto. unfold type_ok. cbn. apply interface_ok, E.
Qed.

Lemma cloud_create_base c k e : bcat c -> bcat (fst (cloud_create c k e)).
Proof.
  intros B. unfold cloud_create. destruct (cloud_find c (cc_name k)) eqn:F; [exact B|]. destruct (cloud_create_object c k) as [c'|] eqn:E; [|exact B].
  cbn [fst]. change (bcat c'). eapply create_object_base; [exact B|apply cloud_find_none, F|exact E].
Qed.
Lemma cloud_drop_base c n e : bcat c -> bcat (fst (cloud_drop c n e)).
Proof.
  intros B. unfold cloud_drop. destruct (cloud_find c n) as [k|] eqn:F; [|exact B]. destruct (Z.ltb_spec 0 (cl_refs k)); [exact B|].
  apply cloud_find_some in F. destruct F as [Hk _]. destruct (on_cloud_perm _ _ (fun x => x) (b_cids _ _ _ _ _ B) Hk) as (r & P1 & _ & P2).
  unfold bcat_. cbn [fst cloud_save set_clouds ca_clouds ca_storages ca_tiers ca_next].
  apply base_perm with r (ca_storages c); [symmetry; exact P2|reflexivity|]. apply cloud_removed with k; [|lia]. apply (base_perm _ _ _ _ _ _ _ P1 (Permutation_refl _) B).
Qed.
Lemma cloud_alter_base c n a e : bcat c -> bcat (fst (cloud_alter c n a e)).
Proof.
  intros B. unfold cloud_alter. destruct (cloud_find c n) as [k|] eqn:F; [|exact B].
  apply cloud_find_some in F. destruct F as [Hk _]. destruct (on_cloud_perm _ _ (with_conf (fun x => cloudc_alter x a)) (b_cids _ _ _ _ _ B) Hk) as (r & P1 & P2 & _).
  unfold bcat_. cbn [fst cloud_save set_clouds ca_clouds ca_storages ca_tiers ca_next].
  apply base_perm with (with_conf (fun x => cloudc_alter x a) k :: r) (ca_storages c); [symmetry; exact P2|reflexivity|].
  pose proof (base_perm _ _ _ _ _ _ _ P1 (Permutation_refl _) B) as B'.
  eapply cloud_changed; [exact B'|reflexivity|reflexivity|reflexivity|]. destruct B' as [_ _ _ _ _ _ _ _ _ _ _ Ty _]. apply Forall_inv in Ty. exact Ty.
Qed.
Lemma rename_cloud_base c n m e : bcat c -> bcat (fst (execute (mk_world true true true) c (CloudRename n m e))).
Proof.
  intros B. cbn [execute]. unfold cloud_rename. destruct (cloud_find c n) as [k|] eqn:F.
  - destruct (cloud_find c m) as [?|] eqn:G; [exact B|]. apply cloud_find_none in G.
    apply cloud_find_some in F. destruct F as [Hk <-]. destruct (on_cloud_perm _ _ (with_conf (fun x => cloudc_set_name x m)) (b_cids _ _ _ _ _ B) Hk) as (r & P1 & P2 & _).
    unfold bcat_, storage_rename_cloud. cbn [fst cloud_save storage_save set_storages set_clouds ca_clouds ca_storages ca_tiers ca_next].
    change (fun s => if same_bytes (so_cloud (st_source s)) (cl_name k) then with_source (fun x => source_set_cloud x m) s else s) with (rename_in (cl_name k) m).
    apply base_perm with (with_conf (fun x => cloudc_set_name x m) k :: r) (map (rename_in (cl_name k) m) (ca_storages c)); [symmetry; exact P2|reflexivity|].
    apply cloud_renamed; [apply (base_perm _ _ _ _ _ _ _ P1 (Permutation_refl _) B)|]. intro H. apply G. apply (Permutation_in _ (Permutation_sym (Permutation_map cl_name P1)) H).
  - destruct e; [|exact B]. cbn [fst]. unfold bcat_, storage_rename_cloud. cbn [storage_save set_storages ca_clouds ca_storages ca_tiers ca_next].
    apply cloud_renamed_none; [exact B|apply cloud_find_none, F].
Qed.

(* linking the storage [i] *)
Lemma find_same_clouds c c' n : ca_clouds c = ca_clouds c' -> cloud_find c n = cloud_find c' n.
Proof. unfold cloud_find. intros ->. reflexivity. Qed.
Lemma set_cloud_base mn w at_ c s : bcat_ mn c -> In s (ca_storages c) -> st_cloud s = None ->
  bcat_ mn (fst (storage_set_cloud w at_ c (st_id s) (st_source s))).
Proof.
  intros B Hs Hc. unfold storage_set_cloud. destruct (so_cloud (st_source s)) as [|b t] eqn:En; [exact B|]. rewrite <- En in *.
  destruct (cloud_find c (so_cloud (st_source s))) as [k|] eqn:F; [|exact B]. destruct (at_ && negb (wo_attach w)); [exact B|].
  apply cloud_find_some in F. destruct F as [Hk En']. 
  destruct (on_cloud_perm _ _ (cloud_add_refs 1) (b_cids _ _ _ _ _ B) Hk) as (r & P1 & P2 & _).
  destruct (on_storage_perm _ _ (with_cloud (Some (cl_id k))) (b_sids _ _ _ _ _ B) Hs) as (q & Q1 & Q2 & _).
  unfold bcat_. cbn [fst cloud_ref set_clouds set_storages ca_clouds ca_storages ca_tiers ca_next].
  apply (base_perm _ _ _ _ _ _ _ (Permutation_sym P2) (Permutation_sym Q2)). apply storage_linked; auto. apply (base_perm _ _ _ _ _ _ _ P1 Q1 B).
Qed.
Lemma create_object_storage mn w at_ c s c' : bcat_ mn c -> ~ In (so_name s) (map st_name (ca_storages c)) -> (u_a (so_uuid s) < 2 ^ 64)%N -> (u_b (so_uuid s) < 2 ^ 64)%N ->
  storage_create_object w at_ c s = Some c' -> bcat_ mn c'.
Proof.
  unfold storage_create_object. intros B Hn Ha Hb H.
  set (new := mk_storage (ca_next c) (source_copy s) None 0 []) in *.
  set (c1 := fresh (set_storages c (ca_storages c ++ [new]))) in *.
  assert (B1 : bcat_ mn c1).
  { unfold bcat_. cbn [c1 ca_clouds ca_storages ca_tiers ca_next fresh set_storages].
    apply base_perm with (ca_clouds c) (new :: ca_storages c); [reflexivity|apply Permutation_cons_append|].
    apply storage_added; auto. unfold bits_fine. cbn [new st_source]. rewrite source_copy_created. split; [apply created_created|]. split; assumption. }
  pose proof (set_cloud_base _ w at_ c1 new B1) as G. cbn [new st_id st_source st_cloud] in G. fold new in G.
  destruct (storage_set_cloud w at_ c1 (ca_next c) (source_copy s)) as [c2 ok]. destruct ok; [|discriminate]. injection H as <-.
  apply G; [|reflexivity]. cbn [c1 fresh set_storages ca_storages]. apply in_or_app. right. left. reflexivity.
Qed.
Lemma storage_create_base w c s e : bcat c -> (u_a (so_uuid s) < 2 ^ 64)%N -> (u_b (so_uuid s) < 2 ^ 64)%N -> bcat (fst (storage_create w c s e)).
Proof.
  intros B Ha Hb. unfold storage_create. destruct (storage_find c (so_name s)) eqn:F; [exact B|]. destruct (negb (wo_mkdir w)); [exact B|].
  destruct (storage_create_object w true c s) as [c'|] eqn:E; [|exact B]. change (bcat c'). eapply create_object_storage; [exact B|apply storage_find_none, F|exact Ha|exact Hb|exact E].
Qed.

Lemma link_in mn c s i : bcat_ mn c -> In s (ca_storages c) -> st_cloud s = Some i -> exists k, In k (ca_clouds c) /\ cl_id k = i /\ cl_name k = so_cloud (st_source s).
Proof.
  intros B Hs E. pose proof (b_links _ _ _ _ _ B) as L. rewrite Forall_forall in L. specialize (L s Hs). unfold link_ok in L. rewrite E in L. exact L.
Qed.

(* the state with the cloud of [s] taken away, and [s] changed to [f s] *)
Lemma unlink_base c s f : bcat c -> In s (ca_storages c) -> 
  (forall x, st_id x = st_id s -> st_id (f x) = st_id x) ->
  exists r q, Permutation (ca_storages c) (s :: q) /\ Permutation (on_storage (st_id s) f (ca_storages c)) (f s :: q)
    /\ Permutation (filter (fun x => negb (st_id x =? st_id s)) (ca_storages c)) q
    /\ ca_clouds (unlink_cloud c (st_cloud s)) = r /\ base true r (with_cloud None s :: q) (ca_tiers c) (ca_next c).
Proof.
  intros B Hs Hf. destruct (on_storage_perm _ _ f (b_sids _ _ _ _ _ B) Hs) as (q & Q1 & Q2 & Q3).
  eexists. exists q. split; [exact Q1|]. split; [exact Q2|]. split; [exact Q3|]. split; [reflexivity|].
  destruct (st_cloud s) as [i|] eqn:E.
  - destruct (link_in _ c s i B Hs E) as (k & Hk & <- & En). cbn [unlink_cloud cloud_unref set_clouds ca_clouds].
    destruct (on_cloud_perm _ _ (cloud_add_refs (-1)) (b_cids _ _ _ _ _ B) Hk) as (r & P1 & P2 & _).
    apply (base_perm _ _ _ _ _ _ _ (Permutation_sym P2) (Permutation_refl _)). apply storage_unlinked; [|exact E]. apply (base_perm _ _ _ _ _ _ _ P1 Q1 B).
  - cbn [unlink_cloud]. replace (with_cloud None s) with s by (destruct s; cbn in *; subst; reflexivity). apply (base_perm _ _ _ _ _ _ _ (Permutation_refl _) Q1 B).
Qed.

Lemma unlink_storages c o : ca_storages (unlink_cloud c o) = ca_storages c /\ ca_tiers (unlink_cloud c o) = ca_tiers c /\ ca_next (unlink_cloud c o) = ca_next c.
Proof. destruct o; repeat split; reflexivity. Qed.
Lemma unlink_clouds c c' o : ca_clouds c = ca_clouds c' -> ca_clouds (unlink_cloud c o) = ca_clouds (unlink_cloud c' o).
Proof. destruct o; cbn; intros ->; reflexivity. Qed.

Lemma storage_drop_base w c n e : bcat c -> bcat (fst (storage_drop w c n e)).
Proof.
  intros B. unfold storage_drop. destruct (same_bytes n main_name) eqn:Em; [exact B|]. destruct (storage_find c n) as [s|] eqn:F; [|exact B].
  destruct (Z.ltb_spec 0 (st_refs s)); [exact B|]. destruct (negb (length (st_parts s) =? 0)); [exact B|]. destruct (match st_cloud s with Some _ => _ | None => _ end); [exact B|].
  apply storage_find_some in F. destruct F as [Hs En]. apply same_bytes_neq in Em.
  destruct (unlink_base c s (fun x => x) B Hs ltac:(auto)) as (r & q & Q1 & _ & Q3 & Er & B').
  cbn [fst]. set (c1 := set_storages c _). unfold bcat_. cbn [storage_save ca_clouds ca_storages ca_tiers ca_next].
  destruct (unlink_storages c1 (st_cloud s)) as (-> & -> & ->). rewrite (unlink_clouds c1 c) by reflexivity. rewrite Er. cbn [c1 set_storages ca_storages ca_tiers ca_next].
  apply (base_perm _ _ _ _ _ _ _ (Permutation_refl _) (Permutation_sym Q3)).
  apply storage_removed with (with_cloud None s); auto. change (st_name s <> main_name). congruence.
Qed.

Lemma on_storage_twice i f g l : (forall x, st_id (f x) = st_id x) -> on_storage i g (on_storage i f l) = on_storage i (fun x => g (f x)) l.
Proof.
  intro H. unfold on_storage. rewrite map_map. apply map_ext. intro x. destruct (st_id x =? i) eqn:E; [rewrite H, E; reflexivity|rewrite E; reflexivity].
Qed.
Lemma on_storage_in i f l x : In x l -> st_id x = i -> In (f x) (on_storage i f l).
Proof. intros H E. unfold on_storage. apply in_map_iff. exists x. rewrite E, Nat.eqb_refl. auto. Qed.

Lemma bits_alter s a : bits_fine s -> bits_fine (with_source (fun _ => source_alter (st_source s) a) s).
Proof.
  intros (A & B & C). unfold bits_fine. cbn [with_source st_source]. rewrite source_alter_altered. split; [apply created_altered, A|]. split; assumption.
Qed.

Lemma storage_alter_base w c n a e : bcat c -> bcat (fst (storage_alter w c n a e)).
Proof.
  intros B. unfold storage_alter. destruct (storage_find c n) as [s|] eqn:F; [|exact B].
  destruct (given (al_crc a) && _); [exact B|]. destruct (given (al_path a) && _); [exact B|]. destruct (given (al_path a) && _); [exact B|].
  destruct ((given (al_encryption a) || given (al_key a)) && _); [exact B|]. destruct (given (al_cloud a) && existsb _ _); [exact B|]. destruct (_ && _ && _); [exact B|].
  apply storage_find_some in F. destruct F as [Hs En]. cbv zeta.
  pose proof (b_bits _ _ _ _ _ B) as Bi. rewrite Forall_forall in Bi. specialize (Bi s Hs).
  set (src := source_alter (st_source s) a). set (f := with_source (fun _ => src)).
  set (c1 := storage_save (set_storages c (on_storage (st_id s) f (ca_storages c)))).
  destruct (given (al_cloud a)) eqn:Ec.
  - destruct (unlink_base c s (fun x => with_cloud None (f x)) B Hs ltac:(reflexivity)) as (r & q & Q1 & Q2 & _ & Er & B').
    set (c2 := unlink_cloud c1 (st_cloud s)). set (c3 := set_storages c2 (on_storage (st_id s) (with_cloud None) (ca_storages c2))).
    assert (E3 : ca_storages c3 = on_storage (st_id s) (fun x => with_cloud None (f x)) (ca_storages c)).
    { cbn [c3 set_storages ca_storages]. unfold c2. rewrite (proj1 (unlink_storages _ _)). cbn [c1 storage_save set_storages ca_storages]. apply on_storage_twice. reflexivity. }
    assert (B3 : bcat c3).
    { unfold bcat_. rewrite E3. cbn [c3 set_storages ca_clouds ca_tiers ca_next]. unfold c2. destruct (unlink_storages c1 (st_cloud s)) as (_ & -> & ->).
      rewrite (unlink_clouds c1 c) by reflexivity. rewrite Er. cbn [c1 storage_save set_storages ca_tiers ca_next].
      apply (base_perm _ _ _ _ _ _ _ (Permutation_refl _) (Permutation_sym Q2)).
      eapply storage_changed; [exact B'|reflexivity|reflexivity|reflexivity|left; reflexivity|left; reflexivity|]. apply (bits_alter s a Bi). }
    pose proof (set_cloud_base _ w true c3 (with_cloud None (f s)) B3) as G. cbn [with_cloud f with_source st_id st_source st_cloud] in G.
    apply G; [|reflexivity]. rewrite E3. apply (on_storage_in (st_id s) (fun x => with_cloud None (f x)) (ca_storages c) s Hs eq_refl).
  - cbn [fst]. destruct (on_storage_perm _ _ f (b_sids _ _ _ _ _ B) Hs) as (q & Q1 & Q2 & _).
    unfold bcat_. cbn [c1 storage_save set_storages ca_clouds ca_storages ca_tiers ca_next].
    apply (base_perm _ _ _ _ _ _ _ (Permutation_refl _) (Permutation_sym Q2)).
    eapply storage_changed; [apply (base_perm _ _ _ _ _ _ _ (Permutation_refl _) Q1 B)|reflexivity|reflexivity|reflexivity| |left; reflexivity|apply (bits_alter s a Bi)].
    right. cbn [f with_source st_source src source_alter so_cloud]. destruct (al_cloud a); [discriminate|reflexivity].
Qed.

Lemma created_set_name s m : as_created s = s -> as_created (source_set_name s m) = source_set_name s m.
Proof. intro H. destruct s. unfold as_created, source_set_name in *. cbn in *. injection H as -> -> ->. reflexivity. Qed.

Lemma rename_first_tiers n m l l' : rename_first n m l = Some l' -> map ti_storage l' = map ti_storage l.
Proof.
  revert l'. induction l as [|t l IH]; intros l' H; cbn in H; [discriminate|]. destruct (same_bytes _ _); [injection H as <-; reflexivity|].
  destruct (rename_first n m l) as [r|]; [|discriminate]. injection H as <-. cbn. rewrite IH by reflexivity. reflexivity.
Qed.
Lemma base_tiers mn C S T T' n : map ti_storage T' = map ti_storage T -> base mn C S T n -> base mn C S T' n.
Proof.
  intros E [A B M I1 I2 J1 J2 L Ti R1 R2 Ty Bi]. constructor; try assumption.
  - apply Forall_forall. intros t Ht. assert (H : In (ti_storage t) (map ti_storage T)) by (rewrite <- E; apply in_map, Ht).
    apply in_map_iff in H. destruct H as (t' & <- & Ht'). rewrite Forall_forall in Ti. apply Ti, Ht'.
  - revert R2. apply Forall_impl. intros s ->. unfold uses_storage.
    assert (G : forall l, cnt (fun t => ti_storage t =? st_id s) l = cnt (fun i => i =? st_id s) (map ti_storage l)) by (intro l; rewrite cnt_map; reflexivity).
    rewrite !G, E. reflexivity.
Qed.
Lemma pipeline_rename_base c n m : bcat c -> bcat (pipeline_rename c n m).
Proof.
  intro B. unfold pipeline_rename. destruct (rename_first n m (ca_tiers c)) as [l|] eqn:E; [|exact B].
  apply rename_first_tiers in E. unfold bcat_. cbn. apply (base_tiers _ _ _ _ _ _ E B).
Qed.
Lemma storage_rename_base c n m e : bcat c -> bcat (fst (storage_rename c n m e)).
Proof.
  intros B. unfold storage_rename. destruct (same_bytes n main_name) eqn:Em; [exact B|]. destruct (storage_find c n) as [s|] eqn:F; [|exact B].
  destruct (storage_find c m) as [?|] eqn:G; [exact B|]. apply storage_find_none in G. apply storage_find_some in F. destruct F as [Hs En]. apply same_bytes_neq in Em.
  pose proof (b_bits _ _ _ _ _ B) as Bi. rewrite Forall_forall in Bi. specialize (Bi s Hs).
  set (f := with_source (fun x => source_set_name x m)). destruct (on_storage_perm _ _ f (b_sids _ _ _ _ _ B) Hs) as (q & Q1 & Q2 & _).
  unfold bcat_. cbn [fst storage_save set_storages ca_clouds ca_storages ca_tiers ca_next].
  apply (base_perm _ _ _ _ _ _ _ (Permutation_refl _) (Permutation_sym Q2)).
  eapply storage_changed; [apply (base_perm _ _ _ _ _ _ _ (Permutation_refl _) Q1 B)|reflexivity|reflexivity|reflexivity|right; reflexivity| |].
  - right. split; [congruence|]. intro H. apply G. cbn in H. apply (Permutation_in _ (Permutation_sym (Permutation_map st_name Q1))). right. exact H.
  - destruct Bi as (B1 & B2 & B3). unfold bits_fine. cbn [f with_source st_source]. split; [apply created_set_name, B1|]. split; assumption.
Qed.

Lemma resolve_ids c l r : tiers_resolve c l = Some r -> map ti_conf r = l /\ Forall (fun t => In (ti_storage t) (map st_id (ca_storages c))) r
  /\ Forall (fun t => exists s, storage_find c (ti_name t) = Some s /\ ti_storage t = st_id s) r.
Proof.
  revert r. induction l as [|t l IH]; intros r H; cbn in H; [injection H as <-; repeat split; constructor|].
  destruct (storage_find c (tc_name t)) as [s|] eqn:F; [|discriminate]. destruct (tiers_resolve c l) as [q|]; [|discriminate]. injection H as <-.
  destruct (IH q eq_refl) as (A & B & C). cbn [map ti_conf]. rewrite A. split; [reflexivity|]. split; constructor; auto.
  - cbn. apply storage_find_some in F. apply in_map, F.
  - cbn. exists s. split; [exact F|reflexivity].
Qed.
Lemma add_refs_twice d1 d2 s : storage_add_refs d2 (storage_add_refs d1 s) = storage_add_refs (d1 + d2) s.
Proof. unfold storage_add_refs. cbn. f_equal. lia. Qed.
Lemma pipeline_alter_base c l : bcat c -> bcat (fst (pipeline_alter c l)).
Proof.
  intros B. unfold pipeline_alter. destruct (negb (pipeline_validate l)); [exact B|]. destruct (tiers_resolve c l) as [r|] eqn:E; [|exact B].
  apply resolve_ids in E. destruct E as (_ & E & _). cbn [fst].
  rewrite (fold_ref_lists (fun l i => on_storage i (storage_add_refs 1) l) storage_ref) by reflexivity.
  rewrite (fold_ref_lists (fun l i => on_storage i (storage_add_refs (-1)) l) storage_unref) by reflexivity.
  unfold bcat_. cbn [pipeline_save set_tiers set_storages ca_clouds ca_storages ca_tiers ca_next].
  rewrite !fold_refs, map_map.
  rewrite (map_ext _ (fun s => storage_add_refs ((fun i => cnt (uses_storage i) r - cnt (uses_storage i) (ca_tiers c))%Z (st_id s)) s)).
  - apply (refs_moved _ _ _ _ _ _ (fun i => cnt (uses_storage i) r - cnt (uses_storage i) (ca_tiers c))%Z B E). reflexivity.
  - intro s. rewrite add_refs_twice. f_equal. cbn [storage_add_refs st_id]. rewrite !cnt_map. unfold uses_storage.
    rewrite (cnt_ext (fun a => st_id s =? ti_storage a) (fun t => ti_storage t =? st_id s) r) by (intros; apply Nat.eqb_sym).
    rewrite (cnt_ext (fun a => st_id s =? ti_storage a) (fun t => ti_storage t =? st_id s) (ca_tiers c)) by (intros; apply Nat.eqb_sym). lia.
Qed.
Lemma parts_base c s l : bcat c -> In s (ca_storages c) -> bcat (set_storages c (on_storage (st_id s) (with_parts l) (ca_storages c))).
Proof.
  intros B Hs. destruct (on_storage_perm _ _ (with_parts l) (b_sids _ _ _ _ _ B) Hs) as (q & Q1 & Q2 & _).
  unfold bcat_. cbn [set_storages ca_clouds ca_storages ca_tiers ca_next].
  pose proof (b_bits _ _ _ _ _ B) as Bi. rewrite Forall_forall in Bi. specialize (Bi s Hs).
  apply (base_perm _ _ _ _ _ _ _ (Permutation_refl _) (Permutation_sym Q2)).
  eapply storage_changed; [apply (base_perm _ _ _ _ _ _ _ (Permutation_refl _) Q1 B)|reflexivity|reflexivity|reflexivity|right; reflexivity|left; reflexivity|exact Bi].
Qed.

Theorem execute_base w c cmd : bcat c -> command_ok cmd -> bcat (fst (execute w c cmd)).
Proof.
  intros B Hc. destruct cmd as [k e|n e|n a e|n m e|s e|n e|n a e|n m e|l|n l]; cbn [execute].
  - apply cloud_create_base, B.
  - apply cloud_drop_base, B.
  - apply cloud_alter_base, B.
  - apply rename_cloud_base, B.
  - destruct Hc. apply storage_create_base; assumption.
  - apply storage_drop_base, B.
  - apply storage_alter_base, B.
  - pose proof (storage_rename_base c n m e B) as H. destruct (storage_rename c n m e) as [c' ok]. cbn [fst] in H. destruct ok; [apply pipeline_rename_base, H|exact H].
  - apply pipeline_alter_base, B.
  - destruct (storage_find c n) as [s|] eqn:F; [|exact B]. apply storage_find_some in F. apply parts_base; [exact B|apply F].
Qed.
