(* Links between the objects follow the names. *)
From Coq Require Import NArith ZArith Arith String List Bool Lia Permutation.
Import ListNotations.
From Verif Require Import Model.Base Model.Data Model.Lex Model.Uuid Model.Source Model.Catalog.
From Verif Require Import Spec.Value Spec.JsonText Spec.Catalog.
From Verif Require Import Proof.DataL Proof.SourceL Proof.CatalogB Proof.CatalogS Proof.CatalogE.

Definition cloud_linked (s : storage) : Prop := so_cloud (st_source s) <> [] -> st_cloud s <> None.
Definition tier_linked (S : list storage) (t : tier) : Prop := forall s, In s S -> st_id s = ti_storage t -> ti_name t = st_name s.
Definition links (S : list storage) (T : list tier) : Prop := Forall cloud_linked S /\ Forall (tier_linked S) T.
Lemma linked_links c : linked c <-> links (ca_storages c) (ca_tiers c).
Proof.
  unfold linked, links. rewrite !Forall_forall. unfold cloud_linked, tier_linked. split; intros [A B]; split; auto.
Qed.

(* storages whose identity stays *)
Lemma links_map S T f : links S T -> (forall s, In s S -> st_id (f s) = st_id s /\ st_name (f s) = st_name s /\ (cloud_linked s -> cloud_linked (f s))) ->
  links (map f S) T.
Proof.
  intros [A B] H. split.
  - apply Forall_map. apply Forall_forall. intros s Hs. rewrite Forall_forall in A. apply H; auto.
  - revert B. apply Forall_impl. intros t Ht s' Hs' E. apply in_map_iff in Hs'. destruct Hs' as (s & <- & Hs). destruct (H s Hs) as (E1 & E2 & _).
    rewrite E2. apply Ht; [exact Hs|congruence].
Qed.
Lemma links_on S T i f : links S T -> (forall s, In s S -> st_id s = i -> st_id (f s) = st_id s /\ st_name (f s) = st_name s /\ (cloud_linked s -> cloud_linked (f s))) ->
  links (on_storage i f S) T.
Proof.
  intros L H. apply links_map; [exact L|]. intros s Hs. destruct (Nat.eqb_spec (st_id s) i); [apply H; assumption|auto].
Qed.

Lemma set_cloud_done w at_ c i s c' : storage_set_cloud w at_ c i s = (c', true) ->
  ca_tiers c' = ca_tiers c /\ ((so_cloud s = [] /\ ca_storages c' = ca_storages c) \/ exists k, ca_storages c' = on_storage i (with_cloud (Some k)) (ca_storages c)).
Proof.
  unfold storage_set_cloud. destruct (so_cloud s) as [|b l] eqn:E; [intro H; injection H as <-; auto|].
  destruct (cloud_find c (b :: l)) as [k|]; [|discriminate]. destruct (_ && _); [discriminate|]. intro H. injection H as <-. split; [reflexivity|]. right. exists (cl_id k). reflexivity.
Qed.

Lemma create_object_links mn w at_ c s c' : bcat_ mn c -> links (ca_storages c) (ca_tiers c) -> storage_create_object w at_ c s = Some c' ->
  links (ca_storages c') (ca_tiers c').
Proof.
  unfold storage_create_object. intros B [A L] H. set (new := mk_storage (ca_next c) (source_copy s) None 0 []) in *.
  set (c1 := fresh (set_storages c (ca_storages c ++ [new]))) in *.
  destruct (storage_set_cloud w at_ c1 (ca_next c) (source_copy s)) as [c2 ok] eqn:E. destruct ok; [|discriminate]. injection H as <-.
  assert (L1 : Forall (tier_linked (ca_storages c ++ [new])) (ca_tiers c)).
  { apply Forall_forall. intros t Ht x Hx Ex. rewrite Forall_forall in L. apply in_app_iff in Hx. destruct Hx as [Hx|[<-|[]]]; [apply (L t Ht x Hx Ex)|].
    pose proof (b_tiers _ _ _ _ _ B) as Ti. rewrite Forall_forall in Ti. specialize (Ti t Ht). cbn beta in Ti. apply in_map_iff in Ti. destruct Ti as (y & Ey & Hy).
    pose proof (b_snext _ _ _ _ _ B) as Sn. rewrite Forall_forall in Sn. specialize (Sn y Hy). cbn [new st_id] in Ex. cbn beta in Sn. lia. }
  apply set_cloud_done in E. destruct E as [-> [[En ->]|[k ->]]]; cbn [c1 fresh set_storages ca_storages ca_tiers].
  - split; [|exact L1]. apply Forall_app. split; [exact A|]. constructor; [|constructor]. intro H. elim H. exact En.
  - split.
    + unfold on_storage. apply Forall_map. apply Forall_app. split.
      * revert A. apply Forall_impl. intros x Hx. destruct (_ =? _); [intros _; discriminate|exact Hx].
      * constructor; [|constructor]. cbn [new st_id]. rewrite Nat.eqb_refl. intros _. discriminate.
    + revert L1. apply Forall_impl. intros t Ht x Hx Ex. apply in_map_iff in Hx. destruct Hx as (y & <- & Hy).
      specialize (Ht y Hy). destruct (st_id y =? ca_next c); apply Ht; exact Ex.
Qed.

Definition rename_tier (n m : list byte) (t : tier) : tier :=
  if is (ti_name t) n then mk_tier (tierc_set_name (ti_conf t) m) (ti_storage t) else t.
Lemma rename_first_map n m l : length (filter (fun t => is (ti_name t) n) l) <= 1 ->
  match rename_first n m l with Some r => r | None => l end = map (rename_tier n m) l.
Proof.
  induction l as [|t l IH]; intro H; [reflexivity|]. cbn [rename_first filter map] in *. rewrite <- is_same. unfold rename_tier at 1.
  destruct (is (ti_name t) n) eqn:E.
  - f_equal. rewrite <- (map_id l) at 1. apply map_ext_in. intros x Hx. unfold rename_tier. destruct (is (ti_name x) n) eqn:Ex; [|reflexivity].
    cbn [length] in H. destruct (filter (fun t => is (ti_name t) n) l) as [|y r] eqn:F; [|cbn in H; lia].
    assert (In x []) by (rewrite <- F; apply filter_In; split; assumption). contradiction.
  - specialize (IH H). destruct (rename_first n m l) as [r|]; f_equal; exact IH.
Qed.
Lemma pipeline_rename_tiers c n m : length (filter (fun t => is (ti_name t) n) (ca_tiers c)) <= 1 ->
  ca_tiers (pipeline_rename c n m) = map (rename_tier n m) (ca_tiers c) /\ ca_storages (pipeline_rename c n m) = ca_storages c.
Proof.
  intro H. pose proof (rename_first_map n m (ca_tiers c) H) as E. unfold pipeline_rename. destruct (rename_first n m (ca_tiers c)); rewrite <- E; split; reflexivity.
Qed.

Lemma links_tiers_none S T n m : links S T -> ~ In n (map ti_name T) -> links S (map (rename_tier n m) T).
Proof.
  intros [A L] H. split; [exact A|]. rewrite <- (map_id T) in L. rewrite (map_ext_in (rename_tier n m) (fun t => t)); [exact L|].
  intros t Ht. unfold rename_tier. destruct (is (ti_name t) n) eqn:E; [|reflexivity]. apply is_eq in E. elim H. rewrite <- E. apply in_map, Ht.
Qed.

Lemma links_core S S' T : map (fun s => (st_id s, st_source s, st_cloud s)) S' = map (fun s => (st_id s, st_source s, st_cloud s)) S -> links S T -> links S' T.
Proof.
  intros E [A B]. assert (G : forall s', In s' S' -> exists s, In s S /\ st_id s = st_id s' /\ st_source s = st_source s' /\ st_cloud s = st_cloud s').
  { intros s' Hs'. apply (in_map (fun s => (st_id s, st_source s, st_cloud s))) in Hs'. rewrite E in Hs'. apply in_map_iff in Hs'. destruct Hs' as (s & Es & Hs).
    injection Es as E1 E2 E3. exists s. auto. }
  rewrite Forall_forall in A, B. split; apply Forall_forall.
  - intros s' Hs'. destruct (G s' Hs') as (s & Hs & _ & E2 & E3). unfold cloud_linked. rewrite <- E2, <- E3. apply A, Hs.
  - intros t Ht s' Hs' Ei. destruct (G s' Hs') as (s & Hs & E1 & E2 & E3). unfold st_name. rewrite <- E2. apply (B t Ht s Hs). congruence.
Qed.
Lemma core_refs d i l : map (fun s => (st_id s, st_source s, st_cloud s)) (on_storage i (storage_add_refs d) l) = map (fun s => (st_id s, st_source s, st_cloud s)) l.
Proof. unfold on_storage. rewrite map_map. apply map_ext. intro s. destruct (_ =? _); reflexivity. Qed.
Lemma fold_refs_core f d l : (forall c i, f c i = set_storages c (on_storage i (storage_add_refs d) (ca_storages c))) -> forall c,
  map (fun s => (st_id s, st_source s, st_cloud s)) (ca_storages (fold_left f l c)) = map (fun s => (st_id s, st_source s, st_cloud s)) (ca_storages c).
Proof.
  intro Hf. induction l as [|i l IH]; intro c; [reflexivity|]. cbn [fold_left]. rewrite IH, Hf. cbn [set_storages ca_storages]. apply core_refs.
Qed.

Theorem execute_linked w c cmd : bcat c -> linked c -> command_ok cmd -> once c cmd ->
  (snd (execute w c cmd) = false -> fst (execute w c cmd) = c) -> linked (fst (execute w c cmd)).
Proof.
  intros B L Hok Ho Hf. destruct (execute w c cmd) as [c' ok] eqn:H. cbn [fst snd] in *. destruct ok; [|rewrite (Hf eq_refl); exact L].
  rewrite linked_links in L |- *. destruct cmd as [k e|n e|n a e|n m e|s e|n e|n a e|n m e|l|n l]; cbn [execute] in H.
  - unfold cloud_create in H. destruct (cloud_find c _); [injection H as <- _; exact L|]. unfold cloud_create_object in H. destruct (cloud_interface _); [|discriminate]. injection H as <-. exact L.
  - unfold cloud_drop in H. destruct (cloud_find c n); [|injection H as <- _; exact L]. destruct (_ <? _)%Z; [discriminate|]. injection H as <-. exact L.
  - unfold cloud_alter in H. destruct (cloud_find c n); [|injection H as <- _; exact L]. injection H as <-. exact L.
  - destruct Hok as [Hn Hm]. assert (G : links (map (rename_in n m) (ca_storages c)) (ca_tiers c)).
    { apply links_map; [exact L|]. intros s Hs. destruct (rename_in_same n m s) as (E1 & E2 & E3 & _). split; [exact E1|]. split; [exact E2|].
      unfold cloud_linked. rewrite E3. intros G G'. apply G. unfold rename_in in G'. destruct (same_bytes (so_cloud (st_source s)) n) eqn:E; [|exact G'].
      apply same_bytes_eq in E. congruence. }
    unfold cloud_rename in H. destruct (cloud_find c n).
    + destruct (cloud_find c m); [discriminate|]. injection H as <-. exact G.
    + destruct e; [|discriminate]. injection H as <-. exact G.
  - unfold storage_create in H. destruct (storage_find c _); [injection H as <- _; exact L|]. destruct (negb _); [discriminate|].
    destruct (storage_create_object w true c s) as [c1|] eqn:E; [|discriminate]. injection H as <-. change (links (ca_storages c1) (ca_tiers c1)).
    eapply create_object_links; eassumption.
  - unfold storage_drop in H. destruct (same_bytes n main_name); [discriminate|]. destruct (storage_find c n) as [s|]; [|injection H as <- _; exact L].
    destruct (_ <? _)%Z; [discriminate|]. destruct (negb _); [discriminate|]. destruct (match st_cloud s with Some _ => _ | None => _ end); [discriminate|]. injection H as <-.
    cbn [storage_save ca_storages ca_tiers]. destruct (unlink_storages (set_storages c (filter (fun x => negb (st_id x =? st_id s)) (ca_storages c))) (st_cloud s)) as (-> & -> & _).
    cbn [set_storages ca_storages ca_tiers]. destruct L as [A L]. split.
    + apply Forall_forall. intros x Hx. apply filter_In in Hx. rewrite Forall_forall in A. apply A, Hx.
    + revert L. apply Forall_impl. intros t Ht x Hx. apply filter_In in Hx. apply Ht, Hx.
  - unfold storage_alter in H. destruct (storage_find c n) as [s|] eqn:Es; [|injection H as <- _; exact L]. apply storage_find_some in Es. destruct Es as [Hs _].
    repeat match type of H with (if ?b then (c, false) else _) = _ => destruct b; [discriminate|] end. cbv zeta in H.
    assert (Hi : forall x, In x (ca_storages c) -> st_id x = st_id s -> x = s) by (intros x Hx; apply (name_unique st_id (ca_storages c)); [exact (b_sids _ _ _ _ _ B)|exact Hx|exact Hs]).
    rewrite source_alter_altered in H. destruct a as [ap ac ad asy acr aw ag am av ae ak]. cbn [al_cloud given] in H. set (a := mk_salter _ _ _ _ _ _ _ _ _ _ _) in *.
    destruct ac as [m|]; cbn [given] in H.
    + apply set_cloud_done in H. destruct H as [-> [[En ->]|[k ->]]];
        cbn [set_storages ca_tiers ca_storages]; destruct (unlink_storages (storage_save (set_storages c (on_storage (st_id s) (with_source (fun _ => altered a (st_source s))) (ca_storages c)))) (st_cloud s)) as (-> & -> & _);
        cbn [storage_save set_storages ca_storages ca_tiers]; rewrite !on_storage_twice by reflexivity.
      * apply links_on; [exact L|]. intros x Hx Ex. apply Hi in Ex; [|exact Hx]. subst x. split; [reflexivity|]. split; [reflexivity|]. intros _ G. elim G. exact En.
      * apply links_on; [exact L|]. intros x Hx Ex. apply Hi in Ex; [|exact Hx]. subst x. split; [reflexivity|]. split; [reflexivity|]. intros _ G. discriminate.
    + injection H as <-. cbn [storage_save set_storages ca_storages ca_tiers]. apply links_on; [exact L|]. intros x Hx Ex. apply Hi in Ex; [|exact Hx]. subst x.
      split; [reflexivity|]. split; [reflexivity|]. intro G. exact G.
  - specialize (Ho n m e eq_refl). unfold storage_rename in H. destruct (same_bytes n main_name); [discriminate|]. destruct (storage_find c n) as [s|] eqn:Es.
    + destruct (storage_find c m) eqn:Em; [discriminate|]. injection H as <-. apply storage_find_some in Es. destruct Es as [Hs En].
      set (c1 := storage_save _). destruct (pipeline_rename_tiers c1 n m Ho) as [-> ->]. cbn [c1 storage_save set_storages ca_storages ca_tiers].
      destruct L as [A L]. rewrite Forall_forall in A, L. split; apply Forall_forall.
      * intros x Hx. unfold on_storage in Hx. apply in_map_iff in Hx. destruct Hx as (y & <- & Hy). destruct (_ =? _); exact (A y Hy).
      * intros t Ht x Hx Ei. apply in_map_iff in Ht. destruct Ht as (t0 & <- & Ht). unfold on_storage in Hx. apply in_map_iff in Hx. destruct Hx as (y & <- & Hy).
        assert (Ei' : st_id y = ti_storage t0). { revert Ei. unfold rename_tier. destruct (is _ _), (st_id y =? st_id s); intro Ei; exact Ei. }
        pose proof (L t0 Ht y Hy Ei') as E. rewrite (storage_id_name c s y B Hs Hy). unfold rename_tier. rewrite E, En. destruct (is (st_name y) n); [reflexivity|exact E].
    + destruct e; [|discriminate]. injection H as <-. destruct (pipeline_rename_tiers c n m Ho) as [-> ->]. apply links_tiers_none; [exact L|].
      intro Hx. apply in_map_iff in Hx. destruct Hx as (t & Et & Ht). apply (storage_find_none _ _ Es). rewrite <- Et.
      pose proof (b_tiers _ _ _ _ _ B) as Ti. rewrite Forall_forall in Ti. specialize (Ti t Ht). cbn beta in Ti. apply in_map_iff in Ti. destruct Ti as (y & Ey & Hy).
      destruct L as [_ L]. rewrite Forall_forall in L. rewrite (L t Ht y Hy Ey). apply in_map, Hy.
  - unfold pipeline_alter in H. destruct (negb _); [discriminate|]. destruct (tiers_resolve c l) as [r|] eqn:Er; [|discriminate]. injection H as <-.
    cbn [pipeline_save set_tiers ca_storages ca_tiers]. apply resolve_ids in Er. destruct Er as (_ & _ & Er).
    eapply links_core.
    { rewrite (fold_refs_core storage_unref (-1)) by reflexivity. apply (fold_refs_core storage_ref 1). reflexivity. }
    destruct L as [A _]. split; [exact A|]. rewrite Forall_forall in Er |- *. intros t Ht s Hs Ei. 
    destruct (Er t Ht) as (x & Hx & E1). apply storage_find_some in Hx. destruct Hx as [Hx E2]. rewrite <- E2. f_equal. apply (name_unique st_id (ca_storages c)); [exact (b_sids _ _ _ _ _ B)|exact Hx|exact Hs|congruence].
  - destruct (storage_find c n) as [s|]; [|discriminate]. injection H as <-. cbn [set_storages ca_storages ca_tiers]. apply links_on; [exact L|].
    intros x _ _. split; [reflexivity|]. split; [reflexivity|]. intro G. exact G.
Qed.
