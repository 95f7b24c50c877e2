(* When a command on the catalog succeeds. *)
From Coq Require Import NArith ZArith Arith String List Bool Lia.
Import ListNotations.
From Verif Require Import Model.Base Model.Data Model.Lex Model.Uuid Model.Source Model.Catalog Spec.Value Spec.JsonText Spec.Catalog Spec.Permitted.
From Verif Require Import Proof.CatalogB Proof.CatalogS Proof.CatalogE Proof.CatalogT Proof.CatalogX.

Lemma cloud_in c n : In n (map cc_name (vw_clouds (view_of c))) <-> exists k, cloud_find c n = Some k.
Proof.
  rewrite <- cl_names. split.
  - intro I. destruct (cloud_find c n) as [k|] eqn:F; [eauto|]. elim (cloud_find_none c n F I).
  - intros [k F]. apply cloud_find_some in F as [I E]. apply in_map_iff. eauto.
Qed.
Lemma storage_in c n : In n (map so_name (vw_storages (view_of c))) <-> exists k, storage_find c n = Some k.
Proof.
  rewrite <- st_names. split.
  - intro I. destruct (storage_find c n) as [k|] eqn:F; [eauto|]. elim (storage_find_none c n F I).
  - intros [k F]. apply storage_find_some in F as [I E]. apply in_map_iff. eauto.
Qed.
Lemma cloud_out c n : ~ In n (map cc_name (vw_clouds (view_of c))) <-> cloud_find c n = None.
Proof. rewrite cloud_in. destruct (cloud_find c n) as [k|]; split; intro H; try reflexivity; try discriminate; [elim H; eauto|intros [x X]; discriminate]. Qed.
Lemma storage_out c n : ~ In n (map so_name (vw_storages (view_of c))) <-> storage_find c n = None.
Proof. rewrite storage_in. destruct (storage_find c n) as [k|]; split; intro H; try reflexivity; try discriminate; [elim H; eauto|intros [x X]; discriminate]. Qed.

Lemma same_main n : same_bytes n main_name = true <-> n = chars "main".
Proof. rewrite <- is_same. apply is_eq. Qed.
Lemma interface_iff t : cloud_interface t = true <-> t = chars "mock" \/ t = chars "s3".
Proof. unfold cloud_interface. rewrite orb_true_iff, <- !is_same, !is_eq. reflexivity. Qed.

Lemma set_cloud_ok w c c1 i s : map cl_name (ca_clouds c1) = map cl_name (ca_clouds c) ->
  (snd (storage_set_cloud w true c1 i s) = true <-> attaches w c (so_cloud s)).
Proof.
  intro E. unfold storage_set_cloud, attaches. destruct (so_cloud s) as [|b n] eqn:N; [cbn; tauto|].
  rewrite <- cl_names, <- E, cl_names, cloud_in. destruct (cloud_find c1 (b :: n)) as [k|].
  - cbn [andb]. destruct (wo_attach w); cbn [negb snd]; split; intro H; try tauto; try discriminate; [right; eauto|].
    destruct H as [H|[_ H]]; discriminate.
  - cbn [snd]. split; [discriminate|]. intros [H|[[k H] _]]; discriminate.
Qed.
Lemma unlink_names c o : map cl_name (ca_clouds (unlink_cloud c o)) = map cl_name (ca_clouds c).
Proof.
  destruct o as [i|]; [|reflexivity]. cbn [unlink_cloud cloud_unref set_clouds ca_clouds]. unfold on_cloud. rewrite map_map. apply map_ext.
  intro k. destruct (cl_id k =? i); reflexivity.
Qed.
Lemma cnt_pos {A} (f : A -> bool) l : (0 <? Z.of_nat (length (filter f l)))%Z = false <-> forall a, In a l -> f a = false.
Proof.
  rewrite <- (cnt_zero f l). unfold cnt. rewrite Z.ltb_ge. pose proof (cnt_nonneg f l). unfold cnt in *. lia.
Qed.
Lemma parts_empty s : (length (st_parts s) =? 0) = true <-> st_parts s = [].
Proof. destruct (st_parts s); cbn; split; congruence. Qed.
Lemma given_some {A} (o : option A) : given o = true <-> o <> None.
Proof. destruct o; cbn; split; congruence. Qed.

Lemma validate_iff l : pipeline_validate l = true <->
  forall l1 t u l2, l = l1 ++ t :: u :: l2 -> tc_name t <> tc_name u /\ ~ unlimited t.
Proof.
  induction l as [|t [|u l] IH].
  - split; [|reflexivity]. intros _ [|x l1] t u l2 E; discriminate.
  - split; [|reflexivity]. intros _ [|x [|y l1]] a b l2 E; discriminate.
  - change (pipeline_validate (t :: u :: l)) with (negb (same_bytes (tc_name t) (tc_name u)) && negb (tierc_terminal t) && pipeline_validate (u :: l)).
    rewrite !andb_true_iff, IH, !negb_true_iff, <- is_same, is_neq.
    assert (U : tierc_terminal t = false <-> ~ unlimited t).
    { unfold tierc_terminal, unlimited. rewrite <- not_true_iff_false, !andb_true_iff, !Z.eqb_eq. tauto. }
    rewrite U. split.
    + intros [A B] [|x l1] a b l2 E; [injection E as <- <- <-; exact A|]. injection E as -> E. apply (B l1 a b l2 E).
    + intro H. split; [apply (H [] t u l eq_refl)|]. intros l1 a b l2 E. apply (H (t :: l1) a b l2). rewrite E. reflexivity.
Qed.
Lemma resolve_iff c l : tiers_resolve c l <> None <-> forall t, In t l -> In (tc_name t) (map so_name (vw_storages (view_of c))).
Proof.
  induction l as [|t l IH]; [split; [intros _ x []|discriminate]|]. cbn [tiers_resolve]. split.
  - intros H x [<-|I]; [apply storage_in; destruct (storage_find c (tc_name t)); [eauto|congruence]|].
    apply IH; [|exact I]. intro E. rewrite E in H. destruct (storage_find c (tc_name t)); congruence.
  - intro H. assert (A := H t (or_introl eq_refl)). apply storage_in in A as [k ->].
    assert (B : tiers_resolve c l <> None) by (apply IH; intros x I; apply H; right; exact I).
    destruct (tiers_resolve c l); congruence.
Qed.

Theorem succeeds w c cmd : sound c -> (snd (execute w c cmd) = true <-> permitted w c cmd).
Proof.
  intro S. pose proof (sound_bcat c S) as B. destruct cmd as [k e|n e|n a e|n m e|s e|n e|n a e|n m e|l|n l]; unfold permitted; cbv zeta; cbn [execute].
  - rewrite cloud_out, cloud_in. unfold cloud_create, cloud_create_object. rewrite <- interface_iff.
    destruct (cloud_find c (cc_name k)) as [x|]; cbn [snd].
    + split; [intro; left; eauto|]. intros [[_ H]|[H _]]; [exact H|discriminate].
    + destruct (cloud_interface (cc_type k)); cbn [snd]; split; intro H; try tauto; try discriminate.
      destruct H as [[[x H] _]|[_ H]]; discriminate.
  - rewrite cloud_out, cloud_in. unfold cloud_drop. destruct (cloud_find c n) as [k|] eqn:F; cbn [snd].
    + apply cloud_find_some in F as [I N]. rewrite (so_cloud_refs c S k I).
      destruct (0 <? Z.of_nat (length (filter (uses_cloud (cl_id k)) (ca_storages c))))%Z eqn:Z; cbn [snd].
      * split; [discriminate|]. intros [[H _]|[_ H]]; [discriminate|]. exfalso. rewrite <- not_false_iff_true in Z. apply Z, cnt_pos.
        intros s Is. unfold uses_cloud. specialize (H s k Is I N). destruct (st_cloud s) as [j|]; [|reflexivity].
        apply Nat.eqb_neq. intros ->. apply H. reflexivity.
      * split; [|reflexivity]. intros _. right. split; [eauto|]. intros s k' Is Ik' N' E. rewrite cnt_pos in Z. specialize (Z s Is).
        assert (k' = k) as -> by (apply (name_unique cl_name (ca_clouds c)); [apply (so_cloud_names c S)|exact Ik'|exact I|congruence]).
        unfold uses_cloud in Z. rewrite E, Nat.eqb_refl in Z. discriminate.
    + split; [tauto|]. intros [[_ H]|[[k H] _]]; [exact H|discriminate].
  - rewrite cloud_in. unfold cloud_alter. destruct (cloud_find c n) as [k|]; cbn [snd]; split; intro H; try tauto; eauto.
    destruct H as [[k H]|H]; [discriminate|exact H].
  - rewrite !cloud_out, cloud_in. unfold cloud_rename. destruct (cloud_find c n) as [k|].
    + destruct (cloud_find c m) as [x|]; cbn [snd]; split; intro H; try tauto; try discriminate.
      * destruct H as [[H _]|[_ H]]; discriminate.
      * right. eauto.
    + destruct e; cbn [snd]; split; intro H; try tauto; try discriminate. destruct H as [[_ H]|[[k H] _]]; discriminate.
  - rewrite storage_out, storage_in. unfold storage_create, storage_create_object.
    destruct (storage_find c (so_name s)) as [x|]; cbn [snd].
    + split; [intro; left; eauto|]. intros [[_ H]|[H _]]; [exact H|discriminate].
    + destruct (wo_mkdir w); cbn [negb snd].
      2:{ split; [discriminate|]. intros [[[x H] _]|[_ [H _]]]; discriminate. }
      set (c1 := fresh _). pose proof (set_cloud_ok w c c1 (ca_next c) (source_copy s) eq_refl) as K.
      change (so_cloud (source_copy s)) with (so_cloud s) in K.
      destruct (storage_set_cloud w true c1 (ca_next c) (source_copy s)) as [c2 [|]]; cbn [snd] in *.
      * split; [|reflexivity]. intros _. right. split; [reflexivity|]. split; [reflexivity|]. apply K. reflexivity.
      * split; [discriminate|]. intros [[[x H] _]|[_ [_ H]]]; [discriminate|]. apply K, H.
  - unfold storage_drop. destruct (same_bytes n main_name) eqn:M; cbn [snd].
    { apply same_main in M. split; [discriminate|]. intros [H _]. contradiction. }
    assert (Nm : n <> chars "main") by (rewrite <- same_main; congruence). rewrite storage_out.
    destruct (storage_find c n) as [s|] eqn:F; cbn [snd].
    2:{ split; [tauto|]. intros [_ [[_ H]|(s & I & N & _)]]; [exact H|]. elim (storage_find_none c n F). apply in_map_iff. eauto. }
    apply storage_find_some in F as [I N]. rewrite (so_storage_refs c S s I).
    assert (X : forall P : storage -> Prop, (exists s', In s' (ca_storages c) /\ st_name s' = n /\ P s') <-> P s).
    { intro P. split; [|eauto]. intros (s' & I' & N' & H).
      assert (s' = s) as -> by (apply (name_unique st_name (ca_storages c)); [apply (so_storage_names c S)|exact I'|exact I|congruence]). exact H. }
    rewrite X. destruct (0 <? Z.of_nat (length (filter (uses_storage (st_id s)) (ca_tiers c))))%Z eqn:Z; cbn [snd].
    { split; [discriminate|]. intros [_ [[H _]|(_ & H & _)]]; [discriminate|]. exfalso. rewrite <- not_false_iff_true in Z. apply Z, cnt_pos.
      intros t It. apply Nat.eqb_neq, (H t It). }
    rewrite cnt_pos in Z. assert (U : forall t, In t (ca_tiers c) -> ti_storage t <> st_id s) by (intros t It; apply Nat.eqb_neq, (Z t It)).
    destruct (Nat.eqb_spec (length (st_parts s)) 0) as [L|L]; cbn [negb snd].
    2:{ split; [discriminate|]. intros [_ [[H _]|(H & _)]]; [discriminate|]. rewrite H in L. elim L. reflexivity. }
    assert (P : st_parts s = []) by (destruct (st_parts s); [reflexivity|discriminate]).
    destruct (st_cloud s) as [j|].
    + destruct (wo_detach w); cbn [negb snd].
      * split; [|reflexivity]. intros _. split; [exact Nm|]. right. tauto.
      * split; [discriminate|]. intros [_ [[H _]|(_ & _ & H)]]; [discriminate|]. exact (H ltac:(discriminate)).
    + cbn [snd]. split; [|reflexivity]. intros _. split; [exact Nm|]. right. repeat split; try assumption. congruence.
  - rewrite storage_out. unfold storage_alter. destruct (storage_find c n) as [s|] eqn:F; cbn [snd].
    2:{ split; [tauto|]. intros [[_ H]|(s & I & N & _)]; [exact H|]. elim (storage_find_none c n F). apply in_map_iff. eauto. }
    apply storage_find_some in F as [I N].
    assert (X : forall P : storage -> Prop, (exists s', In s' (ca_storages c) /\ st_name s' = n /\ P s') <-> P s).
    { intro P. split; [|eauto]. intros (s' & I' & N' & H).
      assert (s' = s) as -> by (apply (name_unique st_name (ca_storages c)); [apply (so_storage_names c S)|exact I'|exact I|congruence]). exact H. }
    rewrite X. clear X. rewrite <- !given_some, <- parts_empty. cbv zeta. set (emp := length (st_parts s) =? 0).
    assert (Q : (Some s = None /\ e = true \/ ((given (al_crc a) = true \/ given (al_path a) = true \/ given (al_encryption a) = true \/ given (al_key a) = true -> emp = true) /\
      (given (al_path a) = true -> wo_mkdir w = true) /\
      (forall k, al_cloud a = Some k -> (forall p, In p (st_parts s) -> pt_cloud p = false) /\ (st_cloud s <> None -> wo_detach w = true) /\ attaches w c k))) <->
      ((given (al_crc a) = true \/ given (al_path a) = true \/ given (al_encryption a) = true \/ given (al_key a) = true -> emp = true) /\
      (given (al_path a) = true -> wo_mkdir w = true) /\
      (forall k, al_cloud a = Some k -> (forall p, In p (st_parts s) -> pt_cloud p = false) /\ (st_cloud s <> None -> wo_detach w = true) /\ attaches w c k))).
    { split; [|tauto]. intros [[H _]|H]; [discriminate|exact H]. }
    rewrite Q. clear Q.
    destruct (given (al_crc a)), (given (al_path a)), (given (al_encryption a)), (given (al_key a)), emp, (wo_mkdir w); cbn [andb orb negb snd];
      try (split; [discriminate|intros (H & H' & _); first [discriminate (H ltac:(tauto))|discriminate (H' eq_refl)]]; fail).
    all: destruct (al_cloud a) as [k|] eqn:Ek; cbn [given andb snd];
      [|split; [intros _; split; [tauto|split; [tauto|discriminate]]|reflexivity]].
    all: destruct (existsb pt_cloud (st_parts s)) eqn:Ex; cbn [snd].
    all: try (split; [discriminate|]; intros (_ & _ & H); apply existsb_exists in Ex as (p & Ip & Ep); rewrite (proj1 (H k eq_refl) p Ip) in Ep; discriminate).
    all: assert (Ex' : forall p, In p (st_parts s) -> pt_cloud p = false)
      by (intros p Ip; destruct (pt_cloud p) eqn:Ep; [|reflexivity]; rewrite <- Ex; symmetry; apply existsb_exists; eauto).
    all: destruct (given (st_cloud s) && negb (wo_detach w)) eqn:D; cbn [snd].
    all: try (apply andb_prop in D as [D1 D2]; split; [discriminate|]; intros (_ & _ & H); destruct (H k eq_refl) as (_ & H' & _);
              rewrite (H' (proj1 (given_some _) D1)) in D2; discriminate).
    all: assert (D' : st_cloud s <> None -> wo_detach w = true)
      by (intro G; apply given_some in G; rewrite G in D; cbn [andb] in D; destruct (wo_detach w); [reflexivity|discriminate]).
    all: rewrite (set_cloud_ok w c) by (cbn [set_storages ca_clouds]; rewrite unlink_names; reflexivity).
    all: cbn [source_alter so_cloud]; rewrite Ek; cbn [pick].
    all: split; [intro A; split; [tauto|]; split; [tauto|]; intros k' E'; injection E' as <-; tauto|intros (_ & _ & H); apply (H k eq_refl)].
  - unfold storage_rename. destruct (same_bytes n main_name) eqn:M; cbn [snd].
    { apply same_main in M. split; [discriminate|]. intros [H _]. contradiction. }
    assert (Nm : n <> chars "main") by (rewrite <- same_main; congruence). rewrite !storage_out, storage_in.
    destruct (storage_find c n) as [s|].
    + destruct (storage_find c m) as [x|]; cbn [snd]; split; intro H; try tauto; try discriminate.
      * destruct H as [_ [[H _]|[_ H]]]; discriminate.
      * split; [exact Nm|]. right. eauto.
    + destruct e; cbn [snd]; split; intro H; try tauto; try discriminate. destruct H as [_ [[_ H]|[[k H] _]]]; discriminate.
  - unfold pipeline_alter. rewrite <- resolve_iff, <- validate_iff. destruct (pipeline_validate l); cbn [negb snd].
    + destruct (tiers_resolve c l); cbn [snd]; split; intro H; try tauto; try discriminate; [split; [discriminate|reflexivity]].
    + split; [discriminate|]. intros [_ H]. discriminate.
  - rewrite storage_in. destruct (storage_find c n) as [s|]; cbn [snd]; split; intro H; try tauto; try discriminate; eauto.
    destruct H as [k H]. discriminate.
Qed.

(* cases *)
Definition two_storages : catalog := executes a_catalog [(fine, StorageCreate (a_source "hot") false)].
Definition tier_named (n : string) : tierc := mk_tierc (chars n) (-1) (-1) (-1) (-1).
Definition limited (n : string) : tierc := mk_tierc (chars n) 10 (-1) (-1) (-1).
Lemma permitted_cases : sound two_storages /\
  permitted fine two_storages (PipelineAlter [limited "hot"; tier_named "main"]) /\
  ~ permitted fine two_storages (PipelineAlter [limited "hot"; limited "hot"]) /\
  ~ permitted fine two_storages (PipelineAlter [tier_named "hot"; tier_named "main"]) /\
  ~ permitted fine two_storages (StorageRename (chars "hot") (chars "hot") false) /\
  permitted fine two_storages (StorageDrop (chars "hot") false).
Proof.
  assert (S : sound two_storages).
  { apply reachable_sound, executes_reachable; [apply a_catalog_reachable|]. repeat constructor. }
  split; [exact S|]. rewrite <- !(succeeds fine two_storages _ S). vm_compute. repeat split; congruence.
Qed.
