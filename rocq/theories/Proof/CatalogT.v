(* Histories of a catalog. *)
From Coq Require Import NArith ZArith Arith String List Bool Lia.
Import ListNotations.
From Verif Require Import Model.Base Model.Data Model.Json Model.Lex Model.Uuid Model.Config Model.Source Model.Catalog Model.Startup.
From Verif Require Import Spec.Value Spec.JsonText Spec.Settings Spec.Catalog.
From Verif Require Import Proof.DataL Proof.JsonL Proof.ConfigL Proof.ConfigE Proof.SourceL Proof.CatalogB Proof.CatalogS Proof.CatalogE Proof.CatalogK Proof.CatalogO.

Lemma fit_empty : fit (mk_view [] [] []).
Proof. constructor; cbn; try constructor; cbn; try constructor; cbn; repeat constructor. Qed.
Lemma holds_nil : holds [] (@nil value).
Proof. right. right. auto. Qed.
Lemma new_consistent w id cm lv c : catalog_open w id cm lv [] [] [] = Ok c ->
  consistent c /\ exists u, uuid_from_string id = Some u /\ view_of c = mk_view [] [main_source u cm lv] [].
Proof.
  intro H. destruct (opened w id cm lv (mk_view [] [] []) [] [] [] c fit_empty holds_nil holds_nil holds_nil H) as [C [[[] _]|(u & U & _ & E)]].
  split; [exact C|]. exists u. auto.
Qed.

Theorem reachable_sound c : reachable c -> sound c.
Proof.
  induction 1 as [w id cm lv c H|c w cmd _ IH Hok|c w id cm lv cs ss ps c' _ IH J H1 H2 H3 H].
  - apply (new_consistent w id cm lv c H).
  - apply sound_base in IH. destruct IH as [B K]. apply sound_base. split; [apply execute_base; assumption|apply execute_kept, K].
  - apply sound_base in IH. destruct IH as [B K]. destruct (opened w id cm lv (view_of c) cs ss ps c' (fit_view c B J) H1 H2 H3 H) as [[C _] _]. exact C.
Qed.
Lemma sound_bcat c : sound c -> bcat c.
Proof. intro S. apply sound_base in S. apply S. Qed.

Lemma execute_consistent w c cmd : consistent c -> command_ok cmd -> once c cmd -> (snd (execute w c cmd) = false -> fst (execute w c cmd) = c) ->
  consistent (fst (execute w c cmd)).
Proof.
  intros [S L] Hok Ho Hf. split; [|apply execute_linked; auto using sound_bcat]. apply sound_base in S. destruct S as [B K].
  apply sound_base. split; [apply execute_base; assumption|apply execute_kept, K].
Qed.
Theorem careful_consistent : forall l c, consistent c -> careful c l -> consistent (executes c l).
Proof.
  induction l as [|[w cmd] l IH]; intros c C H; [exact C|]. destruct H as (H1 & H2 & H3 & H4). cbn [executes]. apply IH; [|exact H4].
  apply execute_consistent; assumption.
Qed.
Theorem consistent_names c : consistent c -> names_ok (view_of c).
Proof.
  intros [S [L1 L2]]. split; cbn [view_of vw_storages vw_clouds vw_tiers]; intros x Hx; apply in_map_iff in Hx; destruct Hx as (y & <- & Hy).
  - destruct (name_dec (so_cloud (st_source y)) []) as [E|E]; [left; exact E|right]. specialize (L1 y Hy E).
    destruct (st_cloud y) as [i|] eqn:Ei; [|elim L1; reflexivity]. destruct (so_links c S y i Hy Ei) as (k & Hk & _ & En). rewrite <- En.
    rewrite map_map. apply (in_map cl_name), Hk.
  - destruct (so_tiers c S y Hy) as (s & Hs & Es). change (tc_name (ti_conf y)) with (ti_name y). rewrite (L2 y s Hy Hs Es), map_map. apply (in_map st_name), Hs.
Qed.
(* conversely: with every name known, only the links may be missing *)
Theorem reopened c w id cm lv cs ss ps : sound c -> settings_json (view_of c) -> uuid_from_string id <> None ->
  holds cs (map cloud_value (vw_clouds (view_of c))) -> holds ss (map source_value (vw_storages (view_of c))) -> holds ps (map tier_value (vw_tiers (view_of c))) ->
  (names_ok (view_of c) -> exists c', catalog_open w id cm lv cs ss ps = Ok c' /\ view_of c' = view_of c /\ consistent c') /\
  (~ names_ok (view_of c) -> forall c', catalog_open w id cm lv cs ss ps <> Ok c').
Proof.
  intros S J U H1 H2 H3. pose proof (sound_bcat c S) as B. pose proof (fit_view c B J) as F.
  assert (M : In main_name (map so_name (vw_storages (view_of c)))) by (cbn [view_of vw_storages]; rewrite map_map; exact (so_main c S)).
  pose proof (open_iff w id cm lv (view_of c) cs ss ps F M U H1 H2 H3) as I. split.
  - intro Hn. apply I in Hn. destruct Hn as [c' E]. exists c'. split; [exact E|]. destruct (opened w id cm lv (view_of c) cs ss ps c' F H1 H2 H3 E) as [C [[_ V]|(u & _ & V & _)]]; [auto|contradiction].
  - intros Hn c' E. apply Hn, I. exists c'. exact E.
Qed.

(* what cannot be dropped *)
Theorem drop_cloud_used c s i k w e : sound c -> In s (ca_storages c) -> st_cloud s = Some i -> In k (ca_clouds c) -> cl_id k = i ->
  execute w c (CloudDrop (so_cloud (st_source s)) e) = (c, false).
Proof.
  intros S Hs Hi Hk Ei. destruct (so_links c S s i Hs Hi) as (k' & Hk' & E1 & E2). pose proof (sound_bcat c S) as B.
  cbn [execute]. unfold cloud_drop. rewrite (cloud_find_in c _ k' (b_cnames _ _ _ _ _ B) Hk' E2). rewrite (so_cloud_refs c S k' Hk').
  assert (G : In s (filter (uses_cloud (cl_id k')) (ca_storages c))). { apply filter_In. split; [exact Hs|]. unfold uses_cloud. rewrite Hi, E1. apply Nat.eqb_refl. }
  destruct (filter (uses_cloud (cl_id k')) (ca_storages c)); [contradiction|]. reflexivity.
Qed.
Theorem drop_cloud_named c n w e : consistent c -> n <> [] -> In n (map so_cloud (vw_storages (view_of c))) -> execute w c (CloudDrop n e) = (c, false).
Proof.
  intros [S [L1 _]] Hn H. cbn [view_of vw_storages] in H. rewrite map_map in H. apply in_map_iff in H. destruct H as (s & Es & Hs). subst n.
  specialize (L1 s Hs Hn). destruct (st_cloud s) as [i|] eqn:Ei; [|elim L1; reflexivity]. destruct (so_links c S s i Hs Ei) as (k & Hk & E1 & _).
  apply (drop_cloud_used c s i k w e S Hs Ei Hk E1).
Qed.
Theorem drop_cloud_free c n w e : sound c -> In n (map cc_name (vw_clouds (view_of c))) -> ~ In n (map so_cloud (vw_storages (view_of c))) ->
  exists c', execute w c (CloudDrop n e) = (c', true).
Proof.
  intros S Hc Hs. cbn [view_of vw_clouds vw_storages] in *. rewrite map_map in *. apply in_map_iff in Hc. destruct Hc as (k & Ek & Hk). pose proof (sound_bcat c S) as B.
  cbn [execute]. unfold cloud_drop. rewrite (cloud_find_in c n k (b_cnames _ _ _ _ _ B) Hk Ek). rewrite (so_cloud_refs c S k Hk).
  destruct (filter (uses_cloud (cl_id k)) (ca_storages c)) as [|s l] eqn:F; [eexists; reflexivity|].
  assert (G : In s (filter (uses_cloud (cl_id k)) (ca_storages c))) by (rewrite F; left; reflexivity). apply filter_In in G. destruct G as [G1 G2].
  unfold uses_cloud in G2. destruct (st_cloud s) as [i|] eqn:Ei; [|discriminate]. apply Nat.eqb_eq in G2.
  destruct (so_links c S s i G1 Ei) as (k' & Hk' & E1 & E2). assert (k' = k) by (apply (name_unique cl_id (ca_clouds c)); [exact (b_cids _ _ _ _ _ B)|exact Hk'|exact Hk|congruence]). subst k'.
  elim Hs. rewrite <- Ek. unfold cl_name in E2. rewrite E2. apply (in_map (fun x => so_cloud (st_source x))), G1.
Qed.
Theorem drop_storage_kept c n w e : sound c ->
  n = main_name \/ (exists s, In s (ca_storages c) /\ st_name s = n /\ (st_parts s <> [] \/ exists t, In t (ca_tiers c) /\ ti_storage t = st_id s)) ->
  execute w c (StorageDrop n e) = (c, false).
Proof.
  intros S H. cbn [execute]. unfold storage_drop. destruct (same_bytes n main_name) eqn:E; [reflexivity|].
  destruct H as [->|(s & Hs & En & H)]; [rewrite same_bytes_refl in E; discriminate|].
  pose proof (sound_bcat c S) as B. rewrite (storage_find_in c n s (b_snames _ _ _ _ _ B) Hs En). rewrite (so_storage_refs c S s Hs).
  destruct H as [H|(t & Ht & Et)].
  - destruct (0 <? _)%Z; [reflexivity|]. destruct (st_parts s); [elim H; reflexivity|reflexivity].
  - assert (G : In t (filter (uses_storage (st_id s)) (ca_tiers c))). { apply filter_In. split; [exact Ht|]. unfold uses_storage. rewrite Et. apply Nat.eqb_refl. }
    destruct (filter (uses_storage (st_id s)) (ca_tiers c)); [contradiction|]. reflexivity.
Qed.
Theorem drop_storage_free c s w e : sound c -> In s (ca_storages c) -> st_name s <> main_name -> st_parts s = [] ->
  (forall t, In t (ca_tiers c) -> ti_storage t <> st_id s) -> wo_detach w = true -> exists c', execute w c (StorageDrop (st_name s) e) = (c', true).
Proof.
  intros S Hs Hn Hp Ht Hw. cbn [execute]. unfold storage_drop. rewrite (proj2 (same_bytes_neq _ _) Hn).
  pose proof (sound_bcat c S) as B. rewrite (storage_find_in c _ s (b_snames _ _ _ _ _ B) Hs eq_refl). rewrite (so_storage_refs c S s Hs), Hp, Hw.
  destruct (filter (uses_storage (st_id s)) (ca_tiers c)) as [|t l] eqn:F.
  - cbn. destruct (st_cloud s); eexists; reflexivity.
  - assert (G : In t (filter (uses_storage (st_id s)) (ca_tiers c))) by (rewrite F; left; reflexivity). apply filter_In in G. destruct G as [G1 G2].
    apply Nat.eqb_eq in G2. elim (Ht t G1 G2).
Qed.

(* every command *)
Theorem command_result w c cmd c' ok : sound c -> execute w c cmd = (c', ok) ->
  if ok then once c cmd -> view_of c' = effect cmd (view_of c)
  else c' = c \/ exists n a e m, cmd = StorageAlter n a e /\ al_cloud a = Some m /\ m <> [].
Proof.
  intros S H. destruct ok.
  - intro Ho. apply (execute_effect w c cmd c' (sound_bcat c S) Ho H).
  - apply (execute_failed w c cmd c' H).
Qed.

(* renaming a storage that is used at most once *)
Theorem rename_storage w c n m e c' : consistent c -> execute w c (StorageRename n m e) = (c', true) ->
  length (filter (fun t => is (ti_name t) n) (ca_tiers c)) <= 1 ->
  vw_tiers (view_of c') = change tc_name n (fun t => mk_tierc m (tc_partitions t) (tc_size t) (tc_events t) (tc_duration t)) (vw_tiers (view_of c)) /\
  vw_storages (view_of c') = change so_name n (fun s => source_set_name s m) (vw_storages (view_of c)) /\
  vw_clouds (view_of c') = vw_clouds (view_of c) /\ consistent c'.
Proof.
  intros C H Ho. assert (O : once c (StorageRename n m e)) by (intros n' m' e' E; injection E as <- <- <-; exact Ho).
  rewrite (execute_effect w c _ c' (sound_bcat c (proj1 C)) O H). cbn [effect vw_tiers vw_storages vw_clouds]. repeat (split; [reflexivity|]).
  replace c' with (fst (execute w c (StorageRename n m e))) by (rewrite H; reflexivity). apply execute_consistent; [exact C|exact I|exact O|rewrite H; discriminate].
Qed.

(* through the file of settings *)
Lemma find_shape c d n w : same_shape c d -> config_find d n = Some w -> exists v, config_find c n = Some v /\ shape v = shape w.
Proof.
  revert d. induction c as [|v c IH]; intros [|x d] H F; try discriminate. unfold same_shape in H. cbn [map] in H. injection H as Ha Hb Hc H.
  cbn [config_find] in *. rewrite Ha. destruct (same_bytes (v_name x) n); [|apply (IH d H F)]. injection F as <-. exists v. split; [reflexivity|]. unfold shape. congruence.
Qed.
Lemma find_load c d n v w : same_shape c d -> config_find c n = Some v -> config_find d n = Some w -> config_find (load_all c d) n = Some (load v w).
Proof.
  revert d. induction c as [|a c IH]; intros [|x d] H F G; try discriminate. unfold same_shape in H. cbn [map] in H. injection H as Ha Hb Hc H.
  unfold load_all. cbn [combine map fst snd config_find] in *. pose proof (shape_load a x) as HL. apply shape_parts in HL. destruct HL as [-> _]. rewrite Ha in F.
  destruct (same_bytes (v_name x) n); [congruence|]. apply (IH d H F G).
Qed.
Lemma find_name c n v : config_find c n = Some v -> v_name v = n.
Proof. induction c as [|a c IH]; [discriminate|]. cbn [config_find]. destruct (same_bytes (v_name a) n) eqn:E; [|exact IH]. intro H. injection H as <-. apply same_bytes_eq, E. Qed.
Lemma find_put_same c n v v' : config_find c n = Some v -> v_name v' = n -> config_find (config_put c v') n = Some v'.
Proof.
  intros F E. induction c as [|a c IH]; [discriminate|]. cbn [config_find config_put] in *. rewrite E. destruct (same_bytes (v_name a) n) eqn:Ea; cbn [config_find].
  - rewrite E, same_bytes_refl. reflexivity.
  - rewrite Ea. apply IH, F.
Qed.
Lemma find_put_other c n v' : v_name v' <> n -> config_find (config_put c v') n = config_find c n.
Proof.
  intros E. induction c as [|a c IH]; [reflexivity|]. cbn [config_find config_put] in *. destruct (same_bytes (v_name a) (v_name v')) eqn:Ea; cbn [config_find].
  - apply same_bytes_eq in Ea. rewrite (proj2 (same_bytes_neq _ _) E). rewrite Ea, (proj2 (same_bytes_neq _ _) E). reflexivity.
  - rewrite IH. reflexivity.
Qed.
Lemma put_shape c n v v' : config_find c n = Some v -> shape v' = shape v -> same_shape (config_put c v') c.
Proof.
  intros F E. pose proof (find_name _ _ _ F) as En. apply shape_parts in E as E'. destruct E' as [E' _]. unfold same_shape.
  induction c as [|a c IH]; [discriminate|]. cbn [config_find config_put] in *. rewrite E', En. destruct (same_bytes (v_name a) n); cbn [map].
  - injection F as ->. rewrite E. reflexivity.
  - f_equal. apply IH, F.
Qed.
Lemma put_saves c n v v' : config_find c n = Some v -> v_name v' = n -> saves c -> (ephemeral v' = false -> savable v') -> saves (config_put c v').
Proof.
  intros F E S H. unfold saves in *. induction c as [|a c IH]; [constructor|]. cbn [config_find config_put] in *. inversion S as [|x y S1 S2]; subst x y. rewrite E. destruct (same_bytes (v_name a) n).
  - constructor; assumption.
  - constructor; [exact S1|apply IH; assumption].
Qed.

Definition data_var (cfg : config) (name : string) : Prop := exists v, config_find cfg (chars name) = Some v /\ v_type v = VAR_DATA /\ ephemeral v = false.
Lemma set_bytes_ok cfg name x b : data_var cfg name -> saves cfg -> json_ok (VArr x) -> holds b x ->
  saves (set_bytes cfg name b) /\ same_shape (set_bytes cfg name b) cfg /\ (exists v, config_find (set_bytes cfg name b) (chars name) = Some v /\ v_str v = b /\ v_type v = VAR_DATA /\ ephemeral v = false) /\
  forall n, n <> chars name -> config_find (set_bytes cfg name b) n = config_find cfg n.
Proof.
  intros (v & F & T & E) S J H. unfold set_bytes. rewrite F. pose proof (find_name _ _ _ F) as N. split; [|split; [|split]].
  - apply (put_saves cfg (chars name) v); try assumption. intros _. split; [|split].
    + cbn. unfold saves in S. rewrite Forall_forall in S. apply (S v); [|exact E]. clear - F. induction cfg as [|a c IH]; [discriminate|]. cbn [config_find] in F.
      destruct (same_bytes (v_name a) (chars name)); [injection F as ->; left; reflexivity|right; apply IH, F].
    + unfold setting. cbn [var_string_set v_type v_str]. rewrite T. destruct H as [->|[->|[-> [->| ->]]]].
      * pose proof (decode_enc_ok false _ [] J) as D. rewrite app_nil_r in D. cbn [enc] in D. rewrite D. exact J.
      * pose proof (decode_enc_ok true _ [] J) as D. rewrite app_nil_r in D. cbn [enc] in D. rewrite D. exact J.
      * constructor.
      * vm_compute. constructor.
    + intros _. cbn [var_string_set v_str]. destruct H as [->|[->|[-> [->| ->]]]]; [right; eauto|right; eauto|left; reflexivity|right]. exists VNull. split; [constructor|left; reflexivity].
  - apply (put_shape cfg (chars name) v); [exact F|reflexivity].
  - exists (var_string_set v b). split; [apply (find_put_same cfg (chars name) v); assumption|]. repeat split; assumption.
  - intros n Hn. apply find_put_other. cbn. congruence.
Qed.
Lemma loaded_bytes cfg d name x v : same_shape cfg d -> config_find cfg (chars name) = Some v -> v_type v = VAR_DATA -> ephemeral v = false -> holds (v_str v) x -> json_ok (VArr x) ->
  holds (var_bytes (load_all cfg d) name) x.
Proof.
  intros Sh F T E H J. destruct (find_shape d cfg (chars name) v) as (w & G & _); [symmetry; exact Sh|exact F|].
  unfold var_bytes. rewrite (find_load cfg d _ v w Sh F G). unfold load. rewrite E, T. cbn [var_string_set v_str]. unfold setting. rewrite T.
  destruct H as [->|[->|[-> [->| ->]]]].
  - pose proof (decode_enc_ok false _ [] J) as D. rewrite app_nil_r in D. cbn [enc] in D. rewrite D. right. left. reflexivity.
  - pose proof (decode_enc_ok true _ [] J) as D. rewrite app_nil_r in D. cbn [enc] in D. rewrite D. right. left. reflexivity.
  - right. right. split; [reflexivity|]. right. reflexivity.
  - right. right. split; [reflexivity|]. right. vm_compute. reflexivity.
Qed.

Section FILE.
Variable strtod : list byte -> option (N * nat).
Variable fmt_real : N -> list byte.
Theorem restart c cfg d old w : consistent c -> settings_json (view_of c) ->
  same_shape cfg defaults -> same_shape d defaults -> saves cfg -> uuid_from_string (var_bytes cfg "uuid") <> None ->
  exists text cfg' c', config_text fmt_real (catalog_store cfg c) = Ok text /\
    config_open strtod fmt_real d (mk_cdir (Some text) old) = Ok (cfg', mk_cdir (Some text) old) /\
    catalog_start w cfg' = Ok c' /\ view_of c' = view_of c /\ consistent c'.
Proof.
  intros C J Sc Sd Sv U. destruct C as [S L]. destruct (so_kept c S) as (K1 & K2 & K3). destruct J as (J1 & J2 & J3).
  assert (DV : forall cf name, same_shape cf defaults -> (exists v, config_find defaults (chars name) = Some v /\ v_type v = VAR_DATA /\ ephemeral v = false) -> data_var cf name).
  { intros cf name Hs (v & F & T & E). destruct (find_shape cf defaults _ v Hs F) as (x & Fx & Ex). apply shape_parts in Ex. destruct Ex as (_ & E2 & E3). exists x. unfold ephemeral in *. repeat split; congruence. }
  assert (D1 : data_var cfg "clouds") by (apply DV; [exact Sc|vm_compute; eexists; repeat split; reflexivity]).
  destruct (set_bytes_ok cfg "clouds" _ (va_clouds c) D1 Sv J1 K1) as (A1 & A2 & (v1 & A3 & A4 & A5 & A6) & A7).
  set (cf1 := set_bytes cfg "clouds" (va_clouds c)) in *. assert (H1 : same_shape cf1 defaults) by (unfold same_shape in *; congruence).
  assert (D2 : data_var cf1 "storages") by (apply DV; [exact H1|vm_compute; eexists; repeat split; reflexivity]).
  destruct (set_bytes_ok cf1 "storages" _ (va_storages c) D2 A1 J2 K2) as (B1 & B2 & (v2 & B3 & B4 & B5 & B6) & B7).
  set (cf2 := set_bytes cf1 "storages" (va_storages c)) in *. assert (H2 : same_shape cf2 defaults) by (unfold same_shape in *; congruence).
  assert (D3 : data_var cf2 "pipeline") by (apply DV; [exact H2|vm_compute; eexists; repeat split; reflexivity]).
  destruct (set_bytes_ok cf2 "pipeline" _ (va_pipeline c) D3 B1 J3 K3) as (E1 & E2 & (v3 & E3 & E4 & E5 & E6) & E7).
  unfold catalog_store. fold cf1. fold cf2. set (cf3 := set_bytes cf2 "pipeline" (va_pipeline c)) in *. assert (H3 : same_shape cf3 defaults) by (unfold same_shape in *; congruence).
  pose proof (table_shape cf3 defaults H3 (proj1 defaults_table)) as T.
  assert (Sh : same_shape cf3 d) by (unfold same_shape in *; congruence).
  pose proof (text_of fmt_real cf3 T E1) as Tx. 
  assert (O : config_open strtod fmt_real d (mk_cdir (Some (show fmt_real true 0 (tree cf3))) old) = Ok (load_all cf3 d, mk_cdir (Some (show fmt_real true 0 (tree cf3))) old)) by (apply (open_loads strtod fmt_real cf3 d _ old T E1 Sh Tx)).
  eexists _, (load_all cf3 d). 
  assert (X : uuid_from_string (var_bytes (load_all cf3 d) "uuid") <> None).
  { assert (Fu : exists vu, config_find cfg (chars "uuid") = Some vu /\ v_type vu = VAR_STRING /\ ephemeral vu = false).
    { assert (Fd : exists v, config_find defaults (chars "uuid") = Some v /\ v_type v = VAR_STRING /\ ephemeral v = false) by (vm_compute; eexists; repeat split; reflexivity).
      destruct Fd as (v & F & Tv & E). destruct (find_shape cfg defaults _ v Sc F) as (x & Fx & Ex). apply shape_parts in Ex. destruct Ex as (_ & X2 & X3). exists x. unfold ephemeral in *. repeat split; congruence. }
    destruct Fu as (vu & Fu & Tu & Eu). unfold var_bytes in U. rewrite Fu in U.
    assert (Fu3 : config_find cf3 (chars "uuid") = Some vu) by (unfold cf3; rewrite E7, B7, A7 by (vm_compute; discriminate); exact Fu).
    destruct (find_shape d cf3 (chars "uuid") vu) as (w' & G & _); [symmetry; exact Sh|exact Fu3|].
    unfold var_bytes. rewrite (find_load cf3 d _ vu w' Sh Fu3 G). unfold load. rewrite Eu, Tu. exact U. }
  assert (Q1 : config_find cf3 (chars "clouds") = Some v1) by (unfold cf3; rewrite E7, B7 by (vm_compute; discriminate); exact A3).
  assert (Q2 : config_find cf3 (chars "storages") = Some v2) by (unfold cf3; rewrite E7 by (vm_compute; discriminate); exact B3).
  destruct (reopened c w (var_bytes (load_all cf3 d) "uuid") (var_bytes (load_all cf3 d) "compression") (Z.of_N (var_number (load_all cf3 d) "compression_level"))
    (var_bytes (load_all cf3 d) "clouds") (var_bytes (load_all cf3 d) "storages") (var_bytes (load_all cf3 d) "pipeline") S (conj J1 (conj J2 J3)) X) as [R _].
  - apply (loaded_bytes cf3 d "clouds" _ v1 Sh Q1 A5 A6); [rewrite A4; exact K1|exact J1].
  - apply (loaded_bytes cf3 d "storages" _ v2 Sh Q2 B5 B6); [rewrite B4; exact K2|exact J2].
  - apply (loaded_bytes cf3 d "pipeline" _ v3 Sh E3 E5 E6); [rewrite E4; exact K3|exact J3].
  - destruct R as (c' & R1 & R2 & R3); [apply consistent_names; split; assumption|]. exists c'. split; [exact Tx|]. split; [exact O|]. auto.
Qed.
End FILE.
