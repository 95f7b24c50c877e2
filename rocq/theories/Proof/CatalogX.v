(* Concrete catalogs. *)
From Coq Require Import NArith ZArith Arith String List Bool Lia.
Import ListNotations.
From Verif Require Import Model.Base Model.Data Model.Json Model.Lex Model.Uuid Model.Config Model.Source Model.Catalog Model.Startup.
From Verif Require Import Spec.Value Spec.JsonText Spec.Settings Spec.Catalog.
From Verif Require Import Proof.DataL Proof.ConfigL Proof.ConfigE Proof.CatalogT.

Definition an_id : list byte := uuid_to_string (mk_uuid 1 2).
Definition fine : world := mk_world true true true.
Definition no_server : world := mk_world true false true.
Definition a_catalog : catalog :=
  match catalog_open fine an_id [] 0 [] [] [] with Ok c => c | _ => mk_catalog [] [] [] 0 [] [] [] end.
Definition a_cloud : cloudc := mk_cloudc (chars "amazon") (chars "mock") [] [] [] false.
Definition a_source (n : string) : source := mk_source (mk_uuid 3 4) (chars n) [] [] true true false 40 128 [] 0 [] [].
Definition set_cloud_to (m : string) : salter := mk_salter None (Some (chars m)) None None None None None None None None None.
Definition a_tier (n : string) : tierc := mk_tierc (chars n) 5 (-1) (-1) (-1).

Lemma a_catalog_reachable : reachable a_catalog.
Proof. apply (re_new fine an_id [] 0%Z). vm_compute. reflexivity. Qed.
Lemma executes_reachable : forall l c, reachable c -> Forall (fun p => command_ok (snd p)) l -> reachable (executes c l).
Proof.
  induction l as [|[w cmd] l IH]; intros c R H; [exact R|]. inversion H as [|x y H1 H2]; subst x y. cbn [executes]. apply IH; [|exact H2]. apply re_command; assumption.
Qed.

Definition json_b : value -> bool :=
  fix go (v : value) := match v with
  | VNull | VBool _ => true
  | VInt z => (Z.abs z <? 2 ^ 63 - 48)%Z
  | VStr s => short s
  | VArr l => (N.of_nat (length l) <? 2 ^ 31)%N && forallb go l
  | VMap l => (N.of_nat (length l) <? 2 ^ 31)%N && forallb (fun p => match fst p with VStr _ => true | _ => false end && go (fst p) && go (snd p)) l
  | _ => false
  end.
Fixpoint json_b_ok (v : value) : json_b v = true -> json_ok v.
Proof.
  destruct v as [|b|z|d|s|l|l]; cbn [json_b]; intro H; try discriminate.
  - constructor.
  - constructor.
  - constructor. apply Z.ltb_lt, H.
  - apply short_ok, H.
  - apply andb_true_iff in H. destruct H as [H1 H2]. constructor; [apply N.ltb_lt, H1|]. clear H1. induction l as [|a l IH]; [constructor|].
    cbn [forallb] in H2. apply andb_true_iff in H2. destruct H2 as [H2 H3]. constructor; [apply json_b_ok, H2|apply IH, H3].
  - apply andb_true_iff in H. destruct H as [H1 H2]. constructor; [apply N.ltb_lt, H1|]. clear H1. induction l as [|[a x] l IH]; [constructor|].
    cbn [forallb fst snd] in H2. apply andb_true_iff in H2. destruct H2 as [H2 H3]. apply andb_true_iff in H2. destruct H2 as [H2 H4]. apply andb_true_iff in H2. destruct H2 as [H0 H2].
    constructor; [|apply IH, H3]. cbn [fst snd]. split; [destruct a; try discriminate; eexists; reflexivity|]. split; apply json_b_ok; assumption.
Qed.
Lemma settings_b v : json_b (VArr (map cloud_value (vw_clouds v))) = true -> json_b (VArr (map source_value (vw_storages v))) = true ->
  json_b (VArr (map tier_value (vw_tiers v))) = true -> settings_json v.
Proof. intros. split; [|split]; apply json_b_ok; assumption. Qed.
Ltac commands := repeat (apply Forall_cons; [vm_compute; repeat split; discriminate|]); apply Forall_nil.
Ltac json := apply settings_b; vm_compute; reflexivity.

(* the server of the cloud was not there when the storage was given it *)
Definition unlinked : list (world * command) :=
  [ (fine, CloudCreate a_cloud false); (no_server, StorageAlter main_name (set_cloud_to "amazon") false) ].
Lemma cloud_dropped : exists c c', reachable c /\ execute fine c (CloudDrop (chars "amazon") false) = (c', true) /\
  In (chars "amazon") (map so_cloud (vw_storages (view_of c))) /\ settings_json (view_of c') /\
  forall w id cm lv, catalog_open w id cm lv (va_clouds c') (va_storages c') (va_pipeline c') = Err.
Proof.
  exists (executes a_catalog unlinked), (fst (execute fine (executes a_catalog unlinked) (CloudDrop (chars "amazon") false))).
  split; [|split; [|split; [|split]]].
  - apply executes_reachable; [apply a_catalog_reachable|commands].
  - vm_compute. reflexivity.
  - vm_compute. left. reflexivity.
  - json.
  - intros. vm_compute. reflexivity.
Qed.

(* a refused command, then any other *)
Lemma refused_kept : exists c c' c2, reachable c /\ execute fine c (StorageAlter main_name (set_cloud_to "missing") false) = (c', false) /\
  execute fine c' (StorageCreate (a_source "hot") false) = (c2, true) /\ settings_json (view_of c2) /\
  names_ok (view_of c) /\ forall w id cm lv, catalog_open w id cm lv (va_clouds c2) (va_storages c2) (va_pipeline c2) = Err.
Proof.
  exists a_catalog. eexists _, _.
  split; [apply a_catalog_reachable|]. split; [vm_compute; reflexivity|]. split; [vm_compute; reflexivity|]. split; [json|]. split.
  - split; intros x H; vm_compute in H; [|contradiction]. destruct H as [<-|[]]. left. reflexivity.
  - intros. vm_compute. reflexivity.
Qed.

(* a storage used by two tiers is renamed *)
Definition twice : list (world * command) :=
  [ (fine, StorageCreate (a_source "hot") false); (fine, PipelineAlter [a_tier "hot"; a_tier "main"; a_tier "hot"]) ].
Lemma twice_careful : careful a_catalog twice.
Proof.
  unfold twice. cbn [careful]. unfold once. repeat split; try (vm_compute; reflexivity); intros; discriminate.
Qed.
Lemma renamed_once : exists c c', reachable c /\ consistent c /\ execute fine c (StorageRename (chars "hot") (chars "cold") false) = (c', true) /\
  map tc_name (vw_tiers (view_of c)) = [chars "hot"; chars "main"; chars "hot"] /\
  map tc_name (vw_tiers (view_of c')) = [chars "cold"; chars "main"; chars "hot"] /\
  ~ In (chars "hot") (map so_name (vw_storages (view_of c'))) /\ settings_json (view_of c') /\
  forall w cm lv, catalog_open w an_id cm lv (va_clouds c') (va_storages c') (va_pipeline c') = Err.
Proof.
  exists (executes a_catalog twice). eexists.
  assert (C : consistent a_catalog) by (apply (new_consistent fine an_id [] 0%Z); vm_compute; reflexivity).
  split; [apply executes_reachable; [apply a_catalog_reachable|commands]|]. split; [apply careful_consistent; [exact C|apply twice_careful]|].
  split; [vm_compute; reflexivity|]. split; [vm_compute; reflexivity|]. split; [vm_compute; reflexivity|].
  split; [vm_compute; intros [H|[H|[]]]; discriminate|]. split; [json|]. intros. vm_compute. reflexivity.
Qed.

(* the hypotheses are met: a cloud, two storages, a pipeline, one rename *)
Definition usual : list (world * command) :=
  [ (fine, CloudCreate a_cloud false); (fine, StorageCreate (a_source "hot") false);
    (fine, StorageAlter (chars "hot") (set_cloud_to "amazon") false);
    (fine, PipelineAlter [a_tier "hot"; a_tier "main"]); (fine, StorageRename (chars "hot") (chars "warm") false) ].
Definition a_config : config := set_bytes defaults "uuid" an_id.
Lemma usual_ok : consistent a_catalog /\ careful a_catalog usual /\
  map tc_name (vw_tiers (view_of (executes a_catalog usual))) = [chars "warm"; chars "main"] /\
  settings_json (view_of (executes a_catalog usual)) /\
  same_shape a_config defaults /\ saves a_config /\ uuid_from_string (var_bytes a_config "uuid") <> None.
Proof.
  split; [apply (new_consistent fine an_id [] 0%Z); vm_compute; reflexivity|]. split; [|split; [vm_compute; reflexivity|]].
  - unfold usual. cbn [careful]. unfold once. repeat split; try (vm_compute; reflexivity); intros; try (vm_compute in H; discriminate); try (vm_compute; discriminate); try discriminate.
    injection H as <- <- <-. vm_compute. lia.
  - split; [json|]. split; [vm_compute; reflexivity|]. split; [|vm_compute; discriminate]. apply plain_table. vm_compute. reflexivity.
Qed.
Lemma refused_changed : exists c c', reachable c /\ execute fine c (StorageAlter main_name (set_cloud_to "missing") false) = (c', false) /\
  view_of c' <> view_of c.
Proof. exists a_catalog. eexists. split; [apply a_catalog_reachable|]. split; [vm_compute; reflexivity|]. vm_compute. discriminate. Qed.
Lemma once_usual : exists c', execute fine (executes a_catalog (firstn 4 usual)) (StorageRename (chars "hot") (chars "warm") false) = (c', true) /\
  length (filter (fun t => is (ti_name t) (chars "hot")) (ca_tiers (executes a_catalog (firstn 4 usual)))) = 1.
Proof. eexists. split; vm_compute; reflexivity. Qed.
