(* Concrete settings. *)
From Coq Require Import NArith ZArith String List Bool Lia.
Import ListNotations.
From Verif Require Import Model.Base Model.Data Model.Json Model.Lex Model.Config Spec.Value Spec.JsonText Spec.Settings Proof.DataL Proof.ConfigL.

Definition no_strtod : list byte -> option (N * nat) := fun _ => None.
Definition no_real : N -> list byte := fun _ => [].
Definition text_of_defaults (f : N -> list byte) : list byte := match config_text f defaults with Ok t => t | _ => [] end.
Definition a_storage : value := VArr [VMap [(VStr (chars "name"), VStr (chars "hot"))]].
Definition with_storage : config :=
  match config_find defaults (chars "storages") with Some v => config_put defaults (var_string_set v (encode a_storage)) | None => [] end.

(* a decision for the shapes used here *)
Fixpoint nodup_b (l : list (list byte)) : bool :=
  match l with [] => true | a :: l => negb (existsb (same_bytes a) l) && nodup_b l end.
Lemma nodup_ok l : nodup_b l = true -> NoDup l.
Proof.
  induction l as [|a l IH]; cbn; intro H; [constructor|]. apply andb_true_iff in H. destruct H as [H1 H2]. constructor; [|apply IH, H2].
  intro G. apply negb_true_iff in H1. apply Bool.not_true_iff_false in H1. apply H1. apply existsb_exists. exists a. split; [exact G|apply same_bytes_refl].
Qed.
Definition short (s : list byte) : bool := closed false s && (N.of_nat (length s) <? 2 ^ 31)%N.
Lemma short_ok s : short s = true -> json_ok (VStr s).
Proof. intro H. apply andb_true_iff in H. destruct H as [H1 H2]. apply N.ltb_lt in H2. constructor; assumption. Qed.
Definition plain_var (v : var) : bool :=
  short (v_name v) && (ephemeral v || at_start v) && (v_int v <? 2 ^ 62)%N &&
  match v_type v with VAR_STRING => short (v_str v) | VAR_DATA => match v_str v with [] => true | _ => false end | _ => true end.
Lemma plain_ok v : plain_var v = true -> json_ok (VStr (v_name v)) /\ (ephemeral v = false -> at_start v = true) /\ savable v.
Proof.
  unfold plain_var. intro H. apply andb_true_iff in H. destruct H as [H H0]. apply andb_true_iff in H. destruct H as [H H1].
  apply andb_true_iff in H. destruct H as [H H2]. apply N.ltb_lt in H1. repeat split.
  - apply short_ok, H.
  - intro E. rewrite E in H2. exact H2.
  - lia.
  - unfold setting. destruct (v_type v); try constructor.
    + unfold i64_of_u64, w64, two64. rewrite N.mod_small by lia. cbv zeta. destruct (Z.ltb_spec (Z.of_N (v_int v)) (2 ^ 63)); lia.
    + apply short_ok in H0. inversion H0; assumption.
    + apply short_ok in H0. inversion H0; assumption.
    + destruct (v_str v); [constructor|discriminate].
  - intro E. rewrite E in H0. left. destruct (v_str v); [reflexivity|discriminate].
Qed.
Lemma plain_table c : forallb plain_var c && nodup_b (map v_name c) && (N.of_nat (length c) <? 2 ^ 31)%N = true -> table_ok c /\ saves c.
Proof.
  intro H. repeat (apply andb_true_iff in H; destruct H as [H ?]). apply N.ltb_lt in H0. rewrite forallb_forall in H. repeat split.
  - apply nodup_ok, H1.
  - apply Forall_forall. intros v Hv. destruct (plain_ok v (H v Hv)) as [A [B _]]. split; assumption.
  - exact H0.
  - apply Forall_forall. intros v Hv _. apply (plain_ok v (H v Hv)).
Qed.
Lemma table_shape c d : same_shape c d -> table_ok d -> table_ok c.
Proof.
  revert c. unfold table_ok. intros c H [T1 [T2 T3]].
  assert (En : map v_name c = map v_name d).
  { apply (f_equal (map (fun s => fst (fst s)))) in H. rewrite !map_map in H. exact H. }
  rewrite En. split; [exact T1|]. split.
  - clear - H T2. revert d H T2. induction c as [|v c IH]; intros [|w d] H T2; try discriminate; [constructor|].
    unfold same_shape in H. cbn [map] in H. injection H as Ea Eb Ec H. inversion T2 as [|x y [T3 T4] T5]; subst x y. constructor.
    + rewrite Ea. split; [exact T3|]. unfold ephemeral, at_start in *. rewrite Ec. exact T4.
    + apply (IH d H T5).
  - apply (f_equal (@length _)) in En. rewrite !map_length in En. rewrite En. exact T3.
Qed.

Lemma a_storage_ok : json_ok a_storage.
Proof.
  constructor; [vm_compute; reflexivity|]. repeat constructor; cbn; try (eexists; reflexivity).
Qed.
Lemma storage_shape : same_shape with_storage defaults.
Proof. vm_compute. reflexivity. Qed.
Lemma defaults_table : table_ok defaults /\ saves defaults.
Proof. apply plain_table. vm_compute. reflexivity. Qed.
Definition the_storage : var := mk_var (chars "storages") VAR_DATA (VAR_C + VAR_H) 0 (encode a_storage).
Lemma storage_saves : saves with_storage.
Proof.
  apply Forall_forall. intros v Hv _.
  assert (D : forallb (fun v => plain_var v || (match v_type v with VAR_DATA => true | _ => false end && same_bytes (v_str v) (encode a_storage) && (v_int v =? 0)%N)) with_storage = true) by (vm_compute; reflexivity).
  rewrite forallb_forall in D. specialize (D v Hv). apply orb_true_iff in D. destruct D as [D|D]; [apply (plain_ok v D)|].
  apply andb_true_iff in D. destruct D as [D D3]. apply andb_true_iff in D. destruct D as [D1 D2]. apply same_bytes_eq in D2. apply N.eqb_eq in D3.
  unfold savable, setting. destruct (v_type v); try discriminate. rewrite D2, D3. repeat split.
  - assert (E : decode (encode a_storage) = Ok (a_storage, [])) by (vm_compute; reflexivity). rewrite E. exact a_storage_ok.
  - intros _. right. exists a_storage. split; [exact a_storage_ok|left; reflexivity].
Qed.
Lemma defaults_ok : table_ok defaults /\ saves defaults /\ same_shape with_storage defaults.
Proof. destruct defaults_table. repeat split; try apply storage_shape; try assumption; apply H. Qed.

Lemma storage_forgotten : exists t ph st c', config_text no_real with_storage = Ok t /\ saves with_storage /\ table_ok with_storage /\
  In (ph, st) (config_save_states t (mk_cdir (Some t) None)) /\
  config_open no_strtod no_real defaults st = Ok (c', mk_cdir (Some (text_of_defaults no_real)) (cd_old st)) /\
  value_at (settings with_storage) (chars "storages") = Some (VArr [VMap [(VStr (chars "name"), VStr (chars "hot"))]]) /\
  value_at (settings c') (chars "storages") = Some VNull.
Proof.
  destruct (config_text no_real with_storage) as [t| |] eqn:E; [|vm_compute in E; discriminate|vm_compute in E; discriminate].
  exists t, Gone, (mk_cdir None (Some t)), defaults. repeat split.
  - apply storage_saves.
  - apply (table_shape _ _ storage_shape). apply defaults_table.
  - apply (table_shape _ _ storage_shape). apply defaults_table.
  - right. right. left. reflexivity.
Qed.

Lemma interval_set : exists tok c' v x, token_ok tok /\ execute_set true defaults (chars "interval") tok = Ok (c', true) /\
  config_find defaults (chars "interval") = Some v /\ token_value (v_type v) tok = Some x /\ json_ok x /\ x = VInt 10.
Proof.
  destruct (execute_set true defaults (chars "interval") (mk_tok KINT (TInt 10))) as [[c' b]| |] eqn:E; [|vm_compute in E; discriminate|vm_compute in E; discriminate].
  destruct (config_find defaults (chars "interval")) as [v|] eqn:Ev; [|vm_compute in Ev; discriminate].
  exists (mk_tok KINT (TInt 10)), c', v, (VInt 10). repeat split.
  - rewrite E. vm_compute in E. injection E as <- <-. reflexivity.
  - vm_compute in Ev. injection Ev as <-. reflexivity.
  - constructor. lia.
Qed.

Ltac two name tok :=
  let E := fresh in let E2 := fresh in
  destruct (execute_set true defaults name tok) as [[c' b]| |] eqn:E; [|vm_compute in E; discriminate|vm_compute in E; discriminate];
  assert (b = true) by (vm_compute in E; injection E as <- <-; reflexivity); subst b;
  destruct (config_save no_real c' (mk_cdir (Some []) None)) as [d'| |] eqn:E2;
    [|vm_compute in E; injection E as <-; vm_compute in E2; discriminate|vm_compute in E; injection E as <-; vm_compute in E2; discriminate];
  exists tok, c', d'; repeat split;
  [exact E|exact E2|vm_compute in E; injection E as <-; vm_compute in E2; injection E2 as <-; vm_compute; reflexivity].
Lemma quote_lost : exists tok c' d', token_ok tok /\ tok = mk_tok KSTRING (TStr (chars "a" ++ [34%N] ++ chars "b") false) /\
  execute_set true defaults (chars "compression") tok = Ok (c', true) /\
  config_save no_real c' (mk_cdir (Some []) None) = Ok d' /\ config_open no_strtod no_real defaults d' = Err.
Proof. two (chars "compression") (mk_tok KSTRING (TStr (chars "a" ++ [34%N] ++ chars "b") false)). Qed.
Lemma integer_lost : exists tok c' d', token_ok tok /\ tok = mk_tok KINT (TInt (2 ^ 63 - 48)) /\
  execute_set true defaults (chars "wal_rotate_wm") tok = Ok (c', true) /\
  config_save no_real c' (mk_cdir (Some []) None) = Ok d' /\ config_open no_strtod no_real defaults d' = UB.
Proof. two (chars "wal_rotate_wm") (mk_tok KINT (TInt (2 ^ 63 - 48))). Qed.
Lemma zero_loaded : exists text d c', execute_set false defaults (chars "interval") (mk_tok KINT (TInt 0)) = Err /\
  d = mk_cdir (Some text) None /\ config_open no_strtod no_real defaults d = Ok (c', d) /\
  value_at (settings c') (chars "interval") = Some (VInt 0).
Proof.
  set (text := chars "{" ++ [34%N] ++ chars "interval" ++ [34%N] ++ chars ": 0}").
  destruct (config_open no_strtod no_real defaults (mk_cdir (Some text) None)) as [[c' d]| |] eqn:E; [|vm_compute in E; discriminate|vm_compute in E; discriminate].
  assert (d = mk_cdir (Some text) None) by (vm_compute in E; injection E as <- <-; vm_compute; reflexivity). subst d.
  exists text, (mk_cdir (Some text) None), c'. repeat split; [exact E|]. vm_compute in E. injection E as <-. reflexivity.
Qed.
