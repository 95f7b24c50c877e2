(* Concrete sessions. *)
From Coq Require Import NArith ZArith String List Bool Lia.
Import ListNotations.
From Verif Require Import Model.Base Model.Data Model.Json Model.Lex Model.Uuid Model.Source Model.Config Model.Catalog Model.Startup Model.Parse Model.Session
  Spec.Value Spec.JsonText Spec.Settings Spec.Catalog Spec.Permitted Spec.Command Spec.Session
  Proof.ConfigL Proof.ConfigE Proof.CatalogT Proof.ParseX Proof.SessionC Proof.SessionL Proof.SessionT.

Definition no_real_text : N -> list byte := fun _ => [].
Definition first_table : config :=
  match config_find defaults (chars "uuid") with
  | Some v => config_put defaults (var_string_set v (chars "00000000-0000-0001-0000-000000000002"))
  | None => []
  end.
Definition fine_world := mk_world true true true.
Definition new_id := mk_uuid 5 6.
Definition the_key := chars "abcdefghijklmnopqrstuvwxyzabcdef".
Notation say1 := (say no_reals no_real_text fine_world new_id the_key).
Notation start := (deploy no_reals no_real_text fine_world).
Notation reached1 := (reached no_reals no_real_text).

(* texts that can be said, by computation *)
Definition carriedb (s : list byte) : bool := closed false s && (N.of_nat (List.length s) <? 2 ^ 31)%N.
Lemma carriedb_ok s : carriedb s = true -> carried s.
Proof. intro H. apply andb_true_iff in H. destruct H as [A B]. apply N.ltb_lt in B. split; assumption. Qed.
Definition tokenb (t : token) : bool :=
  match t_val t with TStr s _ => carriedb s | TInt n => (n <? 2 ^ 63 - 48)%N | _ => true end.
Definition sayableb (s : session) (text : list byte) : bool :=
  match raws 300 text with
  | Some ts => forallb tokenb (with_units ts) &&
      match parse no_reals (env_of (se_cfg s) new_id the_key) text with
      | Ok (Some (CmdCatalog (StorageRename n _ _))) => Nat.leb (List.length (filter (fun t => is (ti_name t) n) (ca_tiers (se_cat s)))) 1
      | _ => true
      end
  | None => false
  end.
Lemma sayableb_ok s text : sayableb s text = true -> sayable no_reals new_id the_key s text.
Proof.
  unfold sayableb. destruct (raws 300 text) as [ts|] eqn:R; [|discriminate]. intro H. apply andb_true_iff in H. destruct H as [H1 H2]. apply raws_tokens in R.
  split; [vm_compute; reflexivity|]. split; [vm_compute; reflexivity|]. split; [apply carriedb_ok; vm_compute; reflexivity|].
  intros us U. assert (us = ts) as -> by (apply ParseT.tokens_rawl in U, R; apply (ParseT.rawl_fun no_reals text us U ts R)). split.
  - apply Forall_forall. intros t I. rewrite forallb_forall in H1. specialize (H1 t I). unfold tokenb, token_carried in *. destruct (t_val t); auto.
    + apply N.ltb_lt, H1.
    + apply carriedb_ok, H1.
  - intros c S n m e ->. assert (P : parse no_reals (env_of (se_cfg s) new_id the_key) text = Ok (Some (CmdCatalog (StorageRename n m e)))) by (apply ParseL.accepts; eauto).
    rewrite P in H2. apply Nat.leb_le, H2.
Qed.
Definition fewb (v : view) : bool :=
  (N.of_nat (List.length (vw_clouds v)) <? 2 ^ 31)%N && (N.of_nat (List.length (vw_storages v)) <? 2 ^ 31)%N && (N.of_nat (List.length (vw_tiers v)) <? 2 ^ 31)%N.
Fixpoint talk (s : session) (l : list string) : option session :=
  match l with
  | [] => Some s
  | t :: l =>
    match sayableb s (chars t), say1 s (chars t) with
    | true, Ok (s, true) => if fewb (view_of (se_cat s)) then talk s l else None
    | _, _ => None
    end
  end.
Lemma talk_reached l : forall s s', reached1 s -> talk s l = Some s' -> reached1 s'.
Proof.
  induction l as [|t l IH]; intros s s' R H; cbn [talk] in H; [injection H as <-; exact R|].
  destruct (sayableb s (chars t)) eqn:B; [|discriminate]. destruct (say1 s (chars t)) as [[x [|]]| |] eqn:E; try discriminate.
  destruct (fewb (view_of (se_cat x))) eqn:F; [|discriminate]. apply (IH x s'); [|exact H].
  apply (Spec.Session.said no_reals no_real_text fine_world new_id the_key s (chars t) x true R (sayableb_ok _ _ B) E); [discriminate|].
  apply andb_true_iff in F. destruct F as [F F3]. apply andb_true_iff in F. destruct F as [F1 F2]. apply N.ltb_lt in F1, F2, F3. repeat split; assumption.
Qed.
Lemma tableb d : forallb plain_var d = true -> Forall (fun v => (v_int v < 2 ^ 64)%N) d.
Proof. intro H. apply Forall_forall. intros v I. rewrite forallb_forall in H. apply (plain_ok v (H v I)). Qed.
Lemma defaults_fit : table defaults.
Proof. split; [reflexivity|]. apply tableb. vm_compute. reflexivity. Qed.
Lemma first_fit : table_for_start first_table.
Proof.
  split; [split; [vm_compute; reflexivity|apply tableb; vm_compute; reflexivity]|]. split; [apply plain_table; vm_compute; reflexivity|].
  split; [vm_compute; discriminate|]. vm_compute. auto.
Qed.
Definition first := start first_table (mk_cdir None None).
Definition first_session : session := match first with Ok s => s | _ => mk_session [] (mk_catalog [] [] [] 0 [] [] []) (mk_cdir None None) end.
Lemma first_reached : reached1 first_session.
Proof. apply (new no_reals no_real_text fine_world first_table None first_session first_fit). vm_compute. reflexivity. Qed.

(* a day *)
Definition day := [ "create cloud c (type 'mock', url 'http://x')"; "CREATE STORAGE hot (cloud 'c')"; "create storage cold (sync false, region_size 64 KiB)";
  "ALTER PIPELINE SET hot (partitions 1), cold"; "SET wal_rotate_wm TO 7 days"; "ALTER STORAGE cold RENAME TO old" ]%string.
Definition evening : session := match talk first_session day with Some s => s | None => first_session end.
Lemma evening_reached : reached1 evening.
Proof. apply (talk_reached day first_session evening first_reached). vm_compute. reflexivity. Qed.
Definition names (v : view) := (map cc_name (vw_clouds v), map so_name (vw_storages v), map (fun t => (tc_name t, tc_partitions t)) (vw_tiers v)).
Definition wal_wm (s : session) := value_at (settings (se_cfg s)) (chars "wal_rotate_wm").
Definition or_first (r : res session) : session := match r with Ok s => s | _ => first_session end.
Definition morning : session := or_first (start defaults (se_dir evening)).
Lemma day_kept : reached1 evening /\ table defaults /\ start defaults (se_dir evening) = Ok morning /\
  names (view_of (se_cat evening)) = ([chars "c"], [chars "main"; chars "hot"; chars "old"], [(chars "hot", 1%Z); (chars "old", (-1)%Z)]) /\
  names (view_of (se_cat morning)) = names (view_of (se_cat evening)) /\
  wal_wm first_session = Some (VInt 104857600) /\ wal_wm evening = Some (VInt 604800000000) /\ wal_wm morning = wal_wm evening.
Proof.
  split; [exact evening_reached|]. split; [exact defaults_fit|]. split; [vm_compute; reflexivity|]. split; [vm_compute; reflexivity|].
  split; [vm_compute; reflexivity|]. split; [vm_compute; reflexivity|]. split; vm_compute; reflexivity.
Qed.
Definition words_of (t : string) : list token := match raws 300 (chars t) with Some ts => ts | None => [] end.
Definition meaning_of (t : string) : option cmd := match parse no_reals (env_of (se_cfg evening) new_id the_key) (chars t) with Ok c => c | _ => None end.
Definition meantb (t : string) : bool :=
  match raws 300 (chars t), parse no_reals (env_of (se_cfg evening) new_id the_key) (chars t) with
  | Some ts, Ok _ => negb (crowdedb 0 (with_units ts)) && negb (existsb (fun t => t_id t =? 36)%N (with_units ts)) && sayableb evening (chars t)
  | _, _ => false
  end.
Lemma meant t : meantb t = true -> sayable no_reals new_id the_key evening (chars t) /\ tokens no_reals (chars t) (words_of t) /\
  ~ crowded (with_units (words_of t)) /\ ~ In dollar (with_units (words_of t)) /\
  sentence (env_of (se_cfg evening) new_id the_key) (with_units (words_of t)) (meaning_of t).
Proof.
  unfold meantb, words_of, meaning_of. destruct (raws 300 (chars t)) as [ts|] eqn:R; [|discriminate]. pose proof (raws_tokens _ _ _ R) as T.
  destruct (parse no_reals (env_of (se_cfg evening) new_id the_key) (chars t)) as [c| |] eqn:P; try discriminate. intro H.
  apply andb_true_iff in H. destruct H as [H H3]. apply andb_true_iff in H. destruct H as [H1 H2]. apply negb_true_iff in H1, H2.
  split; [apply sayableb_ok, H3|]. split; [exact T|]. split; [apply not_crowdedb, H1|]. split.
  - intro I. assert (E : existsb (fun t => t_id t =? 36)%N (with_units ts) = true) by (apply existsb_exists; exists dollar; split; [exact I|reflexivity]). congruence.
  - apply ParseL.accepts in P. destruct P as (us & U & S). assert (us = ts) as -> by (apply ParseT.tokens_rawl in U, T; apply (ParseT.rawl_fun no_reals _ us U ts T)). exact S.
Qed.
(* the next sentences *)
Definition more := "CREATE STORAGE new (encryption 'aes', cloud 'c')"%string.
Definition more_storage : source :=
  mk_source new_id (chars "new") [] (chars "c") true true false (40 * 1024 * 1024) (128 * 1024) (chars "zstd") 0 (chars "aes") the_key.
Lemma more_ok : exists ts, sayable no_reals new_id the_key evening (chars more) /\ tokens no_reals (chars more) ts /\
  ~ crowded (with_units ts) /\ ~ In dollar (with_units ts) /\
  sentence (env_of (se_cfg evening) new_id the_key) (with_units ts) (Some (CmdCatalog (StorageCreate more_storage false))) /\
  few (effect (StorageCreate more_storage false) (view_of (se_cat evening))) /\ permitted fine_world (se_cat evening) (StorageCreate more_storage false).
Proof.
  exists (words_of more). destruct (meant more) as (A & B & C & D & E); [vm_compute; reflexivity|].
  assert (M : meaning_of more = Some (CmdCatalog (StorageCreate more_storage false))) by (vm_compute; reflexivity). rewrite M in E.
  split; [exact A|]. split; [exact B|]. split; [exact C|]. split; [exact D|]. split; [exact E|]. split.
  - assert (F : fewb (effect (StorageCreate more_storage false) (view_of (se_cat evening))) = true) by (vm_compute; reflexivity).
    apply andb_true_iff in F. destruct F as [F F3]. apply andb_true_iff in F. destruct F as [F1 F2]. apply N.ltb_lt in F1, F2, F3. repeat split; assumption.
  - apply CatalogP.succeeds; [apply (reached_inv no_reals no_real_text evening evening_reached)|]. vm_compute. reflexivity.
Qed.
Definition setting_text := "SET compression_level TO 7"%string.
Definition level_var := mk_var (chars "compression_level") VAR_INT (VAR_C + VAR_R) 0 [].
Lemma setting_ok : exists ts, sayable no_reals new_id the_key evening (chars setting_text) /\ tokens no_reals (chars setting_text) ts /\
  sentence (env_of (se_cfg evening) new_id the_key) (with_units ts) (Some (CmdSet (chars "compression_level") (mk_tok KINT (TInt 7)))) /\
  config_find (se_cfg evening) (chars "compression_level") = Some level_var /\ allowed true level_var (mk_tok KINT (TInt 7)) /\ ephemeral level_var = false.
Proof.
  exists (words_of setting_text). destruct (meant setting_text) as (A & B & _ & _ & E); [vm_compute; reflexivity|].
  assert (M : meaning_of setting_text = Some (CmdSet (chars "compression_level") (mk_tok KINT (TInt 7)))) by (vm_compute; reflexivity). rewrite M in E.
  split; [exact A|]. split; [exact B|]. split; [exact E|]. split; [vm_compute; reflexivity|]. split; [|reflexivity].
  split; [reflexivity|]. split; [reflexivity|]. eexists. split; [reflexivity|]. discriminate.
Qed.

(* texts after which the database cannot be started *)
Definition says_one (s : session) (t : string) : session := match say1 s (chars t) with Ok (s, true) => s | _ => s end.
Ltac lost t := exists first_session, (says_one first_session t); split; [exact first_reached|]; split; [vm_compute; reflexivity|]; vm_compute; reflexivity.
Lemma quote_said : exists s s', reached1 s /\ say1 s (chars "SET compression TO 'a""b'") = Ok (s', true) /\ start defaults (se_dir s') = Err.
Proof. lost "SET compression TO 'a""b'"%string. Qed.
Lemma integer_said : exists s s', reached1 s /\ say1 s (chars "SET wal_rotate_wm TO 9223372036854775760") = Ok (s', true) /\ start defaults (se_dir s') = UB.
Proof. lost "SET wal_rotate_wm TO 9223372036854775760"%string. Qed.
Definition twice := ["CREATE STORAGE hot"; "CREATE STORAGE cold"; "ALTER PIPELINE SET hot (partitions 1), cold (partitions 1), hot"]%string.
Definition used_twice : session := match talk first_session twice with Some s => s | None => first_session end.
Lemma renamed_said : exists s s', reached1 s /\ say1 s (chars "ALTER STORAGE hot RENAME TO warm") = Ok (s', true) /\
  map tc_name (vw_tiers (view_of (se_cat s'))) = [chars "warm"; chars "cold"; chars "hot"] /\ start defaults (se_dir s') = Err.
Proof.
  exists used_twice, (says_one used_twice "ALTER STORAGE hot RENAME TO warm"). split.
  - apply (talk_reached twice first_session used_twice first_reached). vm_compute. reflexivity.
  - split; [vm_compute; reflexivity|]. split; vm_compute; reflexivity.
Qed.
(* a storage changed to a cloud that cannot be attached: an error, and the storage is not as before;
   what is in the file is as before *)
Definition halfway := "ALTER STORAGE main SET (path '/p', cloud 'x')"%string.
Lemma half_said : exists s s', reached1 s /\ sayable no_reals new_id the_key s (chars halfway) /\ say1 s (chars halfway) = Ok (s', false) /\
  se_dir s' = se_dir s /\ view_of (se_cat s') <> view_of (se_cat s).
Proof.
  exists first_session, (match say1 first_session (chars halfway) with Ok (s, _) => s | _ => first_session end). split; [exact first_reached|].
  split; [apply sayableb_ok; vm_compute; reflexivity|]. split; [vm_compute; reflexivity|]. split; [vm_compute; reflexivity|]. vm_compute. discriminate.
Qed.
