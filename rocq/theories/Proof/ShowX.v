(* What SHOW reveals, bounds of the statistics, and examples. *)
From Coq Require Import NArith ZArith Arith String List Bool Lia.
Import ListNotations.
From Verif Require Import Model.Base Model.Codec Model.Data Model.Json Model.Lex Model.Uuid Model.File Model.Source Model.Config Model.Catalog Model.Startup Model.Show.
From Verif Require Import Spec.Value Spec.JsonText Spec.Settings Spec.Catalog Spec.Shown.
From Verif Require Import Proof.CodecL Proof.DataL Proof.JsonL Proof.ConfigL Proof.ConfigE Proof.SourceL Proof.CatalogB Proof.CatalogT Proof.CatalogX Proof.ShowL Proof.ShowT.

Lemma bounds l p : In p l -> (least l <= sp_min p /\ sp_max p <= greatest l)%N /\
  (exists q, In q l /\ sp_min q = least l) /\ (exists q, In q l /\ sp_max q = greatest l).
Proof.
  intro H. assert (N : l <> []) by (destruct l; [destruct H|discriminate]).
  split; [split; [apply least_le, H|apply greatest_le, H]|]. split; [apply least_in, N|apply greatest_in, N].
Qed.
Lemma exact_num n : (n < 2 ^ 63)%N -> num n = VInt (Z.of_N n).
Proof. intro H. unfold num. rewrite signed_small by exact H. reflexivity. Qed.

(* the variables hold everything *)
Lemma holds_setting v x : v_type v = VAR_DATA -> holds (v_str v) x -> x <> [] -> json_ok (VArr x) -> setting v = VArr x.
Proof.
  intros T H N J. unfold setting. rewrite T. destruct H as [->|[->|[-> _]]]; [| |congruence].
  - pose proof (decode_enc_ok false _ [] J) as D. rewrite app_nil_r in D. cbn [enc] in D. rewrite D. reflexivity.
  - pose proof (decode_enc_ok true _ [] J) as D. rewrite app_nil_r in D. cbn [enc] in D. rewrite D. reflexivity.
Qed.
Lemma revealed c cfg e : sound c -> settings_json (view_of c) -> same_shape cfg defaults -> saves cfg -> sh_config e = catalog_store cfg c ->
  meaning e (ShowName (chars "storages")) = Some (VArr (map source_value (vw_storages (view_of c)))) /\
  (vw_clouds (view_of c) <> [] -> meaning e (ShowName (chars "clouds")) = Some (VArr (map cloud_value (vw_clouds (view_of c))))).
Proof.
  intros S J Sc Sv E. destruct (so_kept c S) as (K1 & K2 & K3). destruct J as (J1 & J2 & J3).
  assert (DV : forall cf name, same_shape cf defaults -> (exists v, config_find defaults (chars name) = Some v /\ v_type v = VAR_DATA /\ ephemeral v = false) -> data_var cf name).
  { intros cf name Hs (v & F & T & Q). destruct (find_shape cf defaults _ v Hs F) as (x & Fx & Ex). apply shape_parts in Ex. destruct Ex as (_ & E2 & E3). exists x. unfold ephemeral in *. repeat split; congruence. }
  assert (D1 : data_var cfg "clouds") by (apply DV; [exact Sc|vm_compute; eexists; repeat split; reflexivity]).
  destruct (set_bytes_ok cfg "clouds" _ (va_clouds c) D1 Sv J1 K1) as (A1 & A2 & (v1 & A3 & A4 & A5 & A6) & A7).
  set (cf1 := set_bytes cfg "clouds" (va_clouds c)) in *. assert (H1 : same_shape cf1 defaults) by (unfold same_shape in *; congruence).
  assert (D2 : data_var cf1 "storages") by (apply DV; [exact H1|vm_compute; eexists; repeat split; reflexivity]).
  destruct (set_bytes_ok cf1 "storages" _ (va_storages c) D2 A1 J2 K2) as (B1 & B2 & (v2 & B3 & B4 & B5 & B6) & B7).
  set (cf2 := set_bytes cf1 "storages" (va_storages c)) in *. assert (H2 : same_shape cf2 defaults) by (unfold same_shape in *; congruence).
  assert (D3 : data_var cf2 "pipeline") by (apply DV; [exact H2|vm_compute; eexists; repeat split; reflexivity]).
  destruct (set_bytes_ok cf2 "pipeline" _ (va_pipeline c) D3 B1 J3 K3) as (E1 & E2 & _ & E7).
  assert (H3 : same_shape (catalog_store cfg c) defaults) by (unfold catalog_store; fold cf1; fold cf2; unfold same_shape in *; congruence).
  assert (Q1 : config_find (catalog_store cfg c) (chars "clouds") = Some v1) by (unfold catalog_store; fold cf1; fold cf2; rewrite E7, B7 by (vm_compute; discriminate); exact A3).
  assert (Q2 : config_find (catalog_store cfg c) (chars "storages") = Some v2) by (unfold catalog_store; fold cf1; fold cf2; rewrite E7 by (vm_compute; discriminate); exact B3).
  assert (NS : forall n v, config_find (catalog_store cfg c) n = Some v -> (exists w, config_find defaults n = Some w /\ secret w = false) -> secret v = false).
  { intros n v F (w & Fw & Sw). destruct (find_shape (catalog_store cfg c) defaults n w H3 Fw) as (x & Fx & Ex). apply shape_parts in Ex. destruct Ex as (_ & _ & X3).
    rewrite F in Fx. injection Fx as <-. unfold secret in *. congruence. }
  cbn [meaning]. rewrite E, <- !config_named, Q1, Q2.
  rewrite (NS _ _ Q1) by (vm_compute; eexists; split; reflexivity). rewrite (NS _ _ Q2) by (vm_compute; eexists; split; reflexivity). split.
  - f_equal. apply holds_setting; [exact B5|rewrite B4; exact K2| |exact J2].
    pose proof (so_main c S) as M. unfold view_of. cbn [vw_storages]. destruct (ca_storages c); [destruct M|discriminate].
  - intro N. f_equal. apply holds_setting; [exact A5|rewrite A4; exact K1| |exact J1]. destruct (vw_clouds (view_of c)); [congruence|discriminate].
Qed.

(* one database: two storages, a cloud, three partitions *)
Definition an_index (events size : N) : index := mk_index 0 0 0 0 0 0 100 100 size size (size + 100) (size + 100) 1 events 7 8 2 50 0 0.
Definition key : list byte := chars "0123456789abcdef0123456789abcdef".
Definition with_key (k : list byte) : source := mk_source (mk_uuid 3 4) (chars "cold") [] (chars "amazon") true true false 40 128 [] 0 (chars "aes") k.
Definition with_password (k : list byte) : cloudc := mk_cloudc (chars "amazon") (chars "mock") (chars "me") k [] false.
Definition keyed (k w : list byte) : list (world * command) :=
  [ (fine, CloudCreate (with_password w) false); (fine, StorageCreate (with_key k) false) ].
Definition a_part (min : N) (state events size : N) (storage : nat) : spart :=
  mk_spart min (min + 2999999) state (an_index events size) 3 4 4096 8192 1000 2000 storage.
Definition combine_storages (parts : list spart) (l : list source) : list sstorage :=
  map (fun p => mk_sstorage (fst p) (snd p) (filter (fun q => sp_storage q =? fst p) parts)) (combine (seq 0 (length l)) l).
Definition a_db (k w : list byte) : shown :=
  let c := executes a_catalog (keyed k w) in
  let parts := [a_part 0 1 70 3000 0; a_part 3000000 9 80 4000 1; a_part 9223372036857000000 0 0 0 0] in
  mk_shown (vw_clouds (view_of c))
    (combine_storages parts (vw_storages (view_of c))) (vw_tiers (view_of c)) parts
    (mk_wshow true 104857600 true false false 77 [1; 50]%N) (catalog_store a_config c).

Definition u64_b (n : N) : bool := (n <? 2 ^ 64)%N.
Lemma u64_b_ok n : u64_b n = true -> u64 n.
Proof. apply N.ltb_lt. Qed.
Ltac number := apply u64_b_ok; vm_compute; reflexivity.
Ltac numbers := repeat (apply Forall_cons; [number|]); apply Forall_nil.
Definition savable_b (v : var) : bool :=
  u64_b (v_int v) && json_b (setting v) &&
  match v_type v with
  | VAR_DATA => match v_str v with [] => true | _ => same_bytes (v_str v) (encode (setting v)) || same_bytes (v_str v) (encode_wide (setting v)) end
  | _ => true
  end.
Lemma savable_b_ok v : savable_b v = true -> savable v.
Proof.
  unfold savable_b. intro H. apply andb_true_iff in H. destruct H as [H H3]. apply andb_true_iff in H. destruct H as [H1 H2].
  split; [apply N.ltb_lt, H1|]. split; [apply json_b_ok, H2|]. intro T. rewrite T in H3. destruct (v_str v) as [|x l] eqn:E; [left; reflexivity|right].
  exists (setting v). split; [apply json_b_ok, H2|]. apply orb_true_iff in H3. destruct H3 as [H3|H3]; apply same_bytes_eq in H3; [left|right]; exact H3.
Qed.
Lemma a_db_ok : shown_ok (a_db key key).
Proof.
  unfold shown_ok. split; [|split; [|split; [|split]]].
  - unfold a_db; cbn [sh_parts]. repeat (apply Forall_cons; [split; numbers|]). apply Forall_nil.
  - set (l := sh_storages _). vm_compute in l. subst l. repeat (apply Forall_cons; [split; [repeat (apply Forall_cons; [split; numbers|]); apply Forall_nil|number]|]). apply Forall_nil.
  - numbers.
  - number.
  - apply Forall_forall. intros v H _. apply savable_b_ok.
    assert (F : forallb savable_b (sh_config (a_db key key)) = true) by (vm_compute; reflexivity). rewrite forallb_forall in F. apply F, H.
Qed.
Definition every_show : list show_op :=
  [ShowWal; ShowClouds None; ShowClouds (Some (chars "amazon")); ShowStorages None false; ShowStorages (Some (chars "cold")) true;
   ShowPartition 5 true; ShowPartitions None false; ShowPartitions (Some (chars "cold")) true; ShowPipeline; ShowConfig;
   ShowName (chars "storages"); ShowName (chars "wal")].
Definition every_value : list value :=
  flat_map (fun o => match meaning (a_db key key) o with Some v => [v] | None => [] end) every_show.
Lemma every_meets : shown_ok (a_db key key) /\ map (meaning (a_db key key)) every_show = map Some every_value /\ json_ok (answer every_value) /\ length every_value = 12.
Proof.
  split; [apply a_db_ok|]. split; [vm_compute; reflexivity|]. split; [apply json_b_ok; vm_compute; reflexivity|vm_compute; reflexivity].
Qed.

(* the greatest ids are shown as negative numbers *)
Lemma negative : exists e p, shown_ok e /\ In p (sh_parts e) /\ sp_max p = 9223372036859999999%N /\
  forall strtod fmt_real, exists text v, execute_show fmt_real e [ShowPartition (sp_max p) false] = Ok text /\
    json_parse strtod text = Ok (encode_wide v) /\ field "max" v = Some (VInt (-9223372036849551617)).
Proof.
  exists (a_db key key), (a_part 9223372036857000000 0 0 0 0). split; [apply a_db_ok|]. split; [right; right; left; reflexivity|]. split; [reflexivity|].
  intros strtod fmt_real. destruct (meaning (a_db key key) (ShowPartition 9223372036859999999 false)) as [v|] eqn:E; [|vm_compute in E; discriminate].
  assert (J : json_ok v) by (apply json_b_ok; vm_compute in E; injection E as <-; vm_compute; reflexivity).
  destruct (show_text strtod fmt_real (a_db key key) [ShowPartition 9223372036859999999 false] [v] a_db_ok) as (text & T1 & T2); [discriminate|cbn [map]; rewrite E; reflexivity|exact J|].
  exists text, v. split; [exact T1|]. split; [exact T2|]. vm_compute in E. injection E as <-. vm_compute. reflexivity.
Qed.

(* a variable asked for by name is shown with the keys *)
Definition leak (k w : list byte) (n : string) : list byte :=
  match execute_show (fun _ => []) (a_db k w) [ShowName (chars n)] with Ok t => t | _ => [] end.
Fixpoint where_is (fuel : nat) (k t : list byte) : nat :=
  match fuel with
  | 0 => 0
  | S f => if same_bytes (firstn (length k) t) k then 0 else S (where_is f k (tl t))
  end.
Lemma leaks : exists k c cfg e1 e2, reachable c /\ same_shape cfg defaults /\ sh_config e1 = catalog_store cfg c /\
  In k (map so_key (vw_storages (view_of c))) /\ In k (map cc_password (vw_clouds (view_of c))) /\
  length k = 32 /\ public e1 = public e2 /\ 
  forall fmt_real, (exists a b, execute_show fmt_real e1 [ShowName (chars "storages")] = Ok (a ++ k ++ b)) /\
    (exists a b, execute_show fmt_real e1 [ShowName (chars "clouds")] = Ok (a ++ k ++ b)) /\
    execute_show fmt_real e1 [ShowName (chars "storages")] <> execute_show fmt_real e2 [ShowName (chars "storages")].
Proof.
  exists key, (executes a_catalog (keyed key key)), a_config, (a_db key key), (a_db [] []).
  split; [apply executes_reachable; [apply a_catalog_reachable|commands]|]. split; [vm_compute; reflexivity|]. split; [reflexivity|].
  split; [vm_compute; tauto|]. split; [vm_compute; tauto|]. split; [reflexivity|]. split; [vm_compute; reflexivity|].
  intro fmt_real. split; [|split].
  - exists (firstn (where_is 2000 key (leak key key "storages")) (leak key key "storages")), (skipn (where_is 2000 key (leak key key "storages") + 32) (leak key key "storages")).
    vm_compute. reflexivity.
  - exists (firstn (where_is 2000 key (leak key key "clouds")) (leak key key "clouds")), (skipn (where_is 2000 key (leak key key "clouds") + 32) (leak key key "clouds")).
    vm_compute. reflexivity.
  - vm_compute. discriminate.
Qed.
