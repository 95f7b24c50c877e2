(* The text of SHOW. *)
From Coq Require Import NArith ZArith Arith String List Bool Lia.
Import ListNotations.
From Verif Require Import Model.Base Model.Codec Model.Data Model.Json Model.Lex Model.Uuid Model.File Model.Source Model.Config Model.Catalog Model.Startup Model.Show.
From Verif Require Import Spec.Value Spec.JsonText Spec.Settings Spec.Catalog Spec.Shown.
From Verif Require Import Proof.CodecL Proof.DataL Proof.JsonL Proof.ConfigL Proof.ConfigE Proof.SourceL Proof.CatalogB Proof.CatalogX Proof.ShowL.
Local Arguments N.mul : simpl never.
Local Arguments N.div : simpl never.
Local Arguments N.modulo : simpl never.
Local Arguments N.pow : simpl never.
Local Arguments Z.pow : simpl never.
Local Arguments Z.modulo : simpl never.
Local Arguments N.leb : simpl never.
Local Arguments N.add : simpl never.
Local Arguments N.sub : simpl never.
Local Arguments N.eqb : simpl never.
Local Arguments Z.mul : simpl never.
Local Arguments Z.add : simpl never.
Local Arguments Z.sub : simpl never.
Local Arguments le : simpl never.
Local Arguments data_write_len : simpl never.
Local Arguments data_write_len32 : simpl never.
Local Arguments data_write_integer : simpl never.
Local Arguments data_write_raw : simpl never.
Local Arguments chars : simpl never.

Lemma depth_elems {A} (val : A -> value) (en : A -> list byte) (l : list A) :
  (forall a, In a l -> depth (val a) <= length (en a)) -> fold_right (fun a m => Nat.max (depth a) m) 0 (map val l) <= length (flat_map en l).
Proof.
  induction l as [|a l IH]; cbn [map fold_right flat_map]; intro H; [lia|]. rewrite app_length. specialize (H a (or_introl eq_refl)) as H1.
  specialize (IH (fun b Hb => H b (or_intror Hb))). lia.
Qed.

Section TEXT.
Variable strtod : list byte -> option (N * nat).
Variable fmt_real : N -> list byte.
Local Notation show := (show fmt_real true).
Local Notation export := (json_export_as fmt_real).

(* export turns these bytes into the text of [v], wherever they are *)
Definition tells (b : list byte) (v : value) : Prop :=
  depth v <= length b /\ forall fuel deep r, depth v <= fuel -> export fuel true deep (b ++ r) = Ok (show deep v, r).
Lemma tells_enc w v : json_ok v -> tells (enc w v) v.
Proof. intro H. destruct (json_ok_value v H). split; [apply depth_enc|]. intros. apply export_enc; [assumption|now apply json_ok_printable|assumption]. Qed.
Lemma tells_plain v : json_ok v -> tells (encode v) v.
Proof. exact (tells_enc false v). Qed.
Lemma tells_arr {A} (w : bool) (l : list A) (en : A -> list byte) (val : A -> value) : (N.of_nat (length l) < 2 ^ 31)%N ->
  (forall a, In a l -> tells (en a) (val a)) ->
  tells ((if w then data_write_len32 else data_write_len) MN_ARRAYV0 (N.of_nat (length l)) ++ flat_map en l) (VArr (map val l)).
Proof.
  intros Hl H. split.
  - cbn [depth]. rewrite app_length. pose proof (any_len_some w MN_ARRAYV0 (N.of_nat (length l))).
    pose proof (depth_elems val en l (fun a Ha => proj1 (H a Ha))). lia.
  - intros fuel deep r Hf. destruct fuel as [|fuel]; [cbn in Hf; lia|]. rewrite <- app_assoc.
    assert (Hd := any_len_read w MN_ARRAYV0 (N.of_nat (length l)) (flat_map en l ++ r) Hl).
    destruct (any_len_head w MN_ARRAYV0 (N.of_nat (length l)) (flat_map en l ++ r)) as [t [u [E Ht]]]. rewrite E in *. cbn [Json.json_export_as].
    unfold MN_ARRAYV0 in Ht. flags. rewrite Hd. cbn [bind].
    replace (Z.to_nat (Z.of_N (N.of_nat (length l)))) with (length l) by lia.
    rewrite (export_elems_app en (fun a => show deep (val a))); [cbn [bind JsonL.show]; rewrite map_map; reflexivity|].
    cbn [depth] in Hf. assert (Hm := max_each depth (map val l) fuel ltac:(lia)). rewrite Forall_forall in Hm |- *.
    intros a Ha r'. apply H; [exact Ha|]. apply Hm, in_map, Ha.
Qed.
Lemma depth_pairs {A} (name : A -> list byte) (val : A -> value) (en : A -> list byte) (l : list A) :
  (forall a, In a l -> depth (val a) <= length (en a)) ->
  fold_right (fun p m => Nat.max (Nat.max (depth (fst p)) (depth (snd p))) m) 0 (map (fun a => (VStr (name a), val a)) l) <=
  length (flat_map (fun a => data_write_raw (name a) ++ en a) l).
Proof.
  induction l as [|a l IH]; cbn [map fold_right flat_map fst snd]; intro H; [lia|]. rewrite !app_length. specialize (H a (or_introl eq_refl)) as H1.
  specialize (IH (fun b Hb => H b (or_intror Hb))). pose proof (depth_enc false (VStr (name a))) as D. cbn [enc encode] in D. lia.
Qed.
Lemma tells_map {A} (l : list A) (name : A -> list byte) (en : A -> list byte) (val : A -> value) : (N.of_nat (length l) < 2 ^ 31)%N ->
  (forall a, In a l -> json_ok (VStr (name a)) /\ tells (en a) (val a)) ->
  tells (data_write_len MN_MAPV0 (N.of_nat (length l)) ++ flat_map (fun a => data_write_raw (name a) ++ en a) l)
        (VMap (map (fun a => (VStr (name a), val a)) l)).
Proof.
  intros Hl H. split.
  - cbn [depth]. rewrite app_length. pose proof (any_len_some false MN_MAPV0 (N.of_nat (length l))).
    pose proof (depth_pairs name val en l (fun a Ha => proj1 (proj2 (H a Ha)))). cbn [orb] in *. lia.
  - intros fuel deep r Hf. destruct fuel as [|fuel]; [cbn in Hf; lia|]. rewrite <- app_assoc. set (fl := flat_map _ l).
    assert (Hd := any_len_read false MN_MAPV0 (N.of_nat (length l)) (fl ++ r) Hl).
    destruct (any_len_head false MN_MAPV0 (N.of_nat (length l)) (fl ++ r)) as [t [u [E Ht]]]. cbv iota in E, Hd. rewrite E in *. cbn [Json.json_export_as].
    unfold MN_MAPV0 in Ht. flags. rewrite Hd. cbn [bind].
    replace (Z.to_nat (Z.of_N (N.of_nat (length l)))) with (length l) by lia. unfold fl.
    rewrite (export_pairs_app true deep (fun a => data_write_raw (name a)) en (fun a => show (S deep) (VStr (name a))) (fun a => show (S deep) (val a))).
    + cbn [bind JsonL.show]. rewrite map_map. reflexivity.
    + cbn [depth] in Hf. set (ps := map (fun a => (VStr (name a), val a)) l) in *.
      assert (Hm := max_each2 (fun p => depth (fst p)) (fun p => depth (snd p)) ps fuel ltac:(lia)). rewrite Forall_forall in Hm |- *.
      intros a Ha. destruct (H a Ha) as [Ja Ta]. destruct (Hm (VStr (name a), val a)) as [M1 M2]; [unfold ps; apply (in_map (fun a => (VStr (name a), val a))), Ha|].
      cbn [fst snd] in M1, M2. split; intro r'; [|apply Ta; exact M2]. exact (proj2 (tells_enc false _ Ja) fuel (S deep) r' M1).
Qed.

Lemma find_same {A} (f g : A -> bool) l : (forall a, f a = g a) -> find f l = find g l.
Proof. intro H. induction l as [|a l IH]; cbn [find]; [reflexivity|]. rewrite H, IH. reflexivity. Qed.
Lemma same_is a b : same_bytes a b = is a b.
Proof.
  unfold is. destruct (name_dec a b) as [->|H]; [apply same_bytes_refl|apply same_bytes_neq, H].
Qed.
Lemma named_find {A} (name : A -> list byte) n l : find (fun a => same_bytes (name a) n) l = named name n l.
Proof. apply find_same. intro a. apply same_is. Qed.
Lemma config_named c n : config_find c n = named v_name n c.
Proof. unfold named. induction c as [|v c IH]; cbn [config_find find]; [reflexivity|]. rewrite same_is, IH. reflexivity. Qed.
Lemma find_In {A} (f : A -> bool) l a : find f l = Some a -> In a l.
Proof. intro H. apply find_some in H. tauto. Qed.

Lemma flat_map_same {A B} (f g : A -> list B) l : (forall a, In a l -> f a = g a) -> flat_map f l = flat_map g l.
Proof.
  induction l as [|a l IH]; intro H; cbn [flat_map]; [reflexivity|]. rewrite (H a (or_introl eq_refl)), IH; [reflexivity|]. intros b Hb. apply H. right. exact Hb.
Qed.
Lemma encode_map {A} (name : A -> list byte) (val : A -> value) l :
  encode (VMap (map (fun a => (VStr (name a), val a)) l)) =
  data_write_len MN_MAPV0 (N.of_nat (length l)) ++ flat_map (fun a => data_write_raw (name a) ++ encode (val a)) l.
Proof.
  cbn [encode]. rewrite map_length. f_equal. induction l as [|a l IH]; cbn [map flat_map]; [reflexivity|]. rewrite IH. reflexivity.
Qed.
Lemma encode_arr {A} (val : A -> value) l :
  encode (VArr (map val l)) = data_write_len MN_ARRAYV0 (N.of_nat (length l)) ++ flat_map (fun a => encode (val a)) l.
Proof.
  cbn [encode]. rewrite map_length. f_equal. induction l as [|a l IH]; cbn [map flat_map]; [reflexivity|]. rewrite IH. reflexivity.
Qed.

Lemma parts_tell e debug l : Forall spart_ok l -> json_ok (VArr (map (fun p => part_value (home_name e p) debug p) l)) ->
  tells (data_write_len32 MN_ARRAYV0 (N.of_nat (length l)) ++ flat_map (stats_show_part (source_name (sh_storages e)) debug) l)
        (VArr (map (fun p => part_value (home_name e p) debug p) l)).
Proof.
  intros H J. inversion J as [| | | |l' Jl Jf E|]; subst. rewrite map_length in Jl. apply (tells_arr true); [exact Jl|].
  intros p Hp. rewrite Forall_forall in H, Jf. rewrite part_show_value by (apply H, Hp). apply tells_plain. apply (Jf (part_value (home_name e p) debug p)).
  apply (in_map (fun p => part_value (home_name e p) debug p)), Hp.
Qed.

Lemma op_tells e o : shown_ok e ->
  match meaning e o with
  | Some v => exists b, execute_show_op e o = Ok b /\ (json_ok v -> tells b v)
  | None => execute_show_op e o = Err
  end.
Proof.
  intros (Hp & Hs & Hw & Hf & Hc). destruct o as [|[n|]|[n|] d|id d|[n|] d| | |n]; cbn [meaning execute_show_op].
  - eexists. split; [reflexivity|]. intro J. assert (E : wal_show (sh_wal e) = encode (wal_value (sh_wal e))).
    { unfold wal_show, wal_value, put, put_n. inversion Hw as [|x y H1 H2]; subst. inversion H2 as [|x y H3 H4]; subst.
      rewrite (encode_u64 (ws_rotate_wm _)), (encode_u64 (ws_lsn _)), (encode_u64 (N.of_nat _)) by assumption.
      destruct (ws_files (sh_wal e)) as [|f fl] eqn:F; [maps|]. inversion H4; subst. rewrite (encode_u64 f) by assumption. maps. }
    rewrite E. apply tells_plain, J.
  - unfold cloud_mgr_show. rewrite named_find. destruct (named cc_name n (sh_clouds e)) as [c|] eqn:E; cbn [option_map]; [|reflexivity].
    eexists. split; [reflexivity|]. intro J. rewrite cloud_public_value. apply tells_plain, J.
  - eexists. split; [reflexivity|]. intro J. erewrite flat_map_same; [rewrite <- (encode_map cc_name cloud_public); apply tells_plain, J|].
    intros c _. cbn beta. rewrite cloud_public_value. reflexivity.
  - unfold find_storage. rewrite (named_find (fun s => so_name (ss_source s))). destruct (named _ n (sh_storages e)) as [s|] eqn:E; cbn [option_map]; [|reflexivity].
    eexists. split; [reflexivity|]. intro J. rewrite Forall_forall in Hs. destruct (Hs s) as [H1 H2]; [apply (find_In _ _ _ E)|].
    rewrite storage_show_value by assumption. apply tells_plain, J.
  - eexists. split; [reflexivity|]. intro J. unfold storage_mgr_show. erewrite flat_map_same;
      [rewrite <- (encode_map (fun s => so_name (ss_source s)) (storage_value d)); apply tells_plain, J|].
    intros s Hin. rewrite Forall_forall in Hs. destruct (Hs s Hin) as [H1 H2]. cbn beta. rewrite storage_show_value by assumption. reflexivity.
  - unfold show_partition. destruct (find _ (sh_parts e)) as [p|] eqn:E; cbn [option_map]; [|reflexivity].
    eexists. split; [reflexivity|]. intro J. apply find_In in E. rewrite Forall_forall in Hp. rewrite part_show_value by (apply Hp, E). apply tells_plain, J.
  - unfold find_storage. rewrite (named_find (fun s => so_name (ss_source s))). destruct (named _ n (sh_storages e)) as [s|] eqn:E; cbn [option_map]; [|reflexivity].
    eexists. split; [reflexivity|]. intro J. unfold show_partitions. apply parts_tell; [|exact J]. rewrite Forall_forall in Hp |- *. intros p Hin. apply Hp.
    apply filter_In in Hin. tauto.
  - eexists. split; [reflexivity|]. intro J. unfold show_partitions. apply parts_tell; assumption.
  - eexists. split; [reflexivity|]. intro J. unfold pipeline_show. erewrite flat_map_same; [rewrite <- (encode_arr tier_value); apply tells_plain, J|].
    intros t _. cbn beta. apply tierc_write_value.
  - eexists. split; [reflexivity|]. intro J. unfold config_show, config_list.
    assert (F : filter visible (sh_config e) = filter (fun v => negb (hidden v) && negb (secret v)) (sh_config e)).
    { apply filter_ext. intro v. unfold visible. rewrite is_H, is_S. destruct (hidden v), (secret v); reflexivity. }
    rewrite F. clear F. set (l := filter _ (sh_config e)) in *. unfold settings in J |- *. rewrite map_map in J |- *. cbn [fst snd] in J |- *.
    inversion J as [| | | | |l' Jl Jf E]; subst. rewrite map_length in Jl. apply (tells_map l v_name var_encode setting); [exact Jl|].
    intros v Hv. rewrite Forall_forall in Jf. destruct (Jf (VStr (v_name v), setting v)) as [_ [J1 J2]]; [apply (in_map (fun v => (VStr (v_name v), setting v))), Hv|].
    cbn [fst snd] in J1, J2. split; [exact J1|]. unfold l in Hv. apply filter_In in Hv. destruct Hv as [Hv He]. apply andb_true_iff in He. destruct He as [_ He].
    rewrite Forall_forall in Hc. destruct (encode_setting v (Hc v Hv ltac:(destruct (secret v); [discriminate|reflexivity]))) as [w ->]. apply tells_enc, J2.
  - rewrite config_named. destruct (named v_name n (sh_config e)) as [v|] eqn:E; [|reflexivity]. rewrite is_S. destruct (secret v) eqn:S; [reflexivity|].
    eexists. split; [reflexivity|]. intro J. apply find_In in E. rewrite Forall_forall in Hc. destruct (encode_setting v (Hc v E S)) as [w ->]. apply tells_enc, J.
Qed.

Lemma ops_tell e : shown_ok e -> forall l vs, map (meaning e) l = map Some vs ->
  exists bs, show_ops e l = Ok (concat bs) /\ length bs = length l /\ (Forall json_ok vs -> Forall2 tells bs vs).
Proof.
  intros H. induction l as [|o l IH]; intros [|v vs] E; cbn [map] in E; try discriminate.
  - exists []. repeat split. constructor.
  - injection E as E1 E2. destruct (IH vs E2) as (bs & S & L & T). pose proof (op_tells e o H) as O. rewrite E1 in O. destruct O as (b & Eb & Tb).
    exists (b :: bs). cbn [show_ops]. rewrite Eb. cbn [bind]. rewrite S. cbn [bind concat length]. repeat split; [lia|]. intro F. inversion F; subst. constructor; auto.
Qed.
Lemma flat_map_snd {A B} (bs : list (list B)) : forall (vs : list A), length bs = length vs -> flat_map fst (combine bs vs) = concat bs /\ map snd (combine bs vs) = vs.
Proof.
  induction bs as [|b bs IH]; intros [|v vs] H; cbn in H; try discriminate; cbn; [tauto|]. injection H as H. destruct (IH vs H) as [-> ->]. tauto.
Qed.

(* the text of a list of SHOW operations *)
Lemma show_text e l vs : shown_ok e -> l <> [] -> map (meaning e) l = map Some vs -> json_ok (answer vs) ->
  exists text, execute_show fmt_real e l = Ok text /\ json_parse strtod text = Ok (encode_wide (answer vs)).
Proof.
  intros H Hl E J. destruct (ops_tell e H l vs E) as (bs & S & L & T). assert (Lv : length l = length vs) by (rewrite <- (map_length (meaning e)), E; apply map_length).
  unfold execute_show. rewrite S. cbn [bind].
  assert (G : exists b, (if 1 <? length l then data_write_len MN_ARRAYV0 (N.of_nat (length l)) else []) ++ concat bs = b /\ tells b (answer vs)).
  { eexists. split; [reflexivity|]. destruct vs as [|v [|v2 vs]].
    - destruct l; [congruence|discriminate].
    - cbn [answer] in J |- *. specialize (T (Forall_cons v J (Forall_nil _))). inversion T as [|b x bs' y Tb Tn]; subst. inversion Tn; subst. rewrite Lv. cbn [length Nat.ltb Nat.leb concat app].
      rewrite app_nil_r. exact Tb.
    - assert (Q : answer (v :: v2 :: vs) = VArr (v :: v2 :: vs)) by reflexivity. rewrite Q in *. set (ws := v :: v2 :: vs) in *. assert (L2 : 1 <? length l = true) by (rewrite Lv; reflexivity).
      rewrite L2. inversion J as [| | | |l' Jl Jf X|]; subst l'. destruct (flat_map_snd bs ws ltac:(lia)) as [F1 F2].
      assert (G := tells_arr false (combine bs ws) fst snd). rewrite F1, F2 in G. replace (length (combine bs ws)) with (length l) in G by (rewrite combine_length; lia). apply G.
      + rewrite Lv. exact Jl.
      + specialize (T Jf). clear - T. induction T as [|b x bs ws Tb Tn IH]; intros a Ha; [destruct Ha|]. cbn [combine] in Ha. destruct Ha as [<- |Ha]; [exact Tb|apply IH, Ha]. }
  destruct G as (b & -> & Tb). destruct Tb as [Td Tb].
  unfold json_export. specialize (Tb (Datatypes.S (length b)) 0 [] ltac:(lia)). rewrite app_nil_r in Tb. rewrite Tb. cbn [bind].
  eexists. split; [reflexivity|]. rewrite <- (app_nil_r (show 0 (answer vs))). apply parse_show_all; [exact J|exact I].
Qed.
Lemma show_refuses e l o : shown_ok e -> In o l -> meaning e o = None -> execute_show fmt_real e l = Err.
Proof.
  intros H Hin E. unfold execute_show. assert (S : show_ops e l = Err).
  { induction l as [|x l IH]; [destruct Hin|]. cbn [show_ops]. pose proof (op_tells e x H) as O. destruct Hin as [-> |Hin].
    - rewrite E in O. rewrite O. reflexivity.
    - rewrite (IH Hin). destruct (meaning e x); [destruct O as (b & -> & _)|rewrite O]; reflexivity. }
  rewrite S. reflexivity.
Qed.
End TEXT.

(* keys and passwords *)
Lemma source_write_key debug s1 s2 : no_key s1 = no_key s2 -> source_write true debug s1 = source_write true debug s2.
Proof. destruct s1, s2. unfold no_key. cbn. intro H. injection H as -> -> -> -> -> -> -> -> -> -> -> ->. reflexivity. Qed.
Lemma cloud_write_password c1 c2 : no_password c1 = no_password c2 -> cloudc_write true c1 = cloudc_write true c2.
Proof. destruct c1, c2. unfold no_password. cbn. intro H. injection H as -> -> -> -> ->. reflexivity. Qed.
Lemma find_map {A B} (f : A -> B) (p : B -> bool) l : option_map f (find (fun a => p (f a)) l) = find p (map f l).
Proof. induction l as [|a l IH]; cbn [find map]; [reflexivity|]. destruct (p (f a)); [reflexivity|exact IH]. Qed.
Lemma flat_map_map {A B C} (f : A -> B) (g : B -> list C) l : flat_map g (map f l) = flat_map (fun a => g (f a)) l.
Proof. induction l as [|a l IH]; cbn; [reflexivity|]. rewrite IH. reflexivity. Qed.
Lemma storage_show_key debug s : storage_show debug s = storage_show debug (no_storage_key s).
Proof. unfold storage_show. rewrite (source_write_key debug (ss_source s) (ss_source (no_storage_key s))) by (destruct s as [i [] p]; reflexivity). reflexivity. Qed.
Lemma find_public (n : list byte) l : option_map no_storage_key (find_storage l n) = find_storage (map no_storage_key l) n.
Proof. exact (find_map no_storage_key (fun s => same_bytes (so_name (ss_source s)) n) l). Qed.
Lemma name_public l i : source_name l i = source_name (map no_storage_key l) i.
Proof.
  unfold source_name. rewrite <- (find_map no_storage_key (fun s => ss_id s =? i) l). cbn [no_storage_key ss_id].
  destruct (find (fun a => ss_id a =? i) l) as [s|]; reflexivity.
Qed.
Lemma part_show_ext n1 n2 debug p : (forall i, n1 i = n2 i) -> stats_show_part n1 debug p = stats_show_part n2 debug p.
Proof. intro H. unfold stats_show_part. rewrite H. reflexivity. Qed.

Definition hide (e : shown) : shown :=
  mk_shown (map no_password (sh_clouds e)) (map no_storage_key (sh_storages e)) (sh_tiers e) (sh_parts e) (sh_wal e)
    (filter (fun v => negb (hidden v) && negb (secret v)) (sh_config e)).
Lemma op_hide e o : by_name o = false -> execute_show_op e o = execute_show_op (hide e) o.
Proof.
  assert (P : forall d p, stats_show_part (source_name (sh_storages e)) d p = stats_show_part (source_name (map no_storage_key (sh_storages e))) d p)
    by (intros; apply part_show_ext, name_public).
  destruct o as [|[n|]|[n|] d|id d|[n|] d| | |n]; intro B; try discriminate; cbn [execute_show_op hide sh_clouds sh_storages sh_tiers sh_parts sh_wal sh_config]; try reflexivity.
  - unfold cloud_mgr_show. rewrite <- (find_map no_password (fun c => same_bytes (cc_name c) n)). cbn [no_password cc_name].
    destruct (find (fun a => same_bytes (cc_name a) n) (sh_clouds e)) as [c|]; cbn [option_map]; [|reflexivity]. reflexivity.
  - unfold cloud_mgr_show. rewrite flat_map_map, map_length. reflexivity.
  - rewrite <- find_public. destruct (find_storage (sh_storages e) n) as [s|]; cbn [option_map]; [|reflexivity]. reflexivity.
  - unfold storage_mgr_show. rewrite flat_map_map, map_length. reflexivity.
  - unfold show_partition. cbn [hide sh_parts sh_storages]. destruct (find _ (sh_parts e)); [|reflexivity]. f_equal. apply P.
  - rewrite <- find_public. destruct (find_storage (sh_storages e) n) as [s|]; cbn [option_map]; [|reflexivity]. f_equal. unfold show_partitions. cbn [hide sh_parts sh_storages no_storage_key ss_id].
    f_equal. apply flat_map_same. intros. apply P.
  - unfold show_partitions. cbn [hide sh_parts sh_storages]. do 2 f_equal. apply flat_map_same. intros. apply P.
  - f_equal. unfold config_show, config_list.
    assert (F : forall l, filter visible l = filter (fun v => negb (hidden v) && negb (secret v)) l).
    { intro l. apply filter_ext. intro v. unfold visible. rewrite is_H, is_S. destruct (hidden v), (secret v); reflexivity. }
    rewrite !F. assert (I : forall (f : var -> bool) l, filter f (filter f l) = filter f l).
    { intros f l. induction l as [|a l IH]; cbn [filter]; [reflexivity|]. destruct (f a) eqn:Ea; cbn [filter]; rewrite ?Ea, IH; reflexivity. }
    rewrite I. reflexivity.
Qed.
Lemma show_public fmt_real e1 e2 l : public e1 = public e2 -> Forall (fun o => by_name o = false) l ->
  execute_show fmt_real e1 l = execute_show fmt_real e2 l.
Proof.
  intros P H. assert (E : hide e1 = hide e2) by (unfold public in P; unfold hide; congruence).
  assert (S : show_ops e1 l = show_ops e2 l).
  { induction H as [|o l Ho Hl IH]; cbn [show_ops]; [reflexivity|]. rewrite (op_hide e1 o Ho), (op_hide e2 o Ho), E, IH. reflexivity. }
  unfold execute_show. rewrite S. reflexivity.
Qed.
Lemma named_secret fmt_real e n v : named v_name n (sh_config e) = Some v -> secret v = true -> execute_show fmt_real e [ShowName n] = Err.
Proof. intros E S. unfold execute_show. cbn [show_ops execute_show_op]. rewrite config_named, E, is_S, S. reflexivity. Qed.
