(* Lemmas on settings. *)
From Coq Require Import NArith ZArith List Bool Lia.
Import ListNotations.
From Verif Require Import Model.Base Model.Codec Model.Data Model.Json Model.Lex Model.Config Spec.Value Spec.JsonText Spec.Settings Proof.CodecL Proof.DataL Proof.JsonL Proof.JsonCut.
Local Arguments N.mul : simpl never.
Local Arguments N.eqb : simpl never.
Local Arguments data_write_len32 : simpl never.
Local Arguments data_write_len : simpl never.
Local Arguments data_write_integer : simpl never.
Local Arguments data_write_raw : simpl never.

(* flags *)
Lemma flag_bit n i : (0 <? N.land n (2 ^ i))%N = N.testbit n i.
Proof.
  destruct (N.testbit n i) eqn:E.
  - apply N.ltb_lt. destruct (N.eq_dec (N.land n (2 ^ i)) 0) as [Z|Z]; [|lia].
    assert (H : N.testbit (N.land n (2 ^ i)) i = true) by (rewrite N.land_spec, E, N.pow2_bits_true; reflexivity).
    rewrite Z, N.bits_0 in H. discriminate.
  - apply N.ltb_ge. replace (N.land n (2 ^ i)) with 0%N; [lia|]. symmetry. apply N.bits_inj. intro j.
    rewrite N.bits_0, N.land_spec, N.pow2_bits_eqb. destruct (N.eqb_spec i j) as [<-|]; [rewrite E; reflexivity|apply andb_false_r].
Qed.
Lemma is_E v : var_is v VAR_E = ephemeral v.
Proof. exact (flag_bit (v_flags v) 4). Qed.
Lemma is_C v : var_is v VAR_C = at_start v.
Proof. exact (flag_bit (v_flags v) 0). Qed.
Lemma is_R v : var_is v VAR_R = at_run v.
Proof. exact (flag_bit (v_flags v) 1). Qed.
Lemma is_H v : var_is v VAR_H = hidden v.
Proof. exact (flag_bit (v_flags v) 2). Qed.
Lemma is_S v : var_is v VAR_S = secret v.
Proof. exact (flag_bit (v_flags v) 3). Qed.
Lemma is_Z v : var_is v VAR_Z = nonzero v.
Proof. exact (flag_bit (v_flags v) 5). Qed.

(* integers *)
Lemma i64_range n : (- 2 ^ 63 <= i64_of_u64 n < 2 ^ 63)%Z.
Proof.
  unfold i64_of_u64, w64, two64. assert (H := N.mod_lt n (2 ^ 64) ltac:(discriminate)). set (m := (n mod 2 ^ 64)%N) in *. clearbody m.
  cbv zeta. destruct (Z.ltb_spec (Z.of_N m) (2 ^ 63)); lia.
Qed.
Lemma i64_mod n : (n < 2 ^ 64)%N -> Z.to_N (i64_of_u64 n mod 2 ^ 64) = n.
Proof.
  intro H. unfold i64_of_u64, w64, two64. rewrite N.mod_small by exact H. cbv zeta. destruct (Z.ltb_spec (Z.of_N n) (2 ^ 63)).
  - rewrite Z.mod_small by lia. lia.
  - rewrite <- (Z_mod_plus_full _ 1), Z.mod_small by lia. lia.
Qed.
Lemma i64_zero n : (n < 2 ^ 64)%N -> i64_of_u64 n = 0%Z -> n = 0%N.
Proof. intros H E. rewrite <- (i64_mod n H), E. reflexivity. Qed.

(* a value that is written is the encoding of the setting *)
Lemma decode_enc_ok w x r : json_ok x -> decode (enc w x ++ r) = Ok (x, r).
Proof. intro H. destruct (json_ok_value x H). apply decode_exact; assumption. Qed.
Lemma encode_setting v : savable v -> exists w, var_encode v = enc w (setting v).
Proof.
  intros [Hi [Hj Hd]]. unfold var_encode, setting in *. destruct (v_type v).
  - exists false. reflexivity.
  - exists false. cbn [enc encode]. rewrite i64_mod by exact Hi. reflexivity.
  - exists false. reflexivity.
  - destruct (Hd eq_refl) as [-> | [x [Hx Hx2]]]; [exists false; reflexivity|].
    assert (E : exists w, v_str v = enc w x) by (destruct Hx2; [exists false|exists true]; assumption). clear Hx2 Hd.
    destruct E as [w E]. exists w. rewrite E.
    assert (D := decode_enc_ok w x [] Hx). rewrite app_nil_r in D. rewrite D.
    pose proof (enc_some w x). destruct (enc w x); [cbn in H; lia|reflexivity].
Qed.

(* the pairs that are written *)
Definition pair_of (v : var) : value * value := (VStr (v_name v), setting v).
Definition kept_vars (c : config) : config := filter (fun v => negb (ephemeral v)) c.
Definition tree (c : config) : value := VMap (map pair_of (kept_vars c)).
Lemma filter_persistent c : filter persistent c = kept_vars c.
Proof. apply filter_ext. intro v. unfold persistent. rewrite is_E. reflexivity. Qed.
Lemma kept_in c v : In v (kept_vars c) -> In v c /\ ephemeral v = false.
Proof. intro H. apply filter_In in H. destruct H as [H E]. split; [exact H|]. destruct (ephemeral v); [discriminate|reflexivity]. Qed.
Lemma filter_len {A} (f : A -> bool) l : length (filter f l) <= length l.
Proof. induction l as [|a l IH]; cbn; [lia|]. destruct (f a); cbn; lia. Qed.

Lemma tree_ok c : table_ok c -> saves c -> json_ok (tree c).
Proof.
  intros [_ [Hn Hc]] Hs. unfold tree. constructor.
  - rewrite map_length. pose proof (filter_len (fun v => negb (ephemeral v)) c). unfold kept_vars. lia.
  - apply Forall_forall. intros p Hp. apply in_map_iff in Hp. destruct Hp as [v [<- Hv]]. apply kept_in in Hv. destruct Hv as [Hv He].
    unfold saves in Hs. rewrite Forall_forall in Hn, Hs. cbn [pair_of fst snd]. repeat split.
    + exists (v_name v). reflexivity.
    + apply Hn, Hv.
    + apply (Hs v Hv He).
Qed.

Section TEXT.
Variable strtod : list byte -> option (N * nat).
Variable fmt_real : N -> list byte.
Local Notation show := (show fmt_real true).

Lemma depth_pairs_len {A} (f : A -> value * value) (en : A -> list byte) (l : list A) :
  (forall a, In a l -> depth (fst (f a)) <= length (en a) /\ depth (snd (f a)) <= length (en a)) ->
  forall n, length (flat_map en l) <= n -> Forall (fun a => depth (fst (f a)) <= n /\ depth (snd (f a)) <= n) l.
Proof.
  induction l as [|a l IH]; intros H n Hn; [constructor|]. cbn [flat_map] in Hn. rewrite app_length in Hn. constructor.
  - destruct (H a (or_introl eq_refl)). lia.
  - apply IH; [|lia]. intros b Hb. apply H. right. exact Hb.
Qed.

(* one map whose values were written with either kind of header *)
Lemma map_len_some n : 1 <= length (data_write_len MN_MAPV0 n).
Proof. exact (any_len_some false MN_MAPV0 n). Qed.

Lemma text_list l : (N.of_nat (length l) < 2 ^ 31)%N -> (forall v, In v l -> json_ok (VStr (v_name v)) /\ savable v) ->
  json_export fmt_real true (data_write_len MN_MAPV0 (N.of_nat (length l)) ++ flat_map (fun v => data_write_raw (v_name v) ++ var_encode v) l)
  = Ok (show 0 (VMap (map pair_of l)), []).
Proof.
  intros Hl Hin.
  set (en2 := fun v => var_encode v). change (fun v => data_write_raw (v_name v) ++ var_encode v) with (fun v => data_write_raw (v_name v) ++ en2 v).
  set (fl := flat_map _ l).
  assert (Hfl : Forall (fun v => depth (VStr (v_name v)) <= length fl /\ depth (setting v) <= length fl) l).
  { apply (depth_pairs_len pair_of (fun v => data_write_raw (v_name v) ++ en2 v)); [|unfold fl; lia].
    intros v Hv. destruct (Hin v Hv) as [H1 H2]. cbn [pair_of fst snd]. destruct (encode_setting v H2) as [w E]. unfold en2. rewrite E, app_length.
    pose proof (depth_enc w (setting v)). pose proof (depth_enc false (VStr (v_name v))). cbn [enc encode] in *. lia. }
  unfold json_export. cbn [json_export_as]. rewrite <- (app_nil_r (data_write_len _ _ ++ fl)), <- app_assoc.
  assert (Hd := read_len MN_MAPV0 (N.of_nat (length l)) (fl ++ []) Hl).
  pose proof (map_len_some (N.of_nat (length l))) as Hm.
  assert (Hlen : length (data_write_len MN_MAPV0 (N.of_nat (length l)) ++ fl ++ []) >= S (length fl)) by (rewrite !app_length; lia).
  destruct (write_len_head MN_MAPV0 (N.of_nat (length l)) (fl ++ [])) as [t [u [E Ht]]]. rewrite E in *.
  set (fuel := length (t :: u)) in *. clearbody fuel.
  cbn [json_export_as]. unfold MN_MAPV0 in Ht. flags. rewrite Hd. cbn [bind].
  replace (Z.to_nat (Z.of_N (N.of_nat (length l)))) with (length l) by lia. subst fl.
  rewrite (export_pairs_app true 0 (fun v => data_write_raw (v_name v)) en2 (fun v => show 1 (VStr (v_name v))) (fun v => show 1 (setting v))).
  - cbn [bind JsonL.show]. rewrite map_map. reflexivity.
  - rewrite Forall_forall in *. intros v Hv. destruct (Hin v Hv) as [Hkn Hsv]. destruct (Hfl v Hv) as [Hd1 Hd2]. split; intro r.
    + destruct (json_ok_value _ Hkn). apply (export_enc fmt_real false true (VStr (v_name v))); try assumption; [constructor|lia].
    + destruct (encode_setting v Hsv) as [w Ew]. unfold en2. rewrite Ew. destruct Hsv as [_ [Hsv _]]. destruct (json_ok_value _ Hsv).
      apply export_enc; try assumption; [now apply json_ok_printable|lia].
Qed.

Lemma text_of c : table_ok c -> saves c -> config_text fmt_real c = Ok (show 0 (tree c)).
Proof.
  intros T Hs. unfold config_text, config_list_persistent, config_list. rewrite filter_persistent, text_list; [reflexivity| |].
  - destruct T as [_ [_ Hc]]. pose proof (filter_len (fun v => negb (ephemeral v)) c). unfold kept_vars. lia.
  - intros v Hv. apply kept_in in Hv. destruct Hv as [Hv He]. destruct T as [_ [Hn _]]. unfold saves in Hs. rewrite Forall_forall in Hn, Hs.
    split; [apply Hn, Hv|apply Hs; assumption].
Qed.

(* reading it back *)
Definition load (v w : var) : var :=
  if ephemeral v then w else
  match v_type v with
  | VAR_BOOL => var_int_set w (if negb (v_int v =? 0)%N then 1 else 0)%N
  | VAR_INT => var_int_set w (v_int v)
  | VAR_STRING => var_string_set w (v_str v)
  | VAR_DATA => var_string_set w (encode_wide (setting v))
  end.
Definition load_all (c d : config) : config := map (fun p => load (fst p) (snd p)) (combine c d).

Lemma shape_parts v w : shape v = shape w -> v_name v = v_name w /\ v_type v = v_type w /\ v_flags v = v_flags w.
Proof. intro H. unfold shape in H. injection H as -> -> ->. repeat split. Qed.
Lemma shape_load v w : shape (load v w) = shape w.
Proof. unfold load. destruct (ephemeral v); [reflexivity|]. destruct (v_type v); reflexivity. Qed.

Lemma setting_load v w : shape v = shape w -> (ephemeral v = false -> savable v) -> setting (load v w) = setting (if ephemeral v then w else v).
Proof.
  intros Hsh Hs. apply shape_parts in Hsh. destruct Hsh as [_ [Ht _]]. unfold load. destruct (ephemeral v); [reflexivity|]. specialize (Hs eq_refl).
  destruct (v_type v) eqn:Ev; symmetry in Ht; unfold setting at 1, var_int_set, var_string_set; cbn [v_type v_int v_str]; rewrite Ht.
  - unfold setting. rewrite Ev. destruct (v_int v =? 0)%N; reflexivity.
  - unfold setting. rewrite Ev. reflexivity.
  - unfold setting. rewrite Ev. reflexivity.
  - destruct Hs as [_ [Hj _]].
    assert (D := decode_enc_ok true _ [] Hj). rewrite app_nil_r in D. cbn [enc] in D. rewrite D. reflexivity.
Qed.

Lemma var_read_load v w r : shape v = shape w -> savable v -> ephemeral v = false ->
  var_read w (encode_wide (setting v) ++ r) = Ok (load v w, r).
Proof.
  intros Hsh Hs He. apply shape_parts in Hsh. destruct Hsh as [_ [Ht _]]. unfold load. rewrite He. unfold var_read. rewrite <- Ht.
  destruct Hs as [Hi [Hj _]]. destruct (json_ok_value _ Hj) as [Hok _].
  unfold setting in *. destruct (v_type v) eqn:Ev.
  - cbn [encode_wide encode]. unfold data_write_bool. destruct (negb (v_int v =? 0)%N); reflexivity.
  - cbn [encode_wide encode]. assert (Hd := read_integer (i64_of_u64 (v_int v)) r (i64_range _)).
    destruct (write_int_head (Z.to_N (i64_of_u64 (v_int v) mod 2 ^ 64)) r) as [t [u [E Hh]]]. rewrite E in *.
    assert (Hb : is_int t = true) by (clear - Hh; flags).
    rewrite Hb, Hd. cbn [bind]. rewrite i64_mod by exact Hi. reflexivity.
  - cbn [encode_wide encode]. assert (Hd := read_raw (v_str v) r ltac:(inversion Hok; assumption)).
    unfold data_write_raw in *. rewrite <- app_assoc in *.
    destruct (write_len_head MN_STRINGV0 (N.of_nat (length (v_str v))) (v_str v ++ r)) as [t [u [E Hh]]]. rewrite E in *.
    assert (Hb : is_string t = true) by (clear - Hh; unfold MN_STRINGV0 in Hh; flags).
    rewrite Hb, Hd. reflexivity.
  - set (x := match decode (v_str v) with Ok (x, _) => x | _ => VNull end) in *. clearbody x.
    assert (Hd := skip_exact true x r Hok). cbn [enc] in Hd.
    pose proof (enc_some true x) as Hne. cbn [enc] in Hne.
    destruct (encode_wide x ++ r) as [|b l] eqn:E.
    { apply (f_equal (@length N)) in E. rewrite app_length in E. cbn in E. lia. }
    rewrite <- E in *. rewrite Hd. cbn [bind]. do 3 f_equal.
    rewrite app_length. replace (length (encode_wide x) + length r - length r) with (length (encode_wide x)) by lia.
    rewrite firstn_app, Nat.sub_diag, firstn_all. cbn. apply app_nil_r.
Qed.

Lemma find_at d1 w d2 : ~ In (v_name w) (map v_name d1) -> config_find (d1 ++ w :: d2) (v_name w) = Some w.
Proof.
  induction d1 as [|a d1 IH]; intro H; cbn [app config_find]; [rewrite same_bytes_refl; reflexivity|].
  cbn in H. destruct (same_bytes (v_name a) (v_name w)) eqn:E; [apply same_bytes_eq in E; tauto|]. apply IH. tauto.
Qed.
Lemma put_at d1 w w' d2 : ~ In (v_name w) (map v_name d1) -> v_name w' = v_name w -> config_put (d1 ++ w :: d2) w' = d1 ++ w' :: d2.
Proof.
  intros H E. induction d1 as [|a d1 IH]; cbn [app config_put]; [rewrite E, same_bytes_refl; reflexivity|].
  cbn in H. destruct (same_bytes (v_name a) (v_name w')) eqn:E2; [apply same_bytes_eq in E2; rewrite E in E2; tauto|]. rewrite IH; [reflexivity|tauto].
Qed.

Lemma set_loop : forall c d1 d2 r, map shape c = map shape d2 -> NoDup (map v_name (d1 ++ d2)) -> saves c ->
  Forall (fun v => json_ok (VStr (v_name v)) /\ (ephemeral v = false -> at_start v = true)) c ->
  config_set_loop (length (kept_vars c)) (d1 ++ d2)
    (flat_map (fun p => encode_wide (fst p) ++ encode_wide (snd p)) (map pair_of (kept_vars c)) ++ r) = Ok (d1 ++ load_all c d2).
Proof.
  induction c as [|v c IH]; intros d1 d2 r Hsh Hnd Hs Hn; destruct d2 as [|w d2]; try discriminate; [reflexivity|].
  cbn [map] in Hsh. injection Hsh as Ha Hb Hc Hsh. assert (Hsv : shape v = shape w) by (unfold shape; congruence).
  inversion Hs as [|x y Hs1 Hs2]; subst x y. inversion Hn as [|x y [Hn0 Hn1] Hn2]; subst x y.
  unfold load_all. cbn [combine map]. cbn [fst snd]. fold (load_all c d2).
  assert (Hname : ~ In (v_name w) (map v_name d1)).
  { rewrite map_app in Hnd. cbn in Hnd. apply NoDup_remove in Hnd. destruct Hnd as [_ Hnd]. intro H. apply Hnd. apply in_app_iff. left. exact H. }
  assert (R : forall w', shape w' = shape w -> config_set_loop (length (kept_vars c)) (d1 ++ w' :: d2)
     (flat_map (fun p => encode_wide (fst p) ++ encode_wide (snd p)) (map pair_of (kept_vars c)) ++ r) = Ok (d1 ++ w' :: load_all c d2)).
  { intros w' Hw'. specialize (IH (d1 ++ [w']) d2 r Hsh).
    rewrite <- !app_assoc in IH. cbn [app] in IH. apply IH; try assumption.
    rewrite map_app in *. cbn [map] in *. apply shape_parts in Hw'. destruct Hw' as [-> _]. exact Hnd. }
  unfold kept_vars. cbn [filter]. destruct (ephemeral v) eqn:He; cbn [negb]; fold (kept_vars c).
  - rewrite R by reflexivity. unfold load. rewrite He. reflexivity.
  - cbn [length map flat_map pair_of fst snd config_set_loop]. rewrite <- !app_assoc. cbn [encode_wide encode].
    assert (Hl : (N.of_nat (length (v_name v)) < 2 ^ 31)%N) by (inversion Hn0; assumption).
    rewrite read_raw by exact Hl. cbn [bind]. rewrite Ha, find_at by exact Hname.
    assert (Hst : at_start w = true) by (unfold at_start; rewrite <- Hc; apply Hn1; reflexivity).
    rewrite is_C, Hst. cbn [negb]. rewrite (var_read_load v w) by auto. cbn [bind].
    rewrite put_at; [|exact Hname|pose proof (shape_load v w) as HH; apply shape_parts in HH; apply HH].
    apply R, shape_load.
Qed.

Lemma settings_load c : forall d, same_shape c d -> saves c -> settings (load_all c d) = restored c d.
Proof.
  induction c as [|v c IH]; intros [|w d] Hsh Hs; try discriminate; [reflexivity|].
  unfold same_shape in Hsh. cbn [map] in Hsh. injection Hsh as Ha Hb Hc Hsh. assert (Hsv : shape v = shape w) by (unfold shape; congruence).
  inversion Hs as [|x y Hs1 Hs2]; subst x y. unfold load_all, settings, restored. cbn [combine map fst snd]. f_equal.
  - f_equal; [|apply setting_load; assumption]. pose proof (shape_load v w) as HH. apply shape_parts in HH. destruct HH as [-> _]. symmetry. exact Ha.
  - apply IH; assumption.
Qed.
Lemma shape_load_all c : forall d, same_shape c d -> same_shape (load_all c d) d.
Proof.
  induction c as [|v c IH]; intros [|w d] Hsh; try discriminate; [reflexivity|].
  unfold same_shape in *. cbn [map] in Hsh. injection Hsh as Ha Hb Hc Hsh. unfold load_all. cbn [combine map fst snd]. f_equal; [apply shape_load|apply IH, Hsh].
Qed.

Lemma set_data c d : table_ok c -> saves c -> same_shape c d -> config_set_data d (encode_wide (tree c)) = Ok (load_all c d).
Proof.
  intros T Hs Hsh. assert (Hj := tree_ok c T Hs). unfold tree in *. inversion Hj as [| | | | |l Hl _]; subst.
  unfold config_set_data. cbn [encode_wide]. rewrite read_len_wide by exact Hl. cbn [bind]. rewrite map_length.
  replace (Z.to_nat (Z.of_N (N.of_nat (length (kept_vars c))))) with (length (kept_vars c)) by lia.
  rewrite <- (app_nil_r (flat_map _ _)). apply (set_loop c [] d []); try assumption; [|apply T].
  cbn [app]. replace (map v_name d) with (map v_name c); [apply T|].
  unfold same_shape in Hsh. apply (f_equal (map (fun s => fst (fst s)))) in Hsh. rewrite !map_map in Hsh. exact Hsh.
Qed.

Definition saved (c : config) (text : list byte) : Prop := table_ok c /\ saves c /\ config_text fmt_real c = Ok text.

Lemma show_tree c : exists t, show 0 (tree c) = 123%N :: t.
Proof. eexists. reflexivity. Qed.

Lemma open_loads c d text old : table_ok c -> saves c -> same_shape c d -> config_text fmt_real c = Ok text ->
  config_open strtod fmt_real d (mk_cdir (Some text) old) = Ok (load_all c d, mk_cdir (Some text) old).
Proof.
  intros T Hs Hsh Ht. rewrite (text_of c T Hs) in Ht. assert (Et : text = show 0 (tree c)) by congruence. subst text. clear Ht.
  unfold config_open. cbn [cd_file]. assert (P := parse_show_all strtod fmt_real true 0 (tree c) [] (tree_ok c T Hs) I). rewrite app_nil_r in P.
  destruct (show_tree c) as [t E]. rewrite E in *. cbv iota beta. rewrite P. cbn [bind]. rewrite set_data by assumption. reflexivity.
Qed.
Lemma open_saved c d text old : table_ok c -> saves c -> same_shape c d -> config_text fmt_real c = Ok text ->
  exists c', config_open strtod fmt_real d (mk_cdir (Some text) old) = Ok (c', mk_cdir (Some text) old) /\
             same_shape c' d /\ settings c' = restored c d.
Proof.
  intros T Hs Hsh Ht. exists (load_all c d). split; [apply open_loads; assumption|]. split; [apply shape_load_all, Hsh|apply settings_load; assumption].
Qed.

Lemma open_cut c d text old k : table_ok c -> saves c -> config_text fmt_real c = Ok text -> k < length text ->
  config_open strtod fmt_real d (mk_cdir (Some (firstn k text)) old) = Err.
Proof.
  intros T Hs Ht Hk. rewrite (text_of c T Hs) in Ht. assert (Et : text = show 0 (tree c)) by congruence. subst text. clear Ht. unfold config_open. cbn [cd_file].
  destruct (firstn k (show 0 (tree c))) as [|b q] eqn:E; [reflexivity|]. rewrite <- E.
  unfold tree in *. rewrite (cut_map strtod fmt_real (map pair_of (kept_vars c)) (firstn k (show 0 (VMap (map pair_of (kept_vars c))))) (skipn k (show 0 (VMap (map pair_of (kept_vars c)))))).
  - rewrite E. reflexivity.
  - exact (tree_ok c T Hs).
  - apply firstn_skipn.
  - intro H. apply (f_equal (@length N)) in H. rewrite skipn_length in H. cbn [length] in H. lia.
  - rewrite E. discriminate.
Qed.

Lemma save_text c d : table_ok c -> saves c -> cd_file d <> None ->
  exists text, config_text fmt_real c = Ok text /\ config_save fmt_real c d = Ok (mk_cdir (Some text) None).
Proof.
  intros T Hs Hd. exists (show 0 (tree c)). rewrite (text_of c T Hs). split; [reflexivity|]. unfold config_save. rewrite (text_of c T Hs).
  destruct (cd_file d); [reflexivity|contradiction].
Qed.

Lemma crash_states c0 c d0 t0 t old st ph dt : table_ok c0 -> saves c0 -> same_shape c0 d0 -> config_text fmt_real c0 = Ok t0 ->
  table_ok c -> saves c -> same_shape c d0 -> config_text fmt_real c = Ok t -> config_text fmt_real d0 = Ok dt ->
  In (ph, st) (config_save_states t (mk_cdir (Some t0) old)) ->
  match ph with
  | Before => cd_file st = Some t0 /\ exists c', config_open strtod fmt_real d0 st = Ok (c', st) /\ settings c' = restored c0 d0
  | Gone => cd_old st = Some t0 /\ config_open strtod fmt_real d0 st = Ok (d0, mk_cdir (Some dt) (Some t0))
  | Partial => cd_old st = Some t0 /\ config_open strtod fmt_real d0 st = Err
  | Done => exists c', config_open strtod fmt_real d0 st = Ok (c', st) /\ settings c' = restored c d0
  end.
Proof.
  intros T0 S0 H0 E0 T S H E Ed Hin. unfold config_save_states in Hin. cbn [cd_file] in Hin.
  destruct Hin as [Hin|[Hin|[Hin|Hin]]].
  - injection Hin as <- <-. split; [reflexivity|]. destruct (open_saved c0 d0 t0 old T0 S0 H0 E0) as [c' [O [_ R]]]. eauto.
  - injection Hin as <- <-. split; [reflexivity|]. destruct (open_saved c0 d0 t0 None T0 S0 H0 E0) as [c' [O [_ R]]]. eauto.
  - injection Hin as <- <-. split; [reflexivity|]. unfold config_open. cbn [cd_file cd_old]. rewrite Ed. reflexivity.
  - apply in_app_iff in Hin. destruct Hin as [Hin|[Hin|[]]].
    + apply in_map_iff in Hin. destruct Hin as [k [Hk Hr]]. apply in_seq in Hr. injection Hk as <- <-.
      destruct (Nat.eqb_spec k (length t)) as [->|Hne].
      * rewrite firstn_all. destruct (open_saved c d0 t (Some t0) T S H E) as [c' [O [_ R]]]. eauto.
      * split; [reflexivity|]. apply (open_cut c d0 t (Some t0) k T S E). lia.
    + injection Hin as <- <-. destruct (open_saved c d0 t None T S H E) as [c' [O [_ R]]]. eauto.
Qed.

(* a call that fails half-way leaves one of these states as well: each phase is there *)
Lemma crash_all t t0 old : t <> [] -> forall ph, exists st, In (ph, st) (config_save_states t (mk_cdir (Some t0) old)).
Proof.
  intros Ht ph. unfold config_save_states. cbn [cd_file]. destruct ph.
  - eexists. left. reflexivity.
  - eexists. right. right. left. reflexivity.
  - exists (mk_cdir (Some []) (Some t0)). do 3 right. apply in_app_iff. left. apply in_map_iff. exists 0. split; [|apply in_seq; lia].
    destruct t; [contradiction|reflexivity].
  - exists (mk_cdir (Some t) None). do 3 right. apply in_app_iff. right. left. reflexivity.
Qed.

(* SHOW *)
Lemma show_ok c name v : config_find c name = Some v -> secret v = false -> savable v ->
  exists text, show_name fmt_real c name = Ok text /\ json_parse strtod text = Ok (encode_wide (setting v)).
Proof.
  intros Hf He Hs. unfold show_name. rewrite Hf, is_S, He. destruct (encode_setting v Hs) as [w E]. rewrite E.
  destruct Hs as [_ [Hj _]]. exists (show 0 (setting v)). split.
  - rewrite <- (app_nil_r (enc w _)), export_show by exact Hj. reflexivity.
  - rewrite <- (app_nil_r (show 0 _)). apply parse_show_all; [exact Hj|exact I].
Qed.
Lemma show_string c name v : config_find c name = Some v -> secret v = false -> v_type v = VAR_STRING -> (N.of_nat (length (v_str v)) < 2 ^ 31)%N ->
  show_name fmt_real c name = Ok (34%N :: v_str v ++ [34%N]).
Proof.
  intros Hf He Ht Hl. unfold show_name. rewrite Hf, is_S, He. unfold var_encode. rewrite Ht.
  change (data_write_raw (v_str v)) with (enc false (VStr (v_str v))). unfold json_export.
  rewrite <- (app_nil_r (enc false _)) at 2. rewrite export_enc; [reflexivity|constructor; exact Hl|constructor|].
  pose proof (depth_enc false (VStr (v_str v))). lia.
Qed.
Lemma show_all c : table_ok c -> Forall (fun v => hidden v = false -> secret v = false -> savable v) c ->
  exists text, json_export fmt_real true (config_show c) = Ok (text, []) /\
    json_parse strtod text = Ok (encode_wide (VMap (map (fun p => (VStr (fst p), snd p))
      (settings (filter (fun v => negb (hidden v) && negb (secret v)) c))))).
Proof.
  intros T Hs. unfold config_show, config_list.
  assert (F : filter visible c = filter (fun v => negb (hidden v) && negb (secret v)) c).
  { apply filter_ext. intro v. unfold visible. rewrite is_H, is_S. destruct (hidden v), (secret v); reflexivity. }
  rewrite F. clear F. set (l := filter _ c).
  assert (Hl : (N.of_nat (length l) < 2 ^ 31)%N).
  { destruct T as [_ [_ Hc]]. pose proof (filter_len (fun v => negb (hidden v) && negb (secret v)) c). unfold l. lia. }
  assert (Hin : forall v, In v l -> json_ok (VStr (v_name v)) /\ savable v).
  { intros v Hv. unfold l in Hv. apply filter_In in Hv. destruct Hv as [Hv He]. destruct T as [_ [Hn _]]. rewrite Forall_forall in Hn, Hs.
    split; [apply Hn, Hv|]. apply andb_true_iff in He. destruct He as [H1 H2]. apply Hs; [exact Hv|destruct (hidden v)|destruct (secret v)]; (discriminate || reflexivity). }
  exists (show 0 (VMap (map pair_of l))). split; [apply text_list; assumption|].
  replace (map (fun p => (VStr (fst p), snd p)) (settings l)) with (map pair_of l) by (unfold settings; rewrite map_map; reflexivity).
  rewrite <- (app_nil_r (show 0 _)). apply parse_show_all; [|exact I]. constructor; [rewrite map_length; exact Hl|].
  apply Forall_forall. intros p Hp. apply in_map_iff in Hp. destruct Hp as [v [<- Hv]]. destruct (Hin v Hv) as [H1 H2]. cbn [pair_of fst snd]. repeat split.
  - eexists. reflexivity.
  - exact H1.
  - apply H2.
Qed.

End TEXT.

(* SET *)
Lemma show_refused fmt_real c name : (config_find c name = None \/ exists v, config_find c name = Some v /\ secret v = true) ->
  show_name fmt_real c name = Err.
Proof. unfold show_name. intros [-> |(v & -> & H)]; [reflexivity|]. rewrite is_S, H. reflexivity. Qed.
Lemma find_split c name v : config_find c name = Some v -> exists d1 d2, c = d1 ++ v :: d2 /\ v_name v = name /\ ~ In name (map v_name d1).
Proof.
  induction c as [|a c IH]; cbn [config_find]; intro H; [discriminate|]. destruct (same_bytes (v_name a) name) eqn:E.
  - injection H as ->. apply same_bytes_eq in E. exists [], c. repeat split; [exact E|intros []].
  - destruct (IH H) as [d1 [d2 [-> [Hn Hi]]]]. exists (a :: d1), d2. repeat split; [exact Hn|]. cbn. intros [G|G]; [|tauto].
    apply same_bytes_neq in E. contradiction.
Qed.
Lemma set_none online c name tok : config_find c name = None -> execute_set online c name tok = Err.
Proof. intro H. unfold execute_set. rewrite H. reflexivity. Qed.

Lemma set_cases online c name tok v : token_ok tok -> config_find c name = Some v ->
  (allowed online v tok /\ exists v' x, execute_set online c name tok = Ok (config_put c v', online && negb (ephemeral v)) /\
     shape v' = shape v /\ token_value (v_type v) tok = Some x /\ setting v' = x /\
     (v_type v <> VAR_DATA) /\ ((v_int v < 2 ^ 64)%N -> (v_int v' < 2 ^ 64)%N)) \/
  (~ allowed online v tok /\ execute_set online c name tok = Err).
Proof.
  intros Ht Hf. unfold execute_set, allowed. rewrite Hf, is_S. destruct (secret v) eqn:Hs; [right; split; [intros [H _]; discriminate|reflexivity]|].
  assert (Hph : var_is v (if online then VAR_R else VAR_C) = if online then at_run v else at_start v) by (destruct online; [apply is_R|apply is_C]).
  rewrite Hph. destruct (if online then at_run v else at_start v) eqn:Hp; cbn [negb].
  2:{ right. split; [|reflexivity]. intros [_ [H _]]. destruct online; congruence. }
  assert (Hp2 : if online then at_run v = true else at_start v = true) by (destruct online; exact Hp). clear Hp Hph.
  assert (FE : forall v', v_flags v' = v_flags v -> negb (var_is v' VAR_E) = negb (ephemeral v)) by (intros v' E; rewrite is_E; unfold ephemeral; rewrite E; reflexivity).
  unfold token_ok in Ht. unfold token_value. destruct (v_type v) eqn:Ev.
  - destruct (t_id tok =? KTRUE)%N; [|destruct (t_id tok =? KFALSE)%N].
    + left. split.
      * repeat split; [exact Hp2|]. exists (VBool true). split; [destruct (t_val tok); reflexivity|discriminate].
      * eexists. exists (VBool true). cbn [bind]. rewrite FE by reflexivity. repeat split; try reflexivity; try discriminate.
        all: unfold setting; cbn; rewrite ?Ev; try reflexivity; destruct (t_val tok); reflexivity.
    + left. split.
      * repeat split; [exact Hp2|]. exists (VBool false). split; [destruct (t_val tok); reflexivity|discriminate].
      * eexists. exists (VBool false). cbn [bind]. rewrite FE by reflexivity. repeat split; try reflexivity; try discriminate.
        all: unfold setting; cbn; rewrite ?Ev; try reflexivity; destruct (t_val tok); reflexivity.
    + right. split; [|reflexivity]. intros [_ [_ [x [Hx _]]]]. destruct (t_val tok); discriminate.
  - destruct (t_id tok =? KINT)%N; destruct (t_val tok) as [|n| |]; cbn [bind];
      try (right; split; [intros [_ [_ [x [Hx _]]]]; discriminate|reflexivity]).
    rewrite is_Z. destruct (nonzero v) eqn:Hz; cbn [andb].
    + destruct (N.eqb_spec n 0) as [->|Hn].
      * right. split; [|reflexivity]. intros [_ [_ [x [Hx Hx2]]]]. injection Hx as <-. apply Hx2; reflexivity.
      * left. split.
        -- repeat split; [exact Hp2|]. eexists. split; [reflexivity|]. intros _ _ E. injection E as E. apply Hn, i64_zero; assumption.
        -- eexists. eexists. cbn [bind]. rewrite FE by reflexivity. repeat split; try reflexivity; try discriminate.
           ++ unfold setting. cbn. rewrite Ev. reflexivity.
           ++ intros _. exact Ht.
    + left. split.
      * repeat split; [exact Hp2|]. eexists. split; [reflexivity|]. intro. discriminate.
      * eexists. eexists. cbn [bind]. rewrite FE by reflexivity. repeat split; try reflexivity; try discriminate.
        -- unfold setting. cbn. rewrite Ev. reflexivity.
        -- intros _. exact Ht.
  - destruct (t_id tok =? KSTRING)%N; destruct (t_val tok) as [| | |s e]; cbn [bind];
      try (right; split; [intros [_ [_ [x [Hx _]]]]; discriminate|reflexivity]).
    left. split.
    + repeat split; [exact Hp2|]. eexists. split; [reflexivity|]. discriminate.
    + eexists. eexists. cbn [bind]. rewrite FE by reflexivity. repeat split; try reflexivity; try discriminate.
      * unfold setting. cbn. rewrite Ev. reflexivity.
      * intro H. exact H.
  - right. split; [|reflexivity]. intros [_ [_ [x [Hx _]]]]. destruct (t_val tok); discriminate.
Qed.

Lemma assign_other name x l : ~ In name (map v_name l) -> assign name x (settings l) = settings l.
Proof.
  induction l as [|v l IH]; intro H; [reflexivity|]. cbn in *. destruct (same_bytes (v_name v) name) eqn:E; [apply same_bytes_eq in E; tauto|].
  f_equal. apply IH. tauto.
Qed.
Lemma set_effect online c name tok c' save : token_ok tok -> NoDup (map v_name c) -> execute_set online c name tok = Ok (c', save) ->
  exists v x, config_find c name = Some v /\ token_value (v_type v) tok = Some x /\ save = (online && negb (ephemeral v)) /\
    same_shape c' c /\ settings c' = assign name x (settings c).
Proof.
  intros Ht Hnd H. destruct (config_find c name) as [v|] eqn:Hf; [|rewrite set_none in H by exact Hf; discriminate].
  destruct (set_cases online c name tok v Ht Hf) as [[_ [v' [x [E [Hsh [Hx [Hset _]]]]]]]|[_ E]]; [|congruence].
  rewrite E in H. injection H as <- <-. exists v, x. repeat split; try assumption; try reflexivity.
  - destruct (find_split c name v Hf) as [d1 [d2 [-> [Hn Hi]]]]. apply shape_parts in Hsh as Hsh2. destruct Hsh2 as [En _].
    rewrite (put_at d1 v v' d2) by congruence. unfold same_shape. rewrite !map_app. cbn [map]. rewrite Hsh. reflexivity.
  - destruct (find_split c name v Hf) as [d1 [d2 [-> [Hn Hi]]]]. apply shape_parts in Hsh as Hsh2. destruct Hsh2 as [En _].
    rewrite (put_at d1 v v' d2) by congruence. unfold assign, settings. rewrite !map_app. cbn [map]. fold (settings d1) (settings d2).
    fold (assign name x (settings d1)) (assign name x (settings d2)).
    rewrite assign_other by exact Hi. rewrite map_app in Hnd. cbn in Hnd. apply NoDup_remove in Hnd. destruct Hnd as [_ Hnd].
    rewrite assign_other by (intro G; apply Hnd; rewrite Hn; apply in_app_iff; right; exact G).
    cbn [fst]. rewrite Hn, same_bytes_refl, En, Hn, Hset. reflexivity.
Qed.
Lemma set_saves online c name tok c' save v x : token_ok tok -> table_ok c -> saves c -> Forall (fun v => (v_int v < 2 ^ 64)%N) c -> execute_set online c name tok = Ok (c', save) ->
  config_find c name = Some v -> token_value (v_type v) tok = Some x -> json_ok x -> table_ok c' /\ saves c' /\ Forall (fun v => (v_int v < 2 ^ 64)%N) c'.
Proof.
  intros Ht T Hs Hi H Hf Hx Hj.
  destruct (set_cases online c name tok v Ht Hf) as [[_ [v' [x' [E [Hsh [Hx' [Hset [Hty Hint]]]]]]]]|[_ E]]; [|congruence].
  rewrite Hx in Hx'. injection Hx' as <-. rewrite E in H. injection H as <- _.
  destruct (find_split c name v Hf) as [d1 [d2 [-> [Hn Hni]]]]. apply shape_parts in Hsh. destruct Hsh as [E1 [E2 E3]].
  rewrite (put_at d1 v v' d2) by congruence. unfold table_ok, saves in *. rewrite !map_app, !app_length in *. cbn [map length] in *.
  rewrite !Forall_app in *. destruct T as [T1 [[T2 T3] T4]]. destruct Hs as [S1 S2]. destruct Hi as [I1 I2].
  inversion T3 as [|y z [Ta Tb] Tc]; subst y z. inversion S2 as [|y z Sa Sb]; subst y z. inversion I2 as [|y z Ia Ib]; subst y z.
  rewrite E1. repeat split; try assumption; constructor; try assumption.
  - split; [rewrite E1; exact Ta|]. unfold ephemeral, at_start in *. rewrite E3. exact Tb.
  - intros He. split; [apply Hint; exact Ia|]. split; [rewrite Hset; exact Hj|]. intro G. rewrite E2 in G. contradiction.
  - apply Hint, Ia.
Qed.

Lemma set_decided online c name tok : token_ok tok ->
  ((exists r, execute_set online c name tok = Ok r) <-> exists v, config_find c name = Some v /\ allowed online v tok) /\
  execute_set online c name tok <> UB.
Proof.
  intro Ht. destruct (config_find c name) as [v|] eqn:Hf.
  - destruct (set_cases online c name tok v Ht Hf) as [[A [v' [x [E _]]]]|[A E]]; rewrite E; (split; [|discriminate]); split.
    + intros _. exists v. split; [reflexivity|exact A].
    + intros _. eexists. reflexivity.
    + intros [r H]. discriminate.
    + intros [v2 [H A2]]. injection H as <-. contradiction.
  - rewrite set_none by exact Hf. split; [|discriminate]. split; [intros [r H]; discriminate|intros [v [H _]]; discriminate].
Qed.

Lemma settings_name c : map fst (settings c) = map v_name c.
Proof. unfold settings. rewrite map_map. reflexivity. Qed.
Lemma value_restored c d name v : same_shape c d -> config_find c name = Some v -> ephemeral v = false ->
  value_at (restored c d) name = Some (setting v).
Proof.
  revert d. induction c as [|a c IH]; intros [|w d] Hsh Hf He; try discriminate. unfold same_shape in *. cbn [map] in Hsh. injection Hsh as _ _ _ Hsh.
  cbn [config_find] in Hf. unfold value_at, restored in *. cbn [combine map find fst snd]. destruct (same_bytes (v_name a) name).
  - injection Hf as ->. rewrite He. reflexivity.
  - apply IH; assumption.
Qed.
Lemma value_find c name : value_at (settings c) name = option_map setting (config_find c name).
Proof.
  unfold value_at, settings. induction c as [|a c IH]; [reflexivity|]. cbn [map find fst config_find]. destruct (same_bytes (v_name a) name); [reflexivity|exact IH].
Qed.
Lemma value_assign l name x : (exists y, value_at l name = Some y) -> value_at (assign name x l) name = Some x.
Proof.
  unfold value_at, assign. induction l as [|[n y] l IH]; intros [z H]; [discriminate|]. cbn [map find fst] in *.
  destruct (same_bytes n name) eqn:E; cbn [fst]; rewrite E; [reflexivity|]. apply IH. eexists. exact H.
Qed.

Section SAVED.
Variable strtod : list byte -> option (N * nat).
Variable fmt_real : N -> list byte.
(* SET while running, then a restart *)
Lemma set_restart c name tok c' v x d d0 : token_ok tok -> table_ok c -> saves c -> Forall (fun v => (v_int v < 2 ^ 64)%N) c -> same_shape c d0 ->
  cd_file d <> None -> execute_set true c name tok = Ok (c', true) ->
  config_find c name = Some v -> token_value (v_type v) tok = Some x -> json_ok x ->
  exists d' c2, config_save fmt_real c' d = Ok d' /\ config_open strtod fmt_real d0 d' = Ok (c2, d') /\
    settings c2 = restored c' d0 /\ value_at (settings c2) name = Some x.
Proof.
  intros Ht T Hs Hi Hsh Hd E Hf Hx Hj. destruct (set_saves true c name tok c' true v x Ht T Hs Hi E Hf Hx Hj) as [T' [S' _]].
  destruct (set_effect true c name tok c' true Ht (proj1 T) E) as [v0 [x0 [Hf0 [Hx0 [Hsave [Hsh' Hset]]]]]].
  rewrite Hf in Hf0. injection Hf0 as <-. rewrite Hx in Hx0. injection Hx0 as <-.
  destruct (save_text fmt_real c' d T' S' Hd) as [text [Htx Hsv]].
  assert (Hsh2 : same_shape c' d0) by (unfold same_shape in *; congruence).
  destruct (open_saved strtod fmt_real c' d0 text None T' S' Hsh2 Htx) as [c2 [Ho [_ Hr]]].
  exists (mk_cdir (Some text) None), c2. repeat split; try assumption. rewrite Hr.
  assert (V : value_at (settings c') name = Some x).
  { rewrite Hset. apply value_assign. rewrite value_find, Hf. eexists. reflexivity. }
  rewrite value_find in V. destruct (config_find c' name) as [v'|] eqn:Hf'; [|discriminate]. injection V as V. rewrite <- V.
  apply value_restored; try assumption.
  symmetry in Hsave. apply andb_true_iff in Hsave. destruct Hsave as [_ Hsave].
  destruct (find_split c' name v' Hf') as [a1 [a2 [Ea [Na Ia]]]]. destruct (find_split c name v Hf) as [b1 [b2 [Eb [Nb Ib]]]].
  assert (G : shape v' = shape v).
  { assert (L : forall c c', same_shape c' c -> forall v v', config_find c name = Some v -> config_find c' name = Some v' -> shape v' = shape v).
    { clear. induction c as [|a c IH]; intros [|b c'] H v v' H1 H2; try discriminate. unfold same_shape in H. cbn [map] in H. injection H as Ea Eb Ec H.
      cbn [config_find] in *. rewrite Ea in H2. destruct (same_bytes (v_name a) name); [|apply (IH c' H); assumption].
      injection H1 as <-. injection H2 as <-. unfold shape. congruence. }
    apply (L c c' Hsh' v v' Hf Hf'). }
  apply shape_parts in G. destruct G as [_ [_ G]]. unfold ephemeral in *. rewrite G. destruct (N.testbit (v_flags v) 4); [discriminate|reflexivity].
Qed.
End SAVED.
