(* What the parser takes from a list of tokens is a sentence. *)
From Coq Require Import NArith ZArith Arith String List Bool Lia.
Import ListNotations.
From Verif Require Import Model.Base Model.Data Model.Json Model.Lex Model.Uuid Model.Source Model.Catalog Model.Show Model.Parse
  Spec.Units Spec.Command Proof.ParseT Proof.ParseR.
Local Open Scope res_scope.
Local Open Scope N_scope.
Notation TL := (list token).

(* ---- settings, as the loops gather them ---- *)
Definition set_one (s : source) (o : setting) : source :=
  match o with
  | SUuid u => with_uuid s u | SPath x => with_path s x | SCloud x => with_cloud_name s x | SDropLocal b => with_drop_local s b
  | SSync b => with_sync s b | SCrc b => with_crc s b | SRefreshWm z => with_refresh_wm s z | SRegionSize z => with_region_size s z
  | SCompression x => with_compression s x | SLevel z => with_level s z | SEncryption x => with_encryption s x | SKey x => with_key s x
  end.
Definition bit_of (o : setting) : N :=
  match o with
  | SUuid _ => SOURCE_UUID | SPath _ => SOURCE_PATH | SCloud _ => SOURCE_CLOUD | SDropLocal _ => SOURCE_CLOUD_DROP_LOCAL
  | SSync _ => SOURCE_SYNC | SCrc _ => SOURCE_CRC | SRefreshWm _ => SOURCE_REFRESH_WM | SRegionSize _ => SOURCE_REGION_SIZE
  | SCompression _ => SOURCE_COMPRESSION | SLevel _ => SOURCE_COMPRESSION_LEVEL | SEncryption _ => SOURCE_ENCRYPTION
  | SKey _ => SOURCE_ENCRYPTION_KEY
  end.
Definition set_all (s : source) (l : list setting) : source := fold_left set_one l s.
Definition bits (m : N) (l : list setting) : N := fold_left (fun m o => N.lor m (bit_of o)) l m.
Definition cset_one (k : cloudc) (o : csetting) : cloudc :=
  match o with
  | CType x => mk_cloudc (cc_name k) x (cc_login k) (cc_password k) (cc_url k) (cc_debug k)
  | CLogin x => mk_cloudc (cc_name k) (cc_type k) x (cc_password k) (cc_url k) (cc_debug k)
  | CPassword x => mk_cloudc (cc_name k) (cc_type k) (cc_login k) x (cc_url k) (cc_debug k)
  | CUrl x => mk_cloudc (cc_name k) (cc_type k) (cc_login k) (cc_password k) x (cc_debug k)
  | CDebug x => mk_cloudc (cc_name k) (cc_type k) (cc_login k) (cc_password k) (cc_url k) x
  end.
Definition cbit_of (o : csetting) : N :=
  match o with CType _ => CLOUD_TYPE | CLogin _ => CLOUD_LOGIN | CPassword _ => CLOUD_PASSWORD | CUrl _ => CLOUD_URL | CDebug _ => CLOUD_DEBUG end.
Definition cset_all (k : cloudc) (l : list csetting) : cloudc := fold_left cset_one l k.
Definition cbits (m : N) (l : list csetting) : N := fold_left (fun m o => N.lor m (cbit_of o)) l m.
Definition tset_one (t : tierc) (o : tsetting) : tierc :=
  match o with
  | TPartitions x => mk_tierc (tc_name t) x (tc_size t) (tc_events t) (tc_duration t)
  | TSize x => mk_tierc (tc_name t) (tc_partitions t) x (tc_events t) (tc_duration t)
  | TEvents x => mk_tierc (tc_name t) (tc_partitions t) (tc_size t) x (tc_duration t)
  | TDuration x => mk_tierc (tc_name t) (tc_partitions t) (tc_size t) (tc_events t) x
  end.
Definition tset_all (t : tierc) (l : list tsetting) : tierc := fold_left tset_one l t.

Lemma has_lor m a b : has (N.lor m a) b = has m b || has a b.
Proof.
  unfold has. rewrite N.land_lor_distr_l. destruct (N.ltb_spec 0 (N.land m b)), (N.ltb_spec 0 (N.land a b)); cbn [orb];
    apply N.ltb_lt || apply N.ltb_ge.
  - destruct (N.lor (N.land m b) (N.land a b)) eqn:E; [apply N.lor_eq_0_iff in E; lia|lia].
  - destruct (N.lor (N.land m b) (N.land a b)) eqn:E; [apply N.lor_eq_0_iff in E; lia|lia].
  - destruct (N.lor (N.land m b) (N.land a b)) eqn:E; [apply N.lor_eq_0_iff in E; lia|lia].
  - assert (N.land m b = 0) by lia. assert (N.land a b = 0) by lia. rewrite H1, H2. cbn. lia.
Qed.
Lemma last_of_snoc {A B} (f : A -> option B) l o : last_of f (l ++ [o]) = match f o with Some x => Some x | None => last_of f l end.
Proof. unfold last_of. rewrite fold_left_app. reflexivity. Qed.

Ltac bits_tac :=
  repeat match goal with
  | |- context [has ?a ?c] =>
    match a with N.lor _ _ => fail 1 | bits _ _ => fail 1 | cbits _ _ => fail 1
    | _ => let v := eval vm_compute in (has a c) in change (has a c) with v end
  end.
Lemma altered_gather s l : salter_of (set_all s l) (bits 0 l) = altered l.
Proof.
  induction l as [|o l IH] using rev_ind; [reflexivity|].
  unfold set_all, bits in *. rewrite !fold_left_app. cbn [fold_left].
  fold (set_all s l) in *. fold (bits 0 l) in *. remember (set_all s l) as w. remember (bits 0 l) as m. clear Heqw Heqm.
  unfold altered in *. rewrite !last_of_snoc. unfold salter_of in *. rewrite !has_lor.
  injection IH as <- <- <- <- <- <- <- <- <- <- <-.
  destruct o; cbn [set_one bit_of]; bits_tac; rewrite ?orb_false_r, ?orb_true_r; reflexivity.
Qed.
Lemma uuid_gather l : has (bits 0 l) SOURCE_UUID = false <-> forall u, ~ In (SUuid u) l.
Proof.
  induction l as [|o l IH] using rev_ind; [split; [intros _ u []|reflexivity]|].
  unfold bits in *. rewrite fold_left_app. cbn [fold_left]. rewrite has_lor, orb_false_iff, IH.
  split.
  - intros [A B] u X. apply in_app_iff in X as [X|[X|[]]]; [apply (A u X)|]. subst o. discriminate B.
  - intro H. split; [intros u X; apply (H u), in_app_iff; left; exact X|]. destruct o; try reflexivity.
    elim (H u). apply in_app_iff. right. left. reflexivity.
Qed.
Lemma caltered_gather s l : calter_of (cset_all s l) (cbits 0 l) = caltered l.
Proof.
  induction l as [|o l IH] using rev_ind; [reflexivity|].
  unfold cset_all, cbits in *. rewrite !fold_left_app. cbn [fold_left].
  fold (cset_all s l) in *. fold (cbits 0 l) in *. remember (cset_all s l) as w. remember (cbits 0 l) as m. clear Heqw Heqm.
  unfold caltered in *. rewrite !last_of_snoc. unfold calter_of in *. rewrite !has_lor.
  injection IH as <- <- <- <-.
  destruct o; cbn [cset_one cbit_of]; bits_tac; rewrite ?orb_false_r, ?orb_true_r; reflexivity.
Qed.
Lemma type_gather l : has (cbits 0 l) CLOUD_TYPE = false <-> last_type l = None.
Proof.
  induction l as [|o l IH] using rev_ind; [split; reflexivity|].
  unfold cbits, last_type in *. rewrite fold_left_app, last_of_snoc. cbn [fold_left]. rewrite has_lor.
  destruct o; cbn [cbit_of]; bits_tac; rewrite ?orb_false_r, ?orb_true_r; try exact IH. split; discriminate.
Qed.
Lemma ccreated_gather n l : cset_all (cloudc_set_name cloudc_new n) l = ccreated n l.
Proof.
  induction l as [|o l IH] using rev_ind; [reflexivity|]. unfold cset_all in *. rewrite fold_left_app. cbn [fold_left]. rewrite IH.
  unfold ccreated, caltered, last_type. rewrite !last_of_snoc. destruct o; reflexivity.
Qed.
Lemma tier_gather n l : tset_all (tierc_set_name tierc_new n) l = tier_of n l.
Proof.
  induction l as [|o l IH] using rev_ind; [reflexivity|]. unfold tset_all in *. rewrite fold_left_app. cbn [fold_left]. rewrite IH.
  unfold tier_of. rewrite !last_of_snoc. destruct o; reflexivity.
Qed.
Definition encryption_ok (o : setting) : Prop := forall s, o = SEncryption s -> In s [chars ""; chars "none"; chars "aes"].
(* without the key *)
Definition created0 (e : env) (nm : list byte) (l : list setting) : source :=
  let a := altered l in
  mk_source (given_or (en_uuid e) (last_of (fun o => match o with SUuid u => Some u | _ => None end) l))
            nm (given_or [] (al_path a)) (given_or [] (al_cloud a))
            (given_or true (al_drop_local a)) (given_or true (al_sync a)) (given_or false (al_crc a))
            (given_or (40 * 1024 * 1024)%Z (al_refresh_wm a)) (given_or (128 * 1024)%Z (al_region_size a))
            (given_or (en_compression e) (al_compression a))
            (given_or (match en_compression e with [] => 0%Z | _ => narrow (en_level e) end) (al_level a))
            (given_or [] (al_encryption a)) (given_or [] (al_key a)).
Lemma created0_gather e n l : set_all (storage_defaults e n) l = created0 e n l.
Proof.
  induction l as [|o l IH] using rev_ind.
  - unfold set_all, storage_defaults, created0. cbn [fold_left]. destruct (en_compression e) as [|c cs] eqn:E; cbn [same_bytes]; reflexivity.
  - unfold set_all in *. rewrite fold_left_app. cbn [fold_left]. rewrite IH.
    unfold created0, altered. rewrite !last_of_snoc. destruct o; reflexivity.
Qed.
Lemma created_gather e n l : Forall encryption_ok l -> storage_key e (set_all (storage_defaults e n) l) = created e n l.
Proof.
  intro H. rewrite created0_gather. unfold storage_key, created, created0. cbv zeta. cbn [so_encryption so_key].
  assert (X : In (given_or [] (al_encryption (altered l))) [chars ""; chars "none"; chars "aes"]).
  { unfold altered. cbn [al_encryption]. clear - H. induction l as [|o l IH] using rev_ind; [left; reflexivity|].
    rewrite last_of_snoc. apply Forall_app in H as [H1 H2]. specialize (IH H1). apply Forall_inv in H2.
    destruct o; try exact IH. cbn [given_or]. apply H2. reflexivity. }
  remember (given_or [] (al_encryption (altered l))) as enc. clear Heqenc.
  remember (given_or [] (al_key (altered l))) as key. clear Heqkey.
  destruct (en_compression e) as [|c cs]; destruct X as [<-|[<-|[<-|[]]]]; try reflexivity; destruct key; reflexivity.
Qed.

(* ---- what is taken, and what it is ---- *)
Definition OK {A} (ts : TL) (G : TL -> A -> Prop) (x : res (A * TL)) : Prop :=
  Forall fit ts ->
  match x with Ok (v, r) => exists us, ts = us ++ r /\ G us v | Err => True | UB => In dollar ts end.
Lemma OK_ok {A} ts (G : TL -> A -> Prop) v : G [] v -> OK ts G (Ok (v, ts)).
Proof. intros H _. exists []. split; [reflexivity|exact H]. Qed.
Lemma OK_err {A} ts (G : TL -> A -> Prop) : OK ts G Err.
Proof. intros _. exact I. Qed.
Lemma OK_bind {A B} ts (G1 : TL -> A -> Prop) (G : TL -> B -> Prop) x f :
  OK ts G1 x -> (forall v us r, ts = us ++ r -> G1 us v -> OK r (fun ws w => G (us ++ ws) w) (f (v, r))) -> OK ts G (bind x f).
Proof.
  intros H K F. specialize (H F). destruct x as [[v r]| |]; cbn [bind]; [|exact I|exact H].
  destruct H as (us & E & H). pose proof F as F'. rewrite E in F'. apply Forall_app in F' as [_ F'].
  specialize (K v us r E H F'). destruct (f (v, r)) as [[w r2]| |]; [|exact I|].
  - destruct K as (ws & -> & K). exists (us ++ ws). split; [rewrite <- app_assoc; exact E|exact K].
  - rewrite E. apply in_app_iff. right. exact K.
Qed.
Lemma OK_weak {A} ts (G H : TL -> A -> Prop) x : (forall us v, G us v -> H us v) -> OK ts G x -> OK ts H x.
Proof. intros W K F. specialize (K F). destruct x as [[v r]| |]; [|exact I|exact K]. destruct K as (us & E & K). eauto. Qed.
Lemma OK_cons {A} t ts (G : TL -> A -> Prop) x : OK ts (fun ws w => G (t :: ws) w) x -> OK (t :: ts) G x.
Proof.
  intros K F. specialize (K (Forall_inv_tail F)). destruct x as [[v r]| |]; [|exact I|right; exact K].
  destruct K as (us & -> & K). exists (t :: us). split; [reflexivity|exact K].
Qed.
Lemma OK_fit {A} t ts (G : TL -> A -> Prop) x : (fit t -> OK ts (fun ws w => G (t :: ws) w) x) -> OK (t :: ts) G x.
Proof. intros K F. apply (OK_cons t ts G x (K (Forall_inv F)) F). Qed.
Lemma is_hit t r id : t_id t = id -> is TL gif (t :: r) id = Ok (true, r).
Proof. intro H. unfold is, gif. rewrite H, N.eqb_refl. reflexivity. Qed.
Definition starts (id : N) (ts : TL) : Prop := match ts with t :: _ => t_id t = id | [] => False end.
Lemma is_miss ts id : id <> KEOF -> ~ starts id ts -> is TL gif ts id = Ok (false, ts).
Proof.
  intros H K. unfold is, gif. destruct ts as [|t ts]; [destruct (N.eqb_spec KEOF id); [congruence|reflexivity]|].
  destruct (N.eqb_spec (t_id t) id) as [E|E]; [elim K; exact E|reflexivity].
Qed.
Lemma OK_is {A} ts id (G : TL -> A -> Prop) f : id <> KEOF ->
  (forall t r, ts = t :: r -> kw id t -> OK r (fun ws w => G (t :: ws) w) (f (true, r))) ->
  (~ starts id ts -> OK ts G (f (false, ts))) -> OK ts G (bind (is TL gif ts id) f).
Proof.
  intros Ne H K. destruct ts as [|t r].
  - rewrite is_miss by (auto; intros []). apply K. intros [].
  - destruct (N.eq_dec (t_id t) id) as [E|E].
    + rewrite (is_hit t r id E). cbn [bind]. apply OK_cons. apply (H t r eq_refl E).
    + rewrite is_miss by (auto; intro X; apply E, X). apply K. exact E.
Qed.
Lemma OK_expect {A} ts id (G : TL -> A -> Prop) f : id <> KEOF ->
  (forall t r, ts = t :: r -> kw id t -> OK r (fun ws w => G (t :: ws) w) (f r)) -> OK ts G (bind (expect TL gif ts id) f).
Proof.
  intros Ne H. unfold expect. destruct ts as [|t r].
  - rewrite is_miss by (auto; intros []). apply OK_err.
  - destruct (N.eq_dec (t_id t) id) as [E|E].
    + rewrite (is_hit t r id E). cbn [bind]. apply OK_cons. apply (H t r eq_refl E).
    + rewrite is_miss by (auto; intro X; apply E, X). apply OK_err.
Qed.
Lemma fit_int t : fit t -> t_id t = KINT -> exists n, t_val t = TInt n.
Proof.
  intros [[A B]|[[A B]|[[A B]|[[A B]|[A B]]]]] E; [exact B| | | |]; rewrite E in A.
  - discriminate A.
  - discriminate A.
  - vm_compute in A. elim A. reflexivity.
  - unfold symbol, KINT in A. lia.
Qed.
Lemma fit_name t : fit t -> t_id t = KNAME -> exists s, t_val t = TStr s false.
Proof.
  intros [[A B]|[[A B]|[[A B]|[[A B]|[A B]]]]] E; rewrite E in A; [discriminate A|discriminate A|discriminate A|exact B|].
  unfold symbol, KNAME in A. lia.
Qed.
Lemma fit_text t : fit t -> t_id t = KSTRING -> exists s e, t_val t = TStr s e.
Proof.
  intros [[A B]|[[A B]|[[A B]|[[A B]|[A B]]]]] E; rewrite E in A; [discriminate A|discriminate A|exact B| |].
  - vm_compute in A. elim A. reflexivity.
  - unfold symbol, KSTRING in A. lia.
Qed.
(* a keyword that is no character of punctuation is written as a word *)
Lemma fit_word t : fit t -> KNAME <= t_id t -> ~ symbol (t_id t) -> exists s, t_val t = TStr s false.
Proof.
  intros [[A B]|[[A B]|[[A B]|[[A B]|[A B]]]]] L S; [| | |exact B|contradiction]; rewrite A in L; vm_compute in L; elim L; reflexivity.
Qed.
Lemma OK_int ts : OK ts (fun us n => exists t, us = [t] /\ int t n) (expect_int TL gif ts).
Proof.
  intro F. unfold expect_int, gif. destruct ts as [|t r]; [exact I|]. cbn [bind].
  destruct (N.eqb_spec (t_id t) KINT) as [E|E]; cbn [bind]; [|exact I].
  destruct (fit_int t (Forall_inv F) E) as [n V]. unfold tok_int. rewrite V. cbn [bind].
  exists [t]. split; [reflexivity|]. exists t. repeat split; assumption.
Qed.
Lemma OK_name ts : OK ts (fun us s => exists t, us = [t] /\ name t s) (expect_str TL gif ts KNAME).
Proof.
  intro F. unfold expect_str, gif. destruct ts as [|t r]; [exact I|]. cbn [bind].
  destruct (N.eqb_spec (t_id t) KNAME) as [E|E]; cbn [bind]; [|exact I].
  destruct (fit_name t (Forall_inv F) E) as [s V]. unfold tok_str. rewrite V. cbn [bind].
  exists [t]. split; [reflexivity|]. exists t. split; [reflexivity|]. split; [exact E|exists false; exact V].
Qed.
Lemma OK_text ts : OK ts (fun us s => exists t, us = [t] /\ text t s) (expect_str TL gif ts KSTRING).
Proof.
  intro F. unfold expect_str, gif. destruct ts as [|t r]; [exact I|]. cbn [bind].
  destruct (N.eqb_spec (t_id t) KSTRING) as [E|E]; cbn [bind]; [|exact I].
  destruct (fit_text t (Forall_inv F) E) as (s & e & V). unfold tok_str. rewrite V. cbn [bind].
  exists [t]. split; [reflexivity|]. exists t. split; [reflexivity|]. split; [exact E|exists e; exact V].
Qed.

Ltac one lem := eapply OK_bind; [apply lem|intros ? ? ? _ (? & -> & ?); cbv beta iota; cbn [app]].
Ltac step :=
  match goal with
  | |- OK _ _ (Ok (_, _)) => apply OK_ok
  | |- OK _ _ Err => apply OK_err
  | |- OK _ _ (bind (is _ _ _ _) _) => apply OK_is; [discriminate|intros ? ? _ ?; cbv beta iota; cbn [app]|intros _; cbv beta iota]
  | |- OK _ _ (bind (expect _ _ _ _) _) => apply OK_expect; [discriminate|intros ? ? _ ?; cbv beta iota; cbn [app]]
  | |- OK _ _ (bind (expect_int _ _ _) _) => one OK_int
  | |- OK _ _ (bind (expect_str _ _ _ KNAME) _) => one OK_name
  | |- OK _ _ (bind (expect_str _ _ _ KSTRING) _) => one OK_text
  | |- OK _ _ (bind (parse_string _ _ _) _) => one OK_text
  | |- OK _ _ (if ?c then _ else _) => destruct c eqn:?
  end.
Ltac sub lem := eapply OK_bind; [apply lem|intros ? ? ? _ ?; cbv beta iota; cbn [app]].
Lemma OK_ine ts : OK ts if_not_exists (parse_if_not_exists TL gif ts).
Proof. unfold parse_if_not_exists. repeat step; constructor; assumption. Qed.
Lemma OK_ie ts : OK ts if_exists (parse_if_exists TL gif ts).
Proof. unfold parse_if_exists. repeat step; constructor; assumption. Qed.
Lemma OK_ic ts : OK ts if_cloud (parse_if_cloud TL gif ts).
Proof. unfold parse_if_cloud. repeat step; constructor; assumption. Qed.
Lemma OK_on ts : OK ts copies (parse_on TL gif ts).
Proof. unfold parse_on. repeat step; try discriminate; constructor; assumption. Qed.
Lemma OK_between ts : OK ts (fun us p => between us (fst p) (snd p)) (parse_between TL gif ts).
Proof. unfold parse_between. repeat step. constructor; assumption. Qed.
Lemma OK_z ts : OK ts (fun us z => exists t n, us = [t] /\ int t n /\ z = signed n) (parse_int TL gif ts).
Proof. unfold parse_int. repeat step. eexists _, _. split; [reflexivity|]. split; [eassumption|reflexivity]. Qed.
Lemma OK_bool ts : OK ts (fun us b => exists t, us = [t] /\ flag t b) (parse_bool TL gif ts).
Proof. unfold parse_bool. repeat step; eexists; (split; [reflexivity|]); assumption. Qed.
Lemma OK_uuid ts : OK ts (fun us u => exists t s, us = [t] /\ text t s /\ uuid_from_string s = Some u) (parse_uuid TL gif ts).
Proof. unfold parse_uuid. step. destruct (uuid_from_string v) eqn:E; [|step]. step. eexists _, _. split; [reflexivity|]. split; eassumption. Qed.

Lemma same_bytes_eq : forall a b, same_bytes a b = true -> a = b.
Proof.
  induction a as [|x a IH]; intros [|y b] H; cbn [same_bytes] in H; try discriminate; [reflexivity|].
  apply andb_true_iff in H as [H1 H2]. apply N.eqb_eq in H1. f_equal; auto.
Qed.
Lemma compression_in s c : compression_mgr_of s = Some c -> In s [chars ""; chars "none"; chars "zstd"; chars "lz4"].
Proof.
  unfold compression_mgr_of.
  destruct (same_bytes s []) eqn:A; [apply same_bytes_eq in A; subst; left; reflexivity|].
  destruct (same_bytes s (chars "none")) eqn:B; [apply same_bytes_eq in B; subst; right; left; reflexivity|].
  destruct (same_bytes s (chars "zstd")) eqn:C; [apply same_bytes_eq in C; subst; right; right; left; reflexivity|].
  destruct (same_bytes s (chars "lz4")) eqn:D; [apply same_bytes_eq in D; subst; right; right; right; left; reflexivity|]. discriminate.
Qed.
Lemma encryption_in s c : encryption_mgr_of s = Some c -> In s [chars ""; chars "none"; chars "aes"].
Proof.
  unfold encryption_mgr_of.
  destruct (same_bytes s []) eqn:A; [apply same_bytes_eq in A; subst; left; reflexivity|].
  destruct (same_bytes s (chars "none")) eqn:B; [apply same_bytes_eq in B; subst; right; left; reflexivity|].
  destruct (same_bytes s (chars "aes")) eqn:C; [apply same_bytes_eq in C; subst; right; right; left; reflexivity|]. discriminate.
Qed.

(* ---- options ---- *)
Lemma OK_storage_option n s ts :
  OK ts (fun us p => exists t o, us = [t] /\ n = chars (setting_name o) /\ setting_value t o /\ p = (set_one s o, bit_of o))
     (storage_option TL gif n ts s).
Proof.
  unfold storage_option.
  repeat match goal with |- OK _ _ (if same_bytes n ?c then _ else _) =>
    let E := fresh "E" in destruct (same_bytes n c) eqn:E; [apply same_bytes_eq in E|clear E] end; [..|apply OK_err].
  - eapply OK_bind; [apply OK_uuid|]. intros u us r _ (t & x & -> & H & Q). cbv beta iota. apply OK_ok. exists t, (SUuid u).
    repeat split; [exact E|econstructor; eassumption].
  - step. step. eexists _, (SPath v). repeat split; [exact E|constructor; assumption].
  - step. step. eexists _, (SCloud v). repeat split; [exact E|constructor; assumption].
  - one OK_bool. step. eexists _, (SDropLocal v). repeat split; [exact E|constructor; assumption].
  - one OK_bool. step. eexists _, (SSync v). repeat split; [exact E|constructor; assumption].
  - one OK_bool. step. eexists _, (SCrc v). repeat split; [exact E|constructor; assumption].
  - eapply OK_bind; [apply OK_z|]. intros z us r _ (t & x & -> & H & ->). cbv beta iota. apply OK_ok. exists t, (SRefreshWm (signed x)).
    repeat split; [exact E|econstructor; eassumption].
  - eapply OK_bind; [apply OK_z|]. intros z us r _ (t & x & -> & H & ->). cbv beta iota.
    destruct (Z.eqb_spec (signed x) 0); [apply OK_err|]. apply OK_ok. exists t, (SRegionSize (signed x)).
    repeat split; [exact E|econstructor; eassumption].
  - step. destruct (compression_mgr_of v) eqn:C; [|step]. step. eexists _, (SCompression v). repeat split; [exact E|].
    constructor; [assumption|]. apply (compression_in v n0 C).
  - eapply OK_bind; [apply OK_z|]. intros z us r _ (t & x & -> & H & ->). cbv beta iota. apply OK_ok. exists t, (SLevel (signed x)).
    repeat split; [exact E|econstructor; eassumption].
  - step. destruct (encryption_mgr_of v) eqn:C; [|step]. step. eexists _, (SEncryption v). repeat split; [exact E|].
    constructor; [assumption|]. apply (encryption_in v n0 C).
  - step. destruct (negb (same_bytes v []) && negb (List.length v =? 32)%nat) eqn:C; [step|]. step. eexists _, (SKey v).
    repeat split; [exact E|]. constructor; [assumption|]. apply andb_false_iff in C as [C|C]; apply negb_false_iff in C.
    + left. apply same_bytes_eq, C.
    + right. apply Nat.eqb_eq, C.
Qed.
Lemma OK_cloud_option n s ts :
  OK ts (fun us p => exists t o m, us = [t] /\ n = chars m /\ csetting_name o m /\ csetting_value t o /\ p = (cset_one s o, cbit_of o))
     (cloud_option TL gif n ts s).
Proof.
  unfold cloud_option. cbv zeta.
  repeat match goal with |- OK _ _ (if same_bytes n ?c then _ else _) =>
    let E := fresh "E" in destruct (same_bytes n c) eqn:E; [apply same_bytes_eq in E|clear E] end; [..|apply OK_err].
  - step. step. eexists _, (CType v), _. repeat split; [exact E|constructor; assumption].
  - step. step. eexists _, (CUrl v), _. repeat split; [exact E|constructor; assumption].
  - step. step. eexists _, (CLogin v), _. repeat split; [exact E|left; reflexivity|constructor; assumption].
  - step. step. eexists _, (CPassword v), _. repeat split; [exact E|left; reflexivity|constructor; assumption].
  - step. step. eexists _, (CLogin v), _. repeat split; [exact E|right; reflexivity|constructor; assumption].
  - step. step. eexists _, (CPassword v), _. repeat split; [exact E|right; reflexivity|constructor; assumption].
  - one OK_bool. step. eexists _, (CDebug v), _. repeat split; [exact E|constructor; assumption].
Qed.
Lemma OK_tier_option n s ts :
  OK ts (fun us p => exists t o m, us = [t] /\ n = chars (tsetting_name o) /\ int t m /\ tsetting_int o = signed m /\ p = tset_one s o)
     (tier_option TL gif n ts s).
Proof.
  unfold tier_option.
  repeat match goal with |- OK _ _ (if same_bytes n ?c then _ else _) =>
    let E := fresh "E" in destruct (same_bytes n c) eqn:E; [apply same_bytes_eq in E|clear E] end; [..|apply OK_err].
  1-4: eapply OK_bind; [apply OK_z|]; intros z us r _ (t & x & -> & H & ->); cbv beta iota; apply OK_ok; exists t.
  - exists (TPartitions (signed x)), x. repeat split; try exact E; apply H.
  - exists (TSize (signed x)), x. repeat split; try exact E; apply H.
  - exists (TEvents (signed x)), x. repeat split; try exact E; apply H.
  - exists (TDuration (signed x)), x. repeat split; try exact E; apply H.
Qed.

Lemma not_symbol_cloud : ~ symbol KCLOUD. Proof. unfold symbol, word_char, KCLOUD. lia. Qed.
Lemma not_symbol_debug : ~ symbol KDEBUG. Proof. unfold symbol, word_char, KDEBUG. lia. Qed.
Lemma not_symbol_name : ~ symbol KNAME. Proof. unfold symbol, word_char, KNAME. lia. Qed.
Lemma app_len {A} (ts us r : list A) : ts = us ++ r -> (List.length r <= List.length ts)%nat.
Proof. intros ->. rewrite app_length. lia. Qed.
Lemma listed_more {A} (item : TL -> A -> Prop) ts a c rs l : item ts a -> kw COMMA c -> listed item rs l -> listed item (ts ++ c :: rs) (a :: l).
Proof. apply li_more. Qed.

