(* JSON text that is cut off is never taken for a map. *)
From Coq Require Import NArith ZArith List Bool Lia.
Import ListNotations.
From Verif Require Import Model.Base Model.Codec Model.Data Model.Json Spec.Value Spec.JsonText Proof.CodecL Proof.DataL Proof.JsonL.
Local Arguments N.mul : simpl never.
Local Arguments Z.mul : simpl never.
Local Arguments Z.add : simpl never.
Local Arguments Z.sub : simpl never.
Local Arguments data_write_len32 : simpl never.
Local Arguments data_write_integer : simpl never.
Local Arguments data_write_raw : simpl never.

Section CUT.
Variable strtod : list byte -> option (N * nat).
Variable fmt_real : N -> list byte.
Local Notation json_read := (json_read strtod).
Local Notation json_parse := (json_parse strtod).
Local Notation show := (show fmt_real true).
Local Notation parses := (parses strtod).

Lemma prefix_split {A} (q s a b : list A) : q ++ s = a ++ b ->
  (exists s', a = q ++ s' /\ s' <> []) \/ (exists q2, q = a ++ q2 /\ q2 ++ s = b).
Proof.
  revert a. induction q as [|x q IH]; intros [|y a] E; cbn [app] in *.
  - right. exists []. split; [reflexivity|exact E].
  - left. exists (y :: a). split; [reflexivity|discriminate].
  - right. exists (x :: q). split; [reflexivity|exact E].
  - injection E as -> E. destruct (IH a E) as [[s' [-> H]]|[q2 [-> H]]]; [left|right]; eexists; split; eauto.
Qed.
(* a proper prefix of [a ++ [b]] *)
Lemma prefix_last {A} (q s a : list A) b : q ++ s = a ++ [b] -> s <> [] -> exists s', a = q ++ s'.
Proof.
  intros E H. destruct (prefix_split q s a [b] E) as [[s' [-> _]]|[q2 [-> E2]]]; [exists s'; reflexivity|].
  destruct q2 as [|x [|y q2]]; cbn in E2; [exists []; rewrite !app_nil_r; reflexivity| |discriminate]. injection E2 as _ ->. contradiction.
Qed.

Definition cut (r : res jout) : Prop := r = Err \/ exists tok out, r = Ok (tok, [], out).

Lemma next_nil : json_next 0 [] = Ok (0%Z, []).
Proof. reflexivity. Qed.
Lemma next_spaces l : spaces l -> json_next 0 l = Ok (0%Z, []).
Proof. intro H. rewrite <- (app_nil_r l), json_next_ws by exact H. reflexivity. Qed.
Lemma skip_split l : exists w, spaces w /\ l = w ++ skip_space l.
Proof.
  induction l as [|b l [w [Hw E]]]; [exists []; split; [constructor|reflexivity]|]. cbn [skip_space]. destruct (isspace b) eqn:Hb.
  - exists (b :: w). split; [constructor; assumption|]. cbn. rewrite <- E. reflexivity.
  - exists []. split; [constructor|reflexivity].
Qed.
Lemma spaces_prefix a b : spaces (a ++ b) -> spaces a.
Proof. intro H. apply Forall_app in H. apply H. Qed.

Lemma cut_elems fuel : forall ts n q s, length q < fuel -> length q < n -> ts <> [] -> q <> [] ->
  Forall (fun t => (length t < fuel -> exists out, parses fuel t out) /\ (0 < token_of t)%Z /\ (exists b u, t = b :: u /\ isspace b = false) /\
                   forall q s, q ++ s = t -> s <> [] -> length q < fuel -> cut (json_read fuel 0 q)) ts ->
  q ++ s = show_elems ts ++ [93%N] -> s <> [] ->
  read_elems n (json_read fuel 0) q = Err.
Proof.
  induction ts as [|t ts IH]; intros n q s Hf Hn Hne Hq Hts E Hs; [contradiction|].
  destruct n as [|n]; [lia|]. cbn [read_elems].
  inversion Hts as [|x y [Hp [Htok [_ Hc]]] Hts']; subst x y.
  assert (E' : q ++ s = t ++ match ts with [] => [93%N] | _ => [44; 32]%N ++ show_elems ts ++ [93%N] end).
  { rewrite E. destruct ts; cbn [show_elems]; [reflexivity|]. rewrite <- !app_assoc. reflexivity. }
  clear E. destruct (prefix_split _ _ _ _ E') as [[s' [Et Hs']]|[q2 [-> E2]]].
  - destruct (Hc q s' (eq_sym Et) Hs' Hf) as [-> | [tok [out ->]]]; [reflexivity|]. cbn [bind].
    destruct (tok <=? 0)%Z; [reflexivity|]. rewrite next_nil. reflexivity.
  - rewrite app_length in Hf, Hn. destruct Hp as [out Hp]; [lia|].
    rewrite Hp.
    2:{ destruct ts; [destruct q2 as [|c q2]; [exact I|]|destruct q2 as [|c q2]; [exact I|]]; cbn in E2; injection E2 as -> _; cbn; repeat split; discriminate. }
    cbn [bind]. destruct (Z.leb_spec (token_of t) 0); [lia|].
    destruct ts as [|t2 ts].
    + destruct q2 as [|c [|c2 q2]]; cbn in E2; [rewrite next_nil; reflexivity| |discriminate]. injection E2 as _ ->. contradiction.
    + destruct q2 as [|c q2]; [rewrite next_nil; reflexivity|]. cbn [app] in E2. injection E2 as -> E2.
      rewrite json_next_at by reflexivity. cbn [bind]. change (schar 44%N =? 93)%Z with false. change (schar 44%N =? 44)%Z with true. cbv iota. cbn [negb].
      rewrite json_next_one.
      destruct q2 as [|c q2]; [rewrite next_nil; reflexivity|]. cbn [app] in E2. injection E2 as -> E2. rewrite json_next_sp by reflexivity.
      destruct q2 as [|c q2]; [rewrite next_nil; reflexivity|].
      assert (Hh : isspace c = false /\ (0 < schar c)%Z).
      { inversion Hts' as [|x y [_ [Htok2 [[b [u [Eb Hb]]] _]]] _]; subst x y. rewrite Eb in E2, Htok2. cbn [token_of] in Htok2.
        destruct ts; cbn [show_elems app] in E2; injection E2 as -> _; split; assumption. }
      rewrite json_next_at by apply Hh. cbn [bind]. destruct (Z.leb_spec (schar c) 0); [lia|].
      cbn [length] in *. rewrite (IH n (c :: q2) s); try assumption; try discriminate; try (cbn [length]; lia). reflexivity.
Qed.

Lemma read_pairs_ws fuel n w q : spaces w -> read_pairs n (json_read fuel) (w ++ q) = read_pairs n (json_read fuel) q.
Proof. intro H. destruct n; [reflexivity|]. cbn [read_pairs]. rewrite json_read_ws by exact H. reflexivity. Qed.
Lemma read_spaces fuel q : spaces q -> json_read (S fuel) 0 q = Ok (0%Z, [], []).
Proof. intro H. cbn [Json.json_read]. rewrite next_spaces by exact H. reflexivity. Qed.

Lemma cut_pairs fuel d : forall ts n q s ws, length q < fuel -> length q < n -> ts <> [] -> spaces ws ->
  Forall (fun kv => ((length (fst kv) < fuel -> exists out, parses fuel (fst kv) out) /\ token_of (fst kv) = 34%Z /\
                     forall q s, q ++ s = fst kv -> s <> [] -> length q < fuel -> cut (json_read fuel 0 q)) /\
                    (length (snd kv) < fuel -> exists out, parses fuel (snd kv) out) /\ (0 < token_of (snd kv))%Z /\
                     forall q s, q ++ s = snd kv -> s <> [] -> length q < fuel -> cut (json_read fuel 0 q)) ts ->
  q ++ s = show_pairs true d ts ++ ws ++ [125%N] -> s <> [] ->
  read_pairs n (json_read fuel) q = Err.
Proof.
  induction ts as [|[k v] ts IH]; intros n q s ws Hf Hn Hne Hws Hts E Hs; [contradiction|].
  destruct n as [|n]; [lia|]. destruct fuel as [|fuel]; [lia|]. 
  inversion Hts as [|x y [[Hpk [Hktok Hck]] [Hpv [Hvtok Hcv]]] Hts']; subst x y. cbn [fst snd] in *.
  cbn [show_pairs] in E. rewrite <- !app_assoc in E.
  assert (Zero : forall q, spaces q -> read_pairs (S n) (json_read (S fuel)) q = Err).
  { intros q' Hq'. cbn [read_pairs]. rewrite read_spaces by exact Hq'. reflexivity. }
  destruct (prefix_split _ _ _ _ E) as [[s' [Ei _]]|[q1 [-> E1]]].
  { apply Zero. apply (spaces_prefix q s'). rewrite <- Ei. apply spaces_indent. }
  clear E. rewrite read_pairs_ws by apply spaces_indent. rewrite app_length in Hf, Hn. cbn [read_pairs].
  destruct (prefix_split _ _ _ _ E1) as [[s' [Ek Hs']]|[q2 [-> E2]]].
  { destruct (Hck q1 s' (eq_sym Ek) Hs' ltac:(lia)) as [-> | [tok [out ->]]]; [reflexivity|]. cbn [bind].
    destruct (negb _); [reflexivity|]. rewrite next_nil. reflexivity. }
  clear E1. rewrite app_length in Hf, Hn. destruct Hpk as [ko Hpk]; [lia|].
  rewrite Hpk by (destruct q2 as [|c q2]; [exact I|]; cbn in E2; injection E2 as -> _; cbn; repeat split; discriminate).
  cbn [bind]. rewrite Hktok. cbn [Z.eqb Pos.eqb negb].
  destruct q2 as [|c q2]; [rewrite next_nil; reflexivity|]. cbn [app] in E2. injection E2 as -> E2.
  rewrite json_next_at by reflexivity. cbn [bind]. change (schar 58%N =? 58)%Z with true. cbn [negb]. rewrite json_read_one.
  destruct q2 as [|c q2]; [rewrite read_spaces by constructor; reflexivity|]. cbn [app] in E2. injection E2 as -> E2. rewrite json_read_sp by reflexivity.
  cbn [length] in Hf, Hn.
  destruct (prefix_split _ _ _ _ E2) as [[s' [Ev Hs']]|[q3 [-> E3]]].
  { destruct (Hcv q2 s' (eq_sym Ev) Hs' ltac:(lia)) as [-> | [tok [out ->]]]; [reflexivity|]. cbn [bind].
    destruct (tok =? -1)%Z; [reflexivity|]. rewrite next_nil. reflexivity. }
  clear E2. rewrite app_length in Hf, Hn. destruct Hpv as [vo Hpv]; [lia|].
  destruct ts as [|kv2 ts].
  - cbn [show_pairs app] in E3.
    destruct (prefix_last q3 s (10%N :: ws) 125%N E3 Hs) as [s' Ep].
    assert (Hq3 : spaces q3) by (apply (spaces_prefix q3 s'); rewrite <- Ep; constructor; [reflexivity|exact Hws]).
    rewrite Hpv.
    2:{ destruct q3 as [|c q3]; [exact I|]. cbn in Ep. injection Ep as <- _. cbn. repeat split; discriminate. }
    cbn [bind]. destruct (Z.eqb_spec (token_of v) (-1)); [lia|]. rewrite next_spaces by exact Hq3. reflexivity.
  - rewrite Hpv by (destruct q3 as [|c q3]; [exact I|]; cbn in E3; injection E3 as -> _; cbn; repeat split; discriminate).
    cbn [bind]. destruct (Z.eqb_spec (token_of v) (-1)); [lia|].
    destruct q3 as [|c q3]; [rewrite next_nil; reflexivity|]. cbn [app] in E3. injection E3 as -> E3.
    rewrite json_next_at by reflexivity. cbn [bind]. change (schar 44%N =? 125)%Z with false. change (schar 44%N =? 44)%Z with true. cbv iota. cbn [negb].
    rewrite json_next_one. destruct q3 as [|c q3]; [rewrite next_nil; reflexivity|]. cbn [app] in E3. injection E3 as -> E3. rewrite json_next_sp by reflexivity.
    cbn [length] in Hf, Hn.
    assert (R := IH n q3 s ws ltac:(lia) ltac:(lia) ltac:(discriminate) Hws Hts' E3 Hs).
    destruct (skip_split q3) as [w [Hw Ew]].
    rewrite Ew, read_pairs_ws in R by exact Hw.
    unfold json_next. cbn [length skipn]. change (length q3 <? 0) with false. cbv iota.
    destruct (skip_space q3) as [|c q4] eqn:Es; cbn [bind]; [reflexivity|].
    destruct (Z.leb_spec (schar c) 0); [reflexivity|]. rewrite R. reflexivity.
Qed.

Lemma scan_prefix : forall a k b, closed k (a ++ b) = true -> scan_string k a = None.
Proof.
  induction a as [|x a IH]; intros k b H; cbn [app closed scan_string] in *; [reflexivity|].
  destruct k; [rewrite (IH _ _ H); reflexivity|]. destruct (x =? 92)%N; [rewrite (IH _ _ H); reflexivity|].
  destruct (x =? 34)%N; [discriminate|]. rewrite (IH _ _ H). reflexivity.
Qed.

Lemma digits_cut (neg : bool) l : Forall digit l -> (value_of 0 l < 2 ^ 63 - 48)%Z ->
  forall q s, q ++ s = l -> q <> [] -> exists out, read_number strtod ((if neg then [45%N] else []) ++ q) = Ok ([], out).
Proof.
  intros Hd Hv q s <- Hq. rewrite value_of_app in Hv. apply Forall_app in Hd. destruct Hd as [Hd Hds].
  assert (H0 : (value_of 0 q <= value_of (value_of 0 q) s)%Z) by (apply value_of_le; [apply (value_of_le q 0); [lia|exact Hd]|exact Hds]).
  assert (S := scan_int_digits [] I q 0 Hd ltac:(lia) ltac:(lia)). rewrite app_nil_r in S.
  unfold read_number. destruct q as [|b q]; [contradiction|]. inversion Hd as [|x y Hb _]; subst. unfold digit in Hb.
  destruct neg; cbn [app].
  - change (45 =? 45)%N with true. cbv iota. cbn [skipn]. destruct (N.eqb_spec b 46); [lia|]. rewrite S. cbn [bind]. eexists. reflexivity.
  - destruct (N.eqb_spec b 45); [lia|]. destruct (N.eqb_spec b 46); [lia|]. rewrite S. cbn [bind]. eexists. reflexivity.
Qed.

Lemma dec_cut z q s : (Z.abs z < 2 ^ 63 - 48)%Z -> q ++ s = dec z -> q <> [] ->
  read_number strtod q = Err \/ exists out, read_number strtod q = Ok ([], out).
Proof.
  intros Hz E Hq. unfold dec in E. destruct (Z.ltb_spec z 0).
  - destruct (dec_n_spec 20 (Z.to_N (- z))) as [I1 [I2 I3]]; [change (10 ^ N.of_nat 20)%N with 100000000000000000000%N; lia|lia|].
    assert (I4 : (value_of 0 (dec_n 20 (Z.to_N (- z))) < 2 ^ 63 - 48)%Z) by (rewrite I2; lia). clear I2 I3.
    remember (dec_n 20 (Z.to_N (- z))) as dn eqn:Edn. clear Edn.
    destruct q as [|b q]; [contradiction|]. cbn [app] in E. injection E as -> E.
    destruct q as [|b q]; [left; reflexivity|]. right.
    apply (digits_cut true _ I1 I4 (b :: q) s E). discriminate.
  - destruct (dec_n_spec 20 (Z.to_N z)) as [I1 [I2 I3]]; [change (10 ^ N.of_nat 20)%N with 100000000000000000000%N; lia|lia|].
    assert (I4 : (value_of 0 (dec_n 20 (Z.to_N z)) < 2 ^ 63 - 48)%Z) by (rewrite I2; lia). clear I2 I3.
    remember (dec_n 20 (Z.to_N z)) as dn eqn:Edn. clear Edn.
    right. apply (digits_cut false _ I1 I4 q s E Hq).
Qed.

Lemma starts_cut : forall w q s, q ++ s = w -> s <> [] -> starts_with w q = None.
Proof.
  induction w as [|x w IH]; intros [|y q] s E Hs; cbn [app] in E; try discriminate; [subst; contradiction|reflexivity|].
  injection E as -> E. cbn [starts_with]. rewrite N.eqb_refl. exact (IH q s E Hs).
Qed.

Definition strong (v : value) : Prop := match v with VArr _ | VMap _ => True | _ => False end.

Theorem cut_show : forall v d fuel q s, json_ok v -> q ++ s = show d v -> s <> [] -> length q < fuel ->
  cut (json_read fuel 0 q) /\ (strong v -> q <> [] -> json_read fuel 0 q = Err).
Proof.
  induction v as [|b|z|dd|st|l IH|l IH] using value_deep; intros d fuel q s Hok E Hs Hf; (destruct fuel as [|fuel]; [lia|]);
    (destruct q as [|q0 q]; [split; [right; do 2 eexists; reflexivity|intros _ H; contradiction]|]); cbn [JsonL.show] in E.
  - split; [|intros []]. left. assert (C := starts_cut txt_null (q0 :: q) s E Hs).
    unfold txt_null in E. cbn [app] in E. injection E as -> _.
    cbn [Json.json_read]. rewrite json_next_at by reflexivity. cbn [bind].
    change (schar 110 <=? 0)%Z with false. cbn - [txt_null starts_with]. rewrite C. reflexivity.
  - split; [|intros []]. left. destruct b.
    + assert (C := starts_cut txt_true (q0 :: q) s E Hs).
      unfold txt_true in E. cbn [app] in E. injection E as -> _.
      cbn [Json.json_read]. rewrite json_next_at by reflexivity. cbn [bind].
      change (schar 116 <=? 0)%Z with false. cbn - [txt_true starts_with]. rewrite C. reflexivity.
    + assert (C := starts_cut txt_false (q0 :: q) s E Hs).
      unfold txt_false in E. cbn [app] in E. injection E as -> _.
      cbn [Json.json_read]. rewrite json_next_at by reflexivity. cbn [bind].
      change (schar 102 <=? 0)%Z with false. cbn - [txt_false starts_with]. rewrite C. reflexivity.
  - split; [|intros []]. inversion Hok; subst.
    destruct (dec_head z ltac:(lia)) as [b [t [E1 [Hn [Hb _]]]]].
    assert (R := dec_cut z (q0 :: q) s ltac:(assumption) E ltac:(discriminate)).
    rewrite E1 in E. clear E1. cbn [app] in E. injection E as -> _.
    cbn [Json.json_read].
    assert (Hsp : isspace b = false).
    { unfold isspace. destruct (N.eqb_spec b 32); [lia|]. destruct (N.leb_spec 9 b); destruct (N.leb_spec b 13); try reflexivity; lia. }
    rewrite json_next_at by exact Hsp. cbn [bind]. rewrite schar_small by lia.
    destruct (Z.leb_spec (Z.of_N b) 0); [lia|].
    destruct (N.eqb_spec b 91); [lia|]. destruct (N.eqb_spec b 123); [lia|]. destruct (N.eqb_spec b 34); [lia|].
    destruct (N.eqb_spec b 110); [lia|]. destruct (N.eqb_spec b 116); [lia|]. destruct (N.eqb_spec b 102); [lia|].
    rewrite Hn. destruct R as [-> | [out ->]]; cbn [bind]; [left; reflexivity|right; do 2 eexists; reflexivity].
  - inversion Hok.
  - split; [|intros []]. left. inversion Hok; subst. cbn [app] in E. injection E as -> E.
    destruct (prefix_last q s st 34%N E Hs) as [s' Es].
    cbn [Json.json_read]. rewrite json_next_at by reflexivity. cbn [bind].
    change (schar 34%N <=? 0)%Z with false. change (34 =? 91)%N with false. change (34 =? 123)%N with false. change (34 =? 34)%N with true. cbv iota.
    rewrite (scan_prefix q false s') by (rewrite <- Es; assumption). reflexivity.
  - assert (R : json_read (S fuel) 0 (q0 :: q) = Err).
    { inversion Hok as [| | | |l' Hl Hall|]; subst. cbn [app] in E. injection E as -> E.
      cbn [Json.json_read]. rewrite json_next_at by reflexivity. cbn [bind].
      change (schar 91%N <=? 0)%Z with false. change (91 =? 91)%N with true. cbv iota. rewrite json_next_one.
      destruct q as [|c q]; [rewrite next_nil; reflexivity|].
      destruct l as [|v0 l].
      { destruct q; cbn in E; [injection E as _ ->; contradiction|discriminate]. }
      assert (Hh : isspace c = false /\ (0 < c < 128)%N /\ c <> 93%N).
      { destruct (show_head fmt_real true d v0) as [b [t [Eb [Hsp [Hb [_ [H93 _]]]]]]]; [inversion Hall; assumption|].
        cbn [map] in E. destruct (map (JsonL.show fmt_real true d) l) as [|t1 ts]; [|change (show_elems (JsonL.show fmt_real true d v0 :: t1 :: ts)) with (JsonL.show fmt_real true d v0 ++ [44; 32]%N ++ show_elems (t1 :: ts)) in E];
          cbn [show_elems] in E; rewrite Eb in E; cbn [app] in E; injection E as -> _; repeat split; (assumption || lia). }
      destruct Hh as [Hsp [Hc H93]]. rewrite json_next_at by exact Hsp. cbn [bind]. rewrite schar_small by lia.
      destruct (Z.leb_spec (Z.of_N c) 0); [lia|]. destruct (Z.eqb_spec (Z.of_N c) 93); [lia|].
      cbn [length] in Hf.
      rewrite (cut_elems fuel (map (JsonL.show fmt_real true d) (v0 :: l)) fuel (c :: q) s); try assumption; try discriminate; try (cbn [length]; lia).
      - reflexivity.
      - apply Forall_forall. intros t Ht. apply in_map_iff in Ht. destruct Ht as [v [<- Hv]].
        rewrite Forall_forall in Hall, IH. repeat split.
        + intro Hlen. exists (encode_wide v). destruct fuel as [|f]; [lia|]. apply parse_show; [apply Hall, Hv|lia].
        + apply token_pos, Hall, Hv.
        + destruct (show_head fmt_real true d v (Hall v Hv)) as [b2 [t2 [E2 [Hs2 _]]]]. exists b2, t2. split; assumption.
        + intros q' s' E' Hs' Hf'. apply (IH v Hv d fuel q' s'); auto. }
    split; [left; exact R|intros; exact R].
  - assert (R : json_read (S fuel) 0 (q0 :: q) = Err).
    { inversion Hok as [| | | | |l' Hl Hall]; subst. cbn [app] in E. injection E as -> E.
      cbn [Json.json_read]. rewrite json_next_at by reflexivity. cbn [bind].
      change (schar 123%N <=? 0)%Z with false. change (123 =? 91)%N with false. change (123 =? 123)%N with true. cbv iota. rewrite json_next_one.
      destruct q as [|c q]; [rewrite next_nil; reflexivity|]. cbn [app] in E. injection E as -> E.
      rewrite json_next_sp by reflexivity. cbn [length] in Hf.
      destruct l as [|q0 l].
      { cbn [map show_pairs app] in E. destruct (prefix_last q s (indent d) 125%N E Hs) as [s' Es].
        rewrite next_spaces by (apply (spaces_prefix q s'); rewrite <- Es; apply spaces_indent). reflexivity. }
      assert (Hne : forall c u, skip_space q = c :: u -> c = 34%N).
      { intros c0 u Hu. inversion Hall as [|x y [[ks Es] _] _]; subst x y. cbn [map show_pairs] in E. rewrite Es in E. cbn [JsonL.show] in E.
        rewrite <- !app_assoc in E. destruct (prefix_split _ _ _ _ E) as [[s' [Ei _]]|[q2 [-> E2]]].
        - assert (Hq : spaces q) by (apply (spaces_prefix q s'); rewrite <- Ei; apply spaces_indent).
          rewrite <- (app_nil_r q), skip_spaces in Hu by exact Hq. discriminate.
        - rewrite skip_spaces in Hu by apply spaces_indent. destruct q2 as [|c q2]; [discriminate|]. cbn [app] in E2. injection E2 as -> _.
          cbn in Hu. injection Hu as <- _. reflexivity. }
      assert (P : read_pairs fuel (json_read fuel) q = Err).
      { apply (cut_pairs fuel d (map (fun p => (JsonL.show fmt_real true (S d) (fst p), JsonL.show fmt_real true (S d) (snd p))) (q0 :: l)) fuel q s (indent d)); try assumption; try discriminate; try lia.
        - apply spaces_indent.
        - apply Forall_forall. intros t Ht. apply in_map_iff in Ht. destruct Ht as [v [<- Hv]]. cbn [fst snd].
          rewrite Forall_forall in Hall, IH. destruct (Hall v Hv) as [[ks Es] [Hk Hvv]]. destruct (IH v Hv) as [I1 I2]. repeat split.
          + intro Hlen. exists (encode_wide (fst v)). destruct fuel as [|f]; [lia|]. apply parse_show; [exact Hk|lia].
          + rewrite Es. reflexivity.
          + intros q' s' E' Hs' Hf'. apply (I1 (S d) fuel q' s'); auto.
          + intro Hlen. exists (encode_wide (snd v)). destruct fuel as [|f]; [lia|]. apply parse_show; [exact Hvv|lia].
          + apply token_pos, Hvv.
          + intros q' s' E' Hs' Hf'. apply (I2 (S d) fuel q' s'); auto. }
      destruct (skip_split q) as [w [Hw Ew]]. rewrite Ew, read_pairs_ws in P by exact Hw.
      unfold json_next. cbn [length skipn]. change (length q <? 0) with false. cbv iota.
      destruct (skip_space q) as [|c q4] eqn:Esk; cbn [bind]; [reflexivity|].
      destruct (Z.leb_spec (schar c) 0); [reflexivity|].
      destruct (Z.eqb_spec (schar c) 125) as [H125|]; [|rewrite P; reflexivity].
      rewrite (Hne c q4 eq_refl) in H125. discriminate. }
    split; [left; exact R|intros; exact R].
Qed.

Corollary cut_map l q s : json_ok (VMap l) -> q ++ s = show 0 (VMap l) -> s <> [] -> q <> [] -> json_parse q = Err.
Proof.
  intros Hok E Hs Hq. unfold Json.json_parse.
  destruct (cut_show (VMap l) 0 (S (length q)) q s Hok E Hs ltac:(lia)) as [_ H]. rewrite (H I Hq). reflexivity.
Qed.
End CUT.
