(* Lemmas on JSON text. *)
From Coq Require Import NArith ZArith List Bool Lia.
Import ListNotations.
From Verif Require Import Model.Base Model.Codec Model.Data Model.Json Spec.Value Spec.JsonText Proof.CodecL Proof.DataL.
Local Arguments N.mul : simpl never.
Local Arguments N.div : simpl never.
Local Arguments N.modulo : simpl never.
Local Arguments N.pow : simpl never.
Local Arguments Z.pow : simpl never.
Local Arguments N.leb : simpl never.
Local Arguments N.add : simpl never.
Local Arguments N.sub : simpl never.
Local Arguments N.eqb : simpl never.
Local Arguments Z.mul : simpl never.
Local Arguments Z.add : simpl never.
Local Arguments Z.sub : simpl never.
Local Arguments le : simpl never.
Local Arguments data_write_len32 : simpl never.
Local Arguments data_write_integer : simpl never.
Local Arguments data_write_raw : simpl never.

Section JSONL.
Variable strtod : list byte -> option (N * nat).
Variable fmt_real : N -> list byte.
Local Notation json_read := (json_read strtod).
Local Notation json_parse := (json_parse strtod).
Local Notation json_export_as := (json_export_as fmt_real).
Local Notation json_export := (json_export fmt_real).

Definition spaces (l : list byte) : Prop := Forall (fun b => isspace b = true) l.

Lemma skip_spaces ws l : spaces ws -> skip_space (ws ++ l) = skip_space l.
Proof. induction 1 as [|b t Hb _ IH]; cbn [app skip_space]; [reflexivity|]. rewrite Hb. exact IH. Qed.
Lemma json_next_ws ws l : spaces ws -> json_next 0 (ws ++ l) = json_next 0 l.
Proof. intro H. unfold json_next. cbn [skipn]. rewrite skip_spaces by exact H. reflexivity. Qed.
Lemma json_next_at b l : isspace b = false -> json_next 0 (b :: l) = Ok (schar b, b :: l).
Proof. intro H. unfold json_next. cbn. rewrite H. reflexivity. Qed.
Lemma json_next_one c l : json_next 1 (c :: l) = json_next 0 l.
Proof. unfold json_next. cbn [length skipn]. reflexivity. Qed.
Lemma json_read_ws f ws l : spaces ws -> json_read f 0 (ws ++ l) = json_read f 0 l.
Proof. intro H. destruct f; [reflexivity|]. cbn [Json.json_read]. rewrite json_next_ws by exact H. reflexivity. Qed.
Lemma json_read_one f c l : json_read f 1 (c :: l) = json_read f 0 l.
Proof. destruct f; [reflexivity|]. cbn [Json.json_read]. rewrite json_next_one. reflexivity. Qed.

Lemma json_next_sp b l : isspace b = true -> json_next 0 (b :: l) = json_next 0 l.
Proof. intro H. apply (json_next_ws [b] l). repeat constructor. exact H. Qed.
Lemma json_read_sp f b l : isspace b = true -> json_read f 0 (b :: l) = json_read f 0 l.
Proof. intro H. apply (json_read_ws f [b] l). repeat constructor. exact H. Qed.

(* the text of a value *)
Fixpoint show_elems (ts : list (list byte)) : list byte :=
  match ts with
  | [] => []
  | [t] => t
  | t :: r => t ++ [44; 32]%N ++ show_elems r
  end.
Fixpoint show_pairs (pretty : bool) (deep : nat) (ts : list (list byte * list byte)) : list byte :=
  match ts with
  | [] => []
  | (k, v) :: r =>
    (if pretty then indent (S deep) else []) ++ k ++ [58; 32]%N ++ v ++
    (match r, pretty with [], true => [10] | [], false => [] | _, true => [44; 10] | _, false => [44; 32] end)%N
    ++ show_pairs pretty deep r
  end.
Fixpoint show (pretty : bool) (deep : nat) (v : value) : list byte :=
  match v with
  | VNull => txt_null
  | VBool b => if b then txt_true else txt_false
  | VInt z => dec z
  | VReal d => fmt_real d
  | VStr s => 34%N :: s ++ [34%N]
  | VArr l => 91%N :: show_elems (map (show pretty deep) l) ++ [93%N]
  | VMap l => (if pretty then [123; 10] else [123])%N
              ++ show_pairs pretty deep (map (fun p => (show pretty (S deep) (fst p), show pretty (S deep) (snd p))) l)
              ++ (if pretty then indent deep else []) ++ [125%N]
  end.

(* export writes it *)
Lemma export_elems_app {A} (en : A -> list byte) (sh : A -> list byte) f : forall l r,
  Forall (fun a => forall r, f (en a ++ r) = Ok (sh a, r)) l ->
  export_elems (length l) f (flat_map en l ++ r) = Ok (show_elems (map sh l), r).
Proof.
  induction l as [|a l IH]; intros r H; cbn [flat_map length export_elems map app]; [reflexivity|].
  inversion H as [|x y Ha Hl]; subst. rewrite <- app_assoc, Ha. cbn [bind]. rewrite IH by exact Hl. cbn [bind].
  destruct l as [|b l]; [cbn; rewrite app_nil_r; reflexivity|]. cbn [length map show_elems]. reflexivity.
Qed.
Lemma export_pairs_app {A} p d (en1 en2 sh1 sh2 : A -> list byte) f : forall l r,
  Forall (fun a => (forall r, f (en1 a ++ r) = Ok (sh1 a, r)) /\ (forall r, f (en2 a ++ r) = Ok (sh2 a, r))) l ->
  export_pairs (length l) p d f (flat_map (fun a => en1 a ++ en2 a) l ++ r) = Ok (show_pairs p d (map (fun a => (sh1 a, sh2 a)) l), r).
Proof.
  induction l as [|a l IH]; intros r H; cbn [flat_map length export_pairs map app]; [reflexivity|].
  inversion H as [|x y [Ha Hb] Hl]; subst. rewrite <- !app_assoc, Ha. cbn [bind]. rewrite Hb. cbn [bind].
  rewrite IH by exact Hl. cbn [bind]. cbn [show_pairs]. destruct l as [|b l]; reflexivity.
Qed.

Theorem export_enc w p : forall v fuel deep r, value_ok v -> printable fmt_real v -> depth v <= fuel ->
  json_export_as fuel p deep (enc w v ++ r) = Ok (show p deep v, r).
Proof.
  induction v as [|b|z|d|s|l IH|l IH] using value_deep; intros fuel deep r Hok Hex Hf;
    (destruct fuel as [|fuel]; [cbn in Hf; lia|]).
  - rewrite enc_simple by discriminate. reflexivity.
  - rewrite enc_simple by discriminate. destruct b; reflexivity.
  - rewrite enc_simple by discriminate. inversion Hok; subst. cbn [encode show].
    assert (Hd := read_integer z r ltac:(assumption)).
    destruct (write_int_head (Z.to_N (z mod 2 ^ 64)) r) as [t [u [E Ht]]]. rewrite E in *. cbn [Json.json_export_as]. flags.
    all: rewrite Hd; reflexivity.
  - rewrite enc_simple by discriminate. inversion Hok; inversion Hex as [| | |? Hd2 Hd3| | |]; subst. cbn [encode show].
    assert (Hd := read_real d r ltac:(assumption)). apply real_kept_exact in Hd2. rewrite Hd2 in Hd.
    assert (Hr : real_text (fmt_real d) = Ok (fmt_real d)) by (unfold real_text; rewrite (proj2 (Nat.leb_le _ _) Hd3); reflexivity).
    destruct (write_real_head d r) as [t [u [E Ht]]]. rewrite E in *. cbn [Json.json_export_as]. flags.
    all: rewrite Hd; cbn [bind]; rewrite Hr; reflexivity.
  - rewrite enc_simple by discriminate. inversion Hok; subst. cbn [encode show].
    assert (Hd := read_raw s r ltac:(assumption)). unfold data_write_raw in Hd |- *. rewrite <- app_assoc in *.
    destruct (write_len_head MN_STRINGV0 (N.of_nat (length s)) (s ++ r)) as [t [u [E Ht]]]. rewrite E in *. cbn [Json.json_export_as].
    unfold MN_STRINGV0 in Ht. flags.
    rewrite Hd. reflexivity.
  - rewrite enc_arr. inversion Hok as [| | | | |l' Hl Hall E|]; inversion Hex as [| | | | |l'' Hlx|]; subst. rewrite <- app_assoc.
    assert (Hd := any_len_read w MN_ARRAYV0 (N.of_nat (length l)) (flat_map (enc w) l ++ r) Hl).
    destruct (any_len_head w MN_ARRAYV0 (N.of_nat (length l)) (flat_map (enc w) l ++ r)) as [t [u [E Ht]]]. rewrite E in *. cbn [Json.json_export_as].
    unfold MN_ARRAYV0 in Ht. flags. rewrite Hd. cbn [bind].
    replace (Z.to_nat (Z.of_N (N.of_nat (length l)))) with (length l) by lia.
    rewrite (export_elems_app (enc w) (show p deep)); [reflexivity|].
    cbn [depth] in Hf. assert (Hm := max_each depth l fuel ltac:(lia)).
    rewrite Forall_forall in *. intros x Hx r'. apply IH; auto.
  - rewrite enc_map. inversion Hok as [| | | | | |l' Hl Hall E]; inversion Hex as [| | | | | |l'' Hlx]; subst. rewrite <- app_assoc.
    set (fl := flat_map _ l).
    assert (Hd := any_len_read w MN_MAPV0 (N.of_nat (length l)) (fl ++ r) Hl).
    destruct (any_len_head w MN_MAPV0 (N.of_nat (length l)) (fl ++ r)) as [t [u [E Ht]]]. rewrite E in *. cbn [Json.json_export_as].
    unfold MN_MAPV0 in Ht. flags. rewrite Hd. cbn [bind].
    replace (Z.to_nat (Z.of_N (N.of_nat (length l)))) with (length l) by lia. subst fl.
    rewrite (export_pairs_app p deep (fun p => enc w (fst p)) (fun p => enc w (snd p)) (fun q => show p (S deep) (fst q)) (fun q => show p (S deep) (snd q))); [reflexivity|].
    cbn [depth] in Hf. assert (Hm := max_each2 (fun p => depth (fst p)) (fun p => depth (snd p)) l fuel ltac:(lia)).
    rewrite Forall_forall in *. intros x Hx. destruct (IH x Hx) as [I1 I2]. destruct (Hall x Hx). destruct (Hm x Hx). destruct (Hlx x Hx).
    split; intro r'; [apply I1|apply I2]; assumption.
Qed.

(* strings *)
Lemma scan_closed r : forall s k, closed k s = true -> scan_string k (s ++ 34%N :: r) = Some (s, r).
Proof.
  induction s as [|b s IH]; intros k H; cbn [app scan_string closed] in *.
  - destruct k; [discriminate|]. reflexivity.
  - destruct k; [rewrite IH by exact H; reflexivity|].
    destruct (N.eqb_spec b 92); [rewrite IH by exact H; reflexivity|].
    destruct (N.eqb_spec b 34); [discriminate|]. rewrite IH by exact H; reflexivity.
Qed.
Lemma scan_open r : forall s k, closed k s = false -> scan_string k (s ++ 34%N :: r) <> Some (s, r).
Proof.
  induction s as [|b s IH]; intros k H E; cbn [app scan_string closed] in *.
  - destruct k; [|discriminate]. destruct (scan_string false r) as [[? ?]|]; discriminate.
  - assert (G : forall k', closed k' s = false -> match scan_string k' (s ++ 34%N :: r) with Some (s0, r0) => Some (b :: s0, r0) | None => None end = Some (b :: s, r) -> False).
    { intros k' Hc He. destruct (scan_string k' (s ++ 34%N :: r)) as [[a c]|] eqn:Q; [|discriminate].
      injection He as -> ->. exact (IH k' Hc Q). }
    destruct k; [exact (G _ H E)|].
    destruct (N.eqb_spec b 92); [exact (G _ H E)|].
    destruct (N.eqb_spec b 34); [discriminate|exact (G _ H E)].
Qed.
Lemma plain_closed s : plain s -> closed false s = true.
Proof.
  induction 1 as [|b t [Ha Hb] _ IH]; [reflexivity|]. cbn.
  destruct (N.eqb_spec b 92); [contradiction|]. destruct (N.eqb_spec b 34); [contradiction|]. exact IH.
Qed.

(* integers *)
Definition digit (b : byte) : Prop := (48 <= b <= 57)%N.
Definition ends_number (l : list byte) : Prop :=
  match l with [] => True | b :: _ => isdigit b = false /\ b <> 46%N /\ b <> 101%N /\ b <> 69%N end.

Fixpoint value_of (v : Z) (l : list byte) : Z :=
  match l with [] => v | b :: t => value_of (v * 10 + Z.of_N b - 48)%Z t end.
Lemma value_of_app a : forall v b, value_of v (a ++ b) = value_of (value_of v a) b.
Proof. induction a as [|x a IH]; intros v b; cbn [app value_of]; [reflexivity|apply IH]. Qed.
Lemma value_of_le l : forall v, (0 <= v)%Z -> Forall digit l -> (v <= value_of v l)%Z.
Proof.
  induction l as [|b t IH]; intros v H Hd; cbn [value_of]; [lia|].
  inversion Hd as [|x y Hb Ht]; subst. unfold digit in Hb.
  specialize (IH (v * 10 + Z.of_N b - 48)%Z ltac:(lia) Ht). lia.
Qed.

Lemma scan_int_digits r : ends_number r -> forall l v, Forall digit l -> (0 <= v)%Z -> (value_of v l < 2 ^ 63 - 48)%Z ->
  scan_int v (l ++ r) = Ok (Some (value_of v l, r)).
Proof.
  intro Hr. induction l as [|b t IH]; intros v Hd Hv Hb; cbn [app value_of] in *.
  - destruct r as [|c r]; [reflexivity|]. destruct Hr as [H1 [H2 [H3 H4]]]. cbn [scan_int].
    destruct (N.eqb_spec c 46); [contradiction|]. destruct (N.eqb_spec c 101); [contradiction|]. destruct (N.eqb_spec c 69); [contradiction|].
    cbn [orb]. rewrite H1. reflexivity.
  - inversion Hd as [|x y Hx Ht]; subst. unfold digit in Hx. cbn [scan_int].
    destruct (N.eqb_spec b 46); [lia|]. destruct (N.eqb_spec b 101); [lia|]. destruct (N.eqb_spec b 69); [lia|]. cbn [orb].
    unfold isdigit. destruct (N.leb_spec 48 b); [|lia]. destruct (N.leb_spec b 57); [|lia]. cbn [andb negb].
    pose proof (value_of_le t (v * 10 + Z.of_N b - 48) ltac:(lia) Ht).
    destruct (Z.ltb_spec (2 ^ 63 - 1) (v * 10 + Z.of_N b)); [lia|].
    apply IH; [exact Ht|lia|exact Hb].
Qed.

Lemma dec_n_spec fuel : forall n, (n < 10 ^ N.of_nat fuel)%N -> fuel <> 0 ->
  Forall digit (dec_n fuel n) /\ value_of 0 (dec_n fuel n) = Z.of_N n /\ dec_n fuel n <> [].
Proof.
  induction fuel as [|fuel IH]; intros n H Hf; [contradiction|]. cbn [dec_n].
  destruct (N.ltb_spec n 10).
  - repeat split; [apply Forall_cons; [unfold digit; lia|constructor]|cbn [value_of]; lia|discriminate].
  - destruct fuel as [|f]; [change (10 ^ N.of_nat 1)%N with 10%N in H; lia|].
    assert (Hd : (n / 10 < 10 ^ N.of_nat (S f))%N).
    { apply N.div_lt_upper_bound; [lia|]. rewrite Nat2N.inj_succ, N.pow_succ_r' in H. exact H. }
    destruct (IH (n / 10)%N Hd ltac:(lia)) as [I1 [I2 I3]].
    pose proof (N.mod_lt n 10 ltac:(lia)). pose proof (N.div_mod n 10 ltac:(lia)) as E.
    repeat split.
    + apply Forall_app. split; [exact I1|]. apply Forall_cons; [unfold digit; generalize dependent (n mod 10)%N; clear; intros; lia|constructor].
    + rewrite value_of_app, I2. cbn [value_of]. lia.
    + intro E2. apply app_eq_nil in E2. destruct E2 as [_ E2]. discriminate.
Qed.

Lemma dec_head z : (Z.abs z < 2 ^ 63)%Z ->
  exists b t, dec z = b :: t /\ is_number b = true /\ (45 <= b <= 57)%N /\ Forall (fun c => digit c \/ c = 45%N) (b :: t).
Proof.
  intro H. unfold dec. destruct (Z.ltb_spec z 0).
  - exists 45%N, (dec_n 20 (Z.to_N (- z))). repeat split; try reflexivity; try lia. 
    constructor; [right; reflexivity|].
    destruct (dec_n_spec 20 (Z.to_N (- z))) as [I1 _]; [change (10 ^ N.of_nat 20)%N with 100000000000000000000%N; lia|lia|].
    eapply Forall_impl; [|exact I1]. intros; left; assumption.
  - destruct (dec_n_spec 20 (Z.to_N z)) as [I1 [_ I3]]; [change (10 ^ N.of_nat 20)%N with 100000000000000000000%N; lia|lia|].
    destruct (dec_n 20 (Z.to_N z)) as [|b t]; [contradiction|]. exists b, t.
    inversion I1 as [|x y Hb Ht]; subst. unfold digit in Hb. repeat split; try lia.
    + unfold is_number, isdigit. destruct (N.leb_spec 48 b); [|lia]. destruct (N.leb_spec b 57); [|lia]. cbn. rewrite !orb_true_r. reflexivity.
    + eapply Forall_impl; [|exact I1]. intros; left; assumption.
Qed.

Lemma read_number_dec z r : (Z.abs z < 2 ^ 63 - 48)%Z -> ends_number r ->
  read_number strtod (dec z ++ r) = Ok (r, data_write_integer (Z.to_N (z mod 2 ^ 64))).
Proof.
  intros Hz Hr. unfold dec. destruct (Z.ltb_spec z 0).
  - destruct (dec_n_spec 20 (Z.to_N (- z))) as [I1 [I2 I3]]; [change (10 ^ N.of_nat 20)%N with 100000000000000000000%N; lia|lia|].
    unfold read_number. cbn [app N.eqb skipn]. change (45 =? 45)%N with true. cbv iota.
    assert (S := scan_int_digits r Hr (dec_n 20 (Z.to_N (- z))) 0 I1 ltac:(lia) ltac:(rewrite I2; lia)).
    destruct (dec_n 20 (Z.to_N (- z))) as [|b t]; [contradiction|]. cbn [app skipn] in *.
    inversion I1 as [|x y Hb Ht]; subst. unfold digit in Hb. destruct (N.eqb_spec b 46); [lia|].
    rewrite S. cbn [bind]. rewrite I2. do 2 f_equal. f_equal. f_equal. f_equal. lia.
  - destruct (dec_n_spec 20 (Z.to_N z)) as [I1 [I2 I3]]; [change (10 ^ N.of_nat 20)%N with 100000000000000000000%N; lia|lia|].
    assert (S := scan_int_digits r Hr (dec_n 20 (Z.to_N z)) 0 I1 ltac:(lia) ltac:(rewrite I2; lia)).
    destruct (dec_n 20 (Z.to_N z)) as [|b t]; [contradiction|]. cbn [app] in *.
    inversion I1 as [|x y Hb Ht]; subst. unfold digit in Hb.
    unfold read_number. destruct (N.eqb_spec b 45); [lia|]. destruct (N.eqb_spec b 46); [lia|].
    rewrite S. cbn [bind]. rewrite I2. do 2 f_equal. f_equal. f_equal. f_equal. lia.
Qed.

(* parsing the text of a value *)
Definition token_of (t : list byte) : Z := match t with b :: _ => schar b | [] => 0%Z end.

Lemma spaces_indent n : spaces (indent n).
Proof. unfold spaces, indent. induction n; cbn; repeat constructor. exact IHn. Qed.

(* the text starts with a printable character *)
Lemma show_head p d v : json_ok v -> exists b t, show p d v = b :: t /\ isspace b = false /\ (0 < b < 128)%N /\ (b = 34%N <-> exists s, v = VStr s)
  /\ b <> 93%N /\ b <> 125%N.
Proof.
  intro H. inversion H; subst; cbn [show].
  - exists 110%N. eexists. repeat split; try lia. intros [s E]; discriminate.
  - destruct b; eexists; eexists; repeat split; try lia; intros [s E]; discriminate.
  - destruct (dec_head z ltac:(lia)) as [b [t [E [_ [Hb _]]]]]. exists b, t. repeat split; try lia; try assumption.
    + unfold isspace. destruct (N.eqb_spec b 32); [lia|]. destruct (N.leb_spec 9 b); destruct (N.leb_spec b 13); try reflexivity; lia.
    + intros [s Es]; discriminate.
  - exists 34%N. eexists. repeat split; try lia. intro. exists s. reflexivity.
  - exists 91%N. eexists. repeat split; try lia. intros [s E]; discriminate.
  - destruct p; eexists; eexists; repeat split; try lia; intros [s E]; discriminate.
Qed.

Lemma schar_small b : (b < 128)%N -> schar b = Z.of_N b.
Proof. intro H. unfold schar. destruct (N.ltb_spec b 128); [reflexivity|lia]. Qed.

Definition parses (fuel : nat) (t : list byte) (out : list byte) : Prop :=
  forall r, ends_number r -> json_read fuel 0 (t ++ r) = Ok (token_of t, r, out).

Lemma read_elems_app fuel : forall (l : list (list byte * list byte)) n (r : list byte), l <> [] -> length l <= n ->
  Forall (fun p => parses fuel (fst p) (snd p) /\ (0 < token_of (fst p))%Z /\ exists b t, fst p = b :: t /\ isspace b = false) l ->
  read_elems n (json_read fuel 0) (show_elems (map fst l) ++ 93%N :: r) = Ok (length l, r, concat (map snd l)).
Proof.
  induction l as [|[t o] l IH]; intros n r Hne Hn Hp; [contradiction|].
  destruct n as [|n]; [cbn in Hn; lia|]. cbn [read_elems].
  inversion Hp as [|x y [Ht [Htok _]] Hl]; subst. cbn [fst snd] in *.
  destruct l as [|[t2 o2] l].
  - cbn [map show_elems fst snd concat]. rewrite (Ht (93%N :: r)) by (repeat split; [discriminate|discriminate|discriminate]). cbn [bind].
    destruct (Z.leb_spec (token_of t) 0); [lia|]. rewrite json_next_at by reflexivity. cbn [bind].
    change (schar 93%N =? 93)%Z with true. cbv iota. cbn [skipn length]. rewrite app_nil_r. reflexivity.
  - change (show_elems (map fst ((t, o) :: (t2, o2) :: l))) with (t ++ [44; 32]%N ++ show_elems (map fst ((t2, o2) :: l))).
    rewrite <- !app_assoc. rewrite Ht by (cbn; repeat split; discriminate). cbn [bind].
    destruct (Z.leb_spec (token_of t) 0); [lia|]. cbn [app]. rewrite json_next_at by reflexivity. cbn [bind].
    change (schar 44%N =? 93)%Z with false. change (schar 44%N =? 44)%Z with true. cbv iota. cbn [negb].
    rewrite json_next_one. rewrite json_next_sp by reflexivity.
    inversion Hl as [|x y [_ [Htok2 [b [tl [E Hs]]]]] Hl2]; subst. cbn [fst] in E, Htok2. 
    assert (Hh : exists u, show_elems (map fst ((t2, o2) :: l)) ++ 93%N :: r = b :: u).
    { cbn [map fst]. rewrite E. destruct l as [|[t3 o3] l]; cbn; eexists; reflexivity. }
    destruct Hh as [u Hu]. 
    assert (R := IH n r ltac:(discriminate) ltac:(cbn [length] in *; lia) Hl). rewrite Hu in *.
    rewrite json_next_at by exact Hs. cbn [bind].
    rewrite E in Htok2. cbn [token_of] in Htok2.
    destruct (Z.leb_spec (schar b) 0); [lia|]. rewrite R. cbn [bind]. reflexivity.
Qed.

Definition sep (p : bool) (b : bool) : list byte :=
  (if b then (if p then [10] else []) else (if p then [44; 10] else [44; 32]))%N.

Lemma read_pairs_app fuel p d : forall (l : list ((list byte * list byte) * (list byte * list byte))) n (r ws : list byte), l <> [] -> length l <= n -> spaces ws ->
  Forall (fun q => parses fuel (fst (fst q)) (snd (fst q)) /\ token_of (fst (fst q)) = 34%Z /\ (exists b t, fst (fst q) = b :: t /\ isspace b = false)
                   /\ parses fuel (fst (snd q)) (snd (snd q)) /\ (0 < token_of (fst (snd q)))%Z) l ->
  read_pairs n (json_read fuel) (show_pairs p d (map (fun q => (fst (fst q), fst (snd q))) l) ++ ws ++ 125%N :: r)
    = Ok (length l, r, concat (map (fun q => snd (fst q) ++ snd (snd q)) l)).
Proof.
  induction l as [|[[k ko] [t o]] l IH]; intros n r ws Hne Hn Hws Hp; [contradiction|].
  destruct n as [|n]; [cbn in Hn; lia|]. cbn [read_pairs].
  inversion Hp as [|x y [Hk [Hktok [Hkh [Ht Htok]]]] Hl]; subst. cbn [fst snd] in *.
  cbn [map show_pairs fst snd].
  rewrite <- !app_assoc.
  rewrite json_read_ws by (destruct p; [apply spaces_indent|constructor]).
  rewrite Hk by (cbn; repeat split; discriminate). cbn [bind]. rewrite Hktok. cbn [Z.eqb Pos.eqb negb].
  cbn [app]. rewrite json_next_at by reflexivity. cbn [bind]. change (schar 58%N =? 58)%Z with true. cbn [negb].
  rewrite json_read_one. rewrite json_read_sp by reflexivity.
  destruct l as [|q2 l].
  - cbn [map show_pairs]. cbn [app].
    rewrite Ht.
    2:{ destruct p; [cbn; repeat split; discriminate|]. cbn [app].
        destruct Hws as [|w ws' Hw _]; cbn; [repeat split; discriminate|].
        unfold isspace in Hw. unfold isdigit. repeat split; [|intros ->; discriminate..].
        destruct (N.leb_spec 48 w); [|reflexivity]. destruct (N.leb_spec w 57); [|reflexivity].
        destruct (N.eqb_spec w 32); [lia|]. destruct (N.leb_spec w 13); [lia|]. cbn in Hw. rewrite andb_false_r in Hw. discriminate. }
    cbn [bind]. destruct (Z.eqb_spec (token_of t) (-1)); [lia|].
    assert (Hw2 : spaces ((if p then [10%N] else []) ++ ws)).
    { apply Forall_app. split; [destruct p; repeat constructor|exact Hws]. }
    assert (En : json_next 0 ((if p then [10%N] else []) ++ ws ++ 125%N :: r) = Ok (125%Z, 125%N :: r)).
    { rewrite app_assoc, json_next_ws by exact Hw2. rewrite json_next_at by reflexivity. reflexivity. }
    rewrite En. cbn [bind Z.eqb Pos.eqb skipn concat map length]. rewrite app_nil_r. reflexivity.
  - cbn [map].
    set (tl := show_pairs p d _) in *.
    assert (Es : (if p then [44; 10] else [44; 32])%N = 44%N :: [if p then 10%N else 32%N]) by (destruct p; reflexivity).
    rewrite Es. cbn [app]. rewrite Ht by (cbn; repeat split; discriminate). cbn [bind].
    destruct (Z.eqb_spec (token_of t) (-1)); [lia|]. rewrite json_next_at by reflexivity. cbn [bind].
    change (schar 44%N =? 125)%Z with false. change (schar 44%N =? 44)%Z with true. cbv iota. cbn [negb].
    rewrite json_next_one.
    rewrite json_next_sp by (destruct p; reflexivity).
    destruct q2 as [[k2 ko2] [t2 o2]]. 
    inversion Hl as [|x y [_ [Hktok2 [[b [tlb [E Hs]]] _]]] Hl2]; subst x y. cbn [fst snd] in E, Hktok2.
    assert (R := IH n r ws ltac:(discriminate) ltac:(cbn [length] in *; lia) Hws Hl). cbn [map fst snd] in R. fold tl in R.
    assert (Hh : exists u, tl ++ ws ++ 125%N :: r = (if p then indent (S d) else []) ++ b :: u).
    { unfold tl. cbn [map fst snd show_pairs]. rewrite E. rewrite <- !app_assoc. cbn [app]. eexists. reflexivity. }
    destruct Hh as [u Hu].
    assert (En : json_next 0 (tl ++ ws ++ 125%N :: r) = Ok (schar b, b :: u)).
    { rewrite Hu. rewrite json_next_ws by (destruct p; [apply spaces_indent|constructor]). apply json_next_at, Hs. }
    rewrite En. cbn [bind]. rewrite E in Hktok2. cbn [token_of] in Hktok2. rewrite Hktok2. cbn [Z.leb Z.compare].
    (* the keys are read from the same place: white space in front does not matter *)
    assert (R2 : read_pairs n (json_read fuel) (b :: u) = Ok (length ((k2, ko2, (t2, o2)) :: l), r, concat (map (fun q => snd (fst q) ++ snd (snd q)) ((k2, ko2, (t2, o2)) :: l)))).
    { etransitivity; [|exact R]. rewrite Hu. destruct n; [reflexivity|]. cbn [read_pairs].
      rewrite json_read_ws by (destruct p; [apply spaces_indent|constructor]). reflexivity. }
    rewrite R2. cbn [bind length map concat fst snd]. rewrite <- !app_assoc. reflexivity.
Qed.

Lemma token_pos p d v : json_ok v -> (0 < token_of (show p d v))%Z.
Proof.
  intro H. destruct (show_head p d v H) as [b [t [E [_ [Hb _]]]]]. rewrite E. cbn. rewrite schar_small by lia. lia.
Qed.
Lemma show_elems_len ts t : In t ts -> length t + 1 <= length (show_elems ts) + 1.
Proof.
  induction ts as [|a ts IH]; [intros []|]. intros [-> | H].
  - destruct ts; cbn [show_elems]; rewrite ?app_length; lia.
  - destruct ts as [|b ts]; [destruct H|]. specialize (IH H).
    change (show_elems (a :: b :: ts)) with (a ++ [44; 32]%N ++ show_elems (b :: ts)). rewrite !app_length. lia.
Qed.
Lemma show_elems_count ts : Forall (fun t => t <> []) ts -> length ts <= length (show_elems ts).
Proof.
  induction 1 as [|t ts Ht Hts IH]; [cbn; lia|]. destruct ts as [|b ts].
  - cbn. destruct t; [contradiction|cbn; lia].
  - change (show_elems (t :: b :: ts)) with (t ++ [44; 32]%N ++ show_elems (b :: ts)). rewrite !app_length.
    cbn [length] in *. lia.
Qed.
Lemma show_pairs_len p d ts k v : In (k, v) ts -> length k <= length (show_pairs p d ts) /\ length v <= length (show_pairs p d ts).
Proof.
  induction ts as [|[a b] ts IH]; [intros []|]. intros [E | H]; cbn [show_pairs]; rewrite !app_length.
  - injection E as -> ->. lia.
  - destruct (IH H). lia.
Qed.
Lemma show_pairs_count p d ts : length ts <= length (show_pairs p d ts).
Proof.
  induction ts as [|[a b] ts IH]; [cbn; lia|]. cbn [show_pairs length]. rewrite !app_length. cbn [length]. lia.
Qed.

Theorem parse_show p : forall v d fuel, json_ok v -> length (show p d v) <= fuel ->
  parses (S fuel) (show p d v) (encode_wide v).
Proof.
  induction v as [|b|z|dd|s|l IH|l IH] using value_deep; intros d fuel Hok Hf r Hr.
  - reflexivity.
  - destruct b; reflexivity.
  - inversion Hok; subst. cbn [show encode_wide encode].
    destruct (dec_head z ltac:(lia)) as [b [t [E [Hn [Hb _]]]]].
    assert (R := read_number_dec z r ltac:(assumption) Hr). rewrite E in *. cbn [app] in *.
    cbn [Json.json_read].
    assert (Hs : isspace b = false).
    { unfold isspace. destruct (N.eqb_spec b 32); [lia|]. destruct (N.leb_spec 9 b); destruct (N.leb_spec b 13); try reflexivity; lia. }
    rewrite json_next_at by exact Hs. cbn [bind token_of]. rewrite schar_small by lia.
    destruct (Z.leb_spec (Z.of_N b) 0); [lia|].
    destruct (N.eqb_spec b 91); [lia|]. destruct (N.eqb_spec b 123); [lia|]. destruct (N.eqb_spec b 34); [lia|].
    destruct (N.eqb_spec b 110); [lia|]. destruct (N.eqb_spec b 116); [lia|]. destruct (N.eqb_spec b 102); [lia|].
    rewrite Hn, R. reflexivity.
  - inversion Hok.
  - inversion Hok; subst. cbn [show encode_wide encode app Json.json_read]. rewrite json_next_at by reflexivity. cbn [bind].
    change (schar 34%N <=? 0)%Z with false. change (34 =? 91)%N with false. change (34 =? 123)%N with false. change (34 =? 34)%N with true. cbv iota.
    rewrite <- app_assoc. cbn [app]. rewrite scan_closed by assumption. reflexivity.
  - inversion Hok as [| | | |l' Hl Hall|]; subst. cbn [show] in *. cbn [app Json.json_read].
    rewrite json_next_at by reflexivity. cbn [bind].
    change (schar 91%N <=? 0)%Z with false. change (91 =? 91)%N with true. cbv iota. rewrite json_next_one.
    cbn [length] in Hf. rewrite app_length in Hf. cbn [length] in Hf. rewrite <- app_assoc. cbn [app].
    destruct l as [|v0 l].
    + cbn [map show_elems app]. rewrite json_next_at by reflexivity. reflexivity.
    + set (L := v0 :: l) in *.
      assert (Hh : exists b u, show_elems (map (show p d) L) ++ 93%N :: r = b :: u /\ isspace b = false /\ (0 < b < 128)%N /\ b <> 93%N).
      { unfold L. destruct (show_head p d v0) as [b [t [E [Hs [Hb [_ [H93 _]]]]]]]; [inversion Hall; assumption|].
        cbn [map]. destruct (map (show p d) l) as [|t1 ts]; [|change (show_elems (show p d v0 :: t1 :: ts)) with (show p d v0 ++ [44; 32]%N ++ show_elems (t1 :: ts))];
          cbn [show_elems]; rewrite E; cbn [app]; exists b; eexists; repeat split; (assumption || lia). }
      destruct Hh as [b [u [E [Hs [Hb Hn]]]]].
      destruct fuel as [|fuel]; [lia|].
      assert (R := read_elems_app (S fuel) (map (fun v => (show p d v, encode_wide v)) L) (S fuel) r).
      rewrite map_map, map_map, map_length in R. cbn [fst snd] in R.
      change (fun x => show p d x) with (show p d) in R.
      rewrite E in R |- *. rewrite json_next_at by exact Hs. cbn [bind]. rewrite schar_small by lia.
      destruct (Z.leb_spec (Z.of_N b) 0); [lia|]. destruct (Z.eqb_spec (Z.of_N b) 93); [lia|].
      rewrite R.
      * cbn [bind encode_wide]. rewrite flat_map_concat_map. reflexivity.
      * discriminate.
      * assert (Hc := show_elems_count (map (show p d) L)). rewrite map_length in Hc.
        assert (Hx : Forall (fun t => t <> []) (map (show p d) L)).
        { apply Forall_forall. intros t Ht. apply in_map_iff in Ht. destruct Ht as [v [<- Hv]].
          rewrite Forall_forall in Hall. destruct (show_head p d v (Hall v Hv)) as [b2 [t2 [E2 _]]]. rewrite E2. discriminate. }
        specialize (Hc Hx). lia.
      * apply Forall_forall. intros q Hq. apply in_map_iff in Hq. destruct Hq as [v [<- Hv]]. cbn [fst snd].
        rewrite Forall_forall in Hall, IH. repeat split.
        -- apply IH; auto. assert (Hi := show_elems_len (map (show p d) L) (show p d v) (in_map _ _ _ Hv)). lia.
        -- apply token_pos, Hall, Hv.
        -- destruct (show_head p d v (Hall v Hv)) as [b2 [t2 [E2 [Hs2 _]]]]. exists b2, t2. split; assumption.
  - inversion Hok as [| | | | |l' Hl Hall]; subst. cbn [show] in *.
    assert (Eh : (if p then [123; 10] else [123])%N = 123%N :: (if p then [10] else [])%N) by (destruct p; reflexivity).
    rewrite Eh in *. cbn [app Json.json_read].
    rewrite json_next_at by reflexivity. cbn [bind].
    change (schar 123%N <=? 0)%Z with false. change (123 =? 91)%N with false. change (123 =? 123)%N with true. cbv iota. rewrite json_next_one.
    cbn [app length] in Hf. rewrite !app_length in Hf. cbn [length] in Hf. rewrite <- !app_assoc. cbn [app].
    set (nl := (if p then [10] else [])%N) in *. set (ws := if p then indent d else []) in *.
    assert (Hnl : spaces nl) by (unfold nl; destruct p; repeat constructor).
    assert (Hws : spaces ws) by (unfold ws; destruct p; [apply spaces_indent|constructor]).
    rewrite json_next_ws by exact Hnl.
    destruct l as [|q0 l].
    + cbn [map show_pairs app]. rewrite json_next_ws by exact Hws. rewrite json_next_at by reflexivity. reflexivity.
    + set (L := q0 :: l) in *. set (T := map _ L) in *.
      set (ws1 := if p then indent (S d) else []) in *.
      assert (Hws1 : spaces ws1) by (unfold ws1; destruct p; [apply spaces_indent|constructor]).
      assert (Hh : exists u, show_pairs p d T ++ ws ++ 125%N :: r = ws1 ++ 34%N :: u).
      { unfold T, L. cbn [map show_pairs]. inversion Hall as [|x y [[s Es] [Hk Hv]] _]; subst x y. rewrite Es. cbn [show].
        rewrite <- !app_assoc. cbn [app]. eexists. reflexivity. }
      destruct Hh as [u E].
      destruct fuel as [|fuel]; [lia|].
      assert (R := read_pairs_app (S fuel) p d (map (fun q => ((show p (S d) (fst q), encode_wide (fst q)), (show p (S d) (snd q), encode_wide (snd q)))) L) (S fuel) r ws).
      rewrite !map_map, map_length in R. cbn [fst snd] in R. fold T in R.
      assert (En : json_next 0 (show_pairs p d T ++ ws ++ 125%N :: r) = Ok (34%Z, 34%N :: u)).
      { rewrite E, json_next_ws by exact Hws1. rewrite json_next_at by reflexivity. reflexivity. }
      rewrite En. cbn [bind Z.leb Z.compare Z.eqb Pos.eqb].
      assert (R2 : read_pairs (S fuel) (json_read (S fuel)) (34%N :: u) = read_pairs (S fuel) (json_read (S fuel)) (show_pairs p d T ++ ws ++ 125%N :: r)).
      { rewrite E. cbn [read_pairs]. rewrite json_read_ws by exact Hws1. reflexivity. }
      rewrite R2, R.
      * cbn [bind encode_wide]. rewrite flat_map_concat_map. reflexivity.
      * discriminate.
      * assert (Hc := show_pairs_count p d T). unfold T in Hc at 1. rewrite map_length in Hc. lia.
      * exact Hws.
      * apply Forall_forall. intros q Hq. apply in_map_iff in Hq. destruct Hq as [v [<- Hv]]. cbn [fst snd].
        rewrite Forall_forall in Hall, IH. destruct (Hall v Hv) as [[s Es] [Hk Hvv]]. destruct (IH v Hv) as [I1 I2].
        assert (Hi := show_pairs_len p d T (show p (S d) (fst v)) (show p (S d) (snd v))).
        assert (Hin : In (show p (S d) (fst v), show p (S d) (snd v)) T) by (unfold T; apply (in_map (fun q => (show p (S d) (fst q), show p (S d) (snd q)))), Hv).
        specialize (Hi Hin). repeat split.
        -- apply I1; [exact Hk|lia].
        -- rewrite Es. reflexivity.
        -- rewrite Es. eexists. eexists. split; reflexivity.
        -- apply I2; [exact Hvv|lia].
        -- apply token_pos, Hvv.
Qed.

Lemma json_ok_value v : json_ok v -> value_ok v /\ exact_reals v.
Proof.
  induction v as [|b|z|dd|s|l IH|l IH] using value_deep; intro H; inversion H; subst; (split; constructor); try lia; try assumption.
  - rewrite Forall_forall in *. intros x Hx. apply IH; auto.
  - rewrite Forall_forall in *. intros x Hx. apply IH; auto.
  - rewrite Forall_forall in *. intros x Hx. destruct (IH x Hx) as [I1 I2]. match goal with G : forall _, _ -> _ /\ _ /\ _ |- _ => destruct (G x Hx) as [_ [Ga Gb]] end. split; [apply I1|apply I2]; assumption.
  - rewrite Forall_forall in *. intros x Hx. destruct (IH x Hx) as [I1 I2]. match goal with G : forall _, _ -> _ /\ _ /\ _ |- _ => destruct (G x Hx) as [_ [Ga Gb]] end. split; [apply I1|apply I2]; assumption.
Qed.

Lemma json_ok_printable v : json_ok v -> printable fmt_real v.
Proof.
  induction v as [|b|z|dd|s|l IH|l IH] using value_deep; intro H; inversion H; subst; constructor.
  - rewrite Forall_forall in *. intros x Hx. apply IH; auto.
  - rewrite Forall_forall in *. intros x Hx. destruct (IH x Hx) as [I1 I2]. match goal with G : forall _, _ -> _ /\ _ /\ _ |- _ => destruct (G x Hx) as [_ [Ga Gb]] end. split; [apply I1|apply I2]; assumption.
Qed.

Lemma export_show w p v r : json_ok v -> json_export p (enc w v ++ r) = Ok (show p 0 v, r).
Proof.
  intro H. destruct (json_ok_value v H). unfold Json.json_export. apply export_enc; try assumption. { now apply json_ok_printable. }
  rewrite app_length. pose proof (depth_enc w v). lia.
Qed.
Lemma parse_show_all p d v r : json_ok v -> ends_number r -> json_parse (show p d v ++ r) = Ok (encode_wide v).
Proof.
  intros H Hr. unfold Json.json_parse. rewrite (parse_show p v d (length (show p d v ++ r)) H) by (rewrite ?app_length; (lia || exact Hr)).
  cbn [bind]. destruct (Z.eqb_spec (token_of (show p d v)) (-1)); [|reflexivity].
  pose proof (token_pos p d v H). lia.
Qed.

(* statement *)
Lemma json_round p v : json_ok v ->
  exists text, json_export p (encode v) = Ok (text, []) /\ json_parse text = Ok (encode_wide v)
               /\ decode (encode_wide v) = Ok (v, []).
Proof.
  intro H. exists (show p 0 v). destruct (json_ok_value v H). repeat split.
  - rewrite <- (app_nil_r (encode v)). exact (export_show false p v [] H).
  - rewrite <- (app_nil_r (show p 0 v)). apply parse_show_all; [exact H|exact I].
  - rewrite <- (app_nil_r (encode_wide v)). apply decode_same_wide; assumption.
Qed.

(* a string that is not closed does not come back *)
Lemma json_round_string p s : (N.of_nat (length s) < 2 ^ 31)%N -> closed false s = false ->
  exists text, json_export p (encode (VStr s)) = Ok (text, []) /\ json_parse text <> Ok (encode (VStr s)).
Proof.
  intros H Hc. exists (show p 0 (VStr s)). split.
  - rewrite <- (app_nil_r (encode _)). unfold Json.json_export. apply (export_enc false); [constructor; exact H|constructor|].
    rewrite app_nil_r. exact (Nat.le_trans _ _ _ (depth_enc false (VStr s)) (Nat.le_succ_diag_r _)).
  - cbn [show]. unfold Json.json_parse. cbn [Json.json_read]. rewrite json_next_at by reflexivity. cbn [bind].
    change (schar 34%N <=? 0)%Z with false. change (34 =? 91)%N with false. change (34 =? 123)%N with false. change (34 =? 34)%N with true. cbv iota.
    assert (Q := scan_open [] s false Hc).
    destruct (scan_string false (s ++ [34%N])) as [[s' r]|] eqn:E; cbn [bind]; [|discriminate].
    change (schar 34%N =? -1)%Z with false. cbv iota. intro H2. injection H2 as H2. apply Q. cbn [encode] in H2.
    assert (Hl : length s' + length r = length s).
    { clear - E. revert E. change (length s) with (length s). 
      assert (G : forall l k a b, scan_string k l = Some (a, b) -> length a + length b + 1 = length l).
      { induction l as [|c l IH]; intros k a b Hs; cbn [scan_string] in Hs; [discriminate|].
        assert (M : forall k', match scan_string k' l with Some (x, y) => Some (c :: x, y) | None => None end = Some (a, b) -> length a + length b + 1 = length (c :: l)).
        { intros k' Hk. destruct (scan_string k' l) as [[x y]|] eqn:F; [|discriminate]. injection Hk as <- <-. specialize (IH _ _ _ F). cbn [length]. lia. }
        destruct k; [exact (M _ Hs)|]. destruct (c =? 92)%N; [exact (M _ Hs)|]. destruct (c =? 34)%N; [|exact (M _ Hs)].
        injection Hs as <- <-. cbn [length]. lia. }
      intro E. specialize (G _ _ _ _ E). rewrite app_length in G. cbn [length] in G. lia. }
    assert (Es : s' = s).
    { assert (R1 := read_raw s [] H). rewrite app_nil_r in R1. assert (R2 := read_raw s' []). rewrite app_nil_r in R2.
      rewrite H2 in R2. rewrite R1 in R2. specialize (R2 ltac:(lia)). congruence. }
    subst s'. assert (r = []) as -> by (destruct r; [reflexivity|cbn in Hl; lia]). reflexivity.
Qed.
End JSONL.
