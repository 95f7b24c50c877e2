(* The tokens of a text: the lexer and the specification. *)
From Coq Require Import NArith Arith List Bool Lia String Ascii.
Import ListNotations.
From Verif Require Import Model.Base Model.Json Model.Lex Spec.Units Spec.Command Proof.LexL.
Local Arguments N.mul : simpl never.
Local Arguments N.modulo : simpl never.
Local Open Scope res_scope.
Local Open Scope N_scope.

Definition EOF : token := mk_tok KEOF TNone.

(* ---- the table of keywords ---- *)
Fixpoint lookup (tab : list (string * N)) (w : list byte) : N :=
  match tab with
  | [] => KNAME
  | (u, id) :: tab => if list_eq_dec N.eq_dec w (chars u) then id else lookup tab w
  end.
Definition entry_ok (k : N * string * nat) (u : string * N) : bool :=
  (fst (fst k) =? snd u) && (if list_eq_dec N.eq_dec (map tolower (firstn (snd k) (chars (snd (fst k))))) (chars (fst u)) then true else false)
  && (snd k =? List.length (chars (fst u)))%nat && (snd k <=? List.length (chars (snd (fst k))))%nat.
Fixpoint table_ok (ks : list (N * string * nat)) (us : list (string * N)) : bool :=
  match ks, us with
  | [], [] => true
  | k :: ks, u :: us => entry_ok k u && table_ok ks us
  | _, _ => false
  end.
Lemma keywords_words : table_ok keywords words = true.
Proof. vm_compute. reflexivity. Qed.
Lemma find_lookup : forall ks us w, table_ok ks us = true -> find_keyword ks w = lookup us (map lower w).
Proof.
  induction ks as [|[[id nm] k] ks IH]; intros [|[u i] us] w H; cbn [table_ok] in H; try discriminate; [reflexivity|].
  apply andb_true_iff in H. destruct H as [H Ht]. unfold entry_ok in H. cbn [fst snd] in H.
  rewrite !andb_true_iff in H. destruct H as [[[H1 H2] H3] H4]. apply N.eqb_eq in H1. subst i.
  destruct (list_eq_dec N.eq_dec (map tolower (firstn k (chars nm))) (chars u)) as [E|]; [|discriminate].
  apply Nat.eqb_eq in H3. apply Nat.leb_le in H4. cbn [find_keyword lookup]. rewrite <- (IH us w Ht).
  destruct (list_eq_dec N.eq_dec (map lower w) (chars u)) as [Ew|Ew].
  - assert (L : List.length w = k) by (rewrite H3, <- Ew, map_length; reflexivity).
    rewrite L, Nat.eqb_refl. cbn [negb].
    rewrite (proj2 (same_case_iff k w (chars nm) L H4)); [reflexivity|]. rewrite E. exact Ew.
  - destruct (Nat.eqb_spec k (List.length w)) as [L|L]; cbn [negb]; [|reflexivity].
    destruct (same_case w (chars nm) k) eqn:S; [|reflexivity].
    elim Ew. apply (same_case_iff k w (chars nm)) in S; auto. change lower with tolower. rewrite S. exact E.
Qed.
Lemma lookup_keyword : forall us w id,
  NoDup (map fst us) -> lookup us w = id ->
  (exists u, In (u, id) us /\ w = chars u) \/ (id = KNAME /\ forall u i, In (u, i) us -> w <> chars u).
Proof.
  induction us as [|[u i] us IH]; intros w id N H; cbn [lookup] in H.
  - right. split; [congruence|intros u i []].
  - inversion N as [|x y Nu Nr]; subst. destruct (list_eq_dec N.eq_dec w (chars u)) as [E|E].
    + left. exists u. subst. split; [left; reflexivity|reflexivity].
    + destruct (IH w _ Nr eq_refl) as [(v & Hv & Ev)|[E1 E2]].
      * left. exists v. split; [right; exact Hv|exact Ev].
      * right. split; [exact E1|]. intros v j [Ej|Hj]; [injection Ej as <- <-; exact E|apply (E2 v j Hj)].
Qed.
Lemma chars_inj u v : chars u = chars v -> u = v.
Proof.
  unfold chars. intro H.
  assert (A : forall a b, map N_of_ascii a = map N_of_ascii b -> a = b).
  { induction a as [|x a IH]; intros [|y b] E; try discriminate; [reflexivity|]. cbn in E. injection E as E1 E2.
    rewrite <- (ascii_N_embedding x), <- (ascii_N_embedding y), E1, (IH b E2). reflexivity. }
  rewrite <- (string_of_list_ascii_of_string u), <- (string_of_list_ascii_of_string v), (A _ _ H). reflexivity.
Qed.
Lemma lookup_in : forall us w u id, NoDup (map fst us) -> In (u, id) us -> w = chars u -> lookup us w = id.
Proof.
  induction us as [|[v i] us IH]; intros w u id N H E; [destruct H|]. inversion N as [|x y Nu Nr]; subst. cbn [lookup].
  destruct (list_eq_dec N.eq_dec (chars u) (chars v)) as [Ev|Ev].
  - apply chars_inj in Ev. subst v. destruct H as [H|H]; [congruence|]. elim Nu. change u with (fst (u, id)). apply in_map, H.
  - destruct H as [H|H]; [injection H as <- <-; elim Ev; reflexivity|]. apply (IH (chars u) u id Nr H eq_refl).
Qed.
Lemma lookup_out : forall us w, (forall u i, In (u, i) us -> w <> chars u) -> lookup us w = KNAME.
Proof.
  induction us as [|[v i] us IH]; intros w H; [reflexivity|]. cbn [lookup].
  destruct (list_eq_dec N.eq_dec w (chars v)) as [E|E]; [elim (H v i (or_introl eq_refl) E)|].
  apply IH. intros u j Hj. apply (H u j). right. exact Hj.
Qed.
Fixpoint nodupb (l : list string) : bool := match l with [] => true | x :: l => negb (existsb (String.eqb x) l) && nodupb l end.
Lemma nodupb_ok : forall l, nodupb l = true -> NoDup l.
Proof.
  induction l as [|x l IH]; cbn; intro H; [constructor|]. apply andb_true_iff in H. destruct H as [H1 H2].
  constructor; [|apply IH, H2]. intro Hx. apply negb_true_iff in H1.
  assert (E : existsb (String.eqb x) l = true) by (apply existsb_exists; exists x; split; [exact Hx|apply String.eqb_refl]). congruence.
Qed.
Lemma words_nodup : NoDup (map fst words).
Proof. apply nodupb_ok. vm_compute. reflexivity. Qed.
Lemma keyword_iff w id : keyword w id <-> find_keyword keywords w = id.
Proof.
  rewrite (find_lookup keywords words w keywords_words). unfold keyword. split.
  - intros [(u & H & E)|[-> H]]; [apply (lookup_in words _ u id words_nodup H E)|apply lookup_out, H].
  - intro H. apply (lookup_keyword words _ id words_nodup H).
Qed.
Lemma lookup_id : forall us w, Forall (fun u => KNAME < snd u) us -> KNAME <= lookup us w.
Proof.
  induction us as [|[u i] us IH]; intros w H; cbn [lookup]; [apply N.le_refl|].
  destruct (list_eq_dec N.eq_dec w (chars u)); [apply N.lt_le_incl, (Forall_inv H)|apply IH, (Forall_inv_tail H)].
Qed.
Lemma words_ids : Forall (fun u => KNAME < snd u) words.
Proof.
  apply Forall_forall. intros u H. apply N.ltb_lt. revert u H. apply forallb_forall. vm_compute. reflexivity.
Qed.
Lemma keyword_id w : KNAME <= find_keyword keywords w.
Proof. rewrite (find_lookup keywords words w keywords_words). apply lookup_id, words_ids. Qed.

(* ---- one token, without the look for a unit ---- *)
Section T.
Variable strtod : list byte -> option (N * nat).

Definition raw1 (kw : bool) (l : list byte) : res (option (token * list byte)) :=
  match skip_blank false l with
  | [] => Ok None
  | (b :: t) as s =>
    if negb (b =? 34) && negb (b =? 39) && negb (b =? 95) && ispunct b then Ok (Some (mk_tok b (TInt 0), t))
    else if isdigit b then
      match scan_digits 0 s with
      | Some (v, r) => Ok (Some (mk_tok KINT (TInt v), r))
      | None => match strtod s with None => Err | Some (v, n) => Ok (Some (mk_tok KREAL (TReal v), skipn n s)) end
      end
    else if isalpha b || (b =? 95) then
      let (w, r) := scan_name s in Ok (Some (mk_tok (if kw then find_keyword keywords w else KNAME) (TStr w false), r))
    else if (b =? 34) || (b =? 39) then
      do r <- scan_quoted b false false t ; Ok (Some (mk_tok KSTRING (TStr (fst (fst r)) (snd (fst r))), snd r))
    else Err
  end.

Lemma lex_raw f s kw : lex_next_fuel strtod (S f) (mk_lex s kw []) =
  match raw1 kw s with
  | Ok None => Ok (EOF, mk_lex [] kw [])
  | Ok (Some (t, r)) =>
    if t_id t =? KINT then
      do n <- lex_next_fuel strtod f (mk_lex r kw []) ;
      match factor (t_id (fst n)) with
      | Some k => Ok (mk_tok KINT (TInt (w64 (match t_val t with TInt v => v | _ => 0 end * k))), snd n)
      | None => do l <- lex_push (snd n) (fst n) ; Ok (t, l)
      end
    else Ok (t, mk_lex r kw [])
  | Err => Err
  | UB => UB
  end.
Proof.
  cbn [lex_next_fuel lx_back lx_rest lx_kw]. unfold raw1. destruct (skip_blank false s) as [|b t]; [reflexivity|].
  destruct (negb (b =? 34) && negb (b =? 39) && negb (b =? 95) && ispunct b) eqn:P.
  { cbn [t_id]. destruct (N.eqb_spec b KINT) as [E|E]; [subst b; vm_compute in P; discriminate|reflexivity]. }
  destruct (isdigit b).
  { destruct (scan_digits 0 (b :: t)) as [[v r]|]; [reflexivity|]. destruct (strtod (b :: t)) as [[v n]|]; reflexivity. }
  destruct (isalpha b || (b =? 95)).
  { destruct (scan_name (b :: t)) as [w r]. cbn [t_id]. destruct kw; [|reflexivity].
    pose proof (keyword_id w) as K. destruct (N.eqb_spec (find_keyword keywords w) KINT) as [E|E]; [|reflexivity].
    rewrite E in K. vm_compute in K. elim K. reflexivity. }
  destruct ((b =? 34) || (b =? 39)); [|reflexivity]. destruct (scan_quoted b false false t); reflexivity.
Qed.

Inductive rawl : list byte -> list token -> Prop :=
| rl_end s : raw1 true s = Ok None -> rawl s []
| rl_next s t r ts : raw1 true s = Ok (Some (t, r)) -> rawl r ts -> rawl s (t :: ts).

Lemma rawl_fun : forall s ts, rawl s ts -> forall ts', rawl s ts' -> ts = ts'.
Proof.
  induction 1 as [s E|s t r ts E H IH]; intros ts' H'; inversion H' as [s' E'|s' t' r' ts'' E' H'']; subst; rewrite E in E'; try discriminate; [reflexivity|].
  injection E' as <- <-. f_equal. apply IH, H''.
Qed.

(* ---- the relations of the specification ---- *)
Lemma skips_blank : forall s r, skips s r -> skip_blank false s = r.
Proof.
  assert (C : forall s t, Forall (fun b => b <> 10) s -> skip_blank true (s ++ 10 :: t) = skip_blank false t).
  { induction s as [|b s IH]; intros t H; [reflexivity|]. inversion H as [|x y Hb Hs]; subst. cbn [app skip_blank].
    rewrite (proj2 (N.eqb_neq b 10)) by assumption. apply IH, Hs. }
  assert (C' : forall s, Forall (fun b => b <> 10) s -> skip_blank true s = []).
  { induction s as [|b s IH]; intro H; [reflexivity|]. inversion H as [|x y Hb Hs]; subst. cbn [skip_blank].
    rewrite (proj2 (N.eqb_neq b 10)) by assumption. apply IH, Hs. }
  induction 1 as [r H|b s r H _ IH|s t r H _ IH|s H].
  - destruct r as [|b r]; [reflexivity|]. apply skip_blank_stop; apply H.
  - cbn [skip_blank]. rewrite (proj2 (isspace_spec b) H). exact IH.
  - cbn [skip_blank]. change (isspace 35) with false. change (35 =? 35) with true. cbn [negb]. rewrite C by assumption. exact IH.
  - cbn [skip_blank]. change (isspace 35) with false. change (35 =? 35) with true. cbn [negb]. apply C', H.
Qed.
Lemma blank_skips : forall n s, (List.length s <= n)%nat -> skips s (skip_blank false s) /\
  (forall c, Forall (fun b => b <> 10) c -> skips (35 :: c ++ s) (skip_blank true s)).
Proof.
  induction n as [|n IH]; intros s L.
  - destruct s; [|cbn in L; lia]. cbn [skip_blank]. split; [constructor; exact I|]. intros c Hc. rewrite app_nil_r. apply sk_last, Hc.
  - destruct s as [|b s]; [cbn [skip_blank]; split; [constructor; exact I|]; intros c Hc; rewrite app_nil_r; apply sk_last, Hc|].
    cbn in L. destruct (IH s ltac:(lia)) as [IH1 IH2]. split.
    + cbn [skip_blank]. destruct (isspace b) eqn:E; [apply sk_blank; [apply isspace_spec, E|exact IH1]|].
      destruct (N.eqb_spec b 35) as [->|Hb].
      * change (35 :: s) with (35 :: [] ++ s). apply IH2. constructor.
      * apply sk_none. split; [intro Q; apply isspace_spec in Q; congruence|exact Hb].
    + intros c Hc. cbn [skip_blank]. destruct (N.eqb_spec b 10) as [->|Hb]; cbn [negb].
      * apply sk_comment; assumption.
      * replace (35 :: c ++ b :: s) with (35 :: (c ++ [b]) ++ s) by (rewrite <- app_assoc; reflexivity). apply IH2.
        apply Forall_app. split; [exact Hc|constructor; [exact Hb|constructor]].
Qed.
Lemma skips_iff s r : skips s r <-> skip_blank false s = r.
Proof. split; [apply skips_blank|intros <-; apply (blank_skips (List.length s) s (le_n _))]. Qed.

Lemma quoted_scan q : q <> 92 -> q <> 10 -> forall s, quoted q s -> forall r e,
  scan_quoted q false e (s ++ q :: r) = Ok (s, e || existsb (N.eqb 92) s, r).
Proof.
  intros Q1 Q2. induction 1 as [|b s Hb Hn Hs _ IH|b s Hn _ IH]; intros r e.
  - cbn [app scan_quoted existsb]. rewrite N.eqb_refl, orb_false_r. reflexivity.
  - cbn [app scan_quoted existsb]. rewrite (proj2 (N.eqb_neq b q)), (proj2 (N.eqb_neq b 10)), (proj2 (N.eqb_neq b 92)) by assumption.
    rewrite (proj2 (N.eqb_neq 92 b)) by congruence. rewrite IH. cbn [bind fst snd orb]. reflexivity.
  - cbn [app scan_quoted existsb]. rewrite (proj2 (N.eqb_neq 92 q)) by congruence. change (92 =? 10) with false. change (92 =? 92) with true.
    cbn [negb]. destruct (N.eqb_spec b q) as [->|Hb].
    + rewrite IH. cbn [bind fst snd orb]. rewrite orb_true_r. reflexivity.
    + rewrite (proj2 (N.eqb_neq b 10)) by assumption. destruct (N.eqb_spec b 92) as [->|H2].
      * cbn [negb]. rewrite IH. cbn [bind fst snd orb]. rewrite orb_true_r. reflexivity.
      * rewrite IH. cbn [bind fst snd orb]. rewrite orb_true_r. reflexivity.
Qed.
Lemma scan_quoted_sound q : q <> 92 -> q <> 10 -> forall n l, (List.length l <= n)%nat -> forall e s e' r,
  (scan_quoted q false e l = Ok (s, e', r) -> l = s ++ q :: r /\ quoted q s /\ e' = e || existsb (N.eqb 92) s) /\
  (scan_quoted q true e l = Ok (s, e', r) -> l = s ++ q :: r /\ quoted q (92 :: s) /\ e' = e || existsb (N.eqb 92) s).
Proof.
  intros Q1 Q2. induction n as [|n IH]; intros l L e s e' r.
  { destruct l; [|cbn in L; lia]. split; discriminate. }
  destruct l as [|b l]; [split; discriminate|]. cbn in L.
  assert (IHf := IH l ltac:(lia)). clear IH. split.
  - cbn [scan_quoted]. destruct (N.eqb_spec b q) as [->|Hb].
    { intro H. injection H as <- <- <-. cbn. rewrite orb_false_r. repeat split. constructor. }
    destruct (N.eqb_spec b 10) as [->|Hn]; [discriminate|]. destruct (N.eqb_spec b 92) as [->|H9]; cbn [negb].
    + intro H. destruct (scan_quoted q true true l) as [[[s1 e1] r1]| |] eqn:E; cbn [bind fst snd] in H; try discriminate.
      injection H as <- <- <-. apply (IHf true s1 e1 r1) in E. destruct E as (-> & Hs & ->). cbn [app existsb N.eqb Pos.eqb].
      split; [reflexivity|]. split; [exact Hs|]. cbn. rewrite orb_true_r. reflexivity.
    + intro H. destruct (scan_quoted q false e l) as [[[s1 e1] r1]| |] eqn:E; cbn [bind fst snd] in H; try discriminate.
      injection H as <- <- <-. apply (IHf e s1 e1 r1) in E. destruct E as (-> & Hs & ->). cbn [app existsb].
      rewrite (proj2 (N.eqb_neq 92 b)) by congruence. split; [reflexivity|]. split; [constructor; assumption|reflexivity].
  - cbn [scan_quoted]. destruct (N.eqb_spec b q) as [->|Hb].
    { intro H. destruct (scan_quoted q false e l) as [[[s1 e1] r1]| |] eqn:E; cbn [bind fst snd] in H; try discriminate.
      injection H as <- <- <-. apply (IHf e s1 e1 r1) in E. destruct E as (-> & Hs & ->). cbn [app existsb].
      rewrite (proj2 (N.eqb_neq 92 q)) by congruence. split; [reflexivity|]. split; [constructor; assumption|reflexivity]. }
    destruct (N.eqb_spec b 10) as [->|Hn]; [discriminate|]. destruct (N.eqb_spec b 92) as [->|H9]; cbn [negb].
    + intro H. destruct (scan_quoted q false true l) as [[[s1 e1] r1]| |] eqn:E; cbn [bind fst snd] in H; try discriminate.
      injection H as <- <- <-. apply (IHf true s1 e1 r1) in E. destruct E as (-> & Hs & ->). cbn [app existsb N.eqb Pos.eqb].
      split; [reflexivity|]. split; [constructor; [discriminate|exact Hs]|]. cbn. rewrite orb_true_r. reflexivity.
    + intro H. destruct (scan_quoted q false e l) as [[[s1 e1] r1]| |] eqn:E; cbn [bind fst snd] in H; try discriminate.
      injection H as <- <- <-. apply (IHf e s1 e1 r1) in E. destruct E as (-> & Hs & ->). cbn [app existsb].
      rewrite (proj2 (N.eqb_neq 92 b)) by congruence. split; [reflexivity|]. split; [constructor; assumption|reflexivity].
Qed.

Lemma scan_digits_real : forall ds v b r, Forall digit ds -> b = 46 \/ b = 101 \/ b = 69 -> scan_digits v (ds ++ b :: r) = None.
Proof.
  induction ds as [|d ds IH]; intros v b r H Hb; cbn [app scan_digits].
  - destruct Hb as [->|[->| ->]]; reflexivity.
  - inversion H as [|x y Hd Hs]; subst. rewrite (proj2 (isdigit_spec d) Hd). unfold digit in Hd.
    rewrite (proj2 (N.eqb_neq d 46)), (proj2 (N.eqb_neq d 101)), (proj2 (N.eqb_neq d 69)) by lia. cbn [orb]. apply IH; assumption.
Qed.
Lemma digits_split : forall l, exists ds r, l = ds ++ r /\ Forall digit ds /\ match r with [] => True | b :: _ => ~ digit b end.
Proof.
  induction l as [|b l (ds & r & -> & Hd & Hr)].
  - exists [], []. repeat split. constructor.
  - destruct (isdigit b) eqn:E.
    + exists (b :: ds), r. repeat split; [constructor; [apply isdigit_spec, E|exact Hd]|exact Hr].
    + exists [], (b :: ds ++ r). repeat split; [constructor|]. intro Q. apply isdigit_spec in Q. congruence.
Qed.
Lemma punct_symbol b : negb (b =? 34) && negb (b =? 39) && negb (b =? 95) && ispunct b = true <-> symbol b /\ b <> 34 /\ b <> 39.
Proof.
  unfold symbol, word_char, ispunct. rewrite !andb_true_iff, !negb_true_iff, !N.eqb_neq, !orb_true_iff, !andb_true_iff, !N.leb_le. lia.
Qed.
Lemma symbol_not_blank b : symbol b -> ~ blank b.
Proof. unfold symbol, blank, word_char. lia. Qed.

Lemma token_raw s s' t r : skips s s' -> token_at strtod s' t r -> raw1 true s = Ok (Some (t, r)).
Proof.
  intros S H. unfold raw1. rewrite (skips_blank _ _ S). clear s S.
  destruct H as [b r Hs H1 H2 H3|b w r id Hb Hw Hr K|ds r H0 Hd Hr|ds b r v n H0 Hd Hb E|q s r e Hq Hs He].
  - rewrite (proj2 (punct_symbol b)) by auto. reflexivity.
  - assert (Hb' : 65 <= b <= 90 \/ 97 <= b <= 122 \/ b = 95) by (unfold letter in Hb; lia).
    assert (E1 : negb (b =? 34) && negb (b =? 39) && negb (b =? 95) && ispunct b = false) by (apply not_punct; lia).
    assert (E2 : isdigit b = false) by (unfold isdigit; cmps; cbn; try reflexivity; lia).
    assert (E3 : isalpha b || (b =? 95) = true) by (unfold isalpha; cmps; cbn; try reflexivity; lia).
    cbn [app]. rewrite E1, E2, E3. change (b :: w ++ r) with ((b :: w) ++ r).
    rewrite (scan_name_spec (b :: w) r) by (first [exact Hr|constructor; [unfold word_char; lia|assumption]]).
    apply keyword_iff in K. rewrite K. reflexivity.
  - destruct ds as [|d ds]; [contradiction|]. inversion Hd as [|x y Hd1 Hds]; subst. cbn [app].
    assert (E1 : negb (d =? 34) && negb (d =? 39) && negb (d =? 95) && ispunct d = false) by (apply not_punct; unfold digit in Hd1; lia).
    rewrite E1, (proj2 (isdigit_spec d) Hd1). change (d :: ds ++ r) with ((d :: ds) ++ r). change 0 with (w64 0) at 1.
    rewrite (scan_digits_spec (d :: ds) 0 r Hd Hr). reflexivity.
  - destruct ds as [|d ds]; [contradiction|]. inversion Hd as [|x y Hd1 Hds]; subst. cbn [app] in E |- *.
    assert (E1 : negb (d =? 34) && negb (d =? 39) && negb (d =? 95) && ispunct d = false) by (apply not_punct; unfold digit in Hd1; lia).
    rewrite E1, (proj2 (isdigit_spec d) Hd1). change (d :: ds ++ b :: r) with ((d :: ds) ++ b :: r) in *.
    rewrite (scan_digits_real (d :: ds) 0 b r Hd Hb), E. reflexivity.
  - assert (E1 : negb (q =? 34) && negb (q =? 39) && negb (q =? 95) && ispunct q = false) by (destruct Hq as [->| ->]; reflexivity).
    assert (E2 : isdigit q = false /\ isalpha q || (q =? 95) = false /\ (q =? 34) || (q =? 39) = true) by (destruct Hq as [->| ->]; repeat split).
    destruct E2 as (E2 & E3 & E4). rewrite E1, E2, E3, E4.
    rewrite (quoted_scan q) by (auto; destruct Hq as [->| ->]; discriminate). cbn [bind fst snd orb]. rewrite He. reflexivity.
Qed.
Lemma raw_token s t r : raw1 true s = Ok (Some (t, r)) -> exists s', skips s s' /\ token_at strtod s' t r.
Proof.
  unfold raw1. intro H. exists (skip_blank false s). split; [apply skips_iff; reflexivity|].
  destruct (skip_blank false s) as [|b l] eqn:S; [discriminate|].
  assert (N1 : ~ blank b /\ b <> 35).
  { apply skips_iff in S. clear H. remember (b :: l) as z eqn:E. induction S as [z Hz|x z' z Hx S IH|x z' z Hx S IH|x Hx]; auto; subst; [exact Hz|discriminate]. }
  destruct (negb (b =? 34) && negb (b =? 39) && negb (b =? 95) && ispunct b) eqn:P.
  { injection H as <- <-. apply punct_symbol in P. destruct P as (P1 & P2 & P3). constructor; auto. apply N1. }
  destruct (isdigit b) eqn:D.
  { destruct (digits_split (b :: l)) as (ds & q & E & Hd & Hq). rewrite E in *.
    assert (H0 : ds <> []).
    { intros ->. cbn in E. subst q. apply isdigit_spec in D. contradiction. }
    assert (Dec : match q with [] => True | c :: _ => ~ digit c /\ c <> 46 /\ c <> 101 /\ c <> 69 end \/
                  exists c q', q = c :: q' /\ (c = 46 \/ c = 101 \/ c = 69)).
    { destruct q as [|c q]; [left; exact I|]. destruct (N.eq_dec c 46), (N.eq_dec c 101), (N.eq_dec c 69);
        try (right; exists c, q; split; [reflexivity|tauto]). left. auto. }
    destruct Dec as [He|(c & q' & -> & He)].
    - change 0 with (w64 0) in H. rewrite (scan_digits_spec ds 0 q Hd He) in H. injection H as <- <-. apply ta_int; assumption.
    - rewrite (scan_digits_real ds 0 c q' Hd He) in H. destruct (strtod (ds ++ c :: q')) as [[v n]|] eqn:F; [|discriminate].
      injection H as <- <-. apply ta_real; assumption. }
  destruct (isalpha b || (b =? 95)) eqn:A.
  { destruct (scan_name (b :: l)) as [w q] eqn:W. remember (find_keyword keywords w) as k eqn:K. injection H as <- <-.
    destruct (scan_name_sound _ _ _ W) as (E & Hw & Hq).
    assert (Hb : letter b \/ b = 95).
    { unfold isalpha in A. unfold letter. apply orb_true_iff in A. rewrite orb_true_iff, !andb_true_iff, !N.leb_le, N.eqb_eq in A. lia. }
    destruct w as [|b' w].
    { cbn in E. subst q. cbn in Hq. elim Hq. unfold letter in Hb. unfold word_char. lia. }
    cbn in E. injection E as <- ->. inversion Hw as [|x y Hb' Hw']; subst x y. apply ta_word; auto. apply keyword_iff. symmetry. exact K. }
  destruct ((b =? 34) || (b =? 39)) eqn:Q; [|discriminate].
  destruct (scan_quoted b false false l) as [[[s1 e1] r1]| |] eqn:E; cbn [bind fst snd] in H; try discriminate. injection H as <- <-.
  apply orb_true_iff in Q. rewrite !N.eqb_eq in Q.
  assert (B1 : b <> 92 /\ b <> 10) by (destruct Q as [->| ->]; split; discriminate). destruct B1 as [B1 B2].
  apply (scan_quoted_sound b B1 B2 _ l (le_n _) false s1 e1 r1) in E. destruct E as (-> & Hs & ->). apply ta_string; auto.
Qed.
Lemma raw_end s : raw1 true s = Ok None <-> skips s [].
Proof.
  rewrite skips_iff. unfold raw1. destruct (skip_blank false s) as [|b l]; [split; auto|]. split; [|discriminate]. intro H. exfalso.
  destruct (negb (b =? 34) && negb (b =? 39) && negb (b =? 95) && ispunct b); [discriminate|].
  destruct (isdigit b).
  { destruct (scan_digits 0 (b :: l)) as [[v r]|]; [discriminate|]. destruct (strtod (b :: l)) as [[v n]|]; discriminate. }
  destruct (isalpha b || (b =? 95)); [destruct (scan_name (b :: l)); discriminate|].
  destruct ((b =? 34) || (b =? 39)); [|discriminate]. destruct (scan_quoted b false false l); discriminate.
Qed.

Lemma tokens_rawl s ts : tokens strtod s ts <-> rawl s ts.
Proof.
  split.
  - induction 1 as [s H|s s' t r ts H1 H2 _ IH]; [apply rl_end, raw_end, H|].
    eapply rl_next; [apply (token_raw s s' t r H1 H2)|exact IH].
  - induction 1 as [s H|s t r ts H _ IH]; [apply tk_end, raw_end, H|].
    destruct (raw_token s t r H) as (s' & H1 & H2). eapply tk_next; eauto.
Qed.

(* ---- facts about the tokens of a text ---- *)
(* the members of a token that are there *)
Definition fit (t : token) : Prop :=
  (t_id t = KINT /\ exists n, t_val t = TInt n) \/ (t_id t = KREAL /\ exists n, t_val t = TReal n) \/
  (t_id t = KSTRING /\ exists s e, t_val t = TStr s e) \/ (KNAME <= t_id t /\ exists s, t_val t = TStr s false) \/
  (symbol (t_id t) /\ t_val t = TInt 0).
Lemma raw_fit s t r : raw1 true s = Ok (Some (t, r)) -> fit t.
Proof.
  intro H. destruct (raw_token s t r H) as (s' & _ & A). unfold fit.
  destruct A as [b r Hs H1 H2 H3|b w r id Hb Hw Hr K|ds r H0 Hd Hr|ds b r v n H0 Hd Hb E|q x r e Hq Hs He]; cbn [t_id t_val].
  - right; right; right; right. auto.
  - right; right; right; left. split; [|eauto]. apply keyword_iff in K. subst. apply keyword_id.
  - left. eauto.
  - right; left. eauto.
  - right; right; left. eauto.
Qed.
Lemma rawl_fit s ts : rawl s ts -> Forall fit ts.
Proof. induction 1 as [|s t r ts H _ IH]; constructor; [apply (raw_fit _ _ _ H)|exact IH]. Qed.
Lemma fit_not_eof t : fit t -> t_id t <> KEOF.
Proof. intros [[-> _]|[[-> _]|[[-> _]|[[H _]|[H _]]]]]; try discriminate; intro E; rewrite E in H; [vm_compute in H; elim H; reflexivity|unfold symbol, KEOF in H; lia]. Qed.

Lemma skip_blank_le : forall l c, (List.length (skip_blank c l) <= List.length l)%nat.
Proof.
  induction l as [|b l IH]; intro c; cbn [skip_blank]; [lia|]. destruct c; [cbn; specialize (IH (negb (b =? 10))); lia|].
  destruct (isspace b); [cbn; specialize (IH false); lia|]. destruct (b =? 35); [cbn; specialize (IH true); lia|lia].
Qed.
Lemma skip_blank_idem s : skip_blank false (skip_blank false s) = skip_blank false s.
Proof.
  pose proof (proj1 (blank_skips (List.length s) s (le_n _))) as H. remember (skip_blank false s) as z eqn:E. clear E.
  induction H as [z Hz|x z' z Hx S IH|x z' z Hx S IH|x Hx]; auto.
  destruct z as [|b z]; [reflexivity|]. apply skip_blank_stop; apply Hz.
Qed.
Lemma rawl_skip s ts : rawl (skip_blank false s) ts -> rawl s ts.
Proof.
  intro H. inversion H as [z E|z t r l E Hr]; subst; [apply rl_end|eapply rl_next; [|exact Hr]]; unfold raw1 in *; rewrite skip_blank_idem in E; exact E.
Qed.
(* a token takes a character or more *)
Lemma token_takes s t r : token_at strtod s t r -> (List.length r < List.length s)%nat \/ (r = s).
Proof.
  destruct 1 as [b r Hs H1 H2 H3|b w r id Hb Hw Hr K|ds r H0 Hd Hr|ds b r v n H0 Hd Hb E|q x r e Hq Hs He];
    try (left; cbn; rewrite ?app_length; cbn; lia).
  - left. destruct ds; [contradiction|]. cbn. rewrite app_length. lia.
  - destruct n as [|n]; [right; reflexivity|]. left. rewrite skipn_length. destruct ds; [contradiction|]. cbn. lia.
Qed.
Lemma rawl_length : forall s ts, rawl s ts -> (List.length ts <= List.length s)%nat.
Proof.
  induction 1 as [s H|s t r ts H Hr IH]; cbn [List.length]; [lia|].
  destruct (raw_token s t r H) as (s' & S & A). apply skips_iff in S. pose proof (skip_blank_le s false) as L.
  destruct (token_takes _ _ _ A) as [Q| ->]; [rewrite S in L; lia|].
  exfalso. assert (R : rawl s ts) by (apply rawl_skip; rewrite S; exact Hr).
  pose proof (rawl_fun s ts R (t :: ts) (rl_next s t s' ts H Hr)) as E.
  assert (X : List.length ts = List.length (t :: ts)) by (rewrite <- E; reflexivity). cbn in X. lia.
Qed.
(* the text after an integer is shorter *)
Lemma int_shorter kw s t r : raw1 kw s = Ok (Some (t, r)) -> t_id t = KINT -> (List.length r < List.length s)%nat.
Proof.
  unfold raw1. pose proof (skip_blank_le s false) as L. destruct (skip_blank false s) as [|b l]; [discriminate|].
  destruct (negb (b =? 34) && negb (b =? 39) && negb (b =? 95) && ispunct b).
  { intro H. injection H as <- <-. intros _. cbn in L. lia. }
  destruct (isdigit b) eqn:D.
  { destruct (digits_split (b :: l)) as (ds & q & E & Hd & Hq).
    assert (H0 : ds <> []) by (intros ->; cbn in E; subst q; apply isdigit_spec in D; contradiction).
    destruct (scan_digits 0 (b :: l)) as [[v r1]|] eqn:F.
    - intro H. injection H as <- <-. intros _. rewrite E in F, L.
      assert (R : r1 = q).
      { destruct q as [|c q].
        - change 0 with (w64 0) in F. rewrite (scan_digits_spec ds 0 [] Hd I) in F. injection F as _ <-. reflexivity.
        - destruct (N.eq_dec c 46), (N.eq_dec c 101), (N.eq_dec c 69);
            try (rewrite (scan_digits_real ds 0 c q Hd) in F by tauto; discriminate).
          change 0 with (w64 0) in F. rewrite (scan_digits_spec ds 0 (c :: q) Hd) in F by (cbn; auto). injection F as _ <-. reflexivity. }
      subst r1. rewrite app_length in L. destruct ds; [contradiction|]. cbn in L. lia.
    - destruct (strtod (b :: l)) as [[v n]|]; [|discriminate]. intro H. injection H as <- <-. discriminate. }
  destruct (isalpha b || (b =? 95)).
  { destruct (scan_name (b :: l)) as [w q]. intro H. pose proof (keyword_id w) as K. remember (find_keyword keywords w) as id eqn:Eid. clear Eid.
    injection H as <- <-. cbn [t_id].
    destruct kw; [|discriminate]. intro E. rewrite E in K. vm_compute in K. elim K. reflexivity. }
  destruct ((b =? 34) || (b =? 39)); [|discriminate]. destruct (scan_quoted b false false l); cbn [bind]; try discriminate.
  intro H. injection H as <- <-. discriminate.
Qed.
End T.
