(* Lemmas on tokens. *)
From Coq Require Import NArith Arith List Bool Lia String Ascii.
Import ListNotations.
From Verif Require Import Model.Base Model.Json Model.Lex Spec.Units.
Local Arguments N.mul : simpl never.
Local Arguments N.modulo : simpl never.
Local Open Scope res_scope.
Local Open Scope N_scope.

Ltac cmps := repeat match goal with
  | |- context [?a <=? ?b] => destruct (N.leb_spec a b)
  | |- context [?a =? ?b] => destruct (N.eqb_spec a b)
  | |- context [?a <? ?b] => destruct (N.ltb_spec a b) end.

Lemma isdigit_spec b : isdigit b = true <-> digit b.
Proof. unfold isdigit, digit. cmps; cbn [andb]; split; try discriminate; try lia; reflexivity. Qed.
Lemma isspace_spec b : isspace b = true <-> blank b.
Proof. unfold isspace, blank. cmps; cbn [andb orb]; split; try discriminate; try lia; reflexivity. Qed.
Lemma name_char_spec b : name_char b = true <-> word_char b.
Proof.
  unfold name_char, isalpha, isdigit, word_char.
  destruct (N.eqb_spec b 95), (N.eqb_spec b 46), (N.eqb_spec b 36); cbn [orb]; try (split; [lia|reflexivity]).
  destruct (N.leb_spec 65 b), (N.leb_spec b 90); cbn [andb orb]; try (split; [lia|reflexivity]);
  destruct (N.leb_spec 97 b), (N.leb_spec b 122); cbn [andb orb]; try (split; [lia|reflexivity]);
  destruct (N.leb_spec 48 b), (N.leb_spec b 57); cbn [andb orb]; (split; [try discriminate; lia|try reflexivity; lia]).
Qed.

Lemma digit_step v b : digit b -> sub64 (w64 (w64 (w64 v * 10) + b)) 48 = w64 (v * 10 + (b - 48)).
Proof.
  unfold digit, sub64, w64, two64. intro H. change (2 ^ 64) with 18446744073709551616.
  rewrite N.mul_mod_idemp_l, N.add_mod_idemp_l by lia.
  rewrite <- N.add_sub_assoc by lia. change (18446744073709551616 - 48) with 18446744073709551568.
  rewrite N.add_mod_idemp_l by lia.
  replace (v * 10 + b + 18446744073709551568) with (v * 10 + (b - 48) + 1 * 18446744073709551616) by lia.
  apply N.mod_add. lia.
Qed.

(* what may follow the digits of an integer *)
Definition int_ends (r : list byte) : Prop :=
  match r with [] => True | b :: _ => ~ digit b /\ b <> 46 /\ b <> 101 /\ b <> 69 end.
Lemma scan_digits_spec : forall ds v r, Forall digit ds -> int_ends r ->
  scan_digits (w64 v) (ds ++ r) = Some (w64 (fold_left (fun v b => v * 10 + (b - 48)) ds v), r).
Proof.
  induction ds as [|b ds IH]; intros v r H Hr; cbn [app fold_left].
  - destruct r as [|b r]; [reflexivity|]. cbn [scan_digits]. cbn in Hr. destruct Hr as (Hd & H1 & H2 & H3).
    rewrite (proj2 (N.eqb_neq b 46)), (proj2 (N.eqb_neq b 101)), (proj2 (N.eqb_neq b 69)) by assumption. cbn [orb].
    destruct (isdigit b) eqn:E; [apply isdigit_spec in E; contradiction|reflexivity].
  - inversion H as [|x y Hb Hds]; subst. cbn [scan_digits].
    rewrite (proj2 (isdigit_spec b) Hb). unfold digit in Hb.
    rewrite (proj2 (N.eqb_neq b 46)), (proj2 (N.eqb_neq b 101)), (proj2 (N.eqb_neq b 69)) by lia. cbn [orb].
    rewrite digit_step by exact Hb. apply IH; assumption.
Qed.

Lemma skip_blank_spaces : forall sp r, Forall blank sp -> skip_blank false (sp ++ r) = skip_blank false r.
Proof.
  induction sp as [|b sp IH]; intros r H; [reflexivity|]. inversion H as [|x y Hb Hs]; subst. cbn [app skip_blank].
  rewrite (proj2 (isspace_spec b) Hb). apply IH, Hs.
Qed.
Lemma skip_blank_stop b t : ~ blank b -> b <> 35 -> skip_blank false (b :: t) = b :: t.
Proof.
  intros H1 H2. cbn [skip_blank]. destruct (isspace b) eqn:E; [apply isspace_spec in E; contradiction|].
  rewrite (proj2 (N.eqb_neq b 35)) by assumption. reflexivity.
Qed.

Lemma scan_name_spec : forall w r, Forall word_char w -> word_ends r -> scan_name (w ++ r) = (w, r).
Proof.
  induction w as [|b w IH]; intros r H Hr; cbn [app].
  - destruct r as [|b r]; [reflexivity|]. cbn [scan_name]. destruct (name_char b) eqn:E; [apply name_char_spec in E; contradiction|reflexivity].
  - inversion H as [|x y Hb Hw]; subst. cbn [scan_name]. rewrite (proj2 (name_char_spec b) Hb), IH by assumption. reflexivity.
Qed.
Lemma scan_name_sound : forall l w r, scan_name l = (w, r) -> l = w ++ r /\ Forall word_char w /\ word_ends r.
Proof.
  induction l as [|b l IH]; intros w r H; cbn [scan_name] in H.
  - injection H as <- <-. repeat split. constructor.
  - destruct (name_char b) eqn:E.
    + destruct (scan_name l) as [s q]. injection H as <- <-. destruct (IH s q eq_refl) as (-> & Hs & Hq).
      repeat split; [constructor; [apply name_char_spec, E|assumption]|assumption].
    + injection H as <- <-. repeat split; [constructor|]. cbn. intro Hw. apply name_char_spec in Hw. congruence.
Qed.

Lemma tolower_twice b : tolower (tolower b) = tolower b.
Proof.
  unfold tolower. destruct (N.leb_spec 65 b), (N.leb_spec b 90); cbn [andb]; cmps; cbn [andb]; try lia; reflexivity.
Qed.
Lemma tolower_lower b : tolower b = lower b.
Proof. reflexivity. Qed.
Lemma same_case_lower : forall k w n, same_case (map tolower w) n k = same_case w n k.
Proof.
  induction k as [|k IH]; intros w n; [reflexivity|]. destruct w as [|x w], n as [|y n]; cbn [map same_case]; try reflexivity.
  rewrite tolower_twice, IH. reflexivity.
Qed.
Lemma find_keyword_lower : forall ks w, find_keyword ks (map tolower w) = find_keyword ks w.
Proof.
  induction ks as [|[[id nm] k] ks IH]; intro w; cbn [find_keyword]; [reflexivity|].
  rewrite map_length, same_case_lower, IH. reflexivity.
Qed.
Lemma same_case_iff : forall k w n, List.length w = k -> (k <= List.length n)%nat ->
  (same_case w n k = true <-> map tolower w = map tolower (firstn k n)).
Proof.
  induction k as [|k IH]; intros w n Hw Hn.
  - destruct w; [|discriminate]. cbn. tauto.
  - destruct w as [|x w]; [discriminate|]. destruct n as [|y n]; [cbn in Hn; lia|]. cbn [firstn map same_case].
    rewrite andb_true_iff, N.eqb_eq, IH by (cbn in *; lia). split; [intros [-> ->]; reflexivity|intro E; injection E as -> ->; auto].
Qed.

(* the word of a keyword *)
Lemma find_keyword_sound : forall ks w, Forall (fun k => (snd k <= List.length (chars (snd (fst k))))%nat) ks ->
  find_keyword ks w = KNAME \/
  exists id nm k, In (id, nm, k) ks /\ find_keyword ks w = id /\ map tolower w = map tolower (firstn k (chars nm)).
Proof.
  induction ks as [|[[id nm] k] ks IH]; intros w H; cbn [find_keyword]; [left; reflexivity|].
  inversion H as [|x y Hk Hks]; subst. cbn [fst snd] in Hk.
  assert (R : find_keyword ks w = KNAME \/ (exists id0 nm0 k0, In (id0, nm0, k0) ((id, nm, k) :: ks) /\ find_keyword ks w = id0 /\
    map tolower w = map tolower (firstn k0 (chars nm0)))).
  { destruct (IH w Hks) as [E|(i & n & q & Hi & E & M)]; [left; exact E|right; exists i, n, q; repeat split; auto; right; exact Hi]. }
  destruct (Nat.eqb_spec k (List.length w)) as [E|E]; cbn [negb]; [|exact R].
  destruct (same_case w (chars nm) k) eqn:S; [|exact R].
  right. exists id, nm, k. repeat split; [left; reflexivity|]. apply same_case_iff; auto.
Qed.
Lemma keywords_sizes : forallb (fun k => (snd k <=? List.length (chars (snd (fst k))))%nat) keywords = true.
Proof. vm_compute. reflexivity. Qed.
Lemma keywords_ok : Forall (fun k => (snd k <= List.length (chars (snd (fst k))))%nat) keywords.
Proof.
  apply Forall_forall. intros k H. pose proof (proj1 (forallb_forall _ _) keywords_sizes k H) as E. apply Nat.leb_le, E.
Qed.

Lemma not_punct b : 65 <= b <= 90 \/ 97 <= b <= 122 \/ b = 95 \/ 48 <= b <= 57 ->
  negb (b =? 34) && negb (b =? 39) && negb (b =? 95) && ispunct b = false.
Proof.
  intro H. destruct (N.eqb_spec b 95) as [->|Hb]; [reflexivity|].
  apply not_true_is_false. unfold ispunct. rewrite !andb_true_iff, !orb_true_iff, !andb_true_iff, !N.leb_le. lia.
Qed.

Section L.
Variable strtod : list byte -> option (N * nat).

Lemma next_word fuel w r sp kw : Forall blank sp -> Forall word_char w -> word_ends r ->
  match w with b :: _ => isalpha b || (b =? 95) = true | [] => False end ->
  lex_next_fuel strtod (S fuel) (mk_lex (sp ++ w ++ r) kw []) =
  Ok (mk_tok (if kw then find_keyword keywords w else KNAME) (TStr w false), mk_lex r kw []).
Proof.
  intros Hs Hw Hr Ha. cbn [lex_next_fuel lx_back lx_rest lx_kw]. rewrite skip_blank_spaces by assumption.
  destruct w as [|b w]; [contradiction|]. cbn [app].
  assert (Hb : 65 <= b <= 90 \/ 97 <= b <= 122 \/ b = 95).
  { unfold isalpha in Ha. revert Ha. cmps; cbn; try discriminate; lia. }
  rewrite skip_blank_stop by (unfold blank; lia).
  assert (E1 : negb (b =? 34) && negb (b =? 39) && negb (b =? 95) && ispunct b = false) by (apply not_punct; lia).
  rewrite E1. assert (E2 : isdigit b = false) by (unfold isdigit; cmps; cbn; try reflexivity; lia). rewrite E2, Ha.
  change (b :: w ++ r) with ((b :: w) ++ r). rewrite (scan_name_spec (b :: w) r) by assumption. reflexivity.
Qed.

Lemma next_int fuel ds r kw : ds <> [] -> Forall digit ds -> int_ends r ->
  lex_next_fuel strtod (S fuel) (mk_lex (ds ++ r) kw []) =
  (do n <- lex_next_fuel strtod fuel (mk_lex r kw []) ;
   match factor (t_id (fst n)) with
   | Some k => Ok (mk_tok KINT (TInt (w64 (number ds * k))), snd n)
   | None => do l <- lex_push (snd n) (fst n) ; Ok (mk_tok KINT (TInt (w64 (number ds))), l)
   end).
Proof.
  intros H0 Hd Hr. destruct ds as [|b ds]; [contradiction|]. cbn [lex_next_fuel lx_back lx_rest lx_kw app].
  inversion Hd as [|x y Hb Hds]; subst. unfold digit in Hb.
  rewrite skip_blank_stop by (unfold blank; lia).
  assert (E1 : negb (b =? 34) && negb (b =? 39) && negb (b =? 95) && ispunct b = false) by (apply not_punct; lia).
  rewrite E1, (proj2 (isdigit_spec b) Hb). change (b :: ds ++ r) with ((b :: ds) ++ r).
  change 0 with (w64 0) at 1. rewrite (scan_digits_spec (b :: ds) 0 r) by assumption. change (fold_left _ (b :: ds) 0) with (number (b :: ds)).
  destruct (lex_next_fuel strtod fuel (mk_lex r kw [])) as [[tk l]| |]; cbn [fst snd bind]; try reflexivity.
  destruct (factor (t_id tk)) as [k|]; [|reflexivity].
  do 4 f_equal. unfold w64. apply N.mul_mod_idemp_l. discriminate.
Qed.
End L.

(* every usual unit is found under its word *)
Definition code_factor (u : string) : option N := factor (find_keyword keywords (chars u)).
Definition odd_b (u : string) : bool := existsb (String.eqb u) ["min"; "month"; "months"; "year"; "years"]%string.
Lemma pick (g : string -> option N) :
  forallb (fun u => odd_b (fst u) || match g (fst u) with Some f => f =? snd u | None => false end) units = true ->
  forall u f, In (u, f) units -> ~ odd_unit u -> g u = Some f.
Proof.
  intros A u f H Ho. pose proof (proj1 (forallb_forall _ _) A (u, f) H) as E. cbn [fst snd] in E.
  apply orb_true_iff in E. destruct E as [E|E].
  - elim Ho. apply existsb_exists in E. destruct E as (x & Hx & E). apply String.eqb_eq in E. subst. exact Hx.
  - destruct (g u) as [k|]; [|discriminate]. apply N.eqb_eq in E. subst. reflexivity.
Qed.
Lemma unit_factor : forall u f, In (u, f) units -> ~ odd_unit u -> code_factor u = Some f.
Proof. apply pick. vm_compute. reflexivity. Qed.
Definition unit_letters (u : string * N) : bool := negb (List.length (chars (fst u)) =? 0)%nat &&
  forallb (fun b => (97 <=? b) && (b <=? 122) && negb (b =? 101)) (firstn 1 (chars (fst u))) && forallb (fun b => (97 <=? b) && (b <=? 122)) (chars (fst u)).
Lemma units_letters : forallb unit_letters units = true.
Proof. vm_compute. reflexivity. Qed.

Lemma lower_letter x c : lower x = c -> 97 <= c <= 122 -> 65 <= x <= 90 \/ 97 <= x <= 122.
Proof. unfold lower. intros <-. cmps; cbn [andb]; lia. Qed.

Lemma unit_word u f w : In (u, f) units -> map lower w = chars u ->
  Forall word_char w /\ match w with b :: _ => (65 <= b <= 90 \/ 97 <= b <= 122) /\ b <> 101 /\ b <> 69 | [] => False end.
Proof.
  intros H E. pose proof (proj1 (forallb_forall _ _) units_letters (u, f) H) as L. unfold unit_letters in L. cbn [fst] in L.
  rewrite <- E in L. apply andb_true_iff in L. destruct L as [L L3]. apply andb_true_iff in L. destruct L as [L1 L2].
  assert (A : Forall (fun b => 65 <= b <= 90 \/ 97 <= b <= 122) w).
  { apply Forall_forall. intros b Hb. apply (lower_letter b (lower b)); [reflexivity|].
    pose proof (proj1 (forallb_forall _ _) L3 (lower b) (in_map lower w b Hb)) as Q.
    cbn beta in Q. apply andb_true_iff in Q. destruct Q as [Q1 Q2]. apply N.leb_le in Q1, Q2. lia. }
  split; [eapply Forall_impl; [|exact A]; intros b Hb; unfold word_char; cbn beta in Hb; lia|].
  destruct w as [|b w]; [discriminate|]. inversion A as [|x y Hb Hw]; subst. cbn [map firstn forallb] in L2.
  split; [exact Hb|]. apply andb_true_iff in L2. destruct L2 as [L2 _]. unfold lower in L2.
  split; intros ->; discriminate L2.
Qed.

Lemma unit_next strtod ds sp u f w r : ds <> [] -> Forall digit ds -> Forall blank sp ->
  In (u, f) units -> map lower w = chars u -> word_ends r ->
  lex_next strtod (lex_start (ds ++ sp ++ w ++ r)) =
  (match code_factor u with
   | Some k => Ok (mk_tok KINT (TInt (w64 (number ds * k))), mk_lex r true [])
   | None => Ok (mk_tok KINT (TInt (w64 (number ds))), mk_lex r true [mk_tok (find_keyword keywords (chars u)) (TStr w false)])
   end).
Proof.
  intros H0 Hd Hs Hu Hw Hr. destruct (unit_word u f w Hu Hw) as [W1 W2].
  unfold lex_next, lex_start. cbn [lx_rest].
  rewrite next_int; [|assumption|assumption|].
  2:{ destruct sp as [|b sp]; cbn [app].
      - destruct w as [|b w]; [contradiction|]. cbn. unfold digit. lia.
      - inversion Hs as [|x y Hb Hsp]; subst. cbn. unfold digit, blank in *. lia. }
  destruct ds as [|d ds]; [contradiction|]. cbn [List.length app].
  rewrite next_word; [|assumption|assumption|assumption|].
  2:{ destruct w as [|b w]; [contradiction|]. unfold isalpha. destruct W2 as [W2 _]. cmps; cbn; try reflexivity; lia. }
  cbn [bind fst snd t_id]. rewrite <- (find_keyword_lower keywords w). change (map tolower w) with (map lower w). rewrite Hw.
  unfold code_factor. destruct (factor (find_keyword keywords (chars u))); reflexivity.
Qed.

Lemma unit_means strtod ds sp u f w r : ds <> [] -> Forall digit ds -> Forall blank sp ->
  In (u, f) units -> ~ odd_unit u -> map lower w = chars u -> word_ends r ->
  lex_next strtod (lex_start (ds ++ sp ++ w ++ r)) = Ok (mk_tok KINT (TInt ((number ds * f) mod 2 ^ 64)), mk_lex r true []).
Proof.
  intros. rewrite (unit_next strtod ds sp u f w r) by assumption. rewrite (unit_factor u f) by assumption. reflexivity.
Qed.

(* a keyword is a word of the table or a punctuation character with the same number *)
Lemma keyword_source strtod l tk l' : lx_back l = [] -> lex_next strtod l = Ok (tk, l') -> KNAME < t_id tk ->
  (exists nm k w r, In (t_id tk, nm, k) keywords /\ skip_blank false (lx_rest l) = w ++ r /\ word_ends r /\
     map lower w = map lower (firstn k (chars nm))) \/
  (exists r, skip_blank false (lx_rest l) = t_id tk :: r /\ ispunct (t_id tk) = true).
Proof.
  intros Hb H Hk. unfold lex_next in H. cbn [lex_next_fuel] in H. rewrite Hb in H.
  destruct (skip_blank false (lx_rest l)) as [|b t] eqn:E; [injection H as <- <-; vm_compute in Hk; discriminate Hk|].
  destruct (negb (b =? 34) && negb (b =? 39) && negb (b =? 95) && ispunct b) eqn:P.
  - injection H as <- <-. right. exists t. cbn [t_id]. split; [reflexivity|]. apply andb_true_iff in P. apply P.
  - destruct (isdigit b).
    + destruct (scan_digits 0 (b :: t)) as [[v r]|].
      * destruct (lex_next_fuel strtod (List.length (lx_rest l)) (mk_lex r (lx_kw l) [])) as [[tk2 l2]| |]; cbn [bind fst snd] in H; try discriminate.
        destruct (factor (t_id tk2)).
        -- injection H as <- <-. vm_compute in Hk; discriminate Hk.
        -- destruct (lex_push l2 tk2); cbn [bind] in H; try discriminate. injection H as <- <-. vm_compute in Hk; discriminate Hk.
      * destruct (strtod (b :: t)) as [[v n]|]; [|discriminate]. injection H as <- <-. vm_compute in Hk; discriminate Hk.
    + destruct (isalpha b || (b =? 95)).
      * destruct (scan_name (b :: t)) as [w r] eqn:S.
        pose proof (find_keyword_sound keywords w keywords_ok) as F. remember (find_keyword keywords w) as fk eqn:Ef. clear Ef.
        injection H as <- <-. cbn [t_id] in *.
        destruct (lx_kw l); [|vm_compute in Hk; discriminate Hk].
        destruct F as [Q|(id & nm & k & Hin & Q & M)]; [rewrite Q in Hk; vm_compute in Hk; discriminate Hk|].
        left. exists nm, k, w, r. rewrite Q. clear Q fk Hk. destruct (scan_name_sound _ _ _ S) as (-> & _ & Hr). repeat split; auto.
      * destruct ((b =? 34) || (b =? 39)); [|discriminate].
        destruct (scan_quoted b false false t); cbn [bind] in H; try discriminate. injection H as <- <-. vm_compute in Hk; discriminate Hk.
Qed.
