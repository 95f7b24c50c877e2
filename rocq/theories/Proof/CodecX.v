(* Concrete values, texts and words for the statements on codecs. *)
From Coq Require Import NArith ZArith List Bool Lia String Ascii.
Import ListNotations.
From Verif Require Import Model.Base Model.Data Model.Json Model.Uuid Model.Lex
  Spec.Value Spec.JsonText Spec.UuidText Spec.Units Proof.DataL Proof.JsonL Proof.UuidL Proof.LexL.
Local Open Scope N_scope.

Definition sample_value : value :=
  VMap [(VStr [97; 98], VArr [VInt (-1); VInt 31; VInt 32; VInt (2 ^ 63 - 1); VNull; VBool true]);
        (VInt 7, VMap []); (VStr (repeat 120 200), VReal (4611686018427387904))].
Lemma sample_value_ok : value_ok sample_value /\ exact_reals sample_value.
Proof.
  split; unfold sample_value.
  - constructor; [reflexivity|]. repeat (apply Forall_cons || apply Forall_nil || split || constructor); cbn [fst snd]; try (vm_compute; intuition congruence); try lia.
  - repeat (apply Forall_cons || apply Forall_nil || split || constructor); cbn [fst snd]; try (intros _; vm_compute; reflexivity).
Qed.

Lemma real_exact_iff d : d < 2 ^ 64 -> (decode (encode (VReal d)) = Ok (VReal d, []) <-> (fits_float d = true -> d mod 2 ^ 29 = 0)).
Proof.
  intro H. assert (E : decode (encode (VReal d)) = Ok (kept (VReal d), [])).
  { rewrite <- (app_nil_r (encode (VReal d))). unfold decode. apply (decode_enc false); [constructor; exact H|]. cbn [depth]. lia. }
  rewrite E.
  cbn [kept]. rewrite <- real_kept_exact. split; [intro Q; injection Q as Q; exact Q|intros ->; reflexivity].
Qed.
(* 0.1 *)
Lemma real_lost : exists d, d < 2 ^ 64 /\ decode (encode (VReal d)) <> Ok (VReal d, []).
Proof.
  exists 4591870180066957722. 
  assert (B : 4591870180066957722 < 2 ^ 64) by reflexivity. split; [exact B|]. intro H. pose proof (proj1 (real_exact_iff _ B) H eq_refl) as Q.
  vm_compute in Q. discriminate Q.
Qed.

Definition sample_config : value :=
  VMap [(VStr (chars "interval"), VInt 3000000); (VStr (chars "storages"),
    VArr [VMap [(VStr (chars "path"), VStr (chars "C:\\data")); (VStr (chars "sync"), VBool true)]]); (VStr (chars "x"), VInt (-5))].
Lemma sample_config_ok : json_ok sample_config.
Proof.
  unfold sample_config. constructor; [reflexivity|]. repeat apply Forall_cons; try apply Forall_nil; cbn [fst snd].
  all: split; [eexists; reflexivity|split]; try (constructor; reflexivity).
  constructor; [reflexivity|]. apply Forall_cons; [|apply Forall_nil]. constructor; [reflexivity|].
  repeat apply Forall_cons; try apply Forall_nil; cbn [fst snd]; (split; [eexists; reflexivity|split]; constructor; reflexivity).
Qed.

Definition text_of (r : res (list byte * list byte)) : list byte := match r with Ok (t, _) => t | _ => [] end.
(* the string x, double quote, y *)
Lemma quote_lost strtod fmt : exists s, value_ok (VMap [(VStr [97], VStr s)]) /\
  exists text, json_export fmt true (encode (VMap [(VStr [97], VStr s)])) = Ok (text, []) /\ json_parse strtod text = Err.
Proof.
  exists [120; 34; 121]. split.
  - constructor; [reflexivity|]. apply Forall_cons; [|apply Forall_nil]. split; constructor; reflexivity.
  - exists (text_of (json_export fmt true (encode (VMap [(VStr [97], VStr [120; 34; 121])])))). split; vm_compute; reflexivity.
Qed.
Lemma int_lost strtod fmt : exists z, value_ok (VInt z) /\
  exists text, json_export fmt true (encode (VInt z)) = Ok (text, []) /\ json_parse strtod text = UB.
Proof.
  exists (2 ^ 63 - 1)%Z. split; [constructor; lia|].
  exists (text_of (json_export fmt true (encode (VInt (2 ^ 63 - 1))))). split; vm_compute; reflexivity.
Qed.
Lemma empty_accepted strtod : json_parse strtod [] = Ok [] /\ json_parse strtod [195; 164] = Ok [].
Proof. split; vm_compute; reflexivity. Qed.

Definition sample_uuid := mk_uuid 81985529216486895 18364758544493064720.
Lemma sample_uuid_ok : u_a sample_uuid < 2 ^ 64 /\ u_b sample_uuid < 2 ^ 64.
Proof. split; reflexivity. Qed.
Definition sample_uuid_text := chars "01234567-89AB-cdef-0000-0123456789ab".
Lemma sample_uuid_text_ok : uuid_text sample_uuid_text.
Proof.
  exists (chars "01234567"), (chars "89AB"), (chars "cdef"), (chars "0000"), (chars "0123456789ab").
  assert (G : forall k g, (List.length g = k /\ forallb (fun c => ((48 <=? c) && (c <=? 57)) || ((97 <=? c) && (c <=? 102)) || ((65 <=? c) && (c <=? 70))) g = true) -> group k g).
  { intros k g [L H]. split; [exact L|]. apply Forall_forall. intros c Hc. pose proof (proj1 (forallb_forall _ _) H c Hc) as Q. cbn beta in Q.
    unfold is_hex. rewrite !orb_true_iff, !andb_true_iff, !N.leb_le in Q. lia. }
  do 5 (split; [apply G; split; reflexivity|]). reflexivity.
Qed.
Lemma uuid_tail : exists s u, ~ uuid_text s /\ uuid_from_string s = Some u.
Proof.
  exists (chars "01234567-89ab-cdef-0000-0123456789ab, and more"), (mk_uuid 14839230664760575335 5001117278769709056).
  split; [|vm_compute; reflexivity].
  intros (g1 & g2 & g3 & g4 & g5 & [L1 _] & [L2 _] & [L3 _] & [L4 _] & [L5 _] & E).
  apply (f_equal (@List.length N)) in E. rewrite !app_length, L1, L2, L3, L4, L5 in E. vm_compute in E. discriminate E.
Qed.

Lemma min_lost strtod : exists w r, In ("min"%string, minute) units /\ map lower w = chars "min" /\ word_ends r /\
  lex_next strtod (lex_start ([53] ++ [32] ++ w ++ r)) = Ok (mk_tok KINT (TInt 5), mk_lex r true [mk_tok KNAME (TStr w false)]).
Proof. exists (chars "min"), []. repeat split; vm_compute; tauto. Qed.
Lemma month_lost strtod : exists w r, In ("month"%string, month) units /\ map lower w = chars "month" /\ word_ends r /\
  lex_next strtod (lex_start ([49] ++ [32] ++ w ++ r)) = Ok (mk_tok KINT (TInt (7 * month)), mk_lex r true []).
Proof. exists (chars "month"), []. repeat split; vm_compute; tauto. Qed.
Lemma year_lost strtod : exists w r, In ("year"%string, year) units /\ map lower w = chars "year" /\ word_ends r /\
  lex_next strtod (lex_start ([49] ++ [32] ++ w ++ r)) = Ok (mk_tok KINT (TInt (7 * year)), mk_lex r true []).
Proof. exists (chars "year"), []. repeat split; vm_compute; tauto. Qed.
(* 16777216 tib *)
Lemma product_wraps strtod : exists ds, Forall digit ds /\ number ds < 2 ^ 64 /\ In ("tib"%string, 2 ^ 40) units /\
  lex_next strtod (lex_start (ds ++ [32] ++ chars "tib" ++ [])) = Ok (mk_tok KINT (TInt 0), mk_lex [] true []).
Proof.
  exists (chars "16777216"). split; [|split; [reflexivity|split; [vm_compute; tauto|vm_compute; reflexivity]]].
  apply Forall_forall. intros b Hb. apply isdigit_spec. revert b Hb. apply (proj1 (forallb_forall _ _)). reflexivity.
Qed.
Lemma unit_sample : chars "512" <> [] /\ Forall digit (chars "512") /\ Forall blank [32; 9] /\ In ("mib"%string, 2 ^ 20) units /\
  ~ odd_unit "mib" /\ map lower (chars "MiB") = chars "mib" /\ word_ends [44; 49].
Proof.
  split; [discriminate|]. split; [apply Forall_forall; intros b Hb; apply isdigit_spec; revert b Hb; apply (proj1 (forallb_forall _ _)); reflexivity|].
  split; [repeat apply Forall_cons; try apply Forall_nil; unfold blank; lia|]. split; [vm_compute; tauto|].
  split; [unfold odd_unit; cbn; intuition discriminate|]. split; [reflexivity|]. cbn. unfold word_char. lia.
Qed.

(* the first token is that of DROP, the second that of STORAGE *)
Lemma punct_keyword strtod : exists l l1 l2, lex_next strtod (lex_start (chars "(! hot")) = Ok (mk_tok KDROP (TInt 0), l1) /\
  lex_next strtod l1 = Ok (mk_tok KSTORAGE (TInt 0), l2) /\ lex_next strtod l2 = Ok (mk_tok KNAME (TStr (chars "hot") false), l).
Proof. do 3 eexists. repeat split; vm_compute; reflexivity. Qed.
Lemma five_ints strtod : lex_next strtod (lex_start (chars "1 2 3 4 5")) = UB.
Proof. vm_compute. reflexivity. Qed.

(* reals as text *)
Lemma real_export : forall fmt p d, d < 2 ^ 64 -> (fits_float d = true -> d mod 2 ^ 29 = 0) ->
  json_export fmt p (encode (VReal d)) = match real_text (fmt d) with Ok t => Ok (t, []) | Err => Err | UB => UB end.
Proof.
  intros fmt p d H E. unfold json_export. cbn [encode].
  assert (Hd := read_real d [] H). apply real_kept_exact in E. rewrite E in Hd. rewrite app_nil_r in Hd.
  destruct (write_real_head d []) as [t [u [Q Ht]]]. rewrite app_nil_r in Q. rewrite Q in *. cbn [json_export_as]. flags.
  all: rewrite Hd; cbn [bind]; destruct (real_text (fmt d)); reflexivity.
Qed.
(* 2^100, and the digits of it *)
Definition big_real : N := 1123 * 2 ^ 52.
Definition big_text : list byte := chars "1.267650600228229401496703205376e30".
Definition big_digits : list byte := chars "1267650600228229401496703205376.000000".
Lemma big_lost : forall strtod fmt, strtod big_text = Some (big_real, List.length big_text) -> fmt big_real = big_digits ->
  json_parse strtod big_text = Ok (encode (VReal big_real)) /\ json_export fmt true (encode (VReal big_real)) = UB.
Proof.
  intros strtod fmt HS F. split.
  - unfold json_parse. 
    assert (R : json_read strtod (S (List.length big_text)) 0 big_text =
      match Json.read_real strtod false big_text with Ok (r, out) => Ok (49%Z, r, out) | Err => Err | UB => UB end) by (cbn; reflexivity).
    rewrite R. unfold Json.read_real. rewrite HS, Nat.ltb_irrefl. cbn [bind]. reflexivity.
  - rewrite real_export; [|reflexivity|intros _; reflexivity]. rewrite F. reflexivity.
Qed.
Lemma big_real_ok : big_real < 2 ^ 64 /\ (fits_float big_real = true -> big_real mod 2 ^ 29 = 0).
Proof. split; [reflexivity|intros _; reflexivity]. Qed.
