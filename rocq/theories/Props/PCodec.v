(* C47-C50, C67: values, JSON text, uuids, words of commands. *)
From Coq Require Import NArith ZArith List Bool String.
Import ListNotations.
From Verif Require Import Model.Base Model.Data Model.Json Model.Uuid Model.Lex
  Spec.Value Spec.JsonText Spec.UuidText Spec.Units
  Proof.DataL Proof.JsonL Proof.UuidL Proof.LexL Proof.CodecX.
Local Open Scope N_scope.

(* C47: values *)
Theorem C47_decode : forall v rest, value_ok v -> exact_reals v -> decode (encode v ++ rest) = Ok (v, rest).
Proof. exact decode_same. Qed.
Print Assumptions C47_decode.
Theorem C47_decode_wide : forall v rest, value_ok v -> exact_reals v -> decode (encode_wide v ++ rest) = Ok (v, rest).
Proof. exact decode_same_wide. Qed.
Print Assumptions C47_decode_wide.
Theorem C47_skip : forall v rest, value_ok v -> data_skip (encode v ++ rest) = Ok rest.
Proof. exact skip_same. Qed.
Print Assumptions C47_skip.
Theorem C47_skip_wide : forall v rest, value_ok v -> data_skip (encode_wide v ++ rest) = Ok rest.
Proof. exact skip_same_wide. Qed.
Print Assumptions C47_skip_wide.
Example C47_example : value_ok sample_value /\ exact_reals sample_value.
Proof. exact sample_value_ok. Qed.
Theorem C47_reserved_integer : forall v, N.of_nat (List.length (data_write_integer v)) = data_size_of v.
Proof. exact write_integer_size. Qed.
Print Assumptions C47_reserved_integer.
Theorem C47_reserved_string : forall s, N.of_nat (List.length s) < 2 ^ 31 ->
  N.of_nat (List.length (data_write_raw s)) = data_size_of (N.of_nat (List.length s)) + N.of_nat (List.length s).
Proof. exact write_raw_size. Qed.
Print Assumptions C47_reserved_string.
Theorem C47_reserved_real : forall d, N.of_nat (List.length (data_write_real d)) = data_size_real d.
Proof. exact write_real_size. Qed.
Print Assumptions C47_reserved_real.
Theorem C47_real : forall d, d < 2 ^ 64 ->
  (decode (encode (VReal d)) = Ok (VReal d, []) <-> (fits_float d = true -> d mod 2 ^ 29 = 0)).
Proof. exact real_exact_iff. Qed.
Print Assumptions C47_real.
Theorem C47_real_refuted : exists d, d < 2 ^ 64 /\ decode (encode (VReal d)) <> Ok (VReal d, []).
Proof. exact real_lost. Qed.
Print Assumptions C47_real_refuted.

(* C48: JSON *)
Theorem C48_round : forall strtod fmt_real pretty v, json_ok v ->
  exists text, json_export fmt_real pretty (encode v) = Ok (text, []) /\
    json_parse strtod text = Ok (encode_wide v) /\ decode (encode_wide v) = Ok (v, []).
Proof. exact json_round. Qed.
Print Assumptions C48_round.
Example C48_example : json_ok sample_config.
Proof. exact sample_config_ok. Qed.
Theorem C48_string : forall strtod fmt_real pretty s, N.of_nat (List.length s) < 2 ^ 31 -> closed false s = false ->
  exists text, json_export fmt_real pretty (encode (VStr s)) = Ok (text, []) /\ json_parse strtod text <> Ok (encode (VStr s)).
Proof. exact json_round_string. Qed.
Print Assumptions C48_string.
Theorem C48_quote_refuted : forall strtod fmt_real, exists s, value_ok (VMap [(VStr [97], VStr s)]) /\
  exists text, json_export fmt_real true (encode (VMap [(VStr [97], VStr s)])) = Ok (text, []) /\ json_parse strtod text = Err.
Proof. exact quote_lost. Qed.
Print Assumptions C48_quote_refuted.
Theorem C48_integer_refuted : forall strtod fmt_real, exists z, value_ok (VInt z) /\
  exists text, json_export fmt_real true (encode (VInt z)) = Ok (text, []) /\ json_parse strtod text = UB.
Proof. exact int_lost. Qed.
Print Assumptions C48_integer_refuted.
Theorem C48_real : forall fmt_real pretty d, d < 2 ^ 64 -> (fits_float d = true -> d mod 2 ^ 29 = 0) ->
  json_export fmt_real pretty (encode (VReal d)) = match real_text (fmt_real d) with Ok t => Ok (t, []) | Err => Err | UB => UB end.
Proof. exact real_export. Qed.
Print Assumptions C48_real.
Example C48_real_example : big_real < 2 ^ 64 /\ (fits_float big_real = true -> big_real mod 2 ^ 29 = 0).
Proof. exact big_real_ok. Qed.
Theorem C48_real_refuted : forall strtod fmt_real, strtod big_text = Some (big_real, List.length big_text) -> fmt_real big_real = big_digits ->
  json_parse strtod big_text = Ok (encode (VReal big_real)) /\ json_export fmt_real true (encode (VReal big_real)) = UB.
Proof. exact big_lost. Qed.
Print Assumptions C48_real_refuted.
Theorem C48_empty : forall strtod, json_parse strtod [] = Ok [] /\ json_parse strtod [195; 164] = Ok [].
Proof. exact empty_accepted. Qed.
Print Assumptions C48_empty.

(* C49: uuids *)
Theorem C49_round : forall u rest, u_a u < 2 ^ 64 -> u_b u < 2 ^ 64 ->
  uuid_text (uuid_to_string u) /\ List.length (uuid_to_string u) = 36%nat /\
  uuid_from_string (uuid_to_string u ++ rest) = Some u.
Proof. exact (fun u r Ha Hb => conj (proj1 (to_string_text u)) (conj (proj2 (to_string_text u)) (uuid_round u r Ha Hb))). Qed.
Print Assumptions C49_round.
Example C49_example : u_a sample_uuid < 2 ^ 64 /\ u_b sample_uuid < 2 ^ 64.
Proof. exact sample_uuid_ok. Qed.
Theorem C49_accepts : forall s, (exists u, uuid_from_string s = Some u) <-> exists h t, s = h ++ t /\ uuid_text h.
Proof. exact accepts_iff. Qed.
Print Assumptions C49_accepts.
Example C49_accepts_example : uuid_text sample_uuid_text.
Proof. exact sample_uuid_text_ok. Qed.
Theorem C49_exact_refuted : exists s u, ~ uuid_text s /\ uuid_from_string s = Some u.
Proof. exact uuid_tail. Qed.
Print Assumptions C49_exact_refuted.

(* C50: units *)
Theorem C50_units : forall strtod ds sp u f w rest, ds <> [] -> Forall digit ds -> Forall blank sp ->
  In (u, f) units -> ~ odd_unit u -> map lower w = chars u -> word_ends rest ->
  lex_next strtod (lex_start (ds ++ sp ++ w ++ rest)) =
  Ok (mk_tok KINT (TInt ((number ds * f) mod 2 ^ 64)), mk_lex rest true []).
Proof. exact unit_means. Qed.
Print Assumptions C50_units.
Example C50_example : chars "512" <> [] /\ Forall digit (chars "512") /\ Forall blank [32; 9] /\
  In ("mib"%string, 2 ^ 20) units /\ ~ odd_unit "mib" /\ map lower (chars "MiB") = chars "mib" /\ word_ends [44; 49].
Proof. exact unit_sample. Qed.
Theorem C50_min_refuted : forall strtod, exists w r, In ("min"%string, minute) units /\ map lower w = chars "min" /\ word_ends r /\
  lex_next strtod (lex_start ([53] ++ [32] ++ w ++ r)) = Ok (mk_tok KINT (TInt 5), mk_lex r true [mk_tok KNAME (TStr w false)]).
Proof. exact min_lost. Qed.
Print Assumptions C50_min_refuted.
Theorem C50_month_refuted : forall strtod, exists w r, In ("month"%string, month) units /\ map lower w = chars "month" /\ word_ends r /\
  lex_next strtod (lex_start ([49] ++ [32] ++ w ++ r)) = Ok (mk_tok KINT (TInt (7 * month)), mk_lex r true []).
Proof. exact month_lost. Qed.
Print Assumptions C50_month_refuted.
Theorem C50_year_refuted : forall strtod, exists w r, In ("year"%string, year) units /\ map lower w = chars "year" /\ word_ends r /\
  lex_next strtod (lex_start ([49] ++ [32] ++ w ++ r)) = Ok (mk_tok KINT (TInt (7 * year)), mk_lex r true []).
Proof. exact year_lost. Qed.
Print Assumptions C50_year_refuted.
Theorem C50_wrap_refuted : forall strtod, exists ds, Forall digit ds /\ number ds < 2 ^ 64 /\ In ("tib"%string, 2 ^ 40) units /\
  lex_next strtod (lex_start (ds ++ [32] ++ chars "tib" ++ [])) = Ok (mk_tok KINT (TInt 0), mk_lex [] true []).
Proof. exact product_wraps. Qed.
Print Assumptions C50_wrap_refuted.

(* C67: what is taken for a keyword *)
Theorem C67_source : forall strtod l tk l', lx_back l = [] -> lex_next strtod l = Ok (tk, l') -> KNAME < t_id tk ->
  (exists nm k w r, In (t_id tk, nm, k) keywords /\ skip_blank false (lx_rest l) = w ++ r /\ word_ends r /\
     map lower w = map lower (firstn k (chars nm))) \/
  (exists r, skip_blank false (lx_rest l) = t_id tk :: r /\ ispunct (t_id tk) = true).
Proof. exact keyword_source. Qed.
Print Assumptions C67_source.
Theorem C67_punctuation_refuted : forall strtod, exists l l1 l2,
  lex_next strtod (lex_start (chars "(! hot")) = Ok (mk_tok KDROP (TInt 0), l1) /\
  lex_next strtod l1 = Ok (mk_tok KSTORAGE (TInt 0), l2) /\ lex_next strtod l2 = Ok (mk_tok KNAME (TStr (chars "hot") false), l).
Proof. exact punct_keyword. Qed.
Print Assumptions C67_punctuation_refuted.
