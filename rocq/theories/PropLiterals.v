(** Properties C30 and C31: what literals denote. *)
From Verif Require Import Literals SpecLiterals LiteralsProofs.

(** C30. A literal of the lexer grammar whose value fits in 64 bits parses to
    the JSON number it denotes.  The least value, -2^63, is covered by the
    next theorem for decimal literals and by the refutation below for the
    others. *)
Theorem C30_value text z :
  int_literal text z -> (-9223372036854775808 < z <= 9223372036854775807)%Z ->
  exists j, parse_integer_literal text = Some j /\ json_int z j.
Proof. exact (parse_value text z). Qed.
Print Assumptions C30_value.

Theorem C30_least_decimal m suf :
  decimal_magnitude m 9223372036854775808 -> suffix suf ->
  exists j, parse_integer_literal (String "-" (m ++ suf)) = Some j /\ json_int (-9223372036854775808) j.
Proof. exact (parse_min_decimal m suf). Qed.
Print Assumptions C30_least_decimal.

(** A literal whose value does not fit is rejected. *)
Theorem C30_out_of_range text z :
  int_literal text z -> ~ (-9223372036854775808 <= z <= 9223372036854775807)%Z ->
  parse_integer_literal text = None.
Proof. exact (parse_out_of_range text z). Qed.
Print Assumptions C30_out_of_range.

(** Underscores never matter. *)
Theorem C30_underscores s t :
  underscored s t ->
  parse_integer_literal s = parse_integer_literal t /\ parse_integer_as_u32 s = parse_integer_as_u32 t.
Proof. intro H. exact (conj (parse_underscored s t H) (u32_underscored s t H)). Qed.
Print Assumptions C30_underscores.

(** A size literal without a suffix parses to its value when it fits in 32
    bits and is rejected otherwise; a negative one is rejected. *)
Theorem C30_size m v :
  magnitude m v ->
  parse_integer_as_u32 m = (if (v <=? 4294967295)%N then Some v else None).
Proof.
  intro H. destruct (N.leb_spec v 4294967295).
  - exact (u32_value m v H H0).
  - exact (u32_out_of_range m v H H0).
Qed.
Print Assumptions C30_size.

Theorem C30_size_negative s : parse_integer_as_u32 (String "-" s) = None.
Proof. exact (u32_negative s). Qed.
Print Assumptions C30_size_negative.

(** The literals 0x1F and -0x1FL are in the grammar. *)
Example C30_hex_example : int_literal "0x1F" 31 /\ int_literal "-0x1FL" (-31).
Proof.
  assert (S1 : spells 16 "1F" 31).
  { apply (sp_more 16 "1" 1 "F" 15); [apply (sp_one 16 "1" 1)|]; (split; [cbn; tauto|reflexivity]). }
  split.
  - apply (il_pos "0x1F" 31 ""); [apply mag_hex; [now left|exact S1]|now left].
  - apply (il_neg "0x1F" 31 "L"); [apply mag_hex; [now left|exact S1]|right; right; now left].
Qed.
Example C30_hex_parsed :
  parse_integer_literal "0x1F" = Some (JNum (NPos 31)) /\ parse_integer_literal "-0x1FL" = Some (JNum (NNeg (-31))).
Proof. now split. Qed.

(** The full statement "a literal whose value fits is accepted" fails at -2^63
    written in hexadecimal or octal: the digits are parsed before the sign is
    applied. *)
Theorem C30_least_refuted :
  exists text, int_literal text (-9223372036854775808) /\ parse_integer_literal text = None.
Proof.
  exists "-0x8000000000000000". split; [|reflexivity].
  apply (il_neg "0x8000000000000000" 9223372036854775808 ""); [|now left].
  apply mag_hex; [now left|].
  assert (Z0 : digit 16 "0" 0) by (split; [cbn; tauto|reflexivity]).
  assert (S0 : spells 16 "8" 8) by (apply sp_one; split; [cbn; tauto|reflexivity]).
  pose proof (sp_more _ _ _ _ _ S0 Z0) as S1. pose proof (sp_more _ _ _ _ _ S1 Z0) as S2.
  pose proof (sp_more _ _ _ _ _ S2 Z0) as S3. pose proof (sp_more _ _ _ _ _ S3 Z0) as S4.
  pose proof (sp_more _ _ _ _ _ S4 Z0) as S5. pose proof (sp_more _ _ _ _ _ S5 Z0) as S6.
  pose proof (sp_more _ _ _ _ _ S6 Z0) as S7. pose proof (sp_more _ _ _ _ _ S7 Z0) as S8.
  pose proof (sp_more _ _ _ _ _ S8 Z0) as S9. pose proof (sp_more _ _ _ _ _ S9 Z0) as S10.
  pose proof (sp_more _ _ _ _ _ S10 Z0) as S11. pose proof (sp_more _ _ _ _ _ S11 Z0) as S12.
  pose proof (sp_more _ _ _ _ _ S12 Z0) as S13. pose proof (sp_more _ _ _ _ _ S13 Z0) as S14.
  pose proof (sp_more _ _ _ _ _ S14 Z0) as S15. exact S15.
Qed.
Print Assumptions C30_least_refuted.

(** A size with the grammar's long suffix is rejected although it fits. *)
Theorem C30_size_suffix_refuted :
  exists text v, int_literal text (Z.of_N v) /\ (v <= 4294967295)%N /\ parse_integer_as_u32 text = None.
Proof.
  exists "6L", 6%N. split; [|split; [lia|reflexivity]].
  apply (il_pos "6" 6 "L"); [|right; right; now left].
  apply mag_dec, dm_dec; [discriminate|]. apply sp_one. split; [cbn; tauto|reflexivity].
Qed.
Print Assumptions C30_size_suffix_refuted.

(** C31. The decoder computes what the literal denotes. *)
Theorem C31_denotes l t : denotes l t -> unescape_java l = t.
Proof. exact (unescape_denotes l t). Qed.
Print Assumptions C31_denotes.

(** Every body the lexer lets through, with paired surrogates, denotes a text. *)
Theorem C31_total l : body l -> exists t, denotes l t.
Proof. exact (body_denotes l). Qed.
Print Assumptions C31_total.

(** The same for the token text in UTF-8, quotes included. *)
Theorem C31_token q l t :
  Forall scalar l -> denotes l t ->
  get_string_from_literal (String q (of_chars l ++ String q ""))%string = of_chars t.
Proof. exact (literal_denotes q l t). Qed.
Print Assumptions C31_token.

(** A literal without backslashes denotes itself. *)
Theorem C31_plain l : ~ In 92%N l -> unescape_java l = l.
Proof. intro H. exact (unescape_denotes l l (denotes_plain l H)). Qed.
Print Assumptions C31_plain.

(** Every text has a literal: the one that escapes only what must be escaped,
    and one in pure ASCII. *)
Theorem C31_round_trip t :
  Forall scalar t ->
  body (flat_map escape_char t) /\ unescape_java (flat_map escape_char t) = t /\
  body (flat_map escape_ascii_char t) /\ unescape_java (flat_map escape_ascii_char t) = t.
Proof.
  intro H. destruct (escape_denotes t) as [D1 B1]. destruct (escape_ascii_denotes t H) as [D2 B2].
  exact (conj B1 (conj (unescape_denotes _ _ D1) (conj B2 (unescape_denotes _ _ D2)))).
Qed.
Print Assumptions C31_round_trip.

(** Surrogate pairs decode to the code point they encode. *)
Theorem C31_surrogate_pair h v h' v' l t :
  four_hex h v -> high_surrogate v -> four_hex h' v' -> low_surrogate v' -> denotes l t ->
  unescape_java (92 :: 117 :: h ++ 92 :: 117 :: h' ++ l)%N
  = (65536 + (v - 55296) * 1024 + (v' - 56320) :: t)%N.
Proof.
  intros H1 H2 H3 H4 H5. exact (unescape_denotes _ _ (de_pair 0 h v 0 h' v' l t H1 H2 H3 H4 H5)).
Qed.
Print Assumptions C31_surrogate_pair.

(** U+1F600 as a pair, an octal escape before a digit, and a newline. *)
Example C31_example :
  unescape_java (chars "\uD83D\uDE00\1018\n") = [128512; 65; 56; 10]%N.
Proof. reflexivity. Qed.

(** A surrogate escape without its other half denotes no text; the decoder
    keeps its source, so two different literals decode to the same text. *)
Theorem C31_lone_surrogate_refuted :
  exists l t, unescape_java l = t /\ unescape_java (flat_map escape_char t) = t
              /\ l <> flat_map escape_char t /\ (forall t', ~ denotes l t').
Proof.
  exists (chars "\uD83D"), (chars "\uD83D"). split; [reflexivity|]. split; [reflexivity|]. split; [discriminate|].
  exact lone_surrogate_denotes_nothing.
Qed.
Print Assumptions C31_lone_surrogate_refuted.

(** It keeps exactly the escape as source, with one [u], and decodes the rest. *)
Theorem C31_lone_surrogate_kept n h v l t :
  four_hex h v -> high_surrogate v \/ low_surrogate v -> denotes l t ->
  unescape_java (92 :: 117 :: repeat 117 n ++ h ++ l)%N = (92 :: 117 :: h ++ t)%N.
Proof. exact (lone_surrogate_kept n h v l t). Qed.
Print Assumptions C31_lone_surrogate_kept.

Example C31_lone_surrogate_example :
  unescape_java (chars "\uuDFFF\uD83D\uDE00") = (chars "\uDFFF" ++ [128512%N])%list
  /\ unescape_java (chars "\uD83D\u0041") = chars "\uD83DA".
Proof. split; vm_compute; reflexivity. Qed.

(** C24. The name an identifier stands for: what is written, without the
    backticks. *)
Theorem C24_identifiers s t : identifier_text s = t <-> unquotes s t.
Proof. exact (identifier_unquotes s t). Qed.
Print Assumptions C24_identifiers.

Example C24_identifiers_example : unquotes "org.`error`.`void`" "org.error.void".
Proof. apply C24_identifiers. reflexivity. Qed.
