(** Properties C60 and C61: floating point literals, and JSON values in source files. *)
From Verif Require Import FloatText SpecFloatText FloatProofs FloatTextProofs SpecJsonText JsonTextProofs GrammarSound.
From Verif Require Import IdlParser ReadingProofs SampleFile.
Local Open Scope Z_scope.

(** Powers of two the way compiler-rt has them: repeated squaring, and the inverse
    for negative exponents.  [2^1024] is infinite, so [2^-1024] is zero. *)
Definition usual_power (e : Z) : f64_value :=
  if e <=? -1024 then FFinite 0 0 else if 1024 <=? e then FInfinite false else round_scaled 1 2 e.
Lemma usual_exact e : -1022 <= e <= 1023 -> usual_power e = round_scaled 1 2 e.
Proof. intro E. unfold usual_power. destruct (Z.leb_spec e (-1024)), (Z.leb_spec 1024 e); (reflexivity || lia). Qed.
Definition usual_powers : Powers := {| power_of_two := usual_power; power_exact := usual_exact |}.
Definition read_float (s : string) : option f64_value := @parse_float_text (@float_texts usual_powers) s.

(** C60. A decimal literal is read as the binary64 number nearest to what it spells *)
Section C60.
  Context `{Powers}.
  Theorem C60_decimal text v places x s z : decimal_text text v places x -> sign_of s z ->
    exists r j, nearest_to (z * Z.of_N v) 10 (x - Z.of_nat places) r /\ json_float r j /\ parse_floating_point_literal (s ++ text) = Some j.
  Proof.
    intros T S. destruct (decimal_literal text v places x s z T S) as (r & E & N). unfold parse_floating_point_literal. rewrite E. exists r.
    destruct r as [|[|]|m e]; eexists; (split; [exact N|]; split; [constructor|reflexivity]).
  Qed.
  (** So is a hexadecimal one of less than 53 bits with a common exponent *)
  Theorem C60_hexadecimal text v places x s z : hexadecimal_text text v places x -> sign_of s z ->
    (v < 2 ^ 53)%N -> 4 * Z.of_nat places <= 1074 -> -1022 <= x <= 1023 ->
    exists r j, nearest_to (z * Z.of_N v) 2 (x - 4 * Z.of_nat places) r /\ json_float r j /\ parse_floating_point_literal (s ++ text) = Some j.
  Proof.
    intros T S V P X. destruct (hexadecimal_literal text v places x s z T S V P X) as (r & E & N). unfold parse_floating_point_literal. rewrite E. exists r.
    destruct r as [|[|]|m e]; eexists; (split; [exact N|]; split; [constructor|reflexivity]).
  Qed.
  Theorem C60_words s z : sign_of s z ->
    parse_floating_point_literal (s ++ "NaN") = Some (JStr "NaN")
    /\ parse_floating_point_literal (s ++ "Infinity") = Some (JStr (if z <? 0 then "-Infinity" else "Infinity")).
  Proof. intros [S|[S|[S|[]]]]; injection S as <- <-; split; reflexivity. Qed.
  (** Which hexadecimal literals are refused: those whose exponent does not fit 32
      bits, or whose digits before the point do not fit 64 *)
  Theorem C60_refused s z c ip dot fp iv ex x suf : sign_of s z -> In c ["x"%char; "X"%char] ->
    (ip = "" /\ iv = 0%N \/ spells 16 ip iv) -> (fp = "" \/ exists fv, spells 16 fp fv) -> (ip ++ fp)%string <> "" ->
    point dot fp -> exponent_of ["p"%char; "P"%char] ex x -> size_suffix suf ->
    parse_floating_point_literal (s ++ String "0" (String c (ip ++ dot ++ fp ++ ex ++ suf))) = None
    <-> ~ (-2147483648 <= x <= 2147483647) \/ (2 ^ 64 <= iv)%N.
  Proof.
    intros Sg Hc Hi Hf Ne Pt Ex Su. rewrite <- (hexadecimal_refused s z c ip dot fp iv ex x suf Sg Hc Hi Hf Ne Pt Ex Su).
    unfold parse_floating_point_literal. destruct (parse_float_text _) as [[|[|]|m e]|]; split; (discriminate || reflexivity).
  Qed.
End C60.
Print Assumptions C60_decimal.
Print Assumptions C60_hexadecimal.
Print Assumptions C60_words.
Print Assumptions C60_refused.
(** There is one nearest number: two differ in the exponent of zero at most *)
Theorem C60_one_nearest n d r r' : 0 < d -> nearest n d r -> nearest n d r' -> r = r' \/ exists e e', r = FFinite 0 e /\ r' = FFinite 0 e'.
Proof. exact (nearest_unique n d r r'). Qed.
Print Assumptions C60_one_nearest.

Lemma sp base s v : (base <= 16)%N -> s <> "" -> Literals.digits_value base s 0 = Some v -> spells base s v.
Proof. intros B Ne E. now apply spells_digits. Qed.
Example C60_decimal_text : decimal_text "012.50e-3F" 1250 2 (-3).
Proof.
  apply (dt "012" "." "50" 1250 "e-3" (-3) "F"); [now apply sp|now left| |cbn; tauto].
  right. apply (eo_minus ["e"; "E"]%char "e" "3" 3); [cbn; tauto|now apply sp].
Qed.
Example C60_hexadecimal_text : hexadecimal_text "0x.8P+1" 8 1 1.
Proof.
  apply (ht "x" "" "." "8" 8 "P+1" 1 ""); [cbn; tauto|now apply sp|now left| |cbn; tauto].
  apply (eo_plus ["p"; "P"]%char "P" "1" 1); [cbn; tauto|now apply sp].
Qed.
Example C60_samples : map read_float ["0.1"; "-1.5f"; "1e999"; "-0x.8P+1"; "0x1.8p1D"; "2.5e-324"] =
  [Some (FFinite 7205759403792794 (-56)); Some (FFinite (-6755399441055744) (-52)); Some (FInfinite false);
   Some (FFinite (-4503599627370496) (-52)); Some (FFinite 6755399441055744 (-51)); Some (FFinite 1 (-1074))].
Proof. vm_compute. reflexivity. Qed.
Example C60_refused_samples : map read_float ["0x10000000000000000p0"; "0xffffffffffffffffp0"; "0x1p2147483648"] = [None; Some (FFinite 4503599627370496 12); None].
Proof. vm_compute. reflexivity. Qed.

(** The full statement fails for hexadecimal literals.  Longer ones are rounded
    twice: after the whole digits and the others have been added up, ... *)
Theorem C60_hexadecimal_long_refuted : exists text v places x r,
  hexadecimal_text text v places x /\ read_float text = Some r /\ ~ nearest_to (Z.of_N v) 2 (x - 4 * Z.of_nat places) r.
Proof.
  exists "0x1.800000000000081p0", 0x1800000000000081%N, 15%nat, 0, (FFinite (3 * 2 ^ 51) (-52)). split; [|split].
  - apply (ht "x" "1" "." "800000000000081" 0x1800000000000081 "p0" 0 ""); [cbn; tauto|now apply sp|now left| |cbn; tauto].
    apply (eo_plain ["p"; "P"]%char "p" "0" 0); [cbn; tauto|now apply sp].
  - vm_compute. reflexivity.
  - intro N. inversion N as [m0 e0 A1 A2 A3 Near A5|A1]; subst. specialize (Near (3 * 2 ^ 51 + 1) (-52)).
    assert (B : binary64 (3 * 2 ^ 51 + 1) (-52)) by (split; [reflexivity|split; discriminate]). specialize (Near B). vm_compute in Near. now apply Near.
Qed.
Print Assumptions C60_hexadecimal_long_refuted.
(** ... and the power of two is infinite or zero where the literal is neither *)
Theorem C60_hexadecimal_exponent_refuted :
  (hexadecimal_text "0x0p1024" 0 0 1024 /\ read_float "0x0p1024" = Some FNan)
  /\ hexadecimal_text "0x1p-1074" 1 0 (-1074) /\ read_float "0x1p-1074" = Some (FFinite 0 0) /\ nearest_to 1 2 (-1074) (FFinite 1 (-1074)).
Proof.
  split; split.
  - apply (ht "x" "0" "" "" 0 "p1024" 1024 ""); [cbn; tauto|now apply sp|now right| |cbn; tauto].
    apply (eo_plain ["p"; "P"]%char "p" "1024" 1024); [cbn; tauto|now apply sp].
  - vm_compute. reflexivity.
  - apply (ht "x" "1" "" "" 1 "p-1074" (-1074) ""); [cbn; tauto|now apply sp|now right| |cbn; tauto].
    apply (eo_minus ["p"; "P"]%char "p" "1074" 1074); [cbn; tauto|now apply sp].
  - split; [vm_compute; reflexivity|]. assert (E : FFinite 1 (-1074) = round_f64 (1 * 2 ^ Z.max 0 (-1074)) (2 ^ Z.max 0 (- (-1074)))) by (vm_compute; reflexivity).
    rewrite E. apply round_nearest. reflexivity.
Qed.
Print Assumptions C60_hexadecimal_exponent_refuted.

(** C61. A JSON value in a source file, a default say, becomes the JSON its tokens spell *)
Section C61.
  Context `{Unicode} `{Powers}.
  Theorem C61_value file text ts t j evs : Forall scalar (chars text) ->
    json_value file ts t -> Forall (fun x => In x (tokens_of text) /\ ordinary x) ts -> walk_json_value t = Ok (j, evs) -> value_means ts j.
  Proof. intros S V F W. exact (value_sound text S file ts t V F j evs W). Qed.
  (** and is never refused unless an integer is out of range *)
  Theorem C61_accepted file text ts t :
    json_value file ts t -> Forall (fun x => In x (tokens_of text) /\ ordinary x /\ in_range x) ts -> exists j, walk_json_value t = Ok (j, []).
  Proof. intros V F. exact (value_total text file ts t V F). Qed.
End C61.
Print Assumptions C61_value.
Print Assumptions C61_accepted.
(** What the tokens of literals look like *)
Theorem C61_tokens text x : In x (tokens_of text) ->
  (of_type T_IntegerLiteral x -> exists z, int_literal (lx_text x) z)
  /\ (of_type T_FloatingPointLiteral x -> exists s z t, sign_of s z /\ lx_text x = (s ++ t)%string /\
        (In t ["NaN"; "Infinity"] \/ exists v places e, decimal_text t v places e \/ hexadecimal_text t v places e))
  /\ (of_type T_StringLiteral x -> Forall scalar (chars text) ->
        exists l, lx_text x = of_chars (quote :: l ++ [quote]) /\ (body l \/ surrogate_escape l)).
Proof.
  intro Hi. split; [exact (integer_word text x Hi)|]. split; [exact (floating_word text x Hi)|].
  intros T S. destruct (string_word text x S Hi T) as (l & _ & E & B). eauto.
Qed.
Print Assumptions C61_tokens.
(** Integers that are accepted have the value they spell *)
Theorem C61_integer text z j : int_literal text z -> parse_integer_literal text = Some j -> json_int z j.
Proof. exact (parse_sound text z j). Qed.
Print Assumptions C61_integer.
Definition sample_text : string := "@p({""k"": [1L, -2.5, ""a""], ""k"": 4., ""e"": {}})".
Definition sample_tokens : list lexeme := Eval vm_compute in firstn 20 (skipn 3 (tokens_of sample_text)).
Definition sample_tree : json_tree :=
  JTObject [("""k""", JTArray [JTInteger (mkLocated "1L" (mkSpan "f" 10)); JTFloat (mkLocated "-2.5" (mkSpan "f" 14)); JTString """a"""]); ("""k""", JTFloat (mkLocated "4." (mkSpan "f" 31))); ("""e""", JTObject [])].
Lemma literal_bounds text n : parse_integer_literal text = Some (JNum (NPos n)) -> (n < 1000)%N ->
  forall z, int_literal text z -> -9223372036854775808 < z <= 9223372036854775807.
Proof. intros E L z I. pose proof (parse_sound _ _ _ I E) as J. inversion J; subst; lia. Qed.
Example C61_sample : json_value "f" sample_tokens sample_tree
  /\ Forall (fun x => In x (tokens_of sample_text) /\ ordinary x /\ in_range x) sample_tokens
  /\ walk_json_value (H0 := @float_texts usual_powers) sample_tree = Ok (JObj [("e", JObj []); ("k", JNum (NFloat 4503599627370496 (-50)))], []).
Proof.
  split; [|split].
  - assert (E : p_json "f" 20 sample_tokens = Some (sample_tree, [])) by (vm_compute; reflexivity).
    destruct (p_json_sound "f" 20 _ _ _ E) as (pre & Ep & V). rewrite app_nil_r in Ep. now subst pre.
  - assert (Tk : tokens_of sample_text = firstn 3 (tokens_of sample_text) ++ sample_tokens ++ skipn 23 (tokens_of sample_text)) by (vm_compute; reflexivity).
    assert (I : Forall (fun x => In x (tokens_of sample_text)) sample_tokens).
    { apply Forall_forall. intros x Hx. rewrite Tk. apply in_or_app. right. apply in_or_app. now left. }
    assert (O : Forall (fun x => ordinary x /\ in_range x) sample_tokens).
    { unfold sample_tokens. repeat (apply Forall_cons; [split; [split|]|]); try apply Forall_nil; try (intro T; discriminate T); intro T; clear T; cbn [lx_text].
      all: try (intros (a & h & v & b & E & _); assert (B : In backslash (a ++ backslash :: 117%N :: h ++ b)) by (apply in_or_app; right; now left);
        rewrite <- E in B; vm_compute in B; intuition discriminate).
      all: try (intros s z text v places e E [S|[S|[S|[]]]] Ht; injection S as <- <-; destruct Ht; cbn in E; discriminate E).
      all: now apply (literal_bounds _ 1). }
    revert I O. generalize sample_tokens as l. induction l as [|x l IH]; intros I O; constructor; inversion I; inversion O; subst; auto.
  - vm_compute. reflexivity.
Qed.
