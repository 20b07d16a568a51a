(** What a JSON value in a source file denotes, token by token. *)
From Verif Require Export SpecGrammar SpecLexer SpecFloatText SpecReader.
Local Open Scope Z_scope.

Inductive token_means (x : lexeme) : json -> Prop :=
| tm_string l t : of_type T_StringLiteral x -> lx_text x = of_chars (quote :: l ++ [quote]) -> denotes l t -> token_means x (JStr (of_chars t))
| tm_integer z j : of_type T_IntegerLiteral x -> int_literal (lx_text x) z -> json_int z j -> token_means x j
| tm_nan s z : of_type T_FloatingPointLiteral x -> lx_text x = (s ++ "NaN")%string -> sign_of s z -> token_means x (JStr "NaN")
| tm_infinity s : of_type T_FloatingPointLiteral x -> lx_text x = (s ++ "Infinity")%string -> sign_of s 1 -> token_means x (JStr "Infinity")
| tm_minus_infinity : of_type T_FloatingPointLiteral x -> lx_text x = "-Infinity" -> token_means x (JStr "-Infinity")
| tm_decimal s z text v places e r j :
    of_type T_FloatingPointLiteral x -> lx_text x = (s ++ text)%string -> sign_of s z -> decimal_text text v places e ->
    nearest_to (z * Z.of_N v) 10 (e - Z.of_nat places) r -> json_float r j -> token_means x j
| tm_hexadecimal s z text v places e r j :
    of_type T_FloatingPointLiteral x -> lx_text x = (s ++ text)%string -> sign_of s z -> hexadecimal_text text v places e ->
    nearest_to (z * Z.of_N v) 2 (e - 4 * Z.of_nat places) r -> json_float r j -> token_means x j
| tm_true : of_type T_BTrue x -> token_means x (JBool true)
| tm_false : of_type T_BFalse x -> token_means x (JBool false)
| tm_null : of_type T_Null x -> token_means x JNull.

Inductive pair_means (value : list lexeme -> json -> Prop) : list lexeme -> string * json -> Prop :=
| pm k key colon ts v : of_type T_StringLiteral k -> token_means k (JStr key) -> of_type T_Colon colon -> value ts v ->
    pair_means value (k :: colon :: ts) (key, v).
(** Of equal keys the last one counts *)
Inductive value_means : list lexeme -> json -> Prop :=
| vm_token x j : token_means x j -> value_means [x] j
| vm_array a ts l b : of_type T_LBracket a -> listed value_means ts l -> of_type T_RBracket b -> value_means (a :: ts ++ [b]) (JArr l)
| vm_object a ts l b members : of_type T_LBrace a -> listed (pair_means value_means) ts l -> of_type T_RBrace b ->
    by_key members -> (forall k, assoc k members = assoc k (rev l)) -> value_means (a :: ts ++ [b]) (JObj members).

(** The literals this is claimed of: no [\u] escape of a surrogate, and hexadecimal
    numbers of less than 53 bits with an exponent of binary64 *)
Definition surrogate_escape (l : list N) : Prop :=
  exists a h v b, l = (a ++ backslash :: 117 :: h ++ b)%N /\ four_hex h v /\ (55296 <= v <= 57343)%N.
Definition ordinary (x : lexeme) : Prop :=
  (of_type T_StringLiteral x -> ~ surrogate_escape (chars (lx_text x)))
  /\ (of_type T_FloatingPointLiteral x -> forall s z text v places e, lx_text x = (s ++ text)%string -> sign_of s z -> hexadecimal_text text v places e ->
      (v < 2 ^ 53)%N /\ 4 * Z.of_nat places <= 1074 /\ -1022 <= e <= 1023).
Definition in_range (x : lexeme) : Prop :=
  of_type T_IntegerLiteral x -> forall z, int_literal (lx_text x) z -> -9223372036854775808 < z <= 9223372036854775807.
