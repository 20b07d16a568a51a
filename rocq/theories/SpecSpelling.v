(** What it means to write the words of IDL files differently: names with or without
    backticks, strings with other escapes, integers in another base, floating point numbers with other digits and exponents. *)
From Verif Require Export SpecRewrite SpecLiterals SpecFloatText.
Local Open Scope Z_scope.

(** The same integer: the same sign, the same value, and a suffix [l] or [L] either on
    both or on neither, for sizes of fixed types may not have one.  The least 64-bit integer is left out, as it is only read in decimal. *)
Inductive same_integer : string -> string -> Prop :=
| si sign m m' v suf suf' :
    In sign [""; "-"] -> magnitude m v -> magnitude m' v -> suffix suf -> suffix suf' -> (suf = "" <-> suf' = "") ->
    sign = "" \/ v <> 9223372036854775808%N ->
    same_integer (sign ++ m ++ suf) (sign ++ m' ++ suf').

(** [v * 10^k] is [v' * 10^k'] *)
Definition same_decimal (v : N) (k : Z) (v' : N) (k' : Z) : Prop :=
  exists c, 0 <= c /\ 0 <= k + c /\ 0 <= k' + c /\ Z.of_N v * 10 ^ (k + c) = Z.of_N v' * 10 ^ (k' + c).

(** Two ways to write the same name, string or number *)
Inductive same_word : token_type -> string -> string -> Prop :=
| sw_name s s' n : unquotes s n -> unquotes s' n -> same_word T_IdentifierToken s s'
| sw_string l l' t : Forall scalar l -> Forall scalar l' -> denotes l t -> denotes l' t ->
    same_word T_StringLiteral (String """" (of_chars l ++ """")) (String """" (of_chars l' ++ """"))
| sw_integer s s' : same_integer s s' -> same_word T_IntegerLiteral s s'
| sw_decimal sg sg' z text text' v v' places places' x x' :
    sign_of sg z -> sign_of sg' z -> decimal_text text v places x -> decimal_text text' v' places' x' ->
    same_decimal v (x - Z.of_nat places) v' (x' - Z.of_nat places') ->
    same_word T_FloatingPointLiteral (sg ++ text) (sg' ++ text').

(** The same token, perhaps written differently *)
Definition same_token (p p' : token_type * list N) : Prop :=
  p = p' \/ fst p = fst p' /\ same_word (fst p) (of_chars (snd p)) (of_chars (snd p')).

(** Two IDL texts have the same tokens but for how they are written, leaving out white
    space, comments and what is no token at all *)
Definition same_words (text text' : string) : Prop :=
  exists v v' l l', visible_part text v /\ visible_part text' v'
    /\ taken_apart (chars v) l /\ taken_apart (chars v') l'
    /\ Forall2 same_token (kept l) (kept l').
