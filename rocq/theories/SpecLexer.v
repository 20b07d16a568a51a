(** What the tokens of the IDL look like, and what it means to take a text apart
    into tokens.  Texts are lists of code points. *)
From Verif Require Export Lexer.

(** ** Sets of texts *)
Definition texts := list N -> Prop.

Definition between (lo hi : N) : texts := fun s => exists c, s = [c] /\ (lo <= c <= hi)%N.
Definition char_in (l : list N) : texts := fun s => exists c, s = [c] /\ In c l.
Definition exactly (w : list N) : texts := fun s => s = w.
Definition spelled (w : string) : texts := exactly (chars w).
Definition then_ (P Q : texts) : texts := fun s => exists a b, s = a ++ b /\ P a /\ Q b.
Definition either (P Q : texts) : texts := fun s => P s \/ Q s.
Definition maybe (P : texts) : texts := fun s => s = [] \/ P s.
Inductive many (P : texts) : texts :=
| many_none : many P []
| many_more a b : P a -> many P b -> many P (a ++ b).
Definition some_of (P : texts) : texts := then_ P (many P).

Declare Scope texts_scope.
Delimit Scope texts_scope with texts.
Infix ";;" := then_ (at level 41, right associativity) : texts_scope.
Infix "<|>" := either (at level 50, left associativity) : texts_scope.
Local Open Scope texts_scope.

(** ** Comments and white space *)

(** A text that ends with the first [*/] in it *)
Definition first_end (s : list N) : Prop :=
  exists body, s = body ++ chars "*/" /\ forall a b, s = a ++ chars "*/" ++ b -> b = [].

Definition doc_comment : texts := spelled "/**" ;; first_end.
Definition empty_comment : texts := spelled "/**/".
Definition block_comment : texts := spelled "/*" ;; (fun s => exists c, s = [c] /\ c <> 42%N) ;; first_end.

Definition line_feed : N := 10.
Definition carriage_return : N := 13.
Definition line_end : texts :=
  exactly [line_feed] <|> exactly [carriage_return] <|> exactly [carriage_return; line_feed].
Definition line_comment : texts :=
  spelled "//" ;; many (fun s => exists c, s = [c] /\ c <> line_feed /\ c <> carriage_return) ;; line_end.

(** Tab, line feed, form feed, carriage return, space *)
Definition white : list N := [9; 10; 12; 13; 32]%N.
Definition white_space : texts := char_in white.

(** ** Literals *)
Definition a_digit : texts := between 48 57.
Definition octal : texts := between 48 55.
Definition hexadecimal : texts := a_digit <|> between 65 70 <|> between 97 102.
Definition minus : texts := spelled "-".

Definition integer : texts :=
  maybe minus ;;
  (between 49 57 ;; many a_digit
   <|> spelled "0" ;; (spelled "x" <|> spelled "X") ;; some_of hexadecimal
   <|> spelled "0" ;; many octal) ;;
  maybe (spelled "l" <|> spelled "L").

Definition a_sign : texts := spelled "+" <|> spelled "-".
Definition exponent (mark : texts) : texts := mark ;; maybe a_sign ;; some_of a_digit.
Definition size_letter : texts := char_in (chars "fFdD").
Definition decimal_float : texts :=
  let e := exponent (spelled "e" <|> spelled "E") in
  some_of a_digit ;; spelled "." ;; many a_digit ;; maybe e ;; maybe size_letter
  <|> spelled "." ;; some_of a_digit ;; maybe e ;; maybe size_letter
  <|> some_of a_digit ;; e ;; maybe size_letter
  <|> some_of a_digit ;; size_letter.
Definition hexadecimal_float : texts :=
  spelled "0" ;; (spelled "x" <|> spelled "X") ;;
  (some_of hexadecimal ;; maybe (spelled ".")
   <|> many hexadecimal ;; spelled "." ;; some_of hexadecimal) ;;
  exponent (spelled "p" <|> spelled "P") ;; maybe size_letter.
Definition floating : texts :=
  maybe a_sign ;; (spelled "NaN" <|> spelled "Infinity" <|> decimal_float <|> hexadecimal_float).

(** Between its quotes a string literal has no quote, no backslash and none of
    backspace, tab, line feed, form feed and carriage return, but by escapes *)
Definition quote : N := 34.
Definition backslash : N := 92.
Definition string_char : texts :=
  (fun s => exists c, s = [c] /\ ~ In c [8; 9; 10; 12; 13; quote; backslash]%N)
  <|> exactly [backslash] ;; char_in (chars "btnfr'" ++ [quote; backslash])
  <|> exactly [backslash] ;; octal
  <|> exactly [backslash] ;; octal ;; octal
  <|> exactly [backslash] ;; between 48 51 ;; octal ;; octal
  <|> exactly [backslash] ;; spelled "u" ;; hexadecimal ;; hexadecimal ;; hexadecimal ;; hexadecimal.
Definition string_literal : texts := exactly [quote] ;; many string_char ;; exactly [quote].

(** ** Identifiers *)
Definition in_table (table : list (N * N)) : texts :=
  fun s => exists c lo hi, s = [c] /\ In (lo, hi) table /\ (lo <= c <= hi)%N.
Definition simple_name : texts := in_table identifier_start_ranges ;; many (in_table identifier_part_ranges).
Definition name_part : texts := simple_name <|> spelled "`" ;; simple_name ;; spelled "`".
Definition identifier_name : texts := name_part ;; many ((spelled "." <|> spelled "-") ;; name_part).

(** ** The kinds of token, in order *)
Definition reserved : list (token_type * string) :=
  [(T_Protocol, "protocol"); (T_Namespace, "namespace"); (T_Import, "import"); (T_IDL, "idl");
   (T_Schema, "schema"); (T_Enum, "enum"); (T_Fixed, "fixed"); (T_Error, "error"); (T_Record, "record");
   (T_Array, "array"); (T_Map, "map"); (T_Union, "union"); (T_Boolean, "boolean"); (T_Int, "int");
   (T_Long, "long"); (T_Float, "float"); (T_Double, "double"); (T_String, "string"); (T_Bytes, "bytes");
   (T_Null, "null"); (T_BTrue, "true"); (T_BFalse, "false"); (T_Decimal, "decimal"); (T_Date, "date");
   (T_Time, "time_ms"); (T_Timestamp, "timestamp_ms"); (T_LocalTimestamp, "local_timestamp_ms");
   (T_UUID, "uuid"); (T_Void, "void"); (T_Oneway, "oneway"); (T_Throws, "throws")]%string.
Definition signs : list (token_type * string) :=
  [(T_LParen, "("); (T_RParen, ")"); (T_LBrace, "{"); (T_RBrace, "}"); (T_LBracket, "["); (T_RBracket, "]");
   (T_Colon, ":"); (T_Semicolon, ";"); (T_Comma, ","); (T_At, "@"); (T_Equals, "="); (T_Dot, "."); (T_Dash, "-");
   (T_QuestionMark, "?"); (T_LT, "<"); (T_GT, ">")]%string.

Definition shapes : list (token_type * texts) :=
  [(T_End, exactly [26%N]); (T_DocComment, doc_comment); (T_EmptyComment, empty_comment);
   (T_MultiLineComment, block_comment); (T_SingleLineComment, line_comment); (T_WS, white_space)]
  ++ map (fun kw => (fst kw, spelled (snd kw))) (reserved ++ signs)
  ++ [(T_StringLiteral, string_literal); (T_IntegerLiteral, integer);
      (T_FloatingPointLiteral, floating); (T_IdentifierToken, identifier_name)].

(** [t] has the shape of a token of kind [k] *)
Definition shaped (k : token_type) (t : list N) : Prop := exists P, In (k, P) shapes /\ P t.

(** Kind [k] comes before kind [k'] in the list *)
Definition comes_before (k k' : token_type) : Prop := exists a b c, map fst shapes = a ++ k :: b ++ k' :: c.

(** The first token of [t ++ rest]: no token can be longer, and none of an
    earlier kind has the same length *)
Definition longest (k : token_type) (t rest : list N) : Prop :=
  shaped k t
  /\ (forall k' t' rest', t ++ rest = t' ++ rest' -> shaped k' t' -> length t' <= length t)
  /\ (forall k', comes_before k' k -> ~ shaped k' t).

(** No token starts the text, and what is passed over is as much as a token could
    have started with and the character that spoils it, if there is one *)
Definition spoilt (t rest : list N) : Prop :=
  (forall k t' rest', t ++ rest = t' ++ rest' -> ~ shaped k t')
  /\ ((exists begun c, t = begun ++ [c] /\ (begun = [] \/ exists k more, shaped k (begun ++ more))
                       /\ forall k more, ~ shaped k (t ++ more))
      \/ (rest = [] /\ exists k more, shaped k (t ++ more))).

Inductive taken_apart : list N -> list piece -> Prop :=
| ta_end : taken_apart [] []
| ta_token k t rest l : t <> [] -> longest k t rest -> taken_apart rest l -> taken_apart (t ++ rest) ((Some k, t) :: l)
| ta_spoilt t rest l : t <> [] -> spoilt t rest -> taken_apart rest l -> taken_apart (t ++ rest) ((None, t) :: l).
