(** The lexer of src/generated/idllexer.rs.  The file holds no rules but a table
    of transitions, [_serializedATN] (279-855), which the runtime crate walks; the
    regular expressions below are read off that table.  Sources are lists of code
    points. *)
From Verif Require Export Doc LexerTables.

(** src/generated/idllexer.rs:33-89, the constants *)
Inductive token_type :=
| T_End | T_DocComment | T_EmptyComment | T_MultiLineComment | T_SingleLineComment | T_WS
| T_Protocol | T_Namespace | T_Import | T_IDL | T_Schema | T_Enum | T_Fixed | T_Error | T_Record
| T_Array | T_Map | T_Union | T_Boolean | T_Int | T_Long | T_Float | T_Double | T_String | T_Bytes
| T_Null | T_BTrue | T_BFalse | T_Decimal | T_Date | T_Time | T_Timestamp | T_LocalTimestamp
| T_UUID | T_Void | T_Oneway | T_Throws
| T_LParen | T_RParen | T_LBrace | T_RBrace | T_LBracket | T_RBracket | T_Colon | T_Semicolon
| T_Comma | T_At | T_Equals | T_Dot | T_Dash | T_QuestionMark | T_LT | T_GT
| T_StringLiteral | T_IntegerLiteral | T_FloatingPointLiteral | T_IdentifierToken.

Definition token_type_dec (a b : token_type) : {a = b} + {a <> b}.
Proof. decide equality. Defined.
Definition same_type (k : token_type) (k' : token_type) : bool := if token_type_dec k k' then true else false.

(** ** Regular expressions *)

(** [RIn], [RNot]: one character in, or outside, some ranges of code points.
    [RShortest r]: what [r] matches, if nothing shorter at its start does; this
    is what a rule with the non-greedy loops of the table comes to. *)
Inductive regex :=
| RVoid
| REmpty
| RIn (ranges : list (N * N))
| RNot (ranges : list (N * N))
| RSeq (a b : regex)
| RAlt (a b : regex)
| RStar (a : regex)
| RShortest (a : regex).

Definition in_ranges (c : N) (l : list (N * N)) : bool :=
  existsb (fun ab => ((fst ab <=? c) && (c <=? snd ab))%N) l.

(** The end of the rule has been reached *)
Fixpoint accepting (r : regex) : bool :=
  match r with
  | RVoid => false
  | REmpty => true
  | RIn _ | RNot _ => false
  | RSeq a b => accepting a && accepting b
  | RAlt a b => accepting a || accepting b
  | RStar _ => true
  | RShortest a => accepting a
  end.

(** No state of the rule is left *)
Fixpoint dead (r : regex) : bool :=
  match r with
  | RVoid => true
  | REmpty => false
  | RIn l => negb (existsb (fun ab => (fst ab <=? snd ab)%N) l)
  | RNot _ => false
  | RSeq a b => dead a || dead b
  | RAlt a b => dead a && dead b
  | RStar _ => false
  | RShortest a => dead a
  end.

Definition seq_of (a b : regex) : regex :=
  match a, b with
  | RVoid, _ => RVoid
  | REmpty, _ => b
  | _, _ => RSeq a b
  end.
Definition alt_of (a b : regex) : regex :=
  match a, b with
  | RVoid, _ => b
  | _, RVoid => a
  | _, _ => RAlt a b
  end.

(** The rule after one more character *)
Fixpoint advance (c : N) (r : regex) : regex :=
  match r with
  | RVoid | REmpty => RVoid
  | RIn l => if in_ranges c l then REmpty else RVoid
  | RNot l => if in_ranges c l then RVoid else REmpty
  | RSeq a b =>
      if accepting a then alt_of (seq_of (advance c a) b) (advance c b) else seq_of (advance c a) b
  | RAlt a b => alt_of (advance c a) (advance c b)
  | RStar a => seq_of (advance c a) (RStar a)
  | RShortest a => if accepting a then RVoid else RShortest (advance c a)
  end.

Definition char_of (c : N) : regex := RIn [(c, c)].
Fixpoint word_of (l : list N) : regex :=
  match l with
  | [] => REmpty
  | [c] => char_of c
  | c :: l => RSeq (char_of c) (word_of l)
  end.
Definition word (s : string) : regex := word_of (chars s).
Definition optional (r : regex) : regex := RAlt r REmpty.
Definition plus (r : regex) : regex := RSeq r (RStar r).
Definition any_char : regex := RNot [].
Fixpoint alts (l : list regex) : regex :=
  match l with
  | [] => RVoid
  | [r] => r
  | r :: l => RAlt r (alts l)
  end.
Fixpoint seqs (l : list regex) : regex :=
  match l with
  | [] => REmpty
  | [r] => r
  | r :: l => RSeq r (seqs l)
  end.
Definition one_of (s : string) : regex := RIn (map (fun c => (c, c)) (chars s)).

(** ** The rules, in the order of src/generated/idllexer.rs:98-112 *)
Local Open Scope N_scope.

(** rules DocComment, EmptyComment, MultiLineComment, SingleLineComment, WS.  The
    first is [.*?] up to the first end; so are the third and, for the first line
    end with the line feed after a carriage return, the fourth. *)
Definition doc_comment_rule : regex :=
  RSeq (word "/**") (RShortest (RSeq (RStar any_char) (word "*/"))).
Definition empty_comment_rule : regex := word "/**/".
Definition multi_line_comment_rule : regex :=
  seqs [word "/*"; RNot [(42, 42)]; RShortest (RSeq (RStar any_char) (word "*/"))].
Definition single_line_comment_rule : regex :=
  seqs [word "//"; RStar (RNot [(10, 10); (13, 13)]); RAlt (char_of 10) (RSeq (char_of 13) (optional (char_of 10)))].
Definition ws_rule : regex := RIn [(9, 10); (12, 13); (32, 32)].

(** fragments Digit9, Digit, HexDigit, OctDigit *)
Definition digit9_rule : regex := RIn [(49, 57)].
Definition digit_rule : regex := RAlt (char_of 48) digit9_rule.
Definition hex_digit_rule : regex := RIn [(48, 57); (65, 70); (97, 102)].
Definition oct_digit_rule : regex := RIn [(48, 55)].

(** rule StringLiteral: the loop is non-greedy, and a double quote is one of its
    characters *)
Definition escape_rule : regex :=
  alts [RIn [(34, 34); (39, 39); (92, 92); (98, 98); (102, 102); (110, 110); (114, 114); (116, 116)];
        RSeq oct_digit_rule (optional oct_digit_rule);
        seqs [RIn [(48, 51)]; oct_digit_rule; oct_digit_rule];
        seqs [char_of 117; hex_digit_rule; hex_digit_rule; hex_digit_rule; hex_digit_rule]].
Definition string_char_rule : regex :=
  RAlt (RNot [(8, 10); (12, 13); (92, 92)]) (RSeq (char_of 92) escape_rule).
Definition string_literal_rule : regex :=
  RSeq (char_of 34) (RShortest (RSeq (RStar string_char_rule) (char_of 34))).

(** rules IntegerLiteral, DecimalLiteral, HexLiteral, OctalLiteral *)
Definition integer_literal_rule : regex :=
  seqs [optional (char_of 45);
        alts [RSeq digit9_rule (RStar digit_rule);
              seqs [char_of 48; one_of "Xx"; plus hex_digit_rule];
              RSeq (char_of 48) (RStar oct_digit_rule)];
        optional (one_of "Ll")].

(** rules FloatingPointLiteral, DecimalFloatingPointLiteral, DecimalExponent,
    HexadecimalFloatingPointLiteral, HexadecimalExponent *)
Definition decimal_exponent_rule : regex := seqs [one_of "Ee"; optional (one_of "+-"); plus digit_rule].
Definition float_suffix_rule : regex := one_of "DFdf".
Definition decimal_float_rule : regex :=
  RAlt (seqs [RAlt (seqs [plus digit_rule; char_of 46; RStar digit_rule]) (RSeq (char_of 46) (plus digit_rule));
              optional decimal_exponent_rule; optional float_suffix_rule])
       (RSeq (plus digit_rule) (RAlt (RSeq decimal_exponent_rule (optional float_suffix_rule)) float_suffix_rule)).
Definition hex_exponent_rule : regex := seqs [one_of "Pp"; optional (one_of "+-"); plus digit_rule].
Definition hex_float_rule : regex :=
  seqs [char_of 48; one_of "Xx";
        RAlt (RSeq (plus hex_digit_rule) (optional (char_of 46)))
             (seqs [RStar hex_digit_rule; char_of 46; plus hex_digit_rule]);
        hex_exponent_rule; optional float_suffix_rule].
Definition float_literal_rule : regex :=
  RSeq (optional (one_of "+-")) (alts [word "NaN"; word "Infinity"; decimal_float_rule; hex_float_rule]).

(** rules IdentifierToken, IdentifierPart *)
Definition identifier_part_rule : regex := RSeq (RIn identifier_start_ranges) (RStar (RIn identifier_part_ranges)).
Definition identifier_name_rule : regex :=
  RAlt (seqs [char_of 96; identifier_part_rule; char_of 96]) identifier_part_rule.
Definition identifier_rule : regex :=
  RSeq identifier_name_rule (RStar (RSeq (RIn [(45, 46)]) identifier_name_rule)).

(** The words and signs: src/generated/idllexer.rs:113-125, the literal names *)
Definition keyword_rules : list (token_type * string) :=
  [(T_Protocol, "protocol"); (T_Namespace, "namespace"); (T_Import, "import"); (T_IDL, "idl");
   (T_Schema, "schema"); (T_Enum, "enum"); (T_Fixed, "fixed"); (T_Error, "error"); (T_Record, "record");
   (T_Array, "array"); (T_Map, "map"); (T_Union, "union"); (T_Boolean, "boolean"); (T_Int, "int");
   (T_Long, "long"); (T_Float, "float"); (T_Double, "double"); (T_String, "string"); (T_Bytes, "bytes");
   (T_Null, "null"); (T_BTrue, "true"); (T_BFalse, "false"); (T_Decimal, "decimal"); (T_Date, "date");
   (T_Time, "time_ms"); (T_Timestamp, "timestamp_ms"); (T_LocalTimestamp, "local_timestamp_ms");
   (T_UUID, "uuid"); (T_Void, "void"); (T_Oneway, "oneway"); (T_Throws, "throws")]%string.
Definition sign_rules : list (token_type * string) :=
  [(T_LParen, "("); (T_RParen, ")"); (T_LBrace, "{"); (T_RBrace, "}"); (T_LBracket, "["); (T_RBracket, "]");
   (T_Colon, ":"); (T_Semicolon, ";"); (T_Comma, ","); (T_At, "@"); (T_Equals, "="); (T_Dot, "."); (T_Dash, "-");
   (T_QuestionMark, "?"); (T_LT, "<"); (T_GT, ">")]%string.

Definition lexer_rules : list (token_type * regex) :=
  [(T_End, char_of 26);
   (T_DocComment, doc_comment_rule); (T_EmptyComment, empty_comment_rule);
   (T_MultiLineComment, multi_line_comment_rule); (T_SingleLineComment, single_line_comment_rule);
   (T_WS, ws_rule)]
  ++ map (fun kw => (fst kw, word (snd kw))) (keyword_rules ++ sign_rules)
  ++ [(T_StringLiteral, string_literal_rule); (T_IntegerLiteral, integer_literal_rule);
      (T_FloatingPointLiteral, float_literal_rule); (T_IdentifierToken, identifier_rule)].
Local Close Scope N_scope.

(** ** Taking the text apart *)

(** The runtime's step: all rules move on together, and those with no state left
    drop out *)
Definition advance_all (c : N) (rules : list (token_type * regex)) : list (token_type * regex) :=
  filter (fun kr => negb (dead (snd kr))) (map (fun kr => (fst kr, advance c (snd kr))) rules).
(** Of the rules whose end has been reached, the first *)
Fixpoint accepted (rules : list (token_type * regex)) : option token_type :=
  match rules with
  | [] => None
  | (k, r) :: l => if accepting r then Some k else accepted l
  end.

(** The runtime's matching of one token, called from
    src/generated/idllexer.rs:234-236 [next_token]: the last place where a rule
    ended, and the place where no rule could go on, just after the character that
    stopped it *)
Fixpoint scan (rules : list (token_type * regex)) (best : option (nat * token_type)) (n : nat) (s : list N)
    : option (nat * token_type) * nat :=
  match s with
  | [] => (best, n)
  | c :: s' =>
      match advance_all c rules with
      | [] => (best, S n)
      | rules' =>
          scan rules' (match accepted rules' with Some k => Some (S n, k) | None => best end) (S n) s'
      end
  end.

(** One piece of the text: a token, or ([None]) what the runtime's recovery
    skips after reporting a token recognition error *)
Definition piece : Type := option token_type * list N.

(** The runtime's loop over the text; [fuel] is its length *)
Fixpoint pieces (fuel : nat) (s : list N) : list piece :=
  match fuel with
  | O => []
  | S fuel =>
      match s with
      | [] => []
      | _ :: _ =>
          match scan lexer_rules None 0 s with
          | (Some (n, k), _) => (Some k, firstn n s) :: pieces fuel (skipn n s)
          | (None, n) => (None, firstn n s) :: pieces fuel (skipn n s)
          end
      end
  end.
Definition cut (s : list N) : list piece := pieces (length s) s.

(** The actions of the table: these types are skipped, and never become tokens *)
Definition skipped (k : token_type) : bool :=
  match k with
  | T_EmptyComment | T_MultiLineComment | T_SingleLineComment | T_WS => true
  | _ => false
  end.
(** Doc comments go to the hidden channel *)
Definition hidden (k : token_type) : bool := same_type k T_DocComment.

(** A token of the stream: its text, its place in the source in bytes, and its
    index in the stream *)
Record lexeme := mkLexeme {
  lx_type : token_type;
  lx_text : string;
  lx_offset : N;
  lx_index : nat
}.

(** The runtime's token stream, without the end-of-file token *)
Fixpoint stream (l : list piece) (offset : N) (index : nat) : list lexeme :=
  match l with
  | [] => []
  | (k, t) :: l =>
      let offset' := (offset + N.of_nat (String.length (of_chars t)))%N in
      match k with
      | Some k =>
          if skipped k then stream l offset' index
          else mkLexeme k (of_chars t) offset index :: stream l offset' (S index)
      | None => stream l offset' index
      end
  end.

(** What the parser sees *)
Definition visible (l : list lexeme) : list lexeme := filter (fun x => negb (hidden (lx_type x))) l.

(** What src/doc_comments.rs sees: every token, and the one at the end *)
Definition doc_tokens (l : list lexeme) : list token :=
  map (fun x => mkToken (if same_type (lx_type x) T_DocComment then TDocComment else TOther) (lx_text x)) l
  ++ [mkToken TOther "<EOF>"].

(** The text of token recognition errors, left open: a function of what comes
    before in the source and of the text that was skipped *)
Class LexerMessages := { recognition_message : list N -> list N -> string }.
Fixpoint lexer_warnings `{LexerMessages} (before : list N) (l : list piece) : list string :=
  match l with
  | [] => []
  | (k, t) :: l =>
      match k with
      | None => recognition_message before t :: lexer_warnings (before ++ t) l
      | Some _ => lexer_warnings (before ++ t) l
      end
  end.
