(** What the reports of syntax errors say about the source, without the code. *)
From Coq Require Import ZArith.
From Verif Require Export SpecComment Refine.

(** ** Texts *)

(** The bytes of a text in UTF-8 *)
Definition bytes (l : text) : nat := String.length (of_chars l).

(** A letter, a digit or an underscore of ASCII; a backtick besides *)
Definition in_word (c : N) : Prop := (48 <= c <= 57 \/ 65 <= c <= 90 \/ 97 <= c <= 122 \/ c = 95)%N.
Definition in_name (c : N) : Prop := in_word c \/ c = 96%N.

Definition mentions (p l : text) : Prop := exists a b, l = a ++ p ++ b.

(** [l] does not end with a character of the class. *)
Definition not_after (class : N -> Prop) (l : text) : Prop := forall a c, l = a ++ [c] -> ~ class c.

(** [w] is the whole word at the end of [a ++ w], where [a] stands before it. *)
Definition last_word (class : N -> Prop) (a w : text) : Prop := w <> [] /\ Forall class w /\ not_after class a.

(** ** Errors and where they are *)

(** Where the error is: the text before it *)
Definition preceded_by (source : text) (e : syntax_error) (before : text) : Prop :=
  exists rest, source = before ++ rest /\ se_offset e = bytes before.
(** ... and the text under it *)
Definition at_text (source : text) (e : syntax_error) (before tok : text) : Prop :=
  exists after, source = before ++ tok ++ after /\ se_offset e = bytes before /\ se_length e = bytes tok.
Definition surrounded (mid l : text) : Prop := exists a b, l = a ++ mid ++ b /\ all_space a /\ all_space b.

(** The message begins with the line and the column. *)
Definition digits (l : text) : Prop := Forall (fun c => (48 <= c <= 57)%N) l.
Definition position (p : text) : Prop :=
  exists line column, digits line /\ digits column /\ p = chars "line " ++ line ++ chars ":" ++ column ++ chars " ".
Definition positioned (e : syntax_error) (p : text) : Prop := position p /\ exists shown, se_message e = p ++ shown.

(** An error of the parser: it starts where a character starts, or at the end,
    and its message begins with line and column. *)
Definition well_placed (source : text) (e : syntax_error) : Prop :=
  (exists before, preceded_by source e before) /\ exists p, positioned e p.

(** ** Braces *)

(** The inside of a string literal: anything but quotes that are not escaped *)
Inductive literal_body : text -> Prop :=
| body_nil : literal_body []
| body_plain c r : c <> 34%N -> c <> 92%N -> literal_body r -> literal_body (c :: r)
| body_escape c r : literal_body r -> literal_body (92%N :: c :: r).

(** Text in which every brace has its partner, braces in string literals aside *)
Inductive balanced : text -> Prop :=
| bal_nil : balanced []
| bal_char c r : c <> 34%N -> c <> 123%N -> c <> 125%N -> balanced r -> balanced (c :: r)
| bal_literal s r : literal_body s -> balanced r -> balanced (34%N :: s ++ 34%N :: r)
| bal_braces b r : balanced b -> balanced r -> balanced (123%N :: b ++ 125%N :: r).

(** Text that ends outside string literals *)
Inductive whole_literals : text -> Prop :=
| wl_nil : whole_literals []
| wl_char c r : c <> 34%N -> whole_literals r -> whole_literals (c :: r)
| wl_literal s r : literal_body s -> whole_literals r -> whole_literals (34%N :: s ++ 34%N :: r).

(** A string literal that is never closed *)
Definition unclosed_literal (l : text) : Prop :=
  exists s, literal_body s /\ (l = 34%N :: s \/ l = 34%N :: s ++ [92%N]).

(** The last brace of [a ++ "{" ++ b] that is open at the end is the one after
    [a]. *)
Definition innermost_open (l a : text) : Prop :=
  exists b, l = a ++ [123%N] ++ b /\ whole_literals a
    /\ (balanced b \/ exists b1 b2, b = b1 ++ b2 /\ balanced b1 /\ unclosed_literal b2).

(** What a brace after [b] opens, from its keyword *)
Definition named_constructs : list (text * text) :=
  [(chars "protocol", chars "protocol"); (chars "record", chars "record");
   (chars "error", chars "error record"); (chars "enum", chars "enum")].
Definition constructs : list (text * text) := named_constructs ++ [(chars "union", chars "union")].
Inductive opens : text -> text -> Prop :=
| opens_bare u kw s name : In (kw, name) constructs -> not_after in_name u -> all_space s -> opens (u ++ kw ++ s) name
| opens_named u kw s1 n s2 name : In (kw, name) named_constructs -> not_after in_word u -> all_space s1 ->
    last_word in_name (u ++ kw ++ s1) n -> ~ In n (map fst constructs) -> all_space s2 ->
    opens (u ++ kw ++ s1 ++ n ++ s2) name.
Definition opens_what (b : text) (o : option text) : Prop :=
  match o with Some name => opens b name | None => forall name, ~ opens b name end.

(** ** Diagnoses *)

(** [d source e r]: the error [e] is explained by the report [r]. *)
Definition diagnosis := text -> syntax_error -> syntax_error -> Prop.

(** [union { }] *)
Inductive empty_union (source : text) (e : syntax_error) : syntax_error -> Prop :=
| EmptyUnion u s1 s2 p :
    preceded_by source e (u ++ chars "union" ++ s1 ++ chars "{" ++ s2) -> all_space s1 -> all_space s2 ->
    mentions (chars "`}`") (se_message e) -> positioned e p ->
    empty_union source e
      (mkSyntaxError (bytes u) (bytes (chars "union" ++ s1 ++ chars "{" ++ s2) + se_length e)
         (p ++ chars "union must contain at least one type member") (Some (chars "empty union"))
         (Some (chars "add at least one type inside the braces, e.g., `union { null, string }`"))).

(** [map< >] and [array< >] *)
Inductive empty_parameter (source : text) (e : syntax_error) : syntax_error -> Prop :=
| EmptyParameter u kw s1 s2 tok p :
    In kw [chars "map"; chars "array"] ->
    at_text source e (u ++ kw ++ s1 ++ chars "<" ++ s2) tok -> all_space s1 -> all_space s2 ->
    surrounded (chars ">") tok -> positioned e p ->
    empty_parameter source e
      (mkSyntaxError (bytes u) (bytes (kw ++ s1 ++ chars "<" ++ s2) + se_length e)
         (p ++ chars "`" ++ kw ++ chars "` type requires a type parameter") (Some (chars "missing type inside `<>`"))
         (Some (chars "specify the value type, e.g., `" ++ kw ++ chars "<string>`"))).

(** [fixed Name(size] before the error, where no parenthesis opens later *)
Inductive bad_size (source : text) (e : syntax_error) : syntax_error -> Prop :=
| BadSize u s1 name s2 size shown p :
    preceded_by source e (u ++ chars "fixed" ++ s1 ++ name ++ s2 ++ chars "(" ++ size) ->
    all_space s1 -> all_space s2 -> last_word in_word (u ++ chars "fixed" ++ s1) name -> ~ In 40%N size ->
    trimmed size shown -> mentions (chars "`)`") (se_message e) -> positioned e p ->
    bad_size source e
      (mkSyntaxError (bytes (u ++ chars "fixed" ++ s1 ++ name ++ s2 ++ chars "(")) (Nat.max 1 (bytes size))
         (p ++ chars "fixed type requires an integer size -- use `fixed " ++ name
          ++ chars "(<integer>)`, e.g., `fixed " ++ name ++ chars "(16)`")
         (Some (chars "`" ++ shown ++ chars "` is not an integer")) None).

(** [protocol {], [record {], ... *)
Definition declarations : list (text * text * text) :=
  [(chars "protocol", chars "protocol", chars "MyProtocol"); (chars "record", chars "record", chars "MyRecord");
   (chars "enum", chars "enum", chars "MyEnum"); (chars "fixed", chars "fixed", chars "MyFixed");
   (chars "error", chars "error record", chars "MyError")].
Inductive no_name (source : text) (e : syntax_error) : syntax_error -> Prop :=
| NoName u kw construct example s tok p :
    In (kw, construct, example) declarations -> not_after in_word u -> all_space s ->
    at_text source e (u ++ kw ++ s) tok -> surrounded (chars "{") tok -> positioned e p ->
    no_name source e
      (mkSyntaxError (se_offset e) (se_length e)
         (p ++ chars "expected name after `" ++ kw ++ chars "`, found `{`")
         (Some (chars "expected " ++ construct ++ chars " name before `{`"))
         (Some (chars "add a name, e.g., `" ++ kw ++ chars " " ++ example ++ chars " { ... }`"))).

(** A comma before the closing brace, with [enum] and an opening brace before *)
Definition symbol_before (u symbol : text) : Prop :=
  exists v s, u = v ++ symbol ++ s /\ all_space s /\ Forall in_word symbol /\ not_after in_word v
    /\ not_after (fun c => In c white_space) (v ++ symbol).
Inductive trailing_comma (source : text) (e : syntax_error) : syntax_error -> Prop :=
| TrailingComma u s tok a b symbol p :
    at_text source e (u ++ chars "," ++ s) tok -> all_space s -> surrounded (chars "}") tok ->
    u ++ chars "," ++ s = a ++ chars "enum" ++ b -> In 123%N b -> symbol_before u symbol -> positioned e p ->
    trailing_comma source e
      (mkSyntaxError (bytes u) 1 (p ++ chars "trailing comma is not allowed in enum declaration")
         (Some (chars "trailing comma"))
         (Some (match symbol with
                | [] => chars "remove the trailing comma"
                | _ => chars "remove the comma after `" ++ symbol ++ chars "`"
                end))).

(** A word and a name before the error, where the word resembles a keyword *)
Inductive misspelled (source : text) (e : syntax_error) : syntax_error -> Prop :=
| Misspelled u word s1 name s2 keyword p :
    preceded_by source e (u ++ word ++ s1 ++ name ++ s2) -> all_space s1 -> all_space s2 ->
    last_word in_name (u ++ word ++ s1) name -> last_word in_word u word ->
    suggest_keyword (of_chars word) = Some keyword -> positioned e p ->
    misspelled source e
      (mkSyntaxError (bytes u) (bytes word)
         (p ++ chars "unrecognized `" ++ word ++ chars "` -- did you mean `" ++ chars keyword ++ chars "`?")
         (Some (chars "did you mean `" ++ chars keyword ++ chars "`?")) None).

(** The report of a brace that is not closed *)
Definition never_closed (a p message help : text) (what : option text) : syntax_error :=
  mkSyntaxError (bytes a) 1
    (p ++ message ++ match what with Some name => chars " for " ++ name | None => [] end)
    (Some (chars "this " ++ match what with Some name => name | None => chars "`{`" end ++ chars " is never closed"))
    (Some help).

(** [record], [enum], [error] or [fixed] with or without a name stands before
    the brace, and a brace is open there. *)
Definition type_keywords : list text := [chars "record"; chars "enum"; chars "error"; chars "fixed"].
Definition declares (before : text) : Prop :=
  exists u n s, before = u ++ n ++ s /\ all_space s /\ last_word in_name u n
    /\ (In n type_keywords
        \/ exists v kw s', u = v ++ kw ++ s' /\ all_space s' /\ not_after in_word v /\ In kw type_keywords).
Inductive missing_close (source : text) (e : syntax_error) : syntax_error -> Prop :=
| MissingClose before tok a what p :
    at_text source e before tok -> surrounded (chars "{") tok ->
    (mentions (chars "';'") (se_message e) \/ mentions (chars "','") (se_message e)) ->
    declares before -> innermost_open before a -> opens_what a what -> positioned e p ->
    missing_close source e
      (never_closed a p (chars "missing closing `}`") (chars "add a closing `}` before the next type declaration") what).

(** The file ends although a brace is open. *)
Inductive unclosed (source : text) (e : syntax_error) : syntax_error -> Prop :=
| Unclosed a what p :
    mentions (chars "unexpected end of file") (se_message e) -> innermost_open source a -> opens_what a what ->
    positioned e p ->
    unclosed source e
      (never_closed a p (chars "unexpected end of file -- missing closing `}`")
         (chars "add a closing `}` to match this opening brace") what).

(** The first diagnosis of a list that applies *)
Inductive first_diagnosis (source : text) (e : syntax_error) (r : syntax_error) : list diagnosis -> Prop :=
| fd_here (d : diagnosis) ds : d source e r -> first_diagnosis source e r (d :: ds)
| fd_later (d : diagnosis) ds : (forall r', ~ d source e r') -> first_diagnosis source e r ds -> first_diagnosis source e r (d :: ds).

(** A misspelt keyword is looked for only when there are more errors. *)
Definition diagnoses (errors : list syntax_error) : list diagnosis :=
  [empty_union; empty_parameter; bad_size; no_name; trailing_comma]
  ++ (if Nat.ltb 1 (length errors) then [misspelled] else []) ++ [missing_close].

(** What is reported for the errors of the parser *)
Inductive reported (source : text) (errors : list syntax_error) : list syntax_error -> Prop :=
| explained_first e more r : errors = e :: more -> first_diagnosis source e r (diagnoses errors) ->
    reported source errors [r]
| explained_end e more front e' r : errors = e :: more -> (forall r', ~ first_diagnosis source e r' (diagnoses errors)) ->
    errors = front ++ [e'] -> unclosed source e' r -> reported source errors (r :: front)
| unexplained e more front e' : errors = e :: more -> (forall r', ~ first_diagnosis source e r' (diagnoses errors)) ->
    errors = front ++ [e'] -> (forall r', ~ unclosed source e' r') -> reported source errors errors.

(** A span that can be shown: it starts where a character starts, is not empty
    and ends within the source, or not after the error it explains. *)
Definition span_end (e : syntax_error) : nat := se_offset e + se_length e.
Definition good_span (source : text) (e r : syntax_error) : Prop :=
  (exists before, preceded_by source r before) /\ 1 <= se_length r /\ (span_end r <= bytes source \/ span_end r <= span_end e).

(** ** Lines and columns *)

(** The line of the character after [before]; the first line is 1 *)
Definition line_of (before : text) : nat := S (count_occ N.eq_dec before 10%N).
(** The part of the line before the character *)
Definition line_start (before start : text) : Prop :=
  exists a, before = a ++ start /\ ~ In 10%N start /\ (a = [] \/ exists a', a = a' ++ [10%N]).

(** ** What ANTLR reports *)

(** An error of the parser: at a token of the source, or at its end, which is a
    token without text *)
Definition parser_error (source : text) (a : antlr_error) : Prop :=
  (exists before tok after, source = before ++ tok ++ after /\ (tok = [] -> after = [])
     /\ ae_token a = Some (Z.of_nat (bytes before), Z.of_nat (bytes before) + Z.of_nat (bytes tok) - 1)%Z)
  /\ (0 <= ae_line a)%Z /\ (0 <= ae_column a)%Z.

(** An error of the lexer: after [before], at this line and column, which
    counts characters *)
Definition lexer_error (source : text) (before : text) (a : antlr_error) : Prop :=
  exists rest start, source = before ++ rest /\ line_start before start
    /\ ae_token a = None /\ ae_line a = Z.of_nat (line_of before) /\ ae_column a = Z.of_nat (length start).

(** The message for a string literal that is not closed *)
Definition unterminated_text (body : text) : text := chars "token recognition error at: '" ++ [34%N] ++ body ++ chars "'".

(** A message as it is shown, with its position *)
Definition shown (a : antlr_error) : text :=
  chars "line " ++ show_Z (ae_line a) ++ chars ":" ++ show_Z (ae_column a) ++ chars " " ++ en_message (displayed (ae_message a)).
Definition says_unterminated (a : antlr_error) : Prop := mentions (chars "token recognition error at: '" ++ [34%N]) (shown a).
