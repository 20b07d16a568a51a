(** Reporting syntax errors: src/reader.rs:436-454 and 1062-1907, and the part
    of [parse_idl_named] (2034-2150) that turns the errors of the lexer and of
    the parser into warnings or into one diagnostic.

    The source is a list of code points; offsets and lengths count the bytes of
    its UTF-8 form, as in the code.  Slicing a [str] where no character starts
    panics, and so does the model.  The code looks for ASCII characters among
    the bytes; on UTF-8 that finds the same places.  [SpanWithSource] also
    carries the name and the text of the file, which are those of the file
    being read and are left out. *)
From Coq Require Import ZArith.
From Verif Require Export Literals Diagnose.

Local Notation t := chars (only parsing).

(** [char::len_utf8]; [str::len] is [utf8_length] *)
Definition width (c : N) : nat := length (utf8_encode_char c).

(** The panics in this part of the code: [&s[..i]] where [i] is not the start
    of a character or lies behind the end, and [errors[0]] of no errors *)
Inductive panic := BadSlice.

(** [s.split_at_checked(i)] *)
Fixpoint split_at_byte (l : text) (i : nat) : option (text * text) :=
  match i with
  | O => Some ([], l)
  | _ =>
      match l with
      | [] => None
      | c :: r =>
          if Nat.leb (width c) i then
            match split_at_byte r (i - width c) with Some (a, b) => Some (c :: a, b) | None => None end
          else None
      end
  end.

(** src/reader.rs:265-278 [SyntaxError] *)
Record syntax_error := mkSyntaxError {
  se_offset : nat; se_length : nat; se_message : text; se_label : option text; se_help : option text }.

(** The text before an error and the text under it: [source.get(offset..offset
    + length)] with [source[..offset]] *)
Definition error_text (e : syntax_error) (source : text) : option (text * text) :=
  match split_at_byte source (se_offset e) with
  | Some (before, rest) =>
      match split_at_byte rest (se_length e) with Some (tok, _) => Some (before, tok) | None => None end
  | None => None
  end.

(** src/reader.rs:1792-1811 [extract_line_prefix] *)
Definition extract_line_prefix (msg : text) : result text panic :=
  match split_once (t "line ") msg with
  | None => Ok []
  | Some (before, after_line) =>
      match split_once (t ":") after_line with
      | None => Ok []
      | Some (line, after_colon) =>
          let prefix := before ++ t "line " ++ line ++ t ":" ++ take_while ascii_digit after_colon in
          match drop_while ascii_digit after_colon with
          | [] => Ok []
          | c :: _ => if (c <? 128)%N then Ok (prefix ++ [c]) else Err BadSlice
          end
      end
  end.

(** An explanation that starts with the place named in the message, e.g.
    src/reader.rs:1233-1246 *)
Definition with_prefix (e : syntax_error) (k : text -> syntax_error) : result (option syntax_error) panic :=
  match extract_line_prefix (se_message e) with
  | Ok p => Ok (Some (k p))
  | Err x => Err x
  end.

(** Characters of names, src/reader.rs:1744-1749: ASCII letters, digits,
    underscore and backtick *)
Definition name_char (c : N) : bool := word_char c || (c =? 96)%N.

(** src/reader.rs:1208-1247 [detect_empty_union] *)
Definition detect_empty_union (e : syntax_error) (source : text) : result (option syntax_error) panic :=
  match split_at_byte source (se_offset e) with
  | None => Err BadSlice
  | Some (before, _) =>
      if negb (contains (t "`}`") (se_message e)) then Ok None
      else
        match strip_suffix (t "{") (trim_end before) with
        | None => Ok None
        | Some before_brace =>
            match strip_suffix (t "union") (trim_end before_brace) with
            | None => Ok None
            | Some before_union =>
                let offset := utf8_length before_union in
                with_prefix e (fun p =>
                  mkSyntaxError offset (se_offset e + se_length e - offset)
                    (p ++ t "union must contain at least one type member") (Some (t "empty union"))
                    (Some (t "add at least one type inside the braces, e.g., `union { null, string }`")))
            end
        end
  end.

(** src/reader.rs:1249-1297 [detect_empty_type_parameter] *)
Definition detect_empty_type_parameter (e : syntax_error) (source : text) : result (option syntax_error) panic :=
  match error_text e source with
  | None => Ok None
  | Some (before, tok) =>
      if negb (text_eqb (trim tok) (t ">")) then Ok None
      else
        match strip_suffix (t "<") (trim_end before) with
        | None => Ok None
        | Some before_angle =>
            let found keyword example before_keyword :=
              let offset := utf8_length before_keyword in
              with_prefix e (fun p =>
                mkSyntaxError offset (se_offset e + se_length e - offset)
                  (p ++ t "`" ++ keyword ++ t "` type requires a type parameter") (Some (t "missing type inside `<>`"))
                  (Some (t "specify the value type, e.g., `" ++ example ++ t "`"))) in
            match strip_suffix (t "map") (trim_end before_angle) with
            | Some b => found (t "map") (t "map<string>") b
            | None =>
                match strip_suffix (t "array") (trim_end before_angle) with
                | Some b => found (t "array") (t "array<string>") b
                | None => Ok None
                end
            end
        end
  end.

(** src/reader.rs:1736-1787 [identify_construct] *)
Definition identify_construct (before_brace : text) : option string :=
  let (before, name) := split_word name_char (trim_end before_brace) in
  match name with
  | [] => None
  | _ =>
      if text_eqb name (t "protocol") then Some "protocol"
      else if text_eqb name (t "record") then Some "record"
      else if text_eqb name (t "error") then Some "error record"
      else if text_eqb name (t "enum") then Some "enum"
      else if text_eqb name (t "union") then Some "union"
      else
        let keyword := snd (split_word word_char (trim_end before)) in
        if text_eqb keyword (t "protocol") then Some "protocol"
        else if text_eqb keyword (t "record") then Some "record"
        else if text_eqb keyword (t "error") then Some "error record"
        else if text_eqb keyword (t "enum") then Some "enum"
        else None
  end.

(** src/reader.rs:1374-1394 and 1680-1701, the two loops over the bytes, which
    are the same: the offsets of the open braces, the last one first *)
Fixpoint open_braces (pos : nat) (in_string prev_backslash : bool) (stack : list nat) (l : text) : list nat :=
  match l with
  | [] => stack
  | c :: r =>
      let pos' := pos + width c in
      if in_string then
        open_braces pos' (negb ((c =? 34)%N && negb prev_backslash)) ((c =? 92)%N && negb prev_backslash) stack r
      else if (c =? 34)%N then open_braces pos' true prev_backslash stack r
      else if (c =? open_brace)%N then open_braces pos' false prev_backslash (pos :: stack) r
      else if (c =? close_brace)%N then open_braces pos' false prev_backslash (tl stack) r
      else open_braces pos' false prev_backslash stack r
  end.
Definition brace_stack (l : text) : list nat := open_braces 0 false false [] l.

(** src/reader.rs:1396-1425 and 1703-1733, the ends of both detectors of missing
    braces, which differ in [message] and [help] *)
Definition missing_brace (e : syntax_error) (source : text) (stack : list nat) (message help : text) :
    result (option syntax_error) panic :=
  match stack with
  | [] => Ok None
  | pos :: _ =>
      match split_at_byte source pos with
      | None => Err BadSlice
      | Some (before, _) =>
          let construct := identify_construct (trim_end before) in
          with_prefix e (fun p =>
            mkSyntaxError pos 1
              (p ++ message ++ match construct with Some name => t " for " ++ t name | None => [] end)
              (Some (match construct with
                     | Some name => t "this " ++ t name ++ t " is never closed"
                     | None => t "this `{` is never closed"
                     end))
              (Some help))
      end
  end.

(** src/reader.rs:1299-1426 [detect_missing_close_brace_before_declaration] *)
Definition declares_type (w : text) : bool := text_mem w [t "record"; t "enum"; t "error"; t "fixed"].
Definition detect_missing_close_brace_before_declaration (e : syntax_error) (source : text) :
    result (option syntax_error) panic :=
  match error_text e source with
  | None => Ok None
  | Some (before, tok) =>
      if negb (text_eqb (trim tok) (t "{")) then Ok None
      else if negb (contains (t "';'") (se_message e) || contains (t "','") (se_message e)) then Ok None
      else
        let (before_name, name) := split_word name_char (trim_end before) in
        match name with
        | [] => Ok None
        | _ =>
            if declares_type name || declares_type (snd (split_word word_char (trim_end before_name))) then
              missing_brace e source (brace_stack before) (t "missing closing `}`")
                (t "add a closing `}` before the next type declaration")
            else Ok None
        end
  end.

(** src/reader.rs:1428-1481 [detect_fixed_non_integer] *)
Definition open_paren : N := 40.
Definition detect_fixed_non_integer (e : syntax_error) (source : text) : result (option syntax_error) panic :=
  if negb (contains (t "`)`") (se_message e)) then Ok None
  else
    match split_at_byte source (se_offset e) with
    | None => Err BadSlice
    | Some (before, _) =>
        let (to_paren, size) := split_word (fun c => negb (c =? open_paren)%N) before in
        match to_paren with
        | [] => Ok None
        | _ =>
            let (before_name, name) := split_word word_char (trim_end (removelast to_paren)) in
            match name with
            | [] => Ok None
            | _ =>
                if negb (ends_with (t "fixed") (trim_end before_name)) then Ok None
                else
                  with_prefix e (fun p =>
                    mkSyntaxError (utf8_length to_paren) (match utf8_length size with O => 1 | n => n end)
                      (p ++ t "fixed type requires an integer size -- use `fixed " ++ name
                       ++ t "(<integer>)`, e.g., `fixed " ++ name ++ t "(16)`")
                      (Some (t "`" ++ trim size ++ t "` is not an integer")) None)
            end
        end
    end.

(** src/reader.rs:1483-1538 [detect_missing_name] *)
Definition capitalized (l : text) : text :=
  match l with c :: r => (if ((97 <=? c) && (c <=? 122))%N then (c - 32)%N else c) :: r | [] => [] end.
Definition detect_missing_name (e : syntax_error) (source : text) : result (option syntax_error) panic :=
  match error_text e source with
  | None => Ok None
  | Some (before, tok) =>
      if negb (text_eqb (trim tok) (t "{")) then Ok None
      else
        let keyword := snd (split_word word_char (trim_end before)) in
        let found construct :=
          with_prefix e (fun p =>
            mkSyntaxError (se_offset e) (se_length e)
              (p ++ t "expected name after `" ++ keyword ++ t "`, found `{`")
              (Some (t "expected " ++ construct ++ t " name before `{`"))
              (Some (t "add a name, e.g., `" ++ keyword ++ t " My" ++ capitalized keyword ++ t " { ... }`"))) in
        if text_mem keyword [t "protocol"; t "record"; t "enum"; t "fixed"] then found keyword
        else if text_eqb keyword (t "error") then found (t "error record")
        else Ok None
  end.

(** src/reader.rs:1562-1568: whether some [enum] is followed by a brace; the
    order of the search does not matter *)
Fixpoint enum_with_brace (l : text) : bool :=
  match l with
  | [] => false
  | _ :: r =>
      match strip_prefix (t "enum") l with Some after => contains (t "{") after | None => false end
      || enum_with_brace r
  end.

(** src/reader.rs:1540-1607 [detect_trailing_comma_in_enum] *)
Definition detect_trailing_comma_in_enum (e : syntax_error) (source : text) : result (option syntax_error) panic :=
  match error_text e source with
  | None => Ok None
  | Some (before, tok) =>
      if negb (text_eqb (trim tok) (t "}")) then Ok None
      else
        match strip_suffix (t ",") (trim_end before) with
        | None => Ok None
        | Some before_comma =>
            if negb (enum_with_brace before) then Ok None
            else
              let symbol := snd (split_word word_char (trim_end before_comma)) in
              with_prefix e (fun p =>
                mkSyntaxError (utf8_length before_comma) 1
                  (p ++ t "trailing comma is not allowed in enum declaration") (Some (t "trailing comma"))
                  (Some (match symbol with
                         | [] => t "remove the trailing comma"
                         | _ => t "remove the comma after `" ++ symbol ++ t "`"
                         end)))
        end
  end.

(** src/reader.rs:1609-1668 [detect_misspelled_keyword] *)
Definition detect_misspelled_keyword (e : syntax_error) (source : text) : result (option syntax_error) panic :=
  match split_at_byte source (se_offset e) with
  | None => Err BadSlice
  | Some (before, _) =>
      let (before_name, name) := split_word name_char (trim_end before) in
      match name with
      | [] => Ok None
      | _ =>
          let (before_candidate, candidate) := split_word word_char (trim_end before_name) in
          match candidate with
          | [] => Ok None
          | _ =>
              match suggest_keyword (of_chars candidate) with
              | None => Ok None
              | Some suggestion =>
                  with_prefix e (fun p =>
                    mkSyntaxError (utf8_length before_candidate) (utf8_length candidate)
                      (p ++ t "unrecognized `" ++ candidate ++ t "` -- did you mean `" ++ t suggestion ++ t "`?")
                      (Some (t "did you mean `" ++ t suggestion ++ t "`?")) None)
              end
          end
      end
  end.

(** src/reader.rs:1670-1734 [detect_unclosed_brace] *)
Definition detect_unclosed_brace (e : syntax_error) (source : text) : result (option syntax_error) panic :=
  if negb (contains (t "unexpected end of file") (se_message e)) then Ok None
  else
    missing_brace e source (brace_stack source) (t "unexpected end of file -- missing closing `}`")
      (t "add a closing `}` to match this opening brace").

(** The detectors in turn: the first one that finds something *)
Fixpoint first_refined (ds : list (syntax_error -> text -> result (option syntax_error) panic))
    (e : syntax_error) (source : text) : result (option syntax_error) panic :=
  match ds with
  | [] => Ok None
  | d :: ds =>
      match d e source with
      | Ok None => first_refined ds e source
      | found => found
      end
  end.

(** src/reader.rs:1075-1206 [refine_errors_with_source] *)
Definition refine_errors_with_source (errors : list syntax_error) (source : text) :
    result (option (list syntax_error)) panic :=
  match errors with
  | [] => Ok None
  | first :: more =>
      match
        first_refined
          ([detect_empty_union; detect_empty_type_parameter; detect_fixed_non_integer; detect_missing_name;
            detect_trailing_comma_in_enum]
           ++ match more with [] => [] | _ => [detect_misspelled_keyword] end
           ++ [detect_missing_close_brace_before_declaration]) first source
      with
      | Err x => Err x
      | Ok (Some refined) => Ok (Some [refined])
      | Ok None =>
          match detect_unclosed_brace (last errors first) source with
          | Err x => Err x
          | Ok (Some refined) => Ok (Some (refined :: removelast errors))
          | Ok None => Ok None
          end
      end
  end.

(** ** What ANTLR reports *)

(** src/reader.rs:1815-1828 [line_col_to_byte_offset] *)
Fixpoint line_offset (ls : list text) (target : nat) (column offset : nat) : nat :=
  match ls with
  | [] => 0
  | l :: r =>
      match target with
      | O => offset + Nat.min column (utf8_length l)
      | S n => line_offset r n column (offset + utf8_length l + 1)
      end
  end.
Definition line_col_to_byte_offset (source : text) (line column : Z) : nat :=
  if ((line <=? 0) || (column <? 0))%Z then 0
  else line_offset (split_at 10%N source) (Z.to_nat (line - 1)) (Z.to_nat column) 0.

(** The arguments of [ErrorListener::syntax_error] that are used: the offsets
    of the first and the last byte of the offending token, where there is one,
    and the line, the column and the text *)
Record antlr_error := mkAntlrError { ae_token : option (Z * Z); ae_line : Z; ae_column : Z; ae_message : text }.

(** How Rust prints an [isize] *)
Fixpoint show_uint (u : Decimal.uint) : text :=
  match u with
  | Decimal.Nil => []
  | Decimal.D0 u => 48%N :: show_uint u
  | Decimal.D1 u => 49%N :: show_uint u
  | Decimal.D2 u => 50%N :: show_uint u
  | Decimal.D3 u => 51%N :: show_uint u
  | Decimal.D4 u => 52%N :: show_uint u
  | Decimal.D5 u => 53%N :: show_uint u
  | Decimal.D6 u => 54%N :: show_uint u
  | Decimal.D7 u => 55%N :: show_uint u
  | Decimal.D8 u => 56%N :: show_uint u
  | Decimal.D9 u => 57%N :: show_uint u
  end.
Definition show_Z (z : Z) : text :=
  match z with
  | Zneg p => 45%N :: show_uint (Pos.to_uint p)
  | Z0 => [48%N]
  | Zpos p => show_uint (Pos.to_uint p)
  end.

(** src/reader.rs:1846-1906 [CollectingErrorListener::syntax_error]; [source]
    is given for the lexer only *)
Definition collected (source : option text) (a : antlr_error) : syntax_error :=
  let (offset, length) :=
    match ae_token a with
    | Some (start, stop) =>
        if ((0 <=? start) && (start <=? stop))%Z then (Z.to_nat start, Z.to_nat (stop - start + 1))
        else if (0 <=? start)%Z then (Z.to_nat start, 1)
        else (0, 0)
    | None =>
        match source with
        | Some s => (line_col_to_byte_offset s (ae_line a) (ae_column a), 1)
        | None => (0, 0)
        end
    end in
  let shown := displayed (ae_message a) in
  mkSyntaxError offset length
    (t "line " ++ show_Z (ae_line a) ++ t ":" ++ show_Z (ae_column a) ++ t " " ++ en_message shown)
    (en_label shown) (en_help shown).

(** src/reader.rs:436-454 [is_unterminated_string_lexer_error], [find_unterminated_string_error] *)
Definition is_unterminated_string_lexer_error (msg : text) : bool :=
  contains (t "token recognition error at: '" ++ dq) msg.
Definition find_unterminated_string_error (es : list syntax_error) : option syntax_error :=
  find (fun e => is_unterminated_string_lexer_error (se_message e)) es.

(** What becomes of the errors: warnings when the parser has none, or one
    diagnostic with its related ones *)
Inductive syntax_outcome :=
| Parsed (warnings : list (text * nat * nat))
| Rejected (first : syntax_error) (related : list syntax_error).

(** src/reader.rs:2099-2119: the message for an unterminated string *)
Definition unterminated_message (msg : text) : text :=
  match split_once (t "token recognition error") msg with
  | Some (before, _) =>
      match trim_end before with
      | [] => t "unterminated string literal"
      | p => p ++ t " unterminated string literal"
      end
  | None => t "unterminated string literal"
  end.

(** src/reader.rs:2034-2150, in [parse_idl_named]: [lexer] and [parser] are the
    errors reported while parsing [source] *)
Definition syntax_errors_reported (source : text) (lexer parser : list antlr_error) :
    result syntax_outcome panic :=
  let lexer_errors := map (collected (Some source)) lexer in
  let parser_errors := map (collected None) parser in
  match parser_errors with
  | [] => Ok (Parsed (map (fun e => (se_message e, se_offset e, se_length e)) lexer_errors))
  | first :: more =>
      match find_unterminated_string_error lexer_errors with
      | Some e =>
          Ok (Rejected
                (mkSyntaxError (se_offset e) (se_length e) (unterminated_message (se_message e))
                   (Some (t "unterminated string literal"))
                   (Some (t "string literals must be closed with a `" ++ dq ++ t "` on the same line"))) [])
      | None =>
          match refine_errors_with_source parser_errors source with
          | Err x => Err x
          | Ok (Some (r :: rs)) => Ok (Rejected r rs)
          | Ok (Some []) => Err BadSlice
          | Ok None => Ok (Rejected first more)
          end
      end
  end.
