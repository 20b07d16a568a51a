(** Rewriting the messages of the ANTLR parser: src/reader.rs:306-1060.

    Texts are lists of code points.  The code walks over bytes where it looks
    for ASCII characters; on UTF-8 that finds the same places. *)
From Verif Require Export Doc Suggest.

Definition text := list N.

Section Text.
  Local Open Scope N_scope.

  Definition quote : N := 39.                        (* single quote *)
  Definition comma : N := 44.
  Definition open_brace : N := 123.
  Definition close_brace : N := 125.
  Definition at_sign : N := 64.

  Fixpoint text_eqb (a b : text) : bool :=
    match a, b with
    | [], [] => true
    | x :: a, y :: b => (x =? y) && text_eqb a b
    | _, _ => false
    end.
  Definition text_mem (a : text) (l : list text) : bool := existsb (text_eqb a) l.

  (** [str::find] with the text before and after the first occurrence *)
  Fixpoint split_once (p l : text) : option (text * text) :=
    match strip_prefix p l with
    | Some r => Some ([], r)
    | None =>
        match l with
        | [] => None
        | c :: r => match split_once p r with Some (a, b) => Some (c :: a, b) | None => None end
        end
    end.
  Definition contains (p l : text) : bool := match split_once p l with Some _ => true | None => false end.
  Definition starts_with (p l : text) : bool := match strip_prefix p l with Some _ => true | None => false end.
  Definition ends_with (p l : text) : bool := match strip_suffix p l with Some _ => true | None => false end.

  (** [str::replace] for a pattern that is not empty; [fuel]: the length *)
  Fixpoint replace_from (fuel : nat) (p by_ l : text) : text :=
    match fuel with
    | O => l
    | S n => match split_once p l with Some (a, b) => a ++ by_ ++ replace_from n p by_ b | None => l end
    end.
  Definition replace (p by_ l : text) : text := replace_from (length l) p by_ l.
  (** [str::replacen] with 1 *)
  Definition replace_first (p by_ l : text) : text :=
    match split_once p l with Some (a, b) => a ++ by_ ++ b | None => l end.

  (** [str::split] at a character; always at least one piece *)
  Fixpoint split_at (c : N) (l : text) : list text :=
    match l with
    | [] => [[]]
    | x :: r =>
        if x =? c then [] :: split_at c r
        else match split_at c r with p :: ps => (x :: p) :: ps | [] => [[x]] end
    end.
  (** [str::trim_matches] for single quotes *)
  Definition trim_quotes (l : text) : text :=
    rev (drop_while (N.eqb quote) (rev (drop_while (N.eqb quote) l))).
  Fixpoint join (sep : text) (ls : list text) : text :=
    match ls with
    | [] => []
    | [l] => l
    | l :: r => l ++ sep ++ join sep r
    end.
  (** Keeps the first of equal elements, as filtering by [HashSet::insert] does *)
  Fixpoint firsts (seen ls : list text) : list text :=
    match ls with
    | [] => []
    | l :: r => if text_mem l seen then firsts seen r else l :: firsts (l :: seen) r
    end.

  (** [u8::is_ascii_alphanumeric] or an underscore *)
  Definition word_char (c : N) : bool := ascii_letter c || ascii_digit c || (c =? 95).

  (** The run of characters satisfying [p] at the end of a text, and the rest:
      src/reader.rs, [bytes().rposition(...)] everywhere below *)
  Definition split_word (p : N -> bool) (l : text) : text * text :=
    (rev (drop_while p (rev l)), rev (take_while p (rev l))).
End Text.

Local Notation t := chars (only parsing).

(** src/reader.rs:715-738 [split_token_set], from the loop at some character
    on; [start]: the characters since the last comma, last first *)
Fixpoint split_tokens (in_quotes : bool) (start : text) (l : text) : list text :=
  let emit (rest : list text) := match trim (rev start) with [] => rest | tok => tok :: rest end in
  match l with
  | [] => emit []
  | c :: r =>
      if (c =? quote)%N then split_tokens (negb in_quotes) (c :: start) r
      else if (c =? comma)%N && negb in_quotes then emit (split_tokens in_quotes [] r)
      else split_tokens in_quotes (c :: start) r
  end.
Definition split_token_set (set : text) : list text := split_tokens false [] set.

(** src/reader.rs:743-753 [find_closing_brace]: the texts before and after *)
Fixpoint closing_brace (in_quotes : bool) (l : text) : option (text * text) :=
  match l with
  | [] => None
  | c :: r =>
      let continue q := match closing_brace q r with Some (a, b) => Some (c :: a, b) | None => None end in
      if (c =? quote)%N then continue (negb in_quotes)
      else if (c =? close_brace)%N && negb in_quotes then Some ([], r)
      else continue in_quotes
  end.
Definition find_closing_brace (l : text) : option (text * text) := closing_brace false l.

(** src/reader.rs:760-768 [humanize_token_name] *)
Definition humanize_token_name (name : text) : text :=
  if text_eqb name (t "IdentifierToken") then t "identifier"
  else if text_eqb name (t "StringLiteral") then t "string literal"
  else if text_eqb name (t "IntegerLiteral") then t "integer literal"
  else if text_eqb name (t "FloatingPointLiteral") then t "floating-point literal"
  else name.

(** src/reader.rs:782-790 [humanize_antlr_message] *)
Definition humanize_antlr_message (msg : text) : text :=
  fold_left (fun m p => replace (t (fst p)) (t (snd p)) m)
    [("IdentifierToken", "identifier"); ("StringLiteral", "string literal");
     ("IntegerLiteral", "integer literal"); ("FloatingPointLiteral", "floating-point literal")] msg.

(** src/reader.rs:795-800 [extract_expecting_tokens] *)
Definition extract_expecting_tokens (msg : text) : option text :=
  match split_once (t "expecting {") msg with
  | Some (_, r) => match split_once [close_brace] r with Some (set, _) => Some set | None => None end
  | None => None
  end.

(** src/reader.rs:804-809 [count_tokens_in_set] *)
Definition count_tokens_in_set (set : text) : nat :=
  match trim set with [] => 0 | _ => length (split_at comma set) end.

(** src/reader.rs:814-822 [extract_quoted_token] *)
Definition extract_quoted_token (msg prefix : text) : option text :=
  match split_once prefix msg with
  | Some (_, c :: r) => if (c =? quote)%N then option_map fst (split_once [quote] r) else None
  | _ => None
  end.

(** src/reader.rs:829-833, 840-842 *)
Definition expects_string_literal (tokens : text) : bool :=
  existsb (fun tok => text_eqb (trim_quotes (trim tok)) (t "StringLiteral")) (split_at comma tokens).
Definition expects_close_brace (tokens : text) : bool := text_mem (t "'}'") (split_token_set tokens).

(** src/reader.rs:848-862 [looks_like_bare_identifier] *)
Definition looks_like_bare_identifier (token : text) : bool :=
  match token with
  | [] => false
  | c :: r =>
      negb (text_mem token [t "null"; t "true"; t "false"])
      && (ascii_letter c || (c =? 95)%N) && forallb word_char r
  end.

(** ** Enriched messages *)

(** src/reader.rs:299-308 [EnrichedError] *)
Record enriched := mkEnriched { en_message : text; en_label : option text; en_help : option text }.

(** src/reader.rs:868-877 [append_quoting_hint] *)
Definition dq : text := [34%N].
Definition append_quoting_hint (help : option text) (offending : text) : text :=
  let hint := t "hint: did you mean " ++ dq ++ offending ++ dq ++ t "? Enum default values must be quoted strings" in
  match help with Some h => h ++ [10%N] ++ hint | None => hint end.

(** src/reader.rs:592-607 [format_expected_help] *)
Definition format_expected_help (tokens : text) : option text :=
  let kept := filter (fun tok => match tok with [] => false | _ => true end) (map trim (split_at comma tokens)) in
  let kept := filter (fun tok => negb (text_mem tok [t "DocComment"; t "'\u001A'"; t "<EOF>"])) kept in
  match firsts [] (map (fun tok => humanize_token_name (trim_quotes tok)) kept) with
  | [] => None
  | cleaned => Some (t "expected one of: " ++ join (t ", ") cleaned)
  end.

(** src/reader.rs:526-584 [build_unexpected_token_error] *)
Definition build_unexpected_token_error (offending : text) (help : option text) (string_ok brace_ok : bool) : enriched :=
  if text_eqb offending (t "<EOF>") then
    if brace_ok then
      mkEnriched (t "unexpected end of file -- missing closing `}`") (Some (t "missing closing `}`")) None
    else mkEnriched (t "unexpected end of file") (Some (t "unexpected end of file")) help
  else if string_ok && looks_like_bare_identifier offending then
    mkEnriched (t "unexpected token `" ++ offending ++ t "` -- did you mean `" ++ dq ++ offending ++ dq ++ t "`?")
      (Some (t "unexpected `" ++ offending ++ t "` -- did you mean `" ++ dq ++ offending ++ dq ++ t "`?"))
      (Some (append_quoting_hint help offending))
  else
    match (if looks_like_bare_identifier offending then suggest_keyword (of_chars offending) else None) with
    | Some suggestion =>
        mkEnriched (t "unexpected token `" ++ offending ++ t "` -- did you mean `" ++ t suggestion ++ t "`?")
          (Some (t "did you mean `" ++ t suggestion ++ t "`?")) help
    | None =>
        mkEnriched (t "unexpected token `" ++ offending ++ t "`") (Some (t "unexpected `" ++ offending ++ t "`")) help
    end.

(** src/reader.rs:461-510 [simplify_large_expecting_set]; the threshold is 5 *)
Definition simplify_large_expecting_set (msg : text) : option enriched :=
  match extract_expecting_tokens msg with
  | None => None
  | Some tokens =>
      if Nat.leb (count_tokens_in_set tokens) 5 then None
      else
        let build offending :=
          Some (build_unexpected_token_error offending (format_expected_help tokens)
                  (expects_string_literal tokens) (expects_close_brace tokens)) in
        match extract_quoted_token msg (t "extraneous input ") with
        | Some offending => build offending
        | None =>
            match extract_quoted_token msg (t "mismatched input ") with
            | Some offending => build offending
            | None => None
            end
        end
  end.

(** src/reader.rs:881-886 [extract_no_viable_input] *)
Definition extract_no_viable_input (msg : text) : option text :=
  match split_once (t "no viable alternative at input '") msg with
  | Some (_, r) => option_map fst (split_once [quote] r)
  | None => None
  end.

(** [to_ascii_lowercase] *)
Definition lower (l : text) : text := map (fun c => if ((65 <=? c) && (c <=? 90))%N then (c + 32)%N else c) l.

(** src/reader.rs:1001-1010 [split_trailing_keyword] *)
Definition split_trailing_keyword (merged : text) : text :=
  match find (fun kw => ends_with (t kw) (lower merged) && Nat.ltb (String.length kw) (length merged)) avro_keywords with
  | Some kw => firstn (length merged - String.length kw) merged
  | None => merged
  end.

(** src/reader.rs:966-996 [extract_annotation_name]: the occurrences of [@]
    from the last to the first; [fuel]: their number is bounded by the length *)
Definition annotation_char (c : N) : bool := word_char c || (c =? 45)%N.
Fixpoint annotation_name (fuel : nat) (input after : text) : option text :=
  match fuel with
  | O => None
  | S n =>
      (* [input] ends before the part already searched, which is [after] *)
      match split_word (fun c => negb (c =? at_sign)%N) input with
      | ([], _) => None
      | (before, between) =>
          let rest := between ++ after in
          match take_while annotation_char rest with
          | [] => annotation_name n (removelast before) (at_sign :: rest)
          | ident =>
              if starts_with (t "(") (drop_while annotation_char rest)
              then annotation_name n (removelast before) (at_sign :: rest)
              else Some (split_trailing_keyword ident)
          end
      end
  end.
Definition extract_annotation_name (input : text) : option text := annotation_name (S (length input)) input [].

(** src/reader.rs:1015-1034 *)
Definition declaration_keywords : list string := ["record"; "enum"; "fixed"; "error"; "protocol"; "import"; "schema"].
Definition annotation_name_starts_with_keyword (name : text) : option string :=
  find (fun kw => starts_with (t kw) (lower name)) declaration_keywords.

(** src/reader.rs:1042-1060 [extract_trailing_identifier] *)
Definition extract_trailing_identifier (input : text) : option text :=
  match snd (split_word word_char input) with [] => None | w => Some w end.

(** src/reader.rs:313-412 [enrich_antlr_error] *)
Definition enrich_antlr_error (msg : text) : option enriched :=
  let pattern1 :=
    match extract_no_viable_input msg with
    | None => None
    | Some input =>
        match extract_annotation_name input with
        | None => None
        | Some name =>
            match annotation_name_starts_with_keyword name with
            | Some kw =>
                Some (mkEnriched (t "unexpected `@` before `" ++ t kw ++ t "` -- did you mean to add an annotation? annotations use `@name(" ++ dq ++ t "value" ++ dq ++ t ")` syntax")
                        (Some (t "unexpected `@` before `" ++ t kw ++ t "`")) None)
            | None =>
                Some (mkEnriched (t "annotation `@" ++ name ++ t "` is missing its value -- use `@" ++ name ++ t "(" ++ dq ++ t "value" ++ dq ++ t ")` syntax") None None)
            end
        end
    end in
  let pattern2 :=
    match extract_no_viable_input msg with
    | Some input =>
        if starts_with (t "import" ++ dq) input then
          Some (mkEnriched (t "import statement missing kind specifier -- use `import idl`, `import protocol`, or `import schema`")
                  (Some (t "missing import kind")) None)
        else None
    | None => None
    end in
  let pattern3 :=
    match extract_no_viable_input msg with
    | Some input =>
        match extract_trailing_identifier input with
        | Some word =>
            match suggest_keyword (of_chars word) with
            | Some suggestion =>
                Some (mkEnriched (t "unrecognized token `" ++ word ++ t "` -- did you mean `" ++ t suggestion ++ t "`?")
                        (Some (t "did you mean `" ++ t suggestion ++ t "`?")) None)
            | None => None
            end
        | None => None
        end
    | None => None
    end in
  let pattern4 :=
    if contains (t "expecting '('") msg && contains (t "mismatched input") msg then
      Some (mkEnriched (msg ++ t " (annotations require `@name(value)` syntax)") None None)
    else None in
  match pattern1 with
  | Some e => Some e
  | None =>
      match pattern2 with
      | Some e => Some e
      | None =>
          match pattern3 with
          | Some e => Some e
          | None => match pattern4 with Some e => Some e | None => simplify_large_expecting_set msg end
          end
      end
  end.

(** ** Sanitised messages *)

(** src/reader.rs:693-709 [rewrite_antlr_jargon] *)
Definition rewrite_antlr_jargon (msg : text) : text :=
  match strip_prefix (t "extraneous input ") msg with
  | Some rest => t "unexpected " ++ replace_first (t "expecting") (t "expected") rest
  | None =>
      match strip_prefix (t "mismatched input ") msg with
      | Some rest => t "unexpected " ++ replace_first (t "expecting") (t "expected") rest
      | None =>
          if starts_with (t "no viable alternative at input ") msg
          then replace (t "no viable alternative at input") (t "unexpected input") msg
          else msg
      end
  end.

(** src/reader.rs:621-686 [sanitize_antlr_message] *)
Definition shown_tokens (set : text) : list text :=
  firsts [] (map (fun tok => if text_eqb tok (t "<EOF>") then t "end of file" else humanize_token_name tok)
               (filter (fun tok => negb (text_mem tok [t "DocComment"; t "'\u001A'"])) (split_token_set set))).
Definition enumerate (cleaned : list text) : text :=
  match cleaned with
  | [a] => a
  | [a; b] => a ++ t " or " ++ b
  | _ => join (t ", ") (removelast cleaned) ++ t ", or " ++ last cleaned []
  end.
Definition sanitize_antlr_message (msg : text) : text :=
  let plain := rewrite_antlr_jargon (replace (t "<EOF>") (t "end of file") msg) in
  match split_once (t "expecting {") msg with
  | None => plain
  | Some (before, r) =>
      match find_closing_brace r with
      | None => plain
      | Some (set, after) =>
          rewrite_antlr_jargon
            match shown_tokens set with
            | [] => trim_end before ++ after
            | cleaned => before ++ t "expected " ++ enumerate cleaned ++ after
            end
      end
  end.

(** src/reader.rs:1882-1897, in [syntax_error]: what is shown for a message *)
Definition displayed (msg : text) : enriched :=
  match enrich_antlr_error msg with
  | Some e => e
  | None => mkEnriched (humanize_antlr_message (sanitize_antlr_message msg)) None None
  end.
