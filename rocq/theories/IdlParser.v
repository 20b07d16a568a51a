(** The parser of src/generated/idlparser.rs, one definition for each rule
    function.  A rule function that finds what it expects returns its node and
    leaves the rest of the tokens; [None] stands for a syntax error, whatever the
    recovery makes of it.  Where the generated code asks the runtime to predict
    an alternative ([adaptive_predict]) the definition looks at the tokens the
    answer depends on, and prefers the earlier alternative as the runtime does.
    The rules' optional DocComment tokens are on the hidden channel and never
    reach the parser.  [n] bounds the rounds of loops and recursions. *)
From Verif Require Export Syntax Lexer Reader.

Notation "'let?' p ':=' e 'in' k" := (match e with Some p => k | None => None end)
  (at level 200, p pattern, e at level 100, k at level 200, right associativity).

Definition lexemes := list lexeme.

(** ** Single tokens *)

(** [match_token] *)
Definition p_token (k : token_type) (ts : lexemes) : option (lexeme * lexemes) :=
  match ts with
  | x :: r => if same_type (lx_type x) k then Some (x, r) else None
  | [] => None
  end.
(** The tokens ahead have these types *)
Fixpoint ahead (l : list token_type) (ts : lexemes) : bool :=
  match l, ts with
  | [], _ => true
  | k :: l, x :: r => same_type (lx_type x) k && ahead l r
  | _ :: _, [] => false
  end.
(** src/generated/idlparser.rs:1350-1395 [identifier]: types 7 to 37 and 57 *)
Definition identifier_type (k : token_type) : bool :=
  match k with
  | T_Protocol | T_Namespace | T_Import | T_IDL | T_Schema | T_Enum | T_Fixed | T_Error | T_Record
  | T_Array | T_Map | T_Union | T_Boolean | T_Int | T_Long | T_Float | T_Double | T_String | T_Bytes
  | T_Null | T_BTrue | T_BFalse | T_Decimal | T_Date | T_Time | T_Timestamp | T_LocalTimestamp
  | T_UUID | T_Void | T_Oneway | T_Throws | T_IdentifierToken => true
  | _ => false
  end.
Definition p_identifier (ts : lexemes) : option (lexeme * lexemes) :=
  match ts with
  | x :: r => if identifier_type (lx_type x) then Some (x, r) else None
  | [] => None
  end.
Definition identifier_ahead (ts : lexemes) : bool :=
  match p_identifier ts with Some _ => true | None => false end.
(** [ctx.start().get_token_index()] *)
Definition first_index (ts : lexemes) : nat := match ts with x :: _ => lx_index x | [] => 0 end.

(** ** Loops *)

(** [X (Comma X)*] *)
Fixpoint p_list {A} (p : lexemes -> option (A * lexemes)) (n : nat) (ts : lexemes) : option (list A * lexemes) :=
  match n with
  | O => None
  | S n =>
      let? (a, r) := p ts in
      if ahead [T_Comma] r then
        let? (_, r) := p_token T_Comma r in
        let? (l, r) := p_list p n r in
        Some (a :: l, r)
      else Some ([a], r)
  end.
(** [X*], going on while [more] holds of the tokens ahead *)
Fixpoint p_loop {A} (more : lexemes -> bool) (p : lexemes -> option (A * lexemes)) (n : nat) (ts : lexemes)
    : option (list A * lexemes) :=
  match n with
  | O => None
  | S n =>
      if more ts then
        let? (a, r) := p ts in
        let? (l, r) := p_loop more p n r in
        Some (a :: l, r)
      else Some ([], ts)
  end.

Section WithSource.
  (** The name of the source, kept in places *)
  Context (file : string).

  (** src/reader.rs:2319-2330 [span_from_context], without the length; so is the
      offset of 2257-2311 [make_diagnostic], [make_diagnostic_from_token] *)
  Definition place (x : lexeme) : option span := Some (mkSpan file (lx_offset x)).
  Definition first_place (ts : lexemes) : span := mkSpan file (match ts with x :: _ => lx_offset x | [] => 0%N end).
  (** A token that errors may point at *)
  Definition located_token (x : lexeme) : located := mkLocated (lx_text x) (mkSpan file (lx_offset x)).

  (** ** JSON *)

  (** src/generated/idlparser.rs:5269-5300 [jsonPair] *)
  Definition p_json_pair (value : lexemes -> option (json_tree * lexemes)) (ts : lexemes)
      : option (string * json_tree * lexemes) :=
    let? (k, r) := p_token T_StringLiteral ts in
    let? (_, r) := p_token T_Colon r in
    let? (v, r) := value r in
    Some (lx_text k, v, r).

  (** src/generated/idlparser.rs:4989-5030 [jsonLiteral] *)
  Definition p_json_literal (ts : lexemes) : option (json_tree * lexemes) :=
    match ts with
    | x :: r =>
        match lx_type x with
        | T_StringLiteral => Some (JTString (lx_text x), r)
        | T_IntegerLiteral => Some (JTInteger (located_token x), r)
        | T_FloatingPointLiteral => Some (JTFloat (located_token x), r)
        | T_BTrue => Some (JTTrue, r)
        | T_BFalse => Some (JTFalse, r)
        | T_Null => Some (JTNull, r)
        | _ => None
        end
    | [] => None
    end.

  (** src/generated/idlparser.rs:4835-4900 [jsonValue], 5118-5190 [jsonObject],
      5396-5460 [jsonArray] *)
  Fixpoint p_json (n : nat) (ts : lexemes) : option (json_tree * lexemes) :=
    match n with
    | O => None
    | S n =>
        if ahead [T_LBrace] ts then
          let? (_, r) := p_token T_LBrace ts in
          if ahead [T_RBrace] r then
            let? (_, r) := p_token T_RBrace r in Some (JTObject [], r)
          else
            let? (l, r) := p_list (p_json_pair (p_json n)) n r in
            let? (_, r) := p_token T_RBrace r in
            Some (JTObject l, r)
        else if ahead [T_LBracket] ts then
          let? (_, r) := p_token T_LBracket ts in
          if ahead [T_RBracket] r then
            let? (_, r) := p_token T_RBracket r in Some (JTArray [], r)
          else
            let? (l, r) := p_list (p_json n) n r in
            let? (_, r) := p_token T_RBracket r in
            Some (JTArray l, r)
        else p_json_literal ts
    end.

  (** src/generated/idlparser.rs:1474-1520 [schemaProperty] *)
  Definition p_property (n : nat) (ts : lexemes) : option (annotation * lexemes) :=
    let? (_, r) := p_token T_At ts in
    let? (x, r) := p_identifier r in
    let? (_, r) := p_token T_LParen r in
    let? (v, r) := p_json n r in
    let? (_, r) := p_token T_RParen r in
    Some (mkAnnotation (lx_text x) v (first_place ts), r).
  Definition p_properties (n : nat) (ts : lexemes) : option (list annotation * lexemes) :=
    p_loop (ahead [T_At]) (p_property n) n ts.

  (** ** Types *)

  (** src/generated/idlparser.rs:4275-4350 [primitiveType], one word *)
  Definition plain_keyword (k : token_type) : option prim_keyword :=
    match k with
    | T_Boolean => Some KBoolean
    | T_Int => Some KInt
    | T_Long => Some KLong
    | T_Float => Some KFloat
    | T_Double => Some KDouble
    | T_Bytes => Some KBytes
    | T_String => Some KString
    | T_Null => Some KNull
    | T_Date => Some KDate
    | T_Time => Some KTimeMs
    | T_Timestamp => Some KTimestampMs
    | T_LocalTimestamp => Some KLocalTimestampMs
    | T_UUID => Some KUuid
    | _ => None
    end.

  (** src/generated/idlparser.rs:4275-4350 [primitiveType], decimal(p, s) *)
  Definition p_decimal (ts : lexemes) : option (prim_keyword * lexemes) :=
    let? (_, r) := p_token T_Decimal ts in
    let? (_, r) := p_token T_LParen r in
    let? (precision, r) := p_token T_IntegerLiteral r in
    if ahead [T_Comma] r then
      let? (_, r) := p_token T_Comma r in
      let? (scale, r) := p_token T_IntegerLiteral r in
      let? (_, r) := p_token T_RParen r in
      Some (KDecimal (located_token precision) (Some (located_token scale)), r)
    else
      let? (_, r) := p_token T_RParen r in
      Some (KDecimal (located_token precision) None, r).

  (** src/generated/idlparser.rs:4054-4120 [nullableType], before the question
      mark: the decision is the runtime's, between a primitive type and any
      identifier, and the first is taken when both are possible *)
  Definition p_base (ts : lexemes) : option (base_type * lexemes) :=
    match ts with
    | x :: r =>
        match plain_keyword (lx_type x) with
        | Some k => Some (BPrimitive k (first_place ts), r)
        | None =>
            if ahead [T_Decimal; T_LParen] ts then
              let? (k, r) := p_decimal ts in Some (BPrimitive k (first_place ts), r)
            else
              let? (x, r) := p_identifier ts in Some (BReference (lx_text x) (place x), r)
        end
    | [] => None
    end.
  Definition p_nullable (ts : lexemes) : option (plain_type * lexemes) :=
    let? (b, r) := p_base ts in
    if ahead [T_QuestionMark] r then
      let? (_, r) := p_token T_QuestionMark r in Some (PtNullable b true, r)
    else Some (PtNullable b false, r).

  (** src/generated/idlparser.rs:3910-3980 [plainType], 4445-4480 [arrayType],
      4564-4600 [mapType], 4697-4750 [unionType].  The words array, map and union
      are identifiers too: the runtime sees from the next token which it is. *)
  Definition p_plain_with (full : lexemes -> option (full_type * lexemes)) (n : nat) (ts : lexemes)
      : option (plain_type * lexemes) :=
    if ahead [T_Array; T_LT] ts then
      let? (_, r) := p_token T_Array ts in
      let? (_, r) := p_token T_LT r in
      let? (t, r) := full r in
      let? (_, r) := p_token T_GT r in
      Some (PtArray t, r)
    else if ahead [T_Map; T_LT] ts then
      let? (_, r) := p_token T_Map ts in
      let? (_, r) := p_token T_LT r in
      let? (t, r) := full r in
      let? (_, r) := p_token T_GT r in
      Some (PtMap t, r)
    else if ahead [T_Union; T_LBrace] ts then
      let? (_, r) := p_token T_Union ts in
      let? (_, r) := p_token T_LBrace r in
      let? (l, r) := p_list full n r in
      let? (_, r) := p_token T_RBrace r in
      Some (PtUnion l, r)
    else p_nullable ts.

  (** src/generated/idlparser.rs:3787-3840 [fullType] *)
  Fixpoint p_full (n : nat) (ts : lexemes) : option (full_type * lexemes) :=
    match n with
    | O => None
    | S n =>
        let? (ps, r) := p_properties n ts in
        let? (t, r) := p_plain_with (p_full n) n r in
        Some (FullType (first_place ts) ps t, r)
    end.
  Definition p_plain (n : nat) (ts : lexemes) : option (plain_type * lexemes) := p_plain_with (p_full n) n ts.

  (** ** Declarations *)

  (** src/generated/idlparser.rs:3070-3150 [variableDeclaration] *)
  Definition p_variable (n : nat) (ts : lexemes) : option (variable * lexemes) :=
    let? (ps, r) := p_properties n ts in
    let? (x, r) := p_identifier r in
    if ahead [T_Equals] r then
      let? (_, r) := p_token T_Equals r in
      let p := first_place r in
      let? (v, r) := p_json n r in
      Some (mkVariable (first_index ts) (located_token x) ps (Some v) p, r)
    else Some (mkVariable (first_index ts) (located_token x) ps None (first_place ts), r).

  (** src/generated/idlparser.rs:2898-2980 [fieldDeclaration] *)
  Definition p_field (n : nat) (ts : lexemes) : option (field_decl * lexemes) :=
    let? (t, r) := p_full n ts in
    let? (vs, r) := p_list (p_variable n) n r in
    let? (_, r) := p_token T_Semicolon r in
    Some (mkFieldDecl (first_index ts) t vs, r).

  (** src/generated/idlparser.rs:2310-2370 [enumSymbol] and 2451-2490
      [enumDefault]; the walker does not look at a symbol's annotations *)
  Definition p_symbol (n : nat) (ts : lexemes) : option (located * lexemes) :=
    let? (_, r) := p_properties n ts in
    let? (x, r) := p_identifier r in
    Some (mkLocated (lx_text x) (first_place ts), r).
  Definition p_enum_default (ts : lexemes) : option (option located * lexemes) :=
    if ahead [T_Equals] ts then
      let? (_, r) := p_token T_Equals ts in
      let? (x, r) := p_identifier r in
      let? (_, r) := p_token T_Semicolon r in
      Some (Some (located_token x), r)
    else Some (None, ts).

  (** src/generated/idlparser.rs:1897-1970 [fixedDeclaration], after the
      annotations; so are the next two *)
  Definition p_fixed (start : nat) (ps : list annotation) (ts : lexemes) : option (named_decl * lexemes) :=
    let? (_, r) := p_token T_Fixed ts in
    let? (x, r) := p_identifier r in
    let? (_, r) := p_token T_LParen r in
    let? (size, r) := p_token T_IntegerLiteral r in
    let? (_, r) := p_token T_RParen r in
    let? (_, r) := p_token T_Semicolon r in
    Some (NFixed (mkFixedDecl start ps (located_token x) (located_token size)), r).

  (** src/generated/idlparser.rs:2097-2220 [enumDeclaration] *)
  Definition p_enum (n : nat) (start : nat) (ps : list annotation) (ts : lexemes) : option (named_decl * lexemes) :=
    let? (_, r) := p_token T_Enum ts in
    let? (x, r) := p_identifier r in
    let? (_, r) := p_token T_LBrace r in
    let? (l, r) := (if ahead [T_RBrace] r then Some ([], r) else p_list (p_symbol n) n r) in
    let? (_, r) := p_token T_RBrace r in
    let? (d, r) := p_enum_default r in
    Some (NEnum (mkEnumDecl start ps (located_token x) l d), r).

  (** src/generated/idlparser.rs:2583-2660 [recordDeclaration], 2750-2810
      [recordBody] *)
  Definition p_record (n : nat) (start : nat) (ps : list annotation) (ts : lexemes) : option (named_decl * lexemes) :=
    match ts with
    | k :: r =>
        if same_type (lx_type k) T_Record || same_type (lx_type k) T_Error then
          let? (x, r) := p_identifier r in
          let? (_, r) := p_token T_LBrace r in
          let? (l, r) := p_loop (fun r => negb (ahead [T_RBrace] r)) (p_field n) n r in
          let? (_, r) := p_token T_RBrace r in
          Some (NRecord (mkRecordDecl start ps (located_token x) (same_type (lx_type k) T_Error) l), r)
        else None
    | [] => None
    end.

  (** The runtime's predictions for 815-880 [protocolDeclarationBody] and
      1732-1790 [namedSchemaDeclaration]: the words fixed, enum, record and error
      are identifiers too, so that each can be the result type of a message *)
  Definition fixed_ahead (ts : lexemes) : bool :=
    ahead [T_Fixed] ts && identifier_ahead (tl ts) && ahead [T_LParen; T_IntegerLiteral] (tl (tl ts)).
  Definition enum_ahead (ts : lexemes) : bool :=
    ahead [T_Enum] ts && identifier_ahead (tl ts) && ahead [T_LBrace] (tl (tl ts)).
  Definition record_ahead (ts : lexemes) : bool :=
    (ahead [T_Record] ts || ahead [T_Error] ts) && identifier_ahead (tl ts) && ahead [T_LBrace] (tl (tl ts)).

  (** src/generated/idlparser.rs:3668-3720 [resultType]: the word void is an
      identifier too, and the first alternative is taken if it can be *)
  Definition p_result (n : nat) (ts : lexemes) : option (option plain_type * lexemes) :=
    if ahead [T_Void] ts && negb (ahead [T_Void; T_QuestionMark] ts) then
      let? (_, r) := p_token T_Void ts in Some (None, r)
    else
      let? (t, r) := p_plain n ts in Some (Some t, r).

  (** src/generated/idlparser.rs:3550-3600 [formalParameter] *)
  Definition p_parameter (n : nat) (ts : lexemes) : option (parameter * lexemes) :=
    let? (t, r) := p_full n ts in
    let? (v, r) := p_variable n r in
    Some (mkParameter (first_index ts) t v, r).

  (** src/generated/idlparser.rs:3286-3440 [messageDeclaration], after the
      annotations *)
  Definition p_throws (n : nat) (ts : lexemes) : option (bool * list (string * option span) * lexemes) :=
    if ahead [T_Oneway] ts then
      let? (_, r) := p_token T_Oneway ts in Some (true, [], r)
    else if ahead [T_Throws] ts then
      let? (_, r) := p_token T_Throws ts in
      let? (l, r) := p_list p_identifier n r in
      Some (false, map (fun x => (lx_text x, place x)) l, r)
    else Some (false, [], ts).
  Definition p_message (n : nat) (start : nat) (sp : span) (ps : list annotation) (ts : lexemes) : option (message_decl * lexemes) :=
    let? (t, r) := p_result n ts in
    let? (x, r) := p_identifier r in
    let? (_, r) := p_token T_LParen r in
    let? (l, r) := (if ahead [T_RParen] r then Some ([], r) else p_list (p_parameter n) n r) in
    let? (_, r) := p_token T_RParen r in
    let? (oneway, errors, r) := p_throws n r in
    let? (_, r) := p_token T_Semicolon r in
    Some (mkMessageDecl start sp ps t (lx_text x) l oneway errors, r).

  (** src/generated/idlparser.rs:1612-1670 [importStatement] *)
  Definition import_of (k : token_type) : option import_kind :=
    match k with
    | T_IDL => Some ImportIdl
    | T_Protocol => Some ImportProtocol
    | T_Schema => Some ImportSchema
    | _ => None
    end.
  Definition p_import (ts : lexemes) : option (item * lexemes) :=
    let? (_, r) := p_token T_Import ts in
    match r with
    | k :: r =>
        let? kind := import_of (lx_type k) in
        let? (x, r) := p_token T_StringLiteral r in
        let? (_, r) := p_token T_Semicolon r in
        Some (ItImport kind (lx_text x) (first_place ts), r)
    | [] => None
    end.
  Definition import_ahead (ts : lexemes) : bool :=
    ahead [T_Import] ts
    && match tl ts with
       | k :: r => match import_of (lx_type k) with Some _ => ahead [T_StringLiteral] r | None => false end
       | [] => false
       end.

  (** src/generated/idlparser.rs:815-880 and 401-560, one round of the loops;
      [messages]: the loop of a protocol *)
  Definition p_item (messages : bool) (n : nat) (ts : lexemes) : option (item * lexemes) :=
    if import_ahead ts then p_import ts
    else
      let? (ps, r) := p_properties n ts in
      if fixed_ahead r then let? (d, r) := p_fixed (first_index ts) ps r in Some (ItNamed d (first_place ts), r)
      else if enum_ahead r then let? (d, r) := p_enum n (first_index ts) ps r in Some (ItNamed d (first_place ts), r)
      else if record_ahead r then let? (d, r) := p_record n (first_index ts) ps r in Some (ItNamed d (first_place ts), r)
      else if messages then let? (m, r) := p_message n (first_index ts) (first_place ts) ps r in Some (ItMessage m, r)
      else None.

  (** ** Files *)

  (** src/generated/idlparser.rs:644-720 [protocolDeclaration], 815-880
      [protocolDeclarationBody] *)
  Definition p_protocol (n : nat) (ts : lexemes) : option (idl_tree * lexemes) :=
    let? (ps, r) := p_properties n ts in
    let? (_, r) := p_token T_Protocol r in
    let? (x, r) := p_identifier r in
    let? (_, r) := p_token T_LBrace r in
    let? (l, r) := p_loop (fun r => negb (ahead [T_RBrace] r)) (p_item true n) n r in
    let? (_, r) := p_token T_RBrace r in
    Some (TreeProtocol (first_index ts) ps (located_token x) l, r).

  (** src/generated/idlparser.rs:981-1020 [namespaceDeclaration], 1092-1130
      [mainSchemaDeclaration] *)
  Definition p_namespace (ts : lexemes) : option (option string * lexemes) :=
    if ahead [T_Namespace] ts then
      let? (_, r) := p_token T_Namespace ts in
      let? (x, r) := p_identifier r in
      let? (_, r) := p_token T_Semicolon r in
      Some (Some (lx_text x), r)
    else Some (None, ts).
  Definition p_main (n : nat) (ts : lexemes) : option (option full_type * lexemes) :=
    if ahead [T_Schema] ts then
      let? (_, r) := p_token T_Schema ts in
      let? (t, r) := p_full n r in
      let? (_, r) := p_token T_Semicolon r in
      Some (Some t, r)
    else Some (None, ts).
  Definition file_end (ts : lexemes) : bool := match ts with [] => true | x :: _ => same_type (lx_type x) T_End end.
  Definition p_schema_file (n : nat) (ts : lexemes) : option (idl_tree * lexemes) :=
    let? (ns, r) := p_namespace ts in
    let? (main, r) := p_main n r in
    let? (l, r) := p_loop (fun r => negb (file_end r)) (p_item false n) n r in
    Some (TreeSchema ns main l, r).

  (** src/generated/idlparser.rs:401-560 [idlFile]: which of the two it is shows
      after the annotations; a control-Z token ends the file, whatever follows *)
  Definition p_file (n : nat) (ts : lexemes) : option idl_tree :=
    let? (t, r) := (match p_properties n ts with
                    | Some (_, r) => if ahead [T_Protocol] r then p_protocol n ts else p_schema_file n ts
                    | None => None
                    end) in
    if file_end r then Some t else None.
End WithSource.

(** ** From the text to the tree *)

(** src/reader.rs:2011-2071 in [parse_idl_named]: the lexer, the token stream and
    the parser put together.  The number of tokens bounds every loop. *)
Definition parse_text `{LexerMessages} (file : string) (text : string) : option parsed :=
  let l := cut (chars text) in
  let tokens := stream l 0 0 in
  let? t := p_file file (S (length tokens)) (visible tokens) in
  Some (mkParsed (doc_tokens tokens) t (lexer_warnings [] l)).
