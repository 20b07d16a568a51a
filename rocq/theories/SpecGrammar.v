(** The grammar of the IDL: which sequences of tokens are which pieces of a file.
    The rules are those of the tables in src/generated/idlparser.rs (5490-5667). *)
From Verif Require Export Syntax Lexer.

Definition of_type (k : token_type) (x : lexeme) : Prop := lx_type x = k.

(** [X, X, ..., X] *)
Inductive separated {A} (P : list lexeme -> A -> Prop) : list lexeme -> list A -> Prop :=
| sep_one ts a : P ts a -> separated P ts [a]
| sep_more ts a comma ts' l : P ts a -> of_type T_Comma comma -> separated P ts' l ->
    separated P (ts ++ comma :: ts') (a :: l).
(** The same, or nothing *)
Inductive listed {A} (P : list lexeme -> A -> Prop) : list lexeme -> list A -> Prop :=
| listed_none : listed P [] []
| listed_some ts l : separated P ts l -> listed P ts l.
(** [X X ... X], or nothing *)
Inductive repeated {A} (P : list lexeme -> A -> Prop) : list lexeme -> list A -> Prop :=
| rep_none : repeated P [] []
| rep_more ts a ts' l : P ts a -> repeated P ts' l -> repeated P (ts ++ ts') (a :: l).

(** ** Names: every reserved word can be one *)
Definition words : list token_type :=
  [T_Protocol; T_Namespace; T_Import; T_IDL; T_Schema; T_Enum; T_Fixed; T_Error; T_Record; T_Array; T_Map; T_Union;
   T_Boolean; T_Int; T_Long; T_Float; T_Double; T_String; T_Bytes; T_Null; T_BTrue; T_BFalse; T_Decimal; T_Date;
   T_Time; T_Timestamp; T_LocalTimestamp; T_UUID; T_Void; T_Oneway; T_Throws].
Definition a_name (x : lexeme) : Prop := lx_type x = T_IdentifierToken \/ In (lx_type x) words.

(** The node starts with the token of this index *)
Definition starts_at (ts : list lexeme) (i : nat) : Prop := exists x r, ts = x :: r /\ lx_index x = i.

Definition primitive_words : list (token_type * prim_keyword) :=
  [(T_Boolean, KBoolean); (T_Int, KInt); (T_Long, KLong); (T_Float, KFloat); (T_Double, KDouble); (T_Bytes, KBytes);
   (T_String, KString); (T_Null, KNull); (T_Date, KDate); (T_Time, KTimeMs); (T_Timestamp, KTimestampMs);
   (T_LocalTimestamp, KLocalTimestampMs); (T_UUID, KUuid)].

Section Grammar.
  (** As it stands the grammar lets the name of a primitive type be read as a
      reference to a type of that name, and void as a result type of that name.
      If [strict], the other reading is the only one. *)
  Context (strict : bool) (file : string).

  (** The node starts at this place *)
  Definition opens (ts : list lexeme) (sp : span) : Prop := exists x r, ts = x :: r /\ sp = mkSpan file (lx_offset x).
  Definition place_of (x : lexeme) : option span := Some (mkSpan file (lx_offset x)).

  Definition located_at (x : lexeme) : located := mkLocated (lx_text x) (mkSpan file (lx_offset x)).

  (** ** JSON values *)
  Inductive json_pair (value : list lexeme -> json_tree -> Prop) : list lexeme -> string * json_tree -> Prop :=
  | jp k colon ts v : of_type T_StringLiteral k -> of_type T_Colon colon -> value ts v ->
      json_pair value (k :: colon :: ts) (lx_text k, v).
  Inductive json_value : list lexeme -> json_tree -> Prop :=
  | jv_string x : of_type T_StringLiteral x -> json_value [x] (JTString (lx_text x))
  | jv_integer x : of_type T_IntegerLiteral x -> json_value [x] (JTInteger (located_at x))
  | jv_float x : of_type T_FloatingPointLiteral x -> json_value [x] (JTFloat (located_at x))
  | jv_true x : of_type T_BTrue x -> json_value [x] JTTrue
  | jv_false x : of_type T_BFalse x -> json_value [x] JTFalse
  | jv_null x : of_type T_Null x -> json_value [x] JTNull
  | jv_array a ts l b : of_type T_LBracket a -> listed json_value ts l -> of_type T_RBracket b ->
      json_value (a :: ts ++ [b]) (JTArray l)
  | jv_object a ts l b : of_type T_LBrace a -> listed (json_pair json_value) ts l -> of_type T_RBrace b ->
      json_value (a :: ts ++ [b]) (JTObject l).

  (** [@name(value)] *)
  Inductive property : list lexeme -> annotation -> Prop :=
  | property_rule a x l ts v r : of_type T_At a -> a_name x -> of_type T_LParen l -> json_value ts v -> of_type T_RParen r ->
      property (a :: x :: l :: ts ++ [r]) (mkAnnotation (lx_text x) v (mkSpan file (lx_offset a))).

  (** ** Types *)
  Inductive base : list lexeme -> base_type -> Prop :=
  | base_word x k : In (lx_type x, k) primitive_words -> base [x] (BPrimitive k (mkSpan file (lx_offset x)))
  | base_decimal d l p r : of_type T_Decimal d -> of_type T_LParen l -> of_type T_IntegerLiteral p -> of_type T_RParen r ->
      base [d; l; p; r] (BPrimitive (KDecimal (located_at p) None) (mkSpan file (lx_offset d)))
  | base_scaled d l p c s r : of_type T_Decimal d -> of_type T_LParen l -> of_type T_IntegerLiteral p -> of_type T_Comma c ->
      of_type T_IntegerLiteral s -> of_type T_RParen r ->
      base [d; l; p; c; s; r] (BPrimitive (KDecimal (located_at p) (Some (located_at s))) (mkSpan file (lx_offset d)))
  | base_reference x : a_name x -> (strict = true -> ~ In (lx_type x) (map fst primitive_words)) ->
      base [x] (BReference (lx_text x) (place_of x)).

  Inductive full : list lexeme -> full_type -> Prop :=
  | full_rule ps a ts t p : repeated property ps a -> plain ts t -> opens (ps ++ ts) p -> full (ps ++ ts) (FullType p a t)
  with plain : list lexeme -> plain_type -> Prop :=
  | plain_array a l ts t g : of_type T_Array a -> of_type T_LT l -> full ts t -> of_type T_GT g ->
      plain (a :: l :: ts ++ [g]) (PtArray t)
  | plain_map m l ts t g : of_type T_Map m -> of_type T_LT l -> full ts t -> of_type T_GT g ->
      plain (m :: l :: ts ++ [g]) (PtMap t)
  | plain_union u b ts l r : of_type T_Union u -> of_type T_LBrace b -> separated full ts l -> of_type T_RBrace r ->
      plain (u :: b :: ts ++ [r]) (PtUnion l)
  | plain_base ts b : base ts b -> plain ts (PtNullable b false)
  | plain_nullable ts b q : base ts b -> of_type T_QuestionMark q -> plain (ts ++ [q]) (PtNullable b true).

  (** ** Fields and parameters *)
  Inductive variable_rule : list lexeme -> variable -> Prop :=
  | variable_plain ps a x i p : repeated property ps a -> a_name x -> starts_at (ps ++ [x]) i -> opens (ps ++ [x]) p ->
      variable_rule (ps ++ [x]) (mkVariable i (located_at x) a None p)
  | variable_default ps a x e ts v i p : repeated property ps a -> a_name x -> of_type T_Equals e -> json_value ts v ->
      starts_at (ps ++ [x]) i -> opens ts p ->
      variable_rule (ps ++ x :: e :: ts) (mkVariable i (located_at x) a (Some v) p).
  Inductive field_rule : list lexeme -> field_decl -> Prop :=
  | field_of ts t vs l s i : full ts t -> separated variable_rule vs l -> of_type T_Semicolon s -> starts_at ts i ->
      field_rule (ts ++ vs ++ [s]) (mkFieldDecl i t l).
  Inductive parameter_rule : list lexeme -> parameter -> Prop :=
  | parameter_of ts t vs v i : full ts t -> variable_rule vs v -> starts_at ts i ->
      parameter_rule (ts ++ vs) (mkParameter i t v).

  (** ** Named types *)
  Inductive symbol_rule : list lexeme -> located -> Prop :=
  | symbol_of ps a x p : repeated property ps a -> a_name x -> opens (ps ++ [x]) p -> symbol_rule (ps ++ [x]) (mkLocated (lx_text x) p).
  Inductive enum_default_rule : list lexeme -> option located -> Prop :=
  | enum_no_default : enum_default_rule [] None
  | enum_default_of e x s : of_type T_Equals e -> a_name x -> of_type T_Semicolon s ->
      enum_default_rule [e; x; s] (Some (located_at x)).
  Inductive named_rule : list lexeme -> named_decl -> Prop :=
  | named_fixed ps a f x l n r s i : repeated property ps a ->
      of_type T_Fixed f -> a_name x -> of_type T_LParen l -> of_type T_IntegerLiteral n -> of_type T_RParen r ->
      of_type T_Semicolon s -> starts_at (ps ++ [f]) i ->
      named_rule (ps ++ [f; x; l; n; r; s]) (NFixed (mkFixedDecl i a (located_at x) (located_at n)))
  | named_enum ps a e x b ts l r d default i : repeated property ps a ->
      of_type T_Enum e -> a_name x -> of_type T_LBrace b -> listed symbol_rule ts l -> of_type T_RBrace r ->
      enum_default_rule d default -> starts_at (ps ++ [e]) i ->
      named_rule (ps ++ e :: x :: b :: ts ++ r :: d) (NEnum (mkEnumDecl i a (located_at x) l default))
  | named_record ps a k x b ts l r (error : bool) i : repeated property ps a ->
      (if error then of_type T_Error k else of_type T_Record k) -> a_name x -> of_type T_LBrace b ->
      repeated field_rule ts l -> of_type T_RBrace r -> starts_at (ps ++ [k]) i ->
      named_rule (ps ++ k :: x :: b :: ts ++ [r]) (NRecord (mkRecordDecl i a (located_at x) error l)).

  (** ** Messages *)
  Inductive result_rule : list lexeme -> option plain_type -> Prop :=
  | result_void v : of_type T_Void v -> result_rule [v] None
  | result_plain ts t : plain ts t -> (strict = true -> forall x, ts = [x] -> lx_type x <> T_Void) -> result_rule ts (Some t).
  Inductive name_rule : list lexeme -> string * option span -> Prop :=
  | name_of x : a_name x -> name_rule [x] (lx_text x, place_of x).
  Inductive ending_rule : list lexeme -> bool * list (string * option span) -> Prop :=
  | ending_none : ending_rule [] (false, [])
  | ending_oneway o : of_type T_Oneway o -> ending_rule [o] (true, [])
  | ending_throws t ts l : of_type T_Throws t -> separated name_rule ts l -> ending_rule (t :: ts) (false, l).
  Inductive message_rule : list lexeme -> message_decl -> Prop :=
  | message_of ps a ts t x l params ps' r e oneway errors s i p : repeated property ps a ->
      result_rule ts t -> a_name x -> of_type T_LParen l -> listed parameter_rule params ps' -> of_type T_RParen r ->
      ending_rule e (oneway, errors) -> of_type T_Semicolon s -> starts_at (ps ++ ts) i -> opens (ps ++ ts) p ->
      message_rule (ps ++ ts ++ x :: l :: params ++ r :: e ++ [s]) (mkMessageDecl i p a t (lx_text x) ps' oneway errors).

  (** ** Files *)
  Definition import_words : list (token_type * import_kind) :=
    [(T_IDL, ImportIdl); (T_Protocol, ImportProtocol); (T_Schema, ImportSchema)].
  Inductive item_rule (messages : bool) : list lexeme -> item -> Prop :=
  | item_import i k kind x s : of_type T_Import i -> In (lx_type k, kind) import_words -> of_type T_StringLiteral x -> of_type T_Semicolon s ->
      item_rule messages [i; k; x; s] (ItImport kind (lx_text x) (mkSpan file (lx_offset i)))
  | item_named ts d p : named_rule ts d -> opens ts p -> item_rule messages ts (ItNamed d p)
  | item_message ts m : messages = true -> message_rule ts m -> item_rule messages ts (ItMessage m).
  Inductive namespace_rule : list lexeme -> option string -> Prop :=
  | namespace_none : namespace_rule [] None
  | namespace_of n x s : of_type T_Namespace n -> a_name x -> of_type T_Semicolon s -> namespace_rule [n; x; s] (Some (lx_text x)).
  Inductive main_rule : list lexeme -> option full_type -> Prop :=
  | main_none : main_rule [] None
  | main_of k ts t s : of_type T_Schema k -> full ts t -> of_type T_Semicolon s -> main_rule (k :: ts ++ [s]) (Some t).
  (** The end of the file, or a control-Z and anything after it *)
  Definition at_end (rest : list lexeme) : Prop := rest = [] \/ exists x r, rest = x :: r /\ of_type T_End x.
  Inductive file_rule : list lexeme -> idl_tree -> Prop :=
  | file_protocol ps a p x b ts l r rest i : repeated property ps a -> of_type T_Protocol p -> a_name x -> of_type T_LBrace b ->
      repeated (item_rule true) ts l -> of_type T_RBrace r -> at_end rest -> starts_at (ps ++ [p]) i ->
      file_rule (ps ++ p :: x :: b :: ts ++ r :: rest) (TreeProtocol i a (located_at x) l)
  | file_schema ns_ts ns main_ts main ts l rest : namespace_rule ns_ts ns -> main_rule main_ts main ->
      repeated (item_rule false) ts l -> at_end rest ->
      file_rule (ns_ts ++ main_ts ++ ts ++ rest) (TreeSchema ns main l).
End Grammar.
