(** The parse tree of src/generated/idlparser.rs, as far as the walker of
    src/reader.rs looks at it.  Texts are token texts; [start] is the index of a
    node's first token.  Nodes the parser's error recovery could leave out are
    not represented: a file with a syntax error is rejected before the walk
    (src/reader.rs:2082-2145). *)
From Verif Require Export Schema.

(** A token that errors can point at: its text, and the place its node starts at
    (src/reader.rs:2257-2311 [make_diagnostic], [make_diagnostic_from_token]; the
    length of what is underlined is dropped) *)
Record located := mkLocated { w_text :> string; w_place : span }.

(** Stands for a place that does not exist *)
Definition no_place : span := mkSpan "" 0.

(** rule jsonValue *)
Inductive json_tree :=
| JTNull | JTTrue | JTFalse
| JTString (raw : string)
| JTInteger (raw : located)
| JTFloat (raw : located)
| JTArray (l : list json_tree)
| JTObject (o : list (string * json_tree)).

(** rule schemaProperty: @name(value) *)
Record annotation := mkAnnotation { an_name : string; an_value : json_tree; an_place : span }.

(** rule primitiveType *)
Inductive prim_keyword :=
| KBoolean | KInt | KLong | KFloat | KDouble | KBytes | KString | KNull
| KDate | KTimeMs | KTimestampMs | KLocalTimestampMs | KUuid
| KDecimal (precision : located) (scale : option located).

(** rule nullableType without the question mark *)
Inductive base_type :=
| BPrimitive (k : prim_keyword) (place : span)
| BReference (ident : string) (sp : option span).

(** rules fullType and plainType *)
Inductive full_type :=
| FullType (place : span) (annotations : list annotation) (t : plain_type)
with plain_type :=
| PtArray (items : full_type)
| PtMap (values : full_type)
| PtUnion (types : list full_type)
| PtNullable (b : base_type) (optional : bool).

(** The place of a fullType node, and of the formalParameter node it begins *)
Definition full_place (t : full_type) : span := match t with FullType p _ _ => p end.

(** rule variableDeclaration *)
Record variable := mkVariable {
  v_start : nat;
  v_ident : located;
  v_annotations : list annotation;
  v_default : option json_tree;
  v_place : span              (* of the default, or of the whole if there is none *)
}.

(** rule fieldDeclaration *)
Record field_decl := mkFieldDecl {
  fd_start : nat;
  fd_type : full_type;
  fd_variables : list variable
}.

(** rules recordDeclaration, enumDeclaration, fixedDeclaration *)
Record record_decl := mkRecordDecl {
  r_start : nat;
  r_annotations : list annotation;
  r_ident : located;
  r_error : bool;
  r_fields : list field_decl
}.
Record enum_decl := mkEnumDecl {
  e_start : nat;
  e_annotations : list annotation;
  e_ident : located;
  e_symbols : list located;
  e_default : option located
}.
Record fixed_decl := mkFixedDecl {
  x_start : nat;
  x_annotations : list annotation;
  x_ident : located;
  x_size : located
}.
Inductive named_decl :=
| NRecord (r : record_decl)
| NEnum (e : enum_decl)
| NFixed (x : fixed_decl).

(** rules formalParameter and messageDeclaration *)
Record parameter := mkParameter {
  pa_start : nat;
  pa_type : full_type;
  pa_variable : variable
}.
Record message_decl := mkMessageDecl {
  md_start : nat;
  md_place : span;
  md_annotations : list annotation;
  md_result : option plain_type;          (* None is void *)
  md_name : string;
  md_parameters : list parameter;
  md_oneway : bool;
  md_errors : list (string * option span)
}.

Inductive import_kind := ImportIdl | ImportProtocol | ImportSchema.

(** Children of protocolDeclarationBody, and of idlFile in schema mode (where
    the grammar has no messages) *)
Inductive item :=
| ItImport (k : import_kind) (path : string) (place : span)
| ItNamed (d : named_decl) (place : span)
| ItMessage (m : message_decl).

(** rule idlFile *)
Inductive idl_tree :=
| TreeProtocol (start : nat) (annotations : list annotation) (ident : located) (items : list item)
| TreeSchema (namespace : option string) (main : option full_type) (items : list item).
