(** Which word of a file an error of the reader is shown at, and what it warns of. *)
From Verif Require Import SpecSizes.
From Verif Require Export SpecDefects SpecPlaces.
From Verif Require Import SpecNames.
From Coq Require Import Permutation.

(** The word a type starts with *)
Definition keyword_word (k : prim_keyword) : string :=
  match k with
  | KBoolean => "boolean" | KInt => "int" | KLong => "long" | KFloat => "float" | KDouble => "double"
  | KBytes => "bytes" | KString => "string" | KNull => "null" | KDate => "date" | KTimeMs => "time_ms"
  | KTimestampMs => "timestamp_ms" | KLocalTimestampMs => "local_timestamp_ms" | KUuid => "uuid"
  | KDecimal _ _ => "decimal"
  end.
Definition plain_word (p : plain_type) : string :=
  match p with
  | PtArray _ => "array" | PtMap _ => "map" | PtUnion _ => "union"
  | PtNullable (BPrimitive k _) _ => keyword_word k
  | PtNullable (BReference i _) _ => i
  end.
Definition type_word (t : full_type) : string := match t with FullType _ (_ :: _) _ => "@" | FullType _ [] p => plain_word p end.

Section Blame.
  Context `{Unicode} `{Floats}.

  (** An error shown at [word] *)
  Inductive blame : walk_error -> string -> Prop :=
  | bl_integer raw : (forall p j, ~ json_means (JTInteger (mkLocated raw p)) j) -> blame BadInteger raw
  | bl_float raw : (forall p j, ~ json_means (JTFloat (mkLocated raw p)) j) -> blame BadFloat raw
  | bl_namespace : blame BadNamespace "@"
  | bl_aliases : blame BadAliases "@"
  | bl_order : blame BadOrder "@"
  | bl_reserved n : blame (ReservedProperty n) "@"
  | bl_reference : blame AnnotatedReference "@"
  | bl_name ident n : simple_name ident n -> In n type_words -> blame (IllegalName n) ident
  | bl_nested t : union_type t -> blame NestedUnion (type_word t)
  | bl_duplicate ns t s : denotes ns t s -> blame (DuplicateInUnion (branch_name (class_of s))) (type_word t)
  | bl_null : blame NullableNull "null"
  | bl_precision raw r : size_verdict raw r -> (forall n, r = Ok n -> n = 0%N) -> blame BadPrecision raw
  | bl_scale raw r : size_verdict raw r -> r <> Ok 0%N -> blame BadScale raw
  | bl_default n d j s : json_means d j -> is_valid_default j s = false -> blame (InvalidDefault n) (json_word d)
  | bl_field ident : blame (DuplicateField (identifier_text ident)) ident
  | bl_symbol ident : blame (DuplicateSymbol (identifier_text ident)) ident
  | bl_symbol_annotated n : blame (DuplicateSymbol n) "@"
  | bl_enum_default ident : blame (UnknownEnumDefault (identifier_text ident)) ident
  | bl_size raw why : size_verdict raw (Err why) -> blame BadFixedSize raw
  | bl_parameter n t : blame (DuplicateParameter n) (type_word t)
  | bl_oneway n p : (forall sp, p <> PtNullable (BPrimitive KNull sp) false) -> blame (OnewayResponse n) (plain_word p)
  | bl_oneway_annotated n : blame (OnewayResponse n) "@".

  (** Aliases that are not names of types, and annotations of unions *)
  Definition type_name (s : string) : Prop := exists segs, segs <> [] /\ s = join_dot segs /\ Forall valid_name segs.
  Inductive odd_annotation (p : place) (l : list annotation) : walk_warning -> Prop :=
  | oa_alias a al s : In a l -> identifier_text (an_name a) = "aliases" -> In "aliases" (special p) ->
      json_means (an_value a) (JArr (map JStr al)) -> In s al -> ~ type_name s -> odd_annotation p l (NonStandardAlias s (an_place a)).
  Inductive odd_type : full_type -> walk_warning -> Prop :=
  | ot_union sp l ts ks : l <> [] -> NoDup ks -> (forall k, In k ks <-> mentioned l k) -> odd_type (FullType sp l (PtUnion ts)) (AnnotationsDropped ks sp)
  | ot_plain sp l p w : odd_plain p w -> odd_type (FullType sp l p) w
  with odd_plain : plain_type -> walk_warning -> Prop :=
  | op_array t w : odd_type t w -> odd_plain (PtArray t) w
  | op_map t w : odd_type t w -> odd_plain (PtMap t) w
  | op_branch ts t w : In t ts -> odd_type t w -> odd_plain (PtUnion ts) w.
  Inductive odd_named : named_decl -> walk_warning -> Prop :=
  | on_annotation d w : odd_annotation (named_place d) (named_annotations d) w -> odd_named d w
  | on_type r f w : In f (r_fields r) -> odd_type (fd_type f) w -> odd_named (NRecord r) w
  | on_variable r f v w : In f (r_fields r) -> In v (fd_variables f) -> odd_annotation OnField (v_annotations v) w -> odd_named (NRecord r) w.
  Inductive odd_message (m : message_decl) : walk_warning -> Prop :=
  | om_result p w : md_result m = Some p -> odd_plain p w -> odd_message m w
  | om_type pa w : In pa (md_parameters m) -> odd_type (pa_type pa) w -> odd_message m w
  | om_variable pa w : In pa (md_parameters m) -> odd_annotation OnField (v_annotations (pa_variable pa)) w -> odd_message m w.
  Inductive odd : idl_tree -> walk_warning -> Prop :=
  | od_named t d p w : In (ItNamed d p) (tree_items t) -> odd_named d w -> odd t w
  | od_message t m w : In (ItMessage m) (tree_items t) -> odd_message m w -> odd t w
  | od_main nsd ft its w : odd_type ft w -> odd (TreeSchema nsd (Some ft) its) w.

  (** The names of several annotations are listed in no particular order *)
  Definition same_warning (w w' : walk_warning) : Prop :=
    match w, w' with
    | NonStandardAlias a p, NonStandardAlias a' p' => a = a' /\ p = p'
    | AnnotationsDropped ks p, AnnotationsDropped ks' p' => Permutation ks ks' /\ p = p'
    | _, _ => False
    end.
  Definition warning_place (w : walk_warning) : span := match w with NonStandardAlias _ p | AnnotationsDropped _ p => p end.
End Blame.
