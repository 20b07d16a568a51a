(** What the compiler's own data means, in the vocabulary of SpecAvro.v.
    This is the right-hand side of the serialiser theorems: it says which
    types the user declared, without mentioning how they are written out. *)
From Verif Require Export Schema SpecAvro.

(** The namespace of a type; a missing one is the null namespace. *)
Definition nsof (ns : option string) : string := match ns with Some x => x | None => "" end.
Definition ns_empty (ns : option string) : bool := str_is_empty (nsof ns).

Definition fullname (name : string) (ns : option string) : string := qualify (nsof ns) name.

(** A set of attributes, as the key-sorted list a JSON object is. *)
Definition canon (l : list (string * json)) : list (string * json) := bt_extend [] l.

Definition opt_attr (k : string) (v : option json) : list (string * json) :=
  match v with Some x => [(k, x)] | None => [] end.
Definition list_attr (k : string) (l : list string) : list (string * json) :=
  match l with [] => [] | _ => [(k, JArr (map JStr l))] end.

(** The Avro specification's words for the primitive and the logical types, and
    the primitive type that carries each logical type *)
Definition primitive_word (p : prim) : string :=
  match p with
  | PNull => "null" | PBoolean => "boolean" | PInt => "int" | PLong => "long"
  | PFloat => "float" | PDouble => "double" | PBytes => "bytes" | PString => "string"
  end.
Definition logical_word (lt : logical) : string :=
  match lt with
  | LDate => "date" | LTimeMillis => "time-millis" | LTimeMicros => "time-micros"
  | LTimestampMillis => "timestamp-millis" | LTimestampMicros => "timestamp-micros"
  | LLocalTimestampMillis => "local-timestamp-millis"
  | LLocalTimestampMicros => "local-timestamp-micros"
  | LUuid => "uuid"
  | LDecimal _ _ => "decimal"
  end.
Definition carrier (lt : logical) : string :=
  match lt with
  | LDate | LTimeMillis => "int"
  | LTimeMicros | LTimestampMillis | LTimestampMicros
  | LLocalTimestampMillis | LLocalTimestampMicros => "long"
  | LUuid => "string"
  | LDecimal _ _ => "bytes"
  end.

Definition logical_attrs (lt : logical) : list (string * json) :=
  ("logicalType", JStr (logical_word lt)) ::
  match lt with
  | LDecimal p s => [("precision", JNum (NPos p)); ("scale", JNum (NPos s))]
  | _ => []
  end.

(** The type denoted by a schema expression. *)
Fixpoint meaning (s : schema) : aty :=
  match s with
  | SPrim p => TPrim (primitive_word p) []
  | SAnnot k ps => TPrim (primitive_word k) (canon ps)
  | SLogical lt ps => TPrim (carrier lt) (canon (logical_attrs lt ++ ps))
  | SArray i ps => TArray (meaning i) (canon ps)
  | SMap i ps => TMap (meaning i) (canon ps)
  | SUnion ts _ => TUnion (map meaning ts)
  | SRecord n ns _ _ _ _ _ | SEnum n ns _ _ _ _ _ | SFixed n ns _ _ _ _ | SRef n ns _ _ =>
      TNamed (fullname n ns)
  end.

(** Only a non-default sort order is an attribute. *)
Definition order_attr (o : option field_order) : list (string * json) :=
  match o with
  | Some Descending => [("order", JStr "descending")]
  | Some Ignore => [("order", JStr "ignore")]
  | _ => []
  end.

Definition field_meaning (f : field) : afield :=
  mkAField (f_name f) (meaning (f_schema f))
    (canon (opt_attr "doc" (option_map JStr (f_doc f)) ++ opt_attr "default" (f_default f)
            ++ order_attr (f_order f) ++ list_attr "aliases" (f_aliases f) ++ f_props f)).

(** The definition a named type stands for; [None] for anonymous types. *)
Definition def_meaning (s : schema) : option adef :=
  match s with
  | SRecord _ ns doc fs is_error aliases ps =>
      Some (DRecord is_error (map field_meaning fs) (map (resolve_name (nsof ns)) aliases)
              (canon (opt_attr "doc" (option_map JStr doc) ++ ps)))
  | SEnum _ ns doc symbols default aliases ps =>
      Some (DEnum symbols (map (resolve_name (nsof ns)) aliases)
              (canon (opt_attr "doc" (option_map JStr doc)
                      ++ opt_attr "default" (option_map JStr default) ++ ps)))
  | SFixed _ ns doc size aliases ps =>
      Some (DFixed size (map (resolve_name (nsof ns)) aliases)
              (canon (opt_attr "doc" (option_map JStr doc) ++ ps)))
  | _ => None
  end.

Definition message_meaning (m : message) : amessage :=
  mkAMessage (map field_meaning (m_request m)) (meaning (m_response m))
    (option_map (map meaning) (m_errors m)) (m_one_way m)
    (canon (opt_attr "doc" (option_map JStr (m_doc m)) ++ m_props m)).

(** [Some (n, d)] for a named type: full name and definition. *)
Definition named_meaning (s : schema) : option (string * adef) :=
  match s, def_meaning s with
  | SRecord n ns _ _ _ _ _, Some d | SEnum n ns _ _ _ _ _, Some d | SFixed n ns _ _ _ _, Some d =>
      Some (fullname n ns, d)
  | _, _ => None
  end.

(** ** Well-formedness, as computable predicates *)

Fixpoint nodupb (l : list string) : bool :=
  match l with [] => true | x :: r => negb (str_mem x r) && nodupb r end.

(** A property map: distinct keys, none of them reserved. *)
Definition free_of (reserved : list string) (ps : props) : bool :=
  nodupb (keys ps) && forallb (fun k => negb (str_mem k reserved)) (keys ps).

(** A simple name has no dot, and a type outside any namespace is not called
    like a primitive. *)
Definition name_ok (n : string) (ns : option string) : bool :=
  negb (contains_dot n) && implb (ns_empty ns) (negb (str_mem n spec_primitives)).

(** An alias is a simple name or a name with a non-empty namespace. *)
Definition alias_ok (a : string) : bool :=
  match rsplit_once_dot a with Some (ns, _) => negb (str_is_empty ns) | None => true end.

(** A type expression without inline definitions, used where [in_null_ns]
    says whether the enclosing namespace is the null namespace.  A type of the
    null namespace can only be referred to from there. *)
Fixpoint ty_ok (in_null_ns : bool) (s : schema) : bool :=
  match s with
  | SPrim _ => true
  | SAnnot _ ps => free_of ["type"] ps
  | SLogical _ ps => free_of ["type"] ps
  | SArray i ps => free_of ["type"; "items"] ps && ty_ok in_null_ns i
  | SMap i ps => free_of ["type"; "values"] ps && ty_ok in_null_ns i
  | SUnion ts _ => forallb (ty_ok in_null_ns) ts
  | SRef n ns _ _ => name_ok n ns && implb (ns_empty ns) in_null_ns
  | SRecord _ _ _ _ _ _ _ | SEnum _ _ _ _ _ _ _ | SFixed _ _ _ _ _ _ => false
  end.

Definition field_ok (in_null_ns : bool) (f : field) : bool :=
  free_of ["name"; "type"; "doc"; "default"; "order"; "aliases"] (f_props f)
  && ty_ok in_null_ns (f_schema f).

(** A definition: a named type whose fields contain no inline definitions. *)
Definition def_ok (t : schema) : bool :=
  match t with
  | SRecord n ns _ fs _ al ps =>
      name_ok n ns && forallb alias_ok al
      && free_of ["type"; "name"; "namespace"; "doc"; "fields"; "aliases"] ps
      && forallb (field_ok (ns_empty ns)) fs
  | SEnum n ns _ _ _ al ps =>
      name_ok n ns && forallb alias_ok al
      && free_of ["type"; "name"; "namespace"; "doc"; "symbols"; "default"; "aliases"] ps
  | SFixed n ns _ _ al ps =>
      name_ok n ns && forallb alias_ok al
      && free_of ["type"; "name"; "namespace"; "doc"; "size"; "aliases"] ps
  | _ => false
  end.

(** Full names of all references inside a schema. *)
Fixpoint refs_of (s : schema) : list string :=
  match s with
  | SRef n ns _ _ => [fullname n ns]
  | SRecord _ _ _ fs _ _ _ => flat_map (fun f => refs_of (f_schema f)) fs
  | SArray i _ | SMap i _ => refs_of i
  | SUnion ts _ => flat_map refs_of ts
  | _ => []
  end.

Definition message_refs (m : message) : list string :=
  flat_map (fun f => refs_of (f_schema f)) (m_request m)
  ++ refs_of (m_response m)
  ++ match m_errors m with Some es => flat_map refs_of es | None => [] end.

Definition message_ok (in_null_ns : bool) (m : message) : bool :=
  free_of ["doc"; "request"; "response"; "errors"; "one-way"] (m_props m)
  && forallb (field_ok in_null_ns) (m_request m)
  && ty_ok in_null_ns (m_response m)
  && match m_errors m with Some es => forallb (ty_ok in_null_ns) es | None => true end.

(** [Option] namespace of a named type *)
Definition ns_field (t : schema) : option string :=
  match t with
  | SRecord _ ns _ _ _ _ _ | SEnum _ ns _ _ _ _ _ | SFixed _ ns _ _ _ _ => ns
  | _ => None
  end.

Definition type_name (t : schema) : string :=
  match t with
  | SRecord n ns _ _ _ _ _ | SEnum n ns _ _ _ _ _ | SFixed n ns _ _ _ _ => fullname n ns
  | _ => ""
  end.

Definition subset (l m : list string) : bool := forallb (fun x => str_mem x m) l.

(** A protocol the serialiser theorems speak about: distinct, well-formed
    definitions, every reference defined, properties that do not use reserved
    names, and no type without a [namespace] in a protocol that has one. *)
Definition protocol_ok (p : protocol) : bool :=
  let names := map type_name (p_types p) in
  forallb def_ok (p_types p)
  && forallb (fun t => implb (match ns_field t with None => true | Some _ => false end)
                             (ns_empty (p_namespace p))) (p_types p)
  && nodupb names
  && forallb (fun t => subset (refs_of t) names) (p_types p)
  && free_of ["protocol"; "namespace"; "doc"; "types"; "messages"] (p_props p)
  && nodupb (keys (p_messages p))
  && forallb (fun nm => message_ok (ns_empty (p_namespace p)) (snd nm)
                        && subset (message_refs (snd nm)) names) (p_messages p).

(** A set of definitions that stands on its own. *)
Definition registry_ok (types : list schema) : bool :=
  forallb def_ok types
  && nodupb (map type_name types)
  && forallb (fun t => subset (refs_of t) (map type_name types)) types.

(** [reaches types a b]: the definition of [a] mentions [b], possibly through
    other definitions. *)
Inductive reaches (types : list schema) (a : string) : string -> Prop :=
| reach_self : reaches types a a
| reach_next t c :
    reaches types a (type_name t) -> In t types -> In c (refs_of t) -> reaches types a c.

(** The names a schema starts from: itself if it is a definition, otherwise
    the names it mentions. *)
Definition roots (s : schema) : list string :=
  match def_meaning s with Some _ => [type_name s] | None => refs_of s end.
