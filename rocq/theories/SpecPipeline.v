(** From files to documents: when the document written for a file must read
    back, by the rules of the Avro specification, as what the files declare. *)
From Verif Require Export SpecDefaults SpecMeaning SpecAvro SpecNames SpecCompile.

Definition aliases_of (s : schema) : list string :=
  match s with
  | SRecord _ _ _ _ _ al _ | SEnum _ _ _ _ _ al _ | SFixed _ _ _ _ al _ => al
  | _ => []
  end.

(** No alias is a dot followed by a simple name. *)
Definition plain_aliases (types : list schema) : Prop :=
  forall t a, In t types -> In a (aliases_of t) -> alias_ok a = true.

(** A type outside any namespace is not called like a primitive type, and no
    type inside a namespace mentions it: Avro has no way to write such a
    reference. *)
Definition apart (types : list schema) : Prop :=
  forall t, In t types -> ns_empty (ns_field t) = true ->
    ~ In (type_name t) spec_primitives
    /\ forall u, In u types -> mentions u (type_name t) -> ns_empty (ns_field u) = true.

(** The same for a protocol: one with a namespace has no type without, and its
    messages do not mention types outside any namespace. *)
Definition protocol_apart (p : protocol) : Prop :=
  apart (p_types p)
  /\ (ns_empty (p_namespace p) = false -> forall t, In t (p_types p) ->
        ns_field t <> None
        /\ (ns_empty (ns_field t) = true -> forall nm m, In nm (p_messages p) -> message_type (snd nm) m -> ~ mentions m (type_name t))).

(** [t] is a definition. *)
Definition definition_of (t : schema) : Prop :=
  match t with SRecord _ _ _ _ _ _ _ | SEnum _ _ _ _ _ _ _ | SFixed _ _ _ _ _ _ => True | _ => False end.

(** No message contains the definition of a type. *)
Definition no_inline_definitions (p : protocol) : Prop :=
  forall nm m u, In nm (p_messages p) -> message_type (snd nm) m -> occurs u m -> ~ definition_of u.

Section WithWorld.
  Context `{Unicode} `{Floats} `{Parser} `{FileSystem} `{JsonParser}.

  (** What the JSON parser gives has no object with a key twice and no number
      out of range. *)
  Definition proper_json (loads : list (import_kind * string)) : Prop :=
    forall k q j, In (k, q) loads -> k <> ImportIdl -> json_content q j -> wf_json j.

  (** [defs], the definitions read from a document, are those declared in the
      files: [dir] and [items] are the directory and the declarations of the
      input, [loads] the files imported. *)
  Record declared_defs (dir : string) (items : list decl_item) (loads : list (import_kind * string))
      (defs : list (string * adef)) : Prop := mkDeclared {
    dd_once : NoDup (keys defs);
    dd_declared : forall f d, In (f, d) defs ->
      exists s, declared_in_files dir items loads s /\ named_meaning s = Some (f, d);
    dd_idl : forall d its s sp fs, source dir items loads d its -> In (DType s sp fs) its ->
      exists fd, named_meaning s = Some fd /\ In fd defs;
    dd_imported : forall s full, declared_in_files dir items loads s -> registrable s full -> In full (keys defs)
  }.

  (** [ap], read from a document, is the protocol [p] of the input file with
      the messages of the imported files. *)
  Record declared_protocol (p : protocol) (dir : string) (items : list decl_item) (loads : list (import_kind * string))
      (ap : aprotocol) : Prop := mkDeclaredProtocol {
    dp_name : ap_name ap = p_name p;
    dp_namespace : ap_namespace ap = nsof (p_namespace p);
    dp_attrs : ap_attrs ap = canon (opt_attr "doc" (option_map JStr (p_doc p)) ++ p_props p);
    dp_defs : declared_defs dir items loads (ap_defs ap);
    dp_messages_once : NoDup (keys (ap_messages ap));
    dp_messages : exists tables, Forall2 load_messages loads tables /\
      forall n a, In (n, a) (ap_messages ap) <->
        exists m, a = message_meaning m /\
          (In (n, m) (p_messages p) \/ ~ In n (keys (p_messages p)) /\ last_declared tables n m)
  }.

  (** The document [doc] reads back as the type [s], with definitions that are
      declared in the files and whose names are those [s] needs. *)
  Record declared_document (dir : string) (items : list decl_item) (loads : list (import_kind * string))
      (needs : string -> Prop) (s : schema) (doc : json) (defs : list (string * adef)) : Prop := mkDeclaredDocument {
    do_reads : read_document (jdepth doc) doc = Some (meaning s, defs);
    do_once : NoDup (keys defs);
    do_declared : forall f d, In (f, d) defs ->
      exists t, declared_in_files dir items loads t /\ named_meaning t = Some (f, d);
    do_complete : forall f, In f (keys defs) <-> needs f
  }.

  (** What is compiled: a file, or a text with a name for it.  Then the text,
      its name, its directory and, for a file, its canonical path. *)
  Inductive input := FromFile (path : string) | FromText (text name : string).
  Inductive input_of : input -> string -> string -> string -> option string -> Prop :=
  | in_file path text : fs_read path = Some text ->
      input_of (FromFile path) text path
        (match fs_canonical (fs_parent path) with Some d => d | None => fs_parent path end) (fs_canonical path)
  | in_text text name cwd : fs_cwd = Some cwd -> input_of (FromText text name) text name cwd None.
  Definition run_convert (i : input) (b : builder) :=
    match i with FromFile path => convert path b | FromText text name => convert_str text name b end.
  Definition run_extract (i : input) (b : builder) :=
    match i with FromFile path => extract_file path b | FromText text name => extract_str text name b end.
End WithWorld.
