(** Where errors point, in terms of the statements and the texts of the files. *)
From Verif Require Export SpecCompile SpecFile.
From Verif Require SpecRefs SpecLiterals.

(** From this place on, the text of the file says [word]. *)
Definition says (file text : string) (p : span) (word : string) : Prop :=
  exists before after, text = (before ++ word ++ after)%string /\ p = mkSpan file (N.of_nat (String.length before)).

(** ** References in a file, with their places *)
Fixpoint type_references (t : full_type) : list (string * option span) :=
  match t with FullType _ _ p => plain_references p end
with plain_references (p : plain_type) : list (string * option span) :=
  match p with
  | PtArray t | PtMap t => type_references t
  | PtUnion ts => flat_map type_references ts
  | PtNullable (BReference i sp) _ => [(i, sp)]
  | PtNullable (BPrimitive _ _) _ => []
  end.
Definition item_references (it : item) : list (string * option span) :=
  match it with
  | ItImport _ _ _ => []
  | ItNamed (NRecord r) _ => flat_map (fun f => type_references (fd_type f)) (r_fields r)
  | ItNamed _ _ => []
  | ItMessage m =>
      flat_map (fun p => type_references (pa_type p)) (md_parameters m)
      ++ match md_result m with Some p => plain_references p | None => [] end
      ++ md_errors m
  end.
Definition tree_references (t : idl_tree) : list (string * option span) :=
  match t with TreeSchema _ (Some ft) _ => type_references ft | _ => [] end ++ flat_map item_references (tree_items t).

(** ** What stands at a place *)

(** Rust strings are UTF-8 *)
Definition utf8 (text : string) : Prop := exists l, Forall SpecLiterals.scalar l /\ text = of_chars l.
Definition item_place (it : item) : option span :=
  match it with ItImport _ _ p | ItNamed _ p => Some p | ItMessage _ => None end.
(** The first word of a declaration, of a JSON value *)
Definition first_word (d : named_decl) : string :=
  match d with
  | NRecord r => match r_annotations r with [] => if r_error r then "error" else "record" | _ => "@" end
  | NEnum e => match e_annotations e with [] => "enum" | _ => "@" end
  | NFixed x => match x_annotations x with [] => "fixed" | _ => "@" end
  end.
Definition json_word (j : json_tree) : string :=
  match j with
  | JTNull => "null" | JTTrue => "true" | JTFalse => "false"
  | JTString w => w
  | JTInteger w | JTFloat w => w
  | JTArray _ => "[" | JTObject _ => "{"
  end.

Section WithWorld.
  Context `{Unicode} `{Floats} `{Parser} `{FileSystem} `{JsonParser}.

  (** [it] is a statement of the file, [i] is used as a type at this place *)
  Definition statement (f text : string) (it : item) : Prop :=
    exists tokens t file items ws, reads f text tokens t file items ws /\ In it (tree_items t).
  Definition refers_to (f text i : string) (p : option span) : Prop :=
    exists tokens t file items ws, reads f text tokens t file items ws /\ In (i, p) (tree_references t).

  Section Input.
    Variables (dirs : list string) (label src dir : string).

    (** The IDL files that are read: the input and what it imports, each with its
        name, text and directory *)
    Inductive involved : string -> string -> string -> Prop :=
    | inv_input : involved label src dir
    | inv_import f text d path p q text' :
        involved f text d -> statement f text (ItImport ImportIdl path p) ->
        found_in (d :: dirs) (get_string_from_literal path) q -> fs_read q = Some text' ->
        involved q text' (fs_parent q).

    (** What goes wrong with the import of [name] from the directory [d] *)
    Inductive import_fails (d : string) : import_kind -> string -> compile_error -> Prop :=
    | imf_missing k name : (forall x, In x (d :: dirs) -> fs_exists (fs_join x name) = false) ->
        import_fails d k name (ImportNotFound name (d :: dirs))
    | imf_no_path k name x : In x (d :: dirs) -> fs_exists (fs_join x name) = true -> fs_canonical (fs_join x name) = None ->
        import_fails d k name (CannotCanonicalize name)
    | imf_unreadable k name q : k <> ImportIdl -> found_in (d :: dirs) name q -> fs_read q = None ->
        import_fails d k name (CannotRead q)
    | imf_not_json k name q text : k <> ImportIdl -> found_in (d :: dirs) name q -> fs_read q = Some text -> parse_json text = None ->
        import_fails d k name (NotJson q)
    | imf_schema name q j e : found_in (d :: dirs) name q -> json_content q j -> json_to_schema j None = Err e ->
        import_fails d ImportSchema name (ImportFailed q e)
    | imf_type name q j types tj e : found_in (d :: dirs) name q -> json_content q j ->
        value_get "types" j = Some (JArr types) -> In tj types ->
        json_to_schema tj (match value_get "namespace" j with Some v => as_str v | None => None end) = Err e ->
        import_fails d ImportProtocol name (ImportFailed q e)
    | imf_message name q j ms nm e : found_in (d :: dirs) name q -> json_content q j ->
        value_get "messages" j = Some (JObj ms) -> In nm ms ->
        json_to_message (snd nm) (match value_get "namespace" j with Some v => as_str v | None => None end) = Err e ->
        import_fails d ImportProtocol name (ImportFailed q e).

    (** The type cannot be declared: its name is taken, or is no name. *)
    Definition cannot_declare (s : schema) (e : register_error) : Prop :=
      match e with
      | DuplicateName full => registrable s full
      | _ => forall full, ~ registrable s full
      end.

    (** The field of the record that an entry of the error is about, and the place
        of its default *)
    Definition default_of (r : record_decl) (e : (string * string) * span) : Prop :=
      exists f v j, In f (r_fields r) /\ In v (fd_variables f) /\ identifier_text (v_ident v) = fst (fst e)
        /\ v_default v = Some j /\ snd e = v_place v.

    (** A message about undefined names stands at a reference, if it is about
        this one name, or at the import of a JSON file.  A parser that does not
        place references would leave the start of the input. *)
    Definition well_placed (p : span) (m : string) : Prop :=
      (exists f text d i ns n q, involved f text d /\ refers_to f text i (Some p)
         /\ refers ns i (n, q) /\ m = ("Undefined name: " ++ fullname n q)%string)
      \/ (exists f text d k path, involved f text d /\ k <> ImportIdl /\ statement f text (ItImport k path p))
      \/ (p = mkSpan label 0 /\ exists f text d i, involved f text d /\ refers_to f text i None).

    Inductive explained : compile_error -> Prop :=
    | ex_parse f text d e : involved f text d -> parse_idl f text = Err e -> explained (CannotParse f e)
    | ex_read f text d path p q :
        involved f text d -> statement f text (ItImport ImportIdl path p) ->
        found_in (d :: dirs) (get_string_from_literal path) q -> fs_read q = None -> explained (CannotRead q)
    | ex_import f text d k path p e :
        involved f text d -> statement f text (ItImport k path p) ->
        import_fails d k (get_string_from_literal path) e -> explained (At p e)
    | ex_type f text d decl p tokens ns s e :
        involved f text d -> statement f text (ItNamed decl p) -> named_denotes tokens ns decl s ->
        cannot_declare s e -> explained (At p (CannotRegister e))
    | ex_default f text d r p tokens ns s entries :
        involved f text d -> statement f text (ItNamed (NRecord r) p) -> named_denotes tokens ns (NRecord r) s ->
        entries <> [] -> Forall (default_of r) entries -> explained (BadDefault (full_name s) entries)
    | ex_undefined d :
        (forall p m, In (p, m) (SpecRefs.pointed d) -> well_placed p m) ->
        (SpecRefs.pointed d = [] -> exists f text d i, involved f text d /\ refers_to f text i None) ->
        explained (Undefined d).
  End Input.
End WithWorld.
