(** Model of src/resolve.rs: name validation, the schema registry and the
    collection of unresolved references. *)
From Verif Require Export Schema.

Section WithUnicode.
  Context `{Unicode}.

  (** src/resolve.rs:41-50 [is_valid_avro_name] *)
  Definition valid_name_chars (l : list N) : bool :=
    match l with
    | [] => false
    | c :: r =>
        (is_alphabetic c || (c =? 95)%N)
        && forallb (fun c => is_alphanumeric c || (c =? 95)%N) r
    end.

  Definition is_valid_avro_name (name : string) : bool := valid_name_chars (chars name).

  (** src/resolve.rs:57-79 [validate_schema_name]; [true] is [Ok(())] *)
  Definition validate_schema_name (name : string) (ns : option string) : bool :=
    is_valid_avro_name name
    && match ns with
       | None => true
       | Some n => if str_is_empty n then true else forallb is_valid_avro_name (split_dot n)
       end.

  (** src/resolve.rs:85-88 [SchemaRegistry]: an [IndexMap], i.e. the entries in
      registration order *)
  Definition registry := list (string * schema).

  Inductive register_error :=
  | NotNamed                      (* "cannot register non-named schema" *)
  | RegisterPanic                 (* unreachable!(..) for a Reference, line 126 *)
  | InvalidName
  | DuplicateName (full : string).

  (** src/resolve.rs:109-137 [SchemaRegistry::register] *)
  Definition register (r : registry) (s : schema) : result registry register_error :=
    match full_name s with
    | None => Err NotNamed
    | Some full =>
        match s with
        | SRecord n ns _ _ _ _ _ | SEnum n ns _ _ _ _ _ | SFixed n ns _ _ _ _ =>
            if validate_schema_name n ns then
              match assoc full r with
              | Some _ => Err (DuplicateName full)
              | None => Ok (r ++ [(full, s)])
              end
            else Err InvalidName
        | _ => Err RegisterPanic
        end
    end.

  (** [let _ = registry.register(t)]: errors are dropped *)
  Definition register_ignoring (r : registry) (s : schema) : registry :=
    match register r s with Ok r' => r' | Err _ => r end.
End WithUnicode.

(** src/resolve.rs:140-153 [lookup], [schemas], [names] *)
Definition reg_lookup (r : registry) (full : string) : option schema := assoc full r.
Definition reg_schemas (r : registry) : list schema := map snd r.
Definition reg_names (r : registry) : list string := map fst r.

Definition is_registered (r : registry) (full : string) : bool :=
  match assoc full r with Some _ => true | None => false end.

(** src/resolve.rs:225-262 [collect_unresolved_refs]; [known] answers
    [contains_key].  The accumulator of the Rust code is the concatenation
    of results in walk order. *)
Fixpoint collect_unresolved_refs (known : string -> bool) (s : schema)
  : list (string * option span) :=
  match s with
  | SRef n ns _ sp =>
      let full := make_full_name n ns in
      if known full then [] else [(full, sp)]
  | SRecord _ _ _ fs _ _ _ =>
      flat_map (fun f => collect_unresolved_refs known (f_schema f)) fs
  | SArray i _ | SMap i _ => collect_unresolved_refs known i
  | SUnion ts _ => flat_map (collect_unresolved_refs known) ts
  | _ => []
  end.

(** src/resolve.rs:188-194 [validate_references], 207-213 [validate_schema] *)
Definition validate_references (r : registry) : list (string * option span) :=
  flat_map (fun kv => collect_unresolved_refs (is_registered r) (snd kv)) r.
Definition validate_schema (r : registry) (s : schema) : list (string * option span) :=
  collect_unresolved_refs (is_registered r) s.
