(** Model of src/compiler.rs and of [ImportContext] in src/import.rs: imports,
    compilation, and the [Idl] and [Idl2Schemata] builders. *)
From Verif Require Export Import Defaults Reader Serialize.
From Verif Require Refs.

(** ** The outside world *)

(** What a directory contains, in the order the system lists it. *)
Inductive dir_entry :=
| FileEntry (name : string)
| DirEntry (name : string) (content : list dir_entry).

(** The file system, which does not change while the compiler runs.  Paths are
    strings.  Only finitely many canonical paths exist. *)
Class FileSystem := {
  fs_join : string -> string -> string;            (* [Path::join] *)
  fs_exists : string -> bool;                      (* [Path::exists] *)
  fs_canonical : string -> option string;          (* [Path::canonicalize] *)
  fs_files : list string;
  fs_finite : forall p c, fs_canonical p = Some c -> In c fs_files;
  fs_read : string -> option string;               (* [fs::read_to_string] *)
  fs_parent : string -> string;                    (* [Path::parent], or ["."] *)
  fs_file_name : string -> option string;          (* [Path::file_name] as UTF-8 *)
  fs_cwd : option string;                          (* [env::current_dir] *)
  fs_is_dir : string -> bool;                      (* [Path::is_dir] *)
  fs_content : string -> list dir_entry            (* of a directory *)
}.

(** [serde_json] behind [json_comments] (src/import.rs:40-44) *)
Class JsonParser := { parse_json : string -> option json }.

(** ** Import context *)

Inductive compile_error :=
| OutOfFuel                                        (* model only: see C12 *)
| ImportNotFound (file : string) (searched : list string)
| CannotCanonicalize (file : string)
| CannotRead (path : string)
| CannotParse (path : string) (e : read_error)
| NotJson (path : string)
| ImportFailed (path : string) (e : import_error)
| CannotRegister (e : register_error)
| BadDefault (type : option string) (errors : list ((string * string) * span))
| Undefined (d : Refs.diagnostic)
| NoProtocolNorSchema
| NoCurrentDirectory
| At (place : span) (e : compile_error).            (* shown at a place in a source *)

Section WithWorld.
  Context `{Unicode} `{Floats} `{Parser} `{FileSystem} `{JsonParser}.

  (** src/import.rs:74-109 [ImportContext::resolve_import].  The two uses of
      [exists] and [canonicalize] are one loop: the current directory goes first. *)
  Fixpoint search (file : string) (dirs : list string) : option (option string) :=
    match dirs with
    | [] => None
    | d :: r =>
        let candidate := fs_join d file in
        if fs_exists candidate then Some (fs_canonical candidate) else search file r
    end.

  Definition resolve_import (import_dirs : list string) (file current_dir : string)
      : result string compile_error :=
    match search file (current_dir :: import_dirs) with
    | Some (Some p) => Ok p
    | Some None => Err (CannotCanonicalize file)
    | None => Err (ImportNotFound file (current_dir :: import_dirs))
    end.

  (** ** Compile context *)

  (** [miette::Report]: a warning, wrapped in the name of the imported file *)
  Record report := mkReport { rp_file : option string; rp_warning : warning }.

  (** src/compiler.rs:560-583 [CompileContext], and src/import.rs:57-62, the
      set of files already imported.  [cx_loads] is not part of the code: it logs the files the
      imports open, in order. *)
  Record context := mkCx {
    cx_registry : registry;
    cx_imported : list string;
    cx_messages : list (string * message);
    cx_warnings : list report;
    cx_json_imports : list (string * option span);
    cx_loads : list (import_kind * string)
  }.
  Definition new_context : context := mkCx [] [] [] [] [] [].

  Definition set_registry (r : registry) (c : context) : context :=
    mkCx r (cx_imported c) (cx_messages c) (cx_warnings c) (cx_json_imports c) (cx_loads c).
  (** src/import.rs:116-118 [mark_imported], for a path not yet in the set *)
  Definition mark (p : string) (c : context) : context :=
    mkCx (cx_registry c) (p :: cx_imported c) (cx_messages c) (cx_warnings c) (cx_json_imports c) (cx_loads c).
  Definition add_messages (ms : list (string * message)) (c : context) : context :=
    mkCx (cx_registry c) (cx_imported c) (hm_extend (cx_messages c) ms) (cx_warnings c) (cx_json_imports c) (cx_loads c).
  Definition add_warnings (ws : list report) (c : context) : context :=
    mkCx (cx_registry c) (cx_imported c) (cx_messages c) (cx_warnings c ++ ws) (cx_json_imports c) (cx_loads c).
  Definition add_json_import (p : string) (sp : span) (c : context) : context :=
    mkCx (cx_registry c) (cx_imported c) (cx_messages c) (cx_warnings c) (cx_json_imports c ++ [(p, Some sp)]) (cx_loads c).
  Definition log_load (k : import_kind) (p : string) (c : context) : context :=
    mkCx (cx_registry c) (cx_imported c) (cx_messages c) (cx_warnings c) (cx_json_imports c) (cx_loads c ++ [(k, p)]).

  (** A step changes the context also when it fails. *)
  Definition outcome : Type := context * option compile_error.

  (** src/compiler.rs:667-746 [process_decl_items], the arm for a type.  [None]
      from the default check cannot happen, see [C12_no_fuel_needed]. *)
  Definition default_place (place : span) (fields : list (string * span)) (name : string) : span :=
    match assoc name fields with Some sp => sp | None => place end.
  Definition process_type (s : schema) (place : span) (fields : list (string * span)) (c : context) : outcome :=
    match register (cx_registry c) s with
    | Err e => (c, Some (At place (CannotRegister e)))
    | Ok r =>
        let c' := set_registry r c in
        match validate_record_field_defaults (resolve_fuel r s) s (reg_lookup r) with
        | None => (c', Some OutOfFuel)
        | Some [] => (c', None)
        | Some errors => (c', Some (BadDefault (full_name s) (map (fun e => (e, default_place place fields (fst e))) errors)))
        end
    end.

  (** src/reader.rs:1932-1941: the messages of a protocol *)
  Definition messages_of_file (f : idl_file) : list (string * message) :=
    match f with IProtocol p => p_messages p | _ => [] end.

  Definition wrap_warnings (path import_path : string) (ws : list warning) : list report :=
    let name := match fs_file_name path with Some n => n | None => import_path end in
    map (mkReport (Some name)) ws.

  Section Nested.
    (** the recursive call of [process_decl_items] *)
    Variable nested : string -> list decl_item -> context -> outcome.
    Variable import_dirs : list string.

    (** src/compiler.rs:772-836, after the file was found and marked, with 851-871
        [wrap_import_error].  Errors of an IDL file are not shown at the import. *)
    Definition load_import (k : import_kind) (import_path p : string) (sp : span) (c : context) : outcome :=
      match k with
      | ImportProtocol =>
          match fs_read p with
          | None => (c, Some (At sp (CannotRead p)))
          | Some text =>
              match parse_json text with
              | None => (c, Some (At sp (NotJson p)))
              | Some j =>
                  match import_protocol j (cx_registry c) with
                  | (r, Err e) => (set_registry r c, Some (At sp (ImportFailed p e)))
                  | (r, Ok ms) => (add_json_import p sp (add_messages ms (set_registry r c)), None)
                  end
              end
          end
      | ImportSchema =>
          match fs_read p with
          | None => (c, Some (At sp (CannotRead p)))
          | Some text =>
              match parse_json text with
              | None => (c, Some (At sp (NotJson p)))
              | Some j =>
                  match import_schema j (cx_registry c) with
                  | (r, Err e) => (set_registry r c, Some (At sp (ImportFailed p e)))
                  | (r, Ok _) => (add_json_import p sp (set_registry r c), None)
                  end
              end
          end
      | ImportIdl =>
          match fs_read p with
          | None => (c, Some (CannotRead p))
          | Some text =>
              match parse_idl p text with
              | Err e => (c, Some (CannotParse p e))
              | Ok (file, items, ws) =>
                  nested (fs_parent p) items
                    (add_messages (messages_of_file file) (add_warnings (wrap_warnings p import_path ws) c))
              end
          end
      end.

    (** src/compiler.rs:750-840 [resolve_single_import] *)
    Definition resolve_single_import (k : import_kind) (path : string) (sp : span) (current_dir : string) (c : context) : outcome :=
      match resolve_import import_dirs path current_dir with
      | Err e => (c, Some (At sp e))
      | Ok p =>
          if str_mem p (cx_imported c) then (c, None)
          else load_import k path p sp (log_load k p (mark p c))
      end.

    (** src/compiler.rs:667-746 [process_decl_items], the loop *)
    Fixpoint process_items (current_dir : string) (items : list decl_item) (c : context) : outcome :=
      match items with
      | [] => (c, None)
      | it :: r =>
          let step :=
            match it with
            | DImport k path sp => resolve_single_import k path sp current_dir c
            | DType s sp fields => process_type s sp fields c
            end in
          match step with
          | (c', None) => process_items current_dir r c'
          | (c', Some e) => (c', Some e)
          end
      end.
  End Nested.

  (** The recursion goes one level deeper with every IDL file opened, hence
      never deeper than the number of files. *)
  Fixpoint process_decl_items (fuel : nat) (import_dirs : list string) (current_dir : string)
      (items : list decl_item) (c : context) : outcome :=
    process_items
      (match fuel with
       | O => fun _ _ c => (c, Some OutOfFuel)
       | S n => process_decl_items n import_dirs
       end) import_dirs current_dir items c.

  (** ** Compilation *)

  (** src/compiler.rs:63-74 [CompileOutput]; the source is kept for error
      messages only.  [co_context] is the context at the end, for the log. *)
  Record compile_output := mkOutput {
    co_file : idl_file;
    co_registry : registry;
    co_warnings : list report;
    co_loads : list (import_kind * string)
  }.

  (** src/compiler.rs:640-653: types and messages of the protocol *)
  Definition finish_file (f : idl_file) (c : context) : idl_file :=
    match f with
    | IProtocol p =>
        IProtocol (mkProtocol (p_name p) (p_namespace p) (p_doc p) (p_props p)
                     (reg_schemas (cx_registry c)) (hm_extend (cx_messages c) (p_messages p)))
    | other => other
    end.

  Definition mark_input (p : option string) (c : context) : context :=
    match p with Some x => mark x c | None => c end.

  (** src/compiler.rs:603-664 [parse_and_resolve].  The context comes back also
      on failure, for its warnings. *)
  Definition parse_and_resolve (import_dirs : list string) (source source_name input_dir : string)
      (input_path : option string) : context * result idl_file compile_error :=
    match parse_idl source_name source with
    | Err e => (new_context, Err (CannotParse source_name e))
    | Ok (file, items, ws) =>
        let c := mark_input input_path (add_warnings (map (mkReport None) ws) new_context) in
        match process_decl_items (length fs_files) import_dirs input_dir items c with
        | (c', Some e) => (c', Err e)
        | (c', None) => (c', Ok (finish_file file c'))
        end
    end.

  Definition ref_file (f : idl_file) : Refs.idl_file :=
    match f with
    | IProtocol p => Refs.IdlProtocol p
    | ISchema s => Refs.IdlSchema s
    | INamed l => Refs.IdlNamed l
    end.

  (** src/compiler.rs:133-175 [compile], without the builder: the result, and
      the warnings left for [drain_warnings] *)
  Definition compile (import_dirs : list string) (source source_name input_dir : string)
      (input_path : option string) : result compile_output compile_error * list report :=
    match parse_and_resolve import_dirs source source_name input_dir input_path with
    | (c, Err e) => (Err e, cx_warnings c)
    | (c, Ok file) =>
        match Refs.validate_all_references (ref_file file) (cx_registry c) source_name
                (cx_json_imports c) with
        | Some d => (Err (Undefined d), cx_warnings c)
        | None => (Ok (mkOutput file (cx_registry c) (cx_warnings c) (cx_loads c)), [])
        end
    end.

  (** ** Builders *)

  (** src/compiler.rs:46-58 [IdlCompiler], the whole state of both builders *)
  Record builder := mkBuilder { b_import_dirs : list string; b_warnings : list report }.

  (** src/compiler.rs:76-91 *)
  Definition new_builder : builder := mkBuilder [] [].
  Definition import_dir (dir : string) (b : builder) : builder :=
    mkBuilder (b_import_dirs b ++ [dir]) (b_warnings b).
  Definition drain_warnings (b : builder) : builder * list report :=
    (mkBuilder (b_import_dirs b) [], b_warnings b).

  (** src/compiler.rs:94-110 [compile_file]; a file that cannot be read leaves
      the builder as it was. *)
  Definition compile_file (path : string) (b : builder) : builder * result compile_output compile_error :=
    match fs_read path with
    | None => (b, Err (CannotRead path))
    | Some source =>
        let parent := fs_parent path in
        let dir := match fs_canonical parent with Some d => d | None => parent end in
        let '(res, ws) := compile (b_import_dirs b) source path dir (fs_canonical path) in
        (mkBuilder (b_import_dirs b) ws, res)
    end.

  (** src/compiler.rs:115-124 [compile_str] *)
  Definition compile_str (source name : string) (b : builder) : builder * result compile_output compile_error :=
    match fs_cwd with
    | None => (b, Err NoCurrentDirectory)
    | Some cwd =>
        let '(res, ws) := compile (b_import_dirs b) source name cwd None in
        (mkBuilder (b_import_dirs b) ws, res)
    end.

  (** src/compiler.rs:221-230 [IdlOutput] *)
  Record idl_output := mkIdlOutput { io_json : json; io_warnings : list report }.

  (** src/compiler.rs:311-360 [convert_impl]; JSON generation always gives a
      result, see C01. *)
  Definition convert_impl (o : compile_output) (b : builder) : builder * result idl_output compile_error :=
    match co_file o with
    | INamed _ => (mkBuilder (b_import_dirs b) (co_warnings o), Err NoProtocolNorSchema)
    | IProtocol p =>
        match protocol_to_json p with
        | Some j => (b, Ok (mkIdlOutput j (co_warnings o)))
        | None => (b, Err OutOfFuel)
        end
    | ISchema s =>
        match schema_to_json s [] None (build_lookup (reg_schemas (co_registry o)) None) with
        | Some (j, _) => (b, Ok (mkIdlOutput j (co_warnings o)))
        | None => (b, Err OutOfFuel)
        end
    end.

  (** src/compiler.rs:276-303 [Idl::convert], [convert_str_named] *)
  Definition convert (path : string) (b : builder) : builder * result idl_output compile_error :=
    match compile_file path b with
    | (b', Ok o) => convert_impl o b'
    | (b', Err e) => (b', Err e)
    end.
  Definition convert_str (source name : string) (b : builder) : builder * result idl_output compile_error :=
    match compile_str source name b with
    | (b', Ok o) => convert_impl o b'
    | (b', Err e) => (b', Err e)
    end.

  (** src/compiler.rs:373-394 [NamedSchema], [SchemataOutput] *)
  Record named_schema := mkNamedSchema { nm_name : string; nm_schema : json }.
  Record schemata_output := mkSchemata { so_schemas : list named_schema; so_warnings : list report }.

  (** src/compiler.rs:520-556 [extract_impl] *)
  Fixpoint extract_schemas (lookup : list (string * schema)) (l : list schema) : option (list named_schema) :=
    match l with
    | [] => Some []
    | s :: r =>
        match schema_name s with
        | None => extract_schemas lookup r
        | Some n =>
            match schema_to_json s [] None lookup, extract_schemas lookup r with
            | Some (j, _), Some rest => Some (mkNamedSchema n j :: rest)
            | _, _ => None
            end
        end
    end.
  Definition extract_impl (o : compile_output) : result schemata_output compile_error :=
    let schemas := reg_schemas (co_registry o) in
    match extract_schemas (build_lookup schemas None) schemas with
    | Some l => Ok (mkSchemata l (co_warnings o))
    | None => Err OutOfFuel
    end.

  Definition extract_file (path : string) (b : builder) : builder * result schemata_output compile_error :=
    match compile_file path b with
    | (b', Ok o) => (b', extract_impl o)
    | (b', Err e) => (b', Err e)
    end.

  (** src/compiler.rs:486-493 [extract_str_named] *)
  Definition extract_str (source name : string) (b : builder) : builder * result schemata_output compile_error :=
    match compile_str source name b with
    | (b', Ok o) => (b', extract_impl o)
    | (b', Err e) => (b', Err e)
    end.

  (** src/compiler.rs:514-519, the loop of [extract_directory] *)
  Fixpoint extract_all (paths : list string) (acc : schemata_output) (b : builder)
      : builder * result schemata_output compile_error :=
    match paths with
    | [] => (b, Ok acc)
    | p :: r =>
        match extract_file p b with
        | (b', Err e) => (b', Err e)
        | (b', Ok o) =>
            extract_all r (mkSchemata (so_schemas acc ++ so_schemas o) (so_warnings acc ++ so_warnings o)) b'
        end
    end.

  Definition dir_entry_name (e : dir_entry) : string :=
    match e with FileEntry n | DirEntry n _ => n end.

  (** [sort_by_file_name]: a stable sort by the bytes of the name *)
  Fixpoint insert_by_name {A} (x : string * A) (l : list (string * A)) : list (string * A) :=
    match l with
    | [] => [x]
    | y :: r =>
        match String.compare (fst x) (fst y) with
        | Gt => y :: insert_by_name x r
        | _ => x :: l
        end
    end.
  Definition sort_by_name {A} (l : list (string * A)) : list (string * A) := fold_right insert_by_name [] l.

  (** The [walkdir] crate: a directory comes before what it contains.  Pairs of
      path and file name.  Entries that cannot be read are skipped by the code
      (src/compiler.rs:505) and are not part of the model. *)
  Fixpoint walk_entry (path : string) (e : dir_entry) : list (string * string) :=
    match e with
    | FileEntry n => [(fs_join path n, n)]
    | DirEntry n content =>
        (fs_join path n, n)
          :: flat_map snd (sort_by_name (map (fun c => (dir_entry_name c, walk_entry (fs_join path n) c)) content))
    end.
  Definition walk_dir (path : string) : list (string * string) :=
    (path, match fs_file_name path with Some n => n | None => "" end)
      :: flat_map snd (sort_by_name (map (fun c => (dir_entry_name c, walk_entry path c)) (fs_content path))).

  (** [Path::extension]: what follows the last dot, unless that dot comes first *)
  Definition extension (name : string) : option string :=
    match rsplit_once_dot name with
    | Some (before, after) => if str_is_empty before then None else Some after
    | None => None
    end.
  Definition is_avdl (name : string) : bool :=
    match extension name with Some e => String.eqb e "avdl" | None => false end.

  (** src/compiler.rs:498-512 [extract_directory], the paths.  Directories are
      not left out. *)
  Definition avdl_paths (dir : string) : list string :=
    map fst (filter (fun pn => is_avdl (snd pn)) (walk_dir dir)).

  (** src/compiler.rs:467-477 [Idl2Schemata::extract] *)
  Definition extract (path : string) (b : builder) : builder * result schemata_output compile_error :=
    if fs_is_dir path then extract_all (avdl_paths path) (mkSchemata [] []) b
    else extract_file path b.
End WithWorld.
