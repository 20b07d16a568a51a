(** What compiling a file and its imports should do, without the compiler. *)
From Verif Require Export SpecReader SpecNames Compile.
From Coq Require Import Permutation Sorted.

Section WithWorld.
  Context `{Unicode} `{Floats} `{Parser} `{FileSystem} `{JsonParser}.

  (** The file [name] denotes in the first of the directories that has it. *)
  Definition found_in (dirs : list string) (name p : string) : Prop :=
    exists before d after, dirs = before ++ d :: after
      /\ (forall d', In d' before -> fs_exists (fs_join d' name) = false)
      /\ fs_exists (fs_join d name) = true /\ fs_canonical (fs_join d name) = Some p.

  (** The content of IDL and JSON files *)
  Definition idl_content (p : string) (file : idl_file) (items : list decl_item) (ws : list warning) : Prop :=
    exists text, fs_read p = Some text /\ parse_idl p text = Ok (file, items, ws).
  Definition json_content (p : string) (j : json) : Prop :=
    exists text, fs_read p = Some text /\ parse_json text = Some j.

  (** [dir], [items]: the directory and the declarations of the input;
      [dirs]: the import directories. *)
  Section Input.
    Variables (dirs : list string) (dir : string) (items : list decl_item).

    (** [p] is imported, as a file of kind [k], by the input or by an IDL file
        it imports, directly or not. *)
    Inductive reachable : import_kind -> string -> Prop :=
    | re_input k name sp p :
        In (DImport k name sp) items -> found_in (dir :: dirs) name p -> reachable k p
    | re_nested q file its ws k name sp p :
        reachable ImportIdl q -> idl_content q file its ws ->
        In (DImport k name sp) its -> found_in (fs_parent q :: dirs) name p -> reachable k p.

    Variable loads : list (import_kind * string).

    (** The IDL files that take part, each with its directory. *)
    Inductive source : string -> list decl_item -> Prop :=
    | so_input : source dir items
    | so_loaded q file its ws :
        In (ImportIdl, q) loads -> idl_content q file its ws -> source (fs_parent q) its.

    (** [s] is declared in one of the files that take part. *)
    Inductive declared_in_files (s : schema) : Prop :=
    | df_idl d its sp fs : source d its -> In (DType s sp fs) its -> declared_in_files s
    | df_schema q j t :
        In (ImportSchema, q) loads -> json_content q j -> json_to_schema j None = Ok t ->
        In s (fst (flatten t)) -> declared_in_files s
    | df_protocol q j tj t types :
        In (ImportProtocol, q) loads -> json_content q j -> value_get "types" j = Some (JArr types) -> In tj types ->
        json_to_schema tj (match value_get "namespace" j with Some v => as_str v | None => None end) = Ok t ->
        In s (fst (flatten t)) -> declared_in_files s.
  End Input.

  (** The messages an imported file declares *)
  Inductive load_messages : import_kind * string -> list (string * message) -> Prop :=
  | lm_idl q file items ws : idl_content q file items ws -> load_messages (ImportIdl, q) (messages_of_file file)
  | lm_protocol q j ms :
      json_content q j ->
      match value_get "messages" j with
      | Some (JObj l) =>
          Forall2 (fun kv nm => fst nm = fst kv /\
                     json_to_message (snd kv) (match value_get "namespace" j with Some v => as_str v | None => None end) = Ok (snd nm)) l ms
      | _ => ms = []
      end -> load_messages (ImportProtocol, q) ms
  | lm_schema q : load_messages (ImportSchema, q) [].

  (** [name] is last declared, in a list of message tables, as [m]. *)
  Definition last_declared (tables : list (list (string * message))) (name : string) (m : message) : Prop :=
    exists before l after, tables = before ++ l :: after /\ assoc name (rev l) = Some m
      /\ forall l', In l' after -> ~ In name (keys l').

  (** The warnings of an imported file, marked with its name *)
  Inductive load_warnings : import_kind * string -> list report -> Prop :=
  | lw_idl q file items ws name :
      idl_content q file items ws -> (forall n, fs_file_name q = Some n -> name = n) ->
      load_warnings (ImportIdl, q) (map (mkReport (Some name)) ws)
  | lw_none k q :
      (k = ImportIdl -> forall file items ws, ~ idl_content q file items ws) -> load_warnings (k, q) [].
End WithWorld.

(** ** Warnings *)
Section Warnings.
  Context `{Unicode} `{Floats} `{Parser} `{FileSystem} `{JsonParser}.

  (** The warnings about the text [src], called [label], and the imported files [loads] *)
  Definition collected (label src : string) (loads : list (import_kind * string)) (ws : list report) : Prop :=
    exists wss, Forall2 load_warnings loads wss
      /\ match parse_idl label src with
         | Ok (_, _, own) => ws = map (mkReport None) own ++ concat wss
         | Err _ => ws = []
         end.
End Warnings.

(** ** Uses of a builder *)

Section Builder.
  Context `{Unicode} `{Floats} `{Parser} `{FileSystem} `{JsonParser}.

  Inductive call :=
  | CallImportDir (dir : string)
  | CallConvert (path : string)
  | CallConvertStr (source name : string)
  | CallExtract (path : string)
  | CallExtractStr (source name : string)
  | CallDrain.
  Definition after_call (b : builder) (c : call) : builder :=
    match c with
    | CallImportDir d => import_dir d b
    | CallConvert p => fst (convert p b)
    | CallConvertStr s n => fst (convert_str s n b)
    | CallExtract p => fst (extract p b)
    | CallExtractStr s n => fst (extract_str s n b)
    | CallDrain => fst (drain_warnings b)
    end.
  (** A builder after any calls *)
  Definition used (calls : list call) : builder := fold_left after_call calls new_builder.
  (** A fresh builder with the same import directories *)
  Definition dirs_of (calls : list call) : list string :=
    flat_map (fun c => match c with CallImportDir d => [d] | _ => [] end) calls.
  Definition fresh (dirs : list string) : builder := fold_left (fun b d => import_dir d b) dirs new_builder.
End Builder.

(** ** Directories *)

(** The same tree, listed in another order *)
Inductive relisted : dir_entry -> dir_entry -> Prop :=
| rl_file n : relisted (FileEntry n) (FileEntry n)
| rl_dir n l l' l'' : Forall2 relisted l l' -> Permutation l' l'' -> relisted (DirEntry n l) (DirEntry n l'').

(** The names of .avdl files *)
Definition avdl_name (name : string) : Prop := exists stem, stem <> "" /\ name = (stem ++ ".avdl")%string.

(** No two entries of a directory have the same name. *)
Inductive proper : dir_entry -> Prop :=
| pr_file n : proper (FileEntry n)
| pr_dir n l : Forall proper l -> NoDup (map dir_entry_name l) -> proper (DirEntry n l).

(** Paths and names of what is below a directory, a directory before its
    content, and entries of a directory in the order of their names. *)
Section Listing.
  Context `{FileSystem}.
  Inductive listing : string -> dir_entry -> list (string * string) -> Prop :=
  | li_file path n : listing path (FileEntry n) [(fs_join path n, n)]
  | li_dir path n l ls : listings (fs_join path n) l ls -> listing path (DirEntry n l) ((fs_join path n, n) :: ls)
  with listings : string -> list dir_entry -> list (string * string) -> Prop :=
  | li_content path l sorted lls :
      Permutation l sorted ->
      Sorted.StronglySorted (fun e e' => String.compare (dir_entry_name e) (dir_entry_name e') = Lt) sorted ->
      each path sorted lls -> listings path l (concat lls)
  with each : string -> list dir_entry -> list (list (string * string)) -> Prop :=
  | ea_nil path : each path [] []
  | ea_cons path e l ls lls : listing path e ls -> each path l lls -> each path (e :: l) (ls :: lls).
End Listing.

(** The same files, with directories listed by [content] *)
Definition relist (FS : FileSystem) (content : string -> list dir_entry) : FileSystem :=
  {| fs_join := @fs_join FS; fs_exists := @fs_exists FS; fs_canonical := @fs_canonical FS; fs_files := @fs_files FS;
     fs_finite := @fs_finite FS; fs_read := @fs_read FS; fs_parent := @fs_parent FS; fs_file_name := @fs_file_name FS;
     fs_cwd := @fs_cwd FS; fs_is_dir := @fs_is_dir FS; fs_content := content |}.

(** ** Moving declarations *)

(** A schema without the source positions of its references *)
Fixpoint unplaced (s : schema) : schema :=
  match s with
  | SRecord n ns d fs e al ps =>
      SRecord n ns d (map (fun f => mkField (f_name f) (unplaced (f_schema f)) (f_doc f) (f_default f) (f_order f) (f_aliases f) (f_props f)) fs) e al ps
  | SArray i ps => SArray (unplaced i) ps
  | SMap i ps => SMap (unplaced i) ps
  | SUnion ts b => SUnion (map unplaced ts) b
  | SRef n ns ps _ => SRef n ns ps None
  | other => other
  end.
Definition unplaced_field (f : field) : field :=
  mkField (f_name f) (unplaced (f_schema f)) (f_doc f) (f_default f) (f_order f) (f_aliases f) (f_props f).
Definition unplaced_message (m : message) : message :=
  mkMessage (m_doc m) (m_props m) (map unplaced_field (m_request m)) (unplaced (m_response m))
    (option_map (map unplaced) (m_errors m)) (m_one_way m).
Definition unplaced_messages (l : list (string * message)) : list (string * message) :=
  map (fun nm => (fst nm, unplaced_message (snd nm))) l.

(** The same types, in any order *)
Definition same_types (l l' : list schema) : Prop := Permutation (map unplaced l) (map unplaced l').

(** The same main declaration, up to the order of the types *)
Inductive same_main : idl_file -> idl_file -> Prop :=
| sm_protocol p q :
    p_name p = p_name q -> p_namespace p = p_namespace q -> p_doc p = p_doc q -> p_props p = p_props q ->
    same_types (p_types p) (p_types q) -> unplaced_messages (p_messages p) = unplaced_messages (p_messages q) ->
    same_main (IProtocol p) (IProtocol q)
| sm_schema s s' : unplaced s = unplaced s' -> same_main (ISchema s) (ISchema s')
| sm_named l l' : same_types l l' -> same_main (INamed l) (INamed l').
