(** Compilation as textual inclusion: what an import stands for, what the
    declarations it stands for add up to, and which names are used. *)
From Verif Require Export SpecCompile SpecNames SpecDefaults.
From Verif Require Import Defaults.
Import SpecNames.

(** A declaration written in an IDL file, or the definitions of a JSON file *)
Inductive declaration :=
| Written (s : schema)
| Listed (l : list schema).

Section WithWorld.
  Context `{Unicode} `{Floats} `{Parser} `{FileSystem} `{JsonParser}.

  (** The definitions in a JSON file, in the order in which they are written;
      every part of it has to be readable. *)
  Definition namespace_of (j : json) : option string :=
    match value_get "namespace" j with Some v => as_str v | None => None end.
  Definition types_of (j : json) : list json :=
    match value_get "types" j with Some (JArr l) => l | _ => [] end.
  Inductive json_definitions : import_kind -> json -> list schema -> Prop :=
  | jd_schema j t : json_to_schema j None = Ok t -> json_definitions ImportSchema j (fst (flatten t))
  | jd_protocol j ts :
      Forall2 (fun tj t => json_to_schema tj (namespace_of j) = Ok t) (types_of j) ts ->
      json_definitions ImportProtocol j (flat_map (fun t => fst (flatten t)) ts).

  (** [expands dirs dir seen items ds tables seen']: the statements [items] of a
      file in [dir], with every import replaced by what it imports, are the
      declarations [ds].  A file is put in place only once: [seen] are the files
      known before, [seen'] after.  [tables]: the messages of the imported
      files, an importing file before the files it imports. *)
  Inductive expands (dirs : list string) :
      string -> list string -> list decl_item -> list declaration -> list (list (string * message)) -> list string -> Prop :=
  | ex_end dir seen : expands dirs dir seen [] [] [] seen
  | ex_type dir seen s sp fs items ds tables seen' :
      expands dirs dir seen items ds tables seen' ->
      expands dirs dir seen (DType s sp fs :: items) (Written s :: ds) tables seen'
  | ex_again dir seen k name sp p items ds tables seen' :
      found_in (dir :: dirs) name p -> In p seen ->
      expands dirs dir seen items ds tables seen' ->
      expands dirs dir seen (DImport k name sp :: items) ds tables seen'
  | ex_json dir seen k name sp p j l ms items ds tables seen' :
      found_in (dir :: dirs) name p -> ~ In p seen ->
      json_content p j -> json_definitions k j l -> load_messages (k, p) ms ->
      expands dirs dir (p :: seen) items ds tables seen' ->
      expands dirs dir seen (DImport k name sp :: items) (Listed l :: ds) (ms :: tables) seen'
  | ex_idl dir seen name sp p file inner ws ds1 tables1 seen1 items ds2 tables2 seen2 :
      found_in (dir :: dirs) name p -> ~ In p seen ->
      idl_content p file inner ws ->
      expands dirs (fs_parent p) (p :: seen) inner ds1 tables1 seen1 ->
      expands dirs dir seen1 items ds2 tables2 seen2 ->
      expands dirs dir seen (DImport ImportIdl name sp :: items)
        (ds1 ++ ds2) ((messages_of_file file :: tables1) ++ tables2) seen2.

  (** The default values in [s] suit their types, as far as the types [known]
      say what these are (C19-C21). *)
  Definition defaults_fit (known : list (string * schema)) (s : schema) : Prop :=
    forall n ns d fs e al ps f j fuel t,
      s = SRecord n ns d fs e al ps -> In f fs -> f_default f = Some j ->
      resolve_for_validation fuel (f_schema f) (fun full => assoc full known) = Some (Some t) ->
      is_valid_default j t = true.

  (** The definitions of a JSON file join those known: the first with a name
      counts, and one without a proper name does not. *)
  Inductive joins : list (string * schema) -> list schema -> list (string * schema) -> Prop :=
  | jo_end known : joins known [] known
  | jo_new known s full l known' :
      registrable s full -> ~ In full (keys known) -> joins (known ++ [(full, s)]) l known' ->
      joins known (s :: l) known'
  | jo_not known s l known' :
      (forall full, registrable s full -> In full (keys known)) -> joins known l known' ->
      joins known (s :: l) known'.

  (** [adds_up known ds known']: with [known] declared before, there is nothing
      wrong with the declarations [ds], and after them [known'] is declared. *)
  Inductive adds_up : list (string * schema) -> list declaration -> list (string * schema) -> Prop :=
  | de_end known : adds_up known [] known
  | de_written known s full ds known' :
      registrable s full -> ~ In full (keys known) -> defaults_fit (known ++ [(full, s)]) s ->
      adds_up (known ++ [(full, s)]) ds known' -> adds_up known (Written s :: ds) known'
  | de_listed known l known1 ds known' :
      joins known l known1 -> adds_up known1 ds known' -> adds_up known (Listed l :: ds) known'.

  (** [full] is used: by a declared type, by the main schema, or by a message
      of the protocol, its own or, if it has none of that name, the last one
      imported. *)
  Inductive uses (file : idl_file) (known : list (string * schema)) (tables : list (list (string * message))) : string -> Prop :=
  | us_type k s full : In (k, s) known -> mentions s full -> uses file known tables full
  | us_schema s full : file = ISchema s -> mentions s full -> uses file known tables full
  | us_own p n m t full :
      file = IProtocol p -> assoc n (p_messages p) = Some m -> message_type m t -> mentions t full ->
      uses file known tables full
  | us_imported p n m t full :
      file = IProtocol p -> ~ In n (keys (p_messages p)) -> last_declared tables n m ->
      message_type m t -> mentions t full -> uses file known tables full.

  (** The file, in [dir] and known as [input], has no problem, and declares
      [known] in all. *)
  Definition sound_file (dirs : list string) (dir : string) (input : option string)
      (file : idl_file) (items : list decl_item) (known : list (string * schema)) : Prop :=
    exists ds tables seen,
      expands dirs dir (match input with Some p => [p] | None => [] end) items ds tables seen
      /\ adds_up [] ds known
      /\ forall full, uses file known tables full -> In full (keys known).
End WithWorld.

(** ** The same declarations, written elsewhere *)

Definition same_declaration (d d' : declaration) : Prop :=
  match d, d' with
  | Written s, Written s' => unplaced s = unplaced s'
  | Listed l, Listed l' => l = l'
  | _, _ => False
  end.
(** Two files say the same apart from what they declare and import. *)
Definition same_header (f f' : idl_file) : Prop :=
  match f, f' with
  | IProtocol p, IProtocol q =>
      p_name p = p_name q /\ p_namespace p = p_namespace q /\ p_doc p = p_doc q /\ p_props p = p_props q
      /\ unplaced_messages (p_messages p) = unplaced_messages (p_messages q)
  | ISchema s, ISchema s' => unplaced s = unplaced s'
  | INamed _, INamed _ => True
  | _, _ => False
  end.
(** Both succeed with the same result, or both fail. *)
Definition same_fate {A B} (f : A -> B) (x x' : result A compile_error) : Prop :=
  match x, x' with
  | Ok o, Ok o' => f o = f o'
  | Err _, Err _ => True
  | _, _ => False
  end.
