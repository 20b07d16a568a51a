(** Converting a file and extracting its schemas agree. *)
From Verif Require Import Samples SampleFile SampleWorld SpecAgree RegistryProofs PipelineProofs AgreeProofs PropPipeline.
From Coq Require Import Permutation.

(** ** C82: converting and extracting agree *)

(** Extracting fails only where converting does and for the same reason;
    converting fails also where there is neither a protocol nor a schema.
    Where both succeed they give the same warnings. *)
Theorem C82_agree :
  forall `(Unicode) `(Floats) `(Parser) `(FileSystem) `(JsonParser) i b b1, b_import_dirs b1 = b_import_dirs b ->
  match snd (run_extract i b1), snd (run_convert i b) with
  | Ok x, Ok r => so_warnings x = io_warnings r
  | Ok _, Err e => e = NoProtocolNorSchema
  | Err e, Err e' => e = e'
  | Err _, Ok _ => False
  end.
Proof. exact @agree_run. Qed.
Print Assumptions C82_agree.

(** main.avdl has a warning in an imported file; bad.avdl cannot be read. *)
Example C82_agree_sample :
  let ran p :=
    (match snd (@run_extract ascii_chars few_floats some_parser some_files some_json (FromFile p) lib_builder) with Ok x => Ok (so_warnings x) | Err e => Err e end,
     match snd (@run_convert ascii_chars few_floats some_parser some_files some_json (FromFile p) lib_builder) with Ok r => Ok (io_warnings r) | Err e => Err e end) in
  ran "/p/main.avdl" = (Ok [mkReport (Some "b.avdl") (OrphanedDoc 1)], Ok [mkReport (Some "b.avdl") (OrphanedDoc 1)])
  /\ ran "/q/bad.avdl" = (Err (CannotParse "/q/bad.avdl" SyntaxError), Err (CannotParse "/q/bad.avdl" SyntaxError)).
Proof. split; vm_compute; reflexivity. Qed.

(** The types the document of a protocol defines are those extracted from the
    same input, one schema each, and the schemas define them the same way. *)
Theorem C82_protocol :
  forall `(Unicode) `(Floats) `(Parser) `(FileSystem) `(JsonParser) i b b' b1 b1' r x src name dir path p items ws o p',
  b_import_dirs b1 = b_import_dirs b -> run_convert i b = (b', Ok r) -> run_extract i b1 = (b1', Ok x) ->
  input_of i src name dir path -> parse_idl name src = Ok (IProtocol p, items, ws) ->
  compile (b_import_dirs b) src name dir path = (Ok o, []) -> co_file o = IProtocol p' -> proper_json (co_loads o) ->
  (forall q, ~ In (ImportProtocol, q) (co_loads o)) \/ no_inline_definitions p' ->
  protocol_apart p' -> plain_aliases (p_types p') ->
  exists ap defs, read_protocol (jdepth (io_json r)) (io_json r) = Some ap /\ Permutation (ap_defs ap) defs
    /\ Forall2 (own_document (ap_defs ap)) defs (so_schemas x).
Proof. exact @agree_protocol. Qed.
Print Assumptions C82_protocol.

(** The types the document of a schema defines are among those extracted, and
    the extracted schemas define them the same way. *)
Theorem C82_schema :
  forall `(Unicode) `(Floats) `(Parser) `(FileSystem) `(JsonParser) i b b' b1 b1' r x src name dir path s items ws o,
  b_import_dirs b1 = b_import_dirs b -> run_convert i b = (b', Ok r) -> run_extract i b1 = (b1', Ok x) ->
  input_of i src name dir path -> parse_idl name src = Ok (ISchema s, items, ws) ->
  compile (b_import_dirs b) src name dir path = (Ok o, []) -> proper_json (co_loads o) ->
  apart (reg_schemas (co_registry o)) -> plain_aliases (reg_schemas (co_registry o)) ->
  exists t defs all, read_document (jdepth (io_json r)) (io_json r) = Some (t, defs) /\ incl defs all /\ NoDup (keys all)
    /\ Forall2 (own_document all) all (so_schemas x).
Proof. exact @agree_schema. Qed.
Print Assumptions C82_schema.

(** main.avdl imports two IDL files and a schema: the document defines four
    types and four schemas are extracted. The hypotheses are those of
    [C52_protocol_sample]. *)
Example C82_protocol_sample : exists b' b1' r x ap,
  @run_convert ascii_chars few_floats some_parser some_files some_json (FromFile "/p/main.avdl") lib_builder = (b', Ok r)
  /\ @run_extract ascii_chars few_floats some_parser some_files some_json (FromFile "/p/main.avdl") lib_builder = (b1', Ok x)
  /\ read_protocol (jdepth (io_json r)) (io_json r) = Some ap
  /\ keys (ap_defs ap) = ["B"; "A"; "C"; "M"] /\ map nm_name (so_schemas x) = ["B"; "A"; "C"; "M"].
Proof. do 5 eexists. repeat (split; [vm_compute; reflexivity|]). vm_compute. reflexivity. Qed.

(** list.avdl: its schema needs two of the four types extracted. The
    hypotheses are those of [C52_schema_sample]. *)
Example C82_schema_sample : exists b' b1' r x t defs,
  @run_convert ascii_chars few_floats some_parser some_files some_json (FromText "list" "list.avdl") lib_builder = (b', Ok r)
  /\ @run_extract ascii_chars few_floats some_parser some_files some_json (FromText "list" "list.avdl") lib_builder = (b1', Ok x)
  /\ read_document (jdepth (io_json r)) (io_json r) = Some (t, defs)
  /\ keys defs = ["org.E"; "org.L"] /\ map nm_name (so_schemas x) = ["C"; "L"; "E"; "Unused"].
Proof. do 6 eexists. repeat (split; [vm_compute; reflexivity|]). vm_compute. reflexivity. Qed.

(** [protocol_apart] cannot be left out: of a schema without a namespace,
    imported into a protocol that has one, the document of the protocol and
    the extracted schema give different names. *)
Theorem C82_renamed_refuted :
  exists (U : Unicode) (F : Floats) (P : Parser) (FS : FileSystem) (J : JsonParser) i b b' b1' r x ap,
    run_convert i b = (b', Ok r) /\ run_extract i b = (b1', Ok x)
    /\ read_protocol (jdepth (io_json r)) (io_json r) = Some ap /\ keys (ap_defs ap) = ["org.C"; "org.R"]
    /\ map (fun n => option_map (fun d => fst d) (read_document (jdepth (nm_schema n)) (nm_schema n))) (so_schemas x) = [Some (TNamed "C"); Some (TNamed "org.R")].
Proof.
  exists ascii_chars, few_floats, some_parser, some_files, some_json, (FromFile "/p/org.avdl"), lib_builder. do 5 eexists.
  repeat (split; [vm_compute; reflexivity|]). vm_compute. reflexivity.
Qed.
Print Assumptions C82_renamed_refuted.
