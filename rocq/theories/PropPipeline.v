(** From files to documents: the properties of reading, importing, registering
    and writing put together. *)
From Verif Require Import Samples SampleFile SampleWorld SpecPipeline RegistryProofs PipelineProofs.

(** ** C52: the documents say what the files declare *)

(** The JSON written for a protocol reads back, by the rules of the Avro
    specification, as the protocol of the input: its name, namespace, doc and
    properties, exactly the types declared in the files that take part, and
    the messages. *)
Theorem C52_protocol :
  forall `(Unicode) `(Floats) `(Parser) `(FileSystem) `(JsonParser) i b b' r src name dir path p items ws o p',
  run_convert i b = (b', Ok r) -> input_of i src name dir path -> parse_idl name src = Ok (IProtocol p, items, ws) ->
  compile (b_import_dirs b) src name dir path = (Ok o, []) -> co_file o = IProtocol p' -> proper_json (co_loads o) ->
  (forall q, ~ In (ImportProtocol, q) (co_loads o)) \/ no_inline_definitions p' ->
  protocol_apart p' -> plain_aliases (p_types p') ->
  exists ap, read_protocol (jdepth (io_json r)) (io_json r) = Some ap /\ declared_protocol p dir items (co_loads o) ap.
Proof. exact @protocol_declared. Qed.
Print Assumptions C52_protocol.

(** The JSON written for a schema reads back as that schema, with the
    definitions it needs, each as declared. *)
Theorem C52_schema :
  forall `(Unicode) `(Floats) `(Parser) `(FileSystem) `(JsonParser) i b b' r src name dir path s items ws o,
  run_convert i b = (b', Ok r) -> input_of i src name dir path -> parse_idl name src = Ok (ISchema s, items, ws) ->
  compile (b_import_dirs b) src name dir path = (Ok o, []) -> proper_json (co_loads o) ->
  apart (reg_schemas (co_registry o)) -> plain_aliases (reg_schemas (co_registry o)) ->
  exists defs, declared_document dir items (co_loads o)
    (fun f => exists n, mentions s n /\ reaches (reg_schemas (co_registry o)) n f) s (io_json r) defs.
Proof. exact @schema_declared. Qed.
Print Assumptions C52_schema.

(** The schemas extracted from a file are one for each type declared, and each
    reads back as that type with the definitions it needs, each as declared. *)
Theorem C52_schemata :
  forall `(Unicode) `(Floats) `(Parser) `(FileSystem) `(JsonParser) i b b' r src name dir path file items ws o,
  run_extract i b = (b', Ok r) -> input_of i src name dir path -> parse_idl name src = Ok (file, items, ws) ->
  compile (b_import_dirs b) src name dir path = (Ok o, []) -> proper_json (co_loads o) ->
  apart (reg_schemas (co_registry o)) -> plain_aliases (reg_schemas (co_registry o)) ->
  exists types, Forall2 (fun s x => schema_name s = Some (nm_name x) /\
      exists defs, declared_document dir items (co_loads o) (reaches types (type_name s)) s (nm_schema x) defs
        /\ exists fd, named_meaning s = Some fd /\ In fd defs) types (so_schemas r)
    /\ NoDup (map type_name types)
    /\ (forall s, In s types -> declared_in_files dir items (co_loads o) s)
    /\ (forall d its, source dir items (co_loads o) d its -> sublist (type_items its) types)
    /\ (forall s full, declared_in_files dir items (co_loads o) s -> registrable s full -> In full (map type_name types)).
Proof. exact @schemata_declared. Qed.
Print Assumptions C52_schemata.

(** The hypotheses hold of main.avdl, which imports two IDL files and a schema;
    its document defines the types of all four. *)
Definition lib_builder : builder := mkBuilder ["/lib"] [].
Lemma some_json_proper loads : @proper_json some_files some_json loads.
Proof.
  intros k q j _ _ (text & _ & E). cbn [some_json parse_json] in E. destruct (String.eqb text "c"); [|discriminate]. injection E as <-.
  constructor; [repeat constructor; cbn; intuition discriminate|]. intros k' v [E|[E|[E|[]]]]; injection E as _ <-; repeat constructor.
  intros w [<-|[]]. constructor.
Qed.
Example C52_protocol_sample : exists b' r o p p' items ws ap,
  @run_convert ascii_chars few_floats some_parser some_files some_json (FromFile "/p/main.avdl") lib_builder = (b', Ok r)
  /\ @input_of some_files (FromFile "/p/main.avdl") "main" "/p/main.avdl" "/p" (Some "/p/main.avdl")
  /\ @parse_idl ascii_chars few_floats some_parser "main" "main" = Ok (IProtocol p, items, ws)
  /\ compile_main = (Ok o, []) /\ co_file o = IProtocol p' /\ @proper_json some_files some_json (co_loads o)
  /\ (forall q, ~ In (ImportProtocol, q) (co_loads o)) /\ protocol_apart p' /\ plain_aliases (p_types p')
  /\ read_protocol (jdepth (io_json r)) (io_json r) = Some ap
  /\ keys (ap_defs ap) = ["B"; "A"; "C"; "M"] /\ keys (ap_messages ap) = ["hello"; "size"; "who"].
Proof.
  do 8 eexists. split; [vm_compute; reflexivity|]. split; [exact (@in_file some_files "/p/main.avdl" "main" eq_refl)|].
  split; [vm_compute; reflexivity|]. split; [vm_compute; reflexivity|]. split; [reflexivity|]. split; [apply some_json_proper|].
  split; [cbn; intuition discriminate|]. split; [|split; [|split; [vm_compute; reflexivity|split; reflexivity]]].
  - split; [|discriminate]. intros t Ht _. split.
    + cbn in Ht. destruct Ht as [<-|[<-|[<-|[<-|[]]]]]; cbn; intuition discriminate.
    + intros u Hu _. cbn in Hu. destruct Hu as [<-|[<-|[<-|[<-|[]]]]]; reflexivity.
  - intros t a Ht. cbn in Ht. destruct Ht as [<-|[<-|[<-|[<-|[]]]]]; cbn; contradiction.
Qed.

(** The schema of list.avdl is recursive and needs one of the other two types. *)
Example C52_schema_sample : exists b' r o s items ws defs,
  @run_convert ascii_chars few_floats some_parser some_files some_json (FromText "list" "list.avdl") lib_builder = (b', Ok r)
  /\ @input_of some_files (FromText "list" "list.avdl") "list" "list.avdl" "/p" None
  /\ @parse_idl ascii_chars few_floats some_parser "list" "list" = Ok (ISchema s, items, ws)
  /\ the_compile ["/lib"] "list" "list.avdl" "/p" None = (Ok o, []) /\ @proper_json some_files some_json (co_loads o)
  /\ apart (reg_schemas (co_registry o)) /\ plain_aliases (reg_schemas (co_registry o))
  /\ reg_names (co_registry o) = ["C"; "org.L"; "org.E"; "org.Unused"]
  /\ read_document (jdepth (io_json r)) (io_json r) = Some (meaning s, defs) /\ keys defs = ["org.E"; "org.L"].
Proof.
  do 7 eexists. split; [vm_compute; reflexivity|]. split; [exact (@in_text some_files "list" "list.avdl" "/p" eq_refl)|].
  split; [vm_compute; reflexivity|]. split; [vm_compute; reflexivity|]. split; [apply some_json_proper|].
  split; [|split; [|split; [reflexivity|split; [vm_compute; reflexivity|reflexivity]]]].
  - intros t Ht He. cbn in Ht. destruct Ht as [<-|[<-|[<-|[<-|[]]]]]; try discriminate He. split; [cbn; intuition discriminate|].
    intros u Hu Hm. apply mentions_refs in Hm. cbn in Hu. destruct Hu as [<-|[<-|[<-|[<-|[]]]]]; [reflexivity| | |]; cbn in Hm; intuition discriminate.
  - intros t a Ht. cbn in Ht. destruct Ht as [<-|[<-|[<-|[<-|[]]]]]; cbn; contradiction.
Qed.

Example C52_schemata_sample : exists b' r o file items ws,
  @run_extract ascii_chars few_floats some_parser some_files some_json (FromText "list" "list.avdl") lib_builder = (b', Ok r)
  /\ @parse_idl ascii_chars few_floats some_parser "list" "list" = Ok (file, items, ws)
  /\ the_compile ["/lib"] "list" "list.avdl" "/p" None = (Ok o, [])
  /\ map nm_name (so_schemas r) = ["C"; "L"; "E"; "Unused"]
  /\ map (fun x => option_map (fun td => keys (snd td)) (read_document (jdepth (nm_schema x)) (nm_schema x))) (so_schemas r)
     = [Some ["C"]; Some ["org.E"; "org.L"]; Some ["org.E"]; Some ["org.Unused"]].
Proof. do 6 eexists. repeat (split; [vm_compute; reflexivity|]). vm_compute. reflexivity. Qed.

(** [protocol_apart] cannot be left out: a schema without a namespace,
    imported into a protocol that has one, changes its name. *)
Theorem C52_imported_schema_renamed_refuted :
  exists (U : Unicode) (F : Floats) (P : Parser) (FS : FileSystem) (J : JsonParser) i b b' r src name dir path p items ws o p' ap,
    run_convert i b = (b', Ok r) /\ input_of i src name dir path /\ parse_idl name src = Ok (IProtocol p, items, ws)
    /\ compile (b_import_dirs b) src name dir path = (Ok o, []) /\ co_file o = IProtocol p' /\ proper_json (co_loads o)
    /\ plain_aliases (p_types p')
    /\ read_protocol (jdepth (io_json r)) (io_json r) = Some ap /\ ~ declared_protocol p dir items (co_loads o) ap
    /\ reg_names (co_registry o) = ["C"; "org.R"] /\ keys (ap_defs ap) = ["org.C"; "org.R"].
Proof.
  exists ascii_chars, few_floats, some_parser, some_files, some_json, (FromFile "/p/org.avdl"), lib_builder. do 2 eexists.
  exists "org", "/p/org.avdl", "/p", (Some "/p/org.avdl"). do 6 eexists.
  split; [vm_compute; reflexivity|]. split; [exact (@in_file some_files "/p/org.avdl" "org" eq_refl)|].
  split; [vm_compute; reflexivity|]. split; [vm_compute; reflexivity|]. split; [reflexivity|]. split; [apply some_json_proper|].
  split; [|split; [vm_compute; reflexivity|split; [|split; reflexivity]]].
  - intros t a Ht. cbn in Ht. destruct Ht as [<-|[<-|[]]]; cbn; contradiction.
  - intros [_ _ _ [_ _ _ Hd] _ _].
    specialize (Hd (SEnum "C" None None ["X"] None [] []) "C"). cbn [ap_defs keys map fst] in Hd.
    assert (X : In "C" ["org.C"; "org.R"]); [apply Hd|cbn in X; intuition discriminate].
    + apply (df_schema _ _ _ _ "/lib/c.avsc" (JObj [("name", JStr "C"); ("symbols", JArr [JStr "X"]); ("type", JStr "enum")]) (SEnum "C" None None ["X"] None [] [])).
      * cbn. now left.
      * exists "c". split; reflexivity.
      * vm_compute. reflexivity.
      * now left.
    + exists "C", None. split; [constructor|]. split; [reflexivity|]. split.
      * apply valid_name_iff. vm_compute. reflexivity.
      * left. reflexivity.
Qed.
Print Assumptions C52_imported_schema_renamed_refuted.
