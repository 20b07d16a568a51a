(** C12-C15, C36, C37, C44, C46, C50: compiling a file together with its
    imports, and the builders.

    The file system, lexing and parsing, and JSON parsing are oracles
    ([FileSystem], [Parser], [JsonParser]): the theorems hold for all of them.
    SpecCompile.v says what the words used below mean. *)
From Verif Require Import SpecCompile SpecFile SpecMeaning SpecDoc RegistryProofs CompileProofs LoadProofs BuildProofs MoveProofs SampleFile SampleWorld.
From Verif Require Import SpecNames SpecRefs RefsProofs PropSerialize.
From Coq Require Import Permutation.

(** ** C12: imports always come to an end *)

(** [OutOfFuel] stands for a computation that would not stop: no entry point
    of the library ends that way, however files import one another. *)
Theorem C12_compilation_ends :
  forall `(Unicode) `(Floats) `(Parser) `(FileSystem) `(JsonParser) b,
  (forall path, snd (convert path b) <> Err OutOfFuel)
  /\ (forall src name, snd (convert_str src name b) <> Err OutOfFuel)
  /\ (forall path, snd (extract path b) <> Err OutOfFuel)
  /\ (forall src name, snd (extract_str src name b) <> Err OutOfFuel).
Proof.
  intros U F P FS J b. split; [|split; [|split]].
  - intros path. destruct (convert path b) as [b' r] eqn:E. exact (convert_ends _ _ _ _ E).
  - intros src name. destruct (convert_str src name b) as [b' r] eqn:E. exact (convert_str_ends _ _ _ _ _ E).
  - intros path. destruct (extract path b) as [b' r] eqn:E. exact (extract_ends _ _ _ _ E).
  - intros src name. destruct (extract_str src name b) as [b' r] eqn:E. exact (extract_str_ends _ _ _ _ _ E).
Qed.
Print Assumptions C12_compilation_ends.

(** The bound on the depth of imports, the number of files there are, plays no
    role: any larger bound gives the same result. *)
Theorem C12_bound_irrelevant :
  forall `(Unicode) `(Floats) `(Parser) `(FileSystem) `(JsonParser) name src file items ws n dirs dir c,
  parse_idl name src = Ok (file, items, ws) -> length fs_files <= n ->
  process_decl_items (length fs_files) dirs dir items c = process_decl_items n dirs dir items c.
Proof.
  intros U F P FS J name src file items ws n dirs dir c Hp Hn. apply process_more; [exact (parse_idl_flat _ _ _ _ _ Hp)|apply remaining_max|exact Hn].
Qed.
Print Assumptions C12_bound_irrelevant.

(** main imports a, a imports main and b, b imports a. *)
Example C12_sample : exists o, compile_main = (Ok o, []).
Proof. vm_compute. eexists. reflexivity. Qed.

(** ** C13: every file is loaded at most once *)

(** Whatever the outcome, no file is opened twice as an import, and the input
    file is not opened again. *)
Theorem C13_loaded_once :
  forall `(Unicode) `(Floats) `(Parser) `(FileSystem) `(JsonParser) dirs src name dir input c res,
  parse_and_resolve dirs src name dir input = (c, res) ->
  NoDup (map snd (cx_loads c)) /\ forall p, input = Some p -> ~ In p (map snd (cx_loads c)).
Proof. exact @resolve_loads. Qed.
Print Assumptions C13_loaded_once.

(** On success the files opened are files imported, and everything imported
    was opened or is the input. *)
Theorem C13_everything_imported_is_loaded :
  forall `(Unicode) `(Floats) `(Parser) `(FileSystem) `(JsonParser) dirs src name dir input o ws' file items ws,
  compile dirs src name dir input = (Ok o, ws') -> parse_idl name src = Ok (file, items, ws) ->
  (forall k p, In (k, p) (co_loads o) -> reachable dirs dir items k p) /\
  (forall d its k nm sp, source dir items (co_loads o) d its -> In (DImport k nm sp) its ->
     exists p, found_in (d :: dirs) nm p /\ (In p (map snd (co_loads o)) \/ input = Some p)).
Proof. exact @compile_loads. Qed.
Print Assumptions C13_everything_imported_is_loaded.

Example C13_sample : exists o, compile_main = (Ok o, [])
  /\ co_loads o = [(ImportIdl, "/p/a.avdl"); (ImportIdl, "/p/b.avdl"); (ImportSchema, "/lib/c.avsc")].
Proof. vm_compute. eexists. split; reflexivity. Qed.

(** ** C14: where imports are looked for *)

(** The importing file's directory comes first, then the import directories in
    their order; the first that has the file decides. *)
Theorem C14_first_directory_wins :
  forall `(FileSystem) dirs name dir p,
  resolve_import dirs name dir = Ok p <-> found_in (dir :: dirs) name p.
Proof. exact @resolve_import_iff. Qed.
Print Assumptions C14_first_directory_wins.

(** An import found nowhere is an error that lists the directories tried. *)
Theorem C14_not_found :
  forall `(FileSystem) dirs name dir,
  resolve_import dirs name dir = Err (ImportNotFound name (dir :: dirs))
  <-> forall d, In d (dir :: dirs) -> fs_exists (fs_join d name) = false.
Proof.
  intros FS dirs name dir. rewrite <- search_none. unfold resolve_import. destruct (search name (dir :: dirs)) as [[p|]|]; split; congruence.
Qed.
Print Assumptions C14_not_found.

Example C14_sample :
  @found_in some_files ["/p"; "/lib"] "c.avsc" "/lib/c.avsc"
  /\ @resolve_import some_files ["/lib"] "d.avsc" "/p" = Err (ImportNotFound "d.avsc" ["/p"; "/lib"]).
Proof.
  split; [|vm_compute; reflexivity]. exists ["/p"], "/lib", []. split; [reflexivity|]. split; [|split; reflexivity].
  intros d [<-|[]]. reflexivity.
Qed.

(** ** C15: messages of imported protocols *)

(** [tables]: the messages declared in the imported files, in the order in
    which the files were opened. *)
Theorem C15_messages :
  forall `(Unicode) `(Floats) `(Parser) `(FileSystem) `(JsonParser) dirs src name dir input o ws' p p' items ws,
  compile dirs src name dir input = (Ok o, ws') ->
  parse_idl name src = Ok (IProtocol p, items, ws) -> co_file o = IProtocol p' ->
  exists tables, Forall2 load_messages (co_loads o) tables /\
    forall n m, assoc n (p_messages p') = Some m <->
      assoc n (p_messages p) = Some m \/ (~ In n (keys (p_messages p)) /\ last_declared tables n m).
Proof. exact @compile_messages. Qed.
Print Assumptions C15_messages.

(** "size" is main's; "who" is declared in a and in b, and b, imported by a,
    was opened after a: b's declaration replaces a's own. *)
Example C15_sample : exists o p, compile_main = (Ok o, []) /\ co_file o = IProtocol p
  /\ keys (p_messages p) = ["size"; "who"; "hello"]
  /\ option_map m_response (assoc "size" (p_messages p)) = Some (SPrim PInt)
  /\ option_map m_response (assoc "who" (p_messages p)) = Some (SPrim PLong).
Proof. vm_compute. do 2 eexists. repeat split; reflexivity. Qed.

(** ** C36: builders can be reused *)

(** Whatever was done with a builder before, a call gives what it gives on a
    new builder with the same import directories. *)
Theorem C36_reuse :
  forall `(Unicode) `(Floats) `(Parser) `(FileSystem) `(JsonParser) calls,
  (forall path, snd (convert path (used calls)) = snd (convert path (fresh (dirs_of calls))))
  /\ (forall src name, snd (convert_str src name (used calls)) = snd (convert_str src name (fresh (dirs_of calls))))
  /\ (forall path, snd (extract path (used calls)) = snd (extract path (fresh (dirs_of calls))))
  /\ (forall src name, snd (extract_str src name (used calls)) = snd (extract_str src name (fresh (dirs_of calls)))).
Proof.
  intros U F P FS J calls.
  assert (E : b_import_dirs (used calls) = b_import_dirs (fresh (dirs_of calls))) by (rewrite used_dirs, fresh_builder; reflexivity).
  split; [|split; [|split]]; intros; [apply convert_same|apply convert_str_same|apply extract_same|apply extract_str_same]; exact E.
Qed.
Print Assumptions C36_reuse.

Example C36_sample :
  @used ascii_chars few_floats some_parser some_files some_json
    [CallConvert "/p/main.avdl"; CallImportDir "/lib"; CallExtract "/q"; CallConvert "/p/main.avdl"; CallDrain]
  = mkBuilder ["/lib"] []
  /\ exists o, snd (the_convert "/p/main.avdl" (mkBuilder ["/lib"] [])) = Ok o.
Proof. split; [vm_compute; reflexivity|]. vm_compute. eexists. reflexivity. Qed.

(** ** C37: warnings *)

(** A successful compilation hands over all warnings and leaves none behind. *)
Theorem C37_success :
  forall `(Unicode) `(Floats) `(Parser) `(FileSystem) `(JsonParser) path b b' o,
  convert path b = (b', Ok o) ->
  exists src out b1, fs_read path = Some src /\ compile_file path b = (b1, Ok out)
    /\ collected path src (co_loads out) (io_warnings o) /\ snd (drain_warnings b') = [].
Proof.
  intros U F P FS J path b b' o. unfold convert. destruct (compile_file path b) as [b1 [out|e]] eqn:E; [|discriminate]. intro Hc.
  pose proof E as E0. unfold compile_file in E0. destruct (fs_read path) as [src|] eqn:Er; [|discriminate]. cbv zeta in E0.
  destruct (compile _ _ _ _ _) as [res ws] eqn:Ec. injection E0 as <- ->.
  assert (Hw : collected path src (co_loads out) (co_warnings out) /\ ws = []).
  { pose proof Ec as Ew. apply compile_ok in Ec. destruct Ec as (file & items & lw & c & Ep & _ & Er' & _ & -> & -> & _). split; [|reflexivity]. cbn.
    destruct (resolve_warnings _ _ _ _ _ _ _ Er') as (wss & Hf & Hx). exists wss. split; [exact Hf|]. rewrite Ep in *.
    destruct Hx as [(e & Ex & _)|(f & i & l & Ex & Hx)]; [discriminate|]. injection Ex as <- <- <-. exact Hx. }
  destruct Hw as [Hw ->]. exists src, out, (mkBuilder (b_import_dirs b) []). split; [reflexivity|]. split; [reflexivity|].
  unfold convert_impl in Hc. destruct (co_file out); [destruct (protocol_to_json _)|destruct (schema_to_json _ _ _ _) as [[]|]|];
    try discriminate; injection Hc as <- <-; cbn; auto.
Qed.
Print Assumptions C37_success.

(** A failing one keeps all warnings collected until then for
    [drain_warnings], which hands them over once. *)
Theorem C37_failure :
  forall `(Unicode) `(Floats) `(Parser) `(FileSystem) `(JsonParser) path b b' e src,
  fs_read path = Some src -> convert path b = (b', Err e) ->
  exists dir c res, parse_and_resolve (b_import_dirs b) src path dir (fs_canonical path) = (c, res)
    /\ collected path src (cx_loads c) (snd (drain_warnings b')) /\ snd (drain_warnings (fst (drain_warnings b'))) = [].
Proof.
  intros U F P FS J path b b' e src Er. unfold convert, compile_file. rewrite Er. cbv zeta.
  set (dir := match fs_canonical (fs_parent path) with Some d => d | None => fs_parent path end).
  destruct (compile (b_import_dirs b) src path dir (fs_canonical path)) as [res ws] eqn:Ec.
  destruct (compile_warnings _ _ _ _ _ _ _ Ec) as (c & res' & Ep & Hw). intro Hc. exists dir, c, res'. split; [exact Ep|].
  destruct (resolve_warnings _ _ _ _ _ _ _ Ep) as (wss & Hf & Hx). split; [|reflexivity].
  assert (Hco : collected path src (cx_loads c) (cx_warnings c)).
  { exists wss. split; [exact Hf|]. destruct Hx as [(e' & -> & ->)|(f & i & l & -> & ->)]; reflexivity. }
  destruct res as [out|e']; [|injection Hc as <- <-; cbn; now rewrite Hw].
  destruct Hw as [Hw ->]. unfold convert_impl in Hc. destruct (co_file out).
  - destruct (Verif.SerializeProofs.protocol_to_json_total p) as [j Ej]. rewrite Ej in Hc. discriminate.
  - destruct (C01_schema_terminates (reg_schemas (co_registry out)) None s [] None) as (j & k & Ej). rewrite Ej in Hc. discriminate.
  - injection Hc as <- <-. cbn. now rewrite Hw.
Qed.
Print Assumptions C37_failure.

(** A warning about b, which main imports; without the import directory the
    compilation fails after that. *)
Example C37_sample :
  (exists b o, the_convert "/p/main.avdl" (mkBuilder ["/lib"] []) = (b, Ok o)
     /\ io_warnings o = [mkReport (Some "b.avdl") (OrphanedDoc 1)])
  /\ (exists b e, the_convert "/p/main.avdl" (mkBuilder [] []) = (b, Err e)
     /\ snd (drain_warnings b) = [mkReport (Some "b.avdl") (OrphanedDoc 1)]).
Proof. split; vm_compute; do 2 eexists; split; reflexivity. Qed.

(** A file that cannot be read leaves the warnings of an earlier failure in
    place: they appear as its own. *)
Theorem C37_stale_refuted :
  exists (U : Unicode) (F : Floats) (P : Parser) (FS : FileSystem) (J : JsonParser) b path b',
    b = fst (convert "/p/main.avdl" new_builder) /\ convert path b = (b', Err (CannotRead path))
    /\ snd (drain_warnings b') <> [].
Proof.
  exists ascii_chars, few_floats, some_parser, some_files, some_json. do 2 eexists. exists (fst (the_convert "/p/main.avdl" new_builder)).
  split; [reflexivity|]. split; [instantiate (1 := "/nowhere.avdl"); vm_compute; reflexivity|]. vm_compute. discriminate.
Qed.
Print Assumptions C37_stale_refuted.

(** When a directory is converted and one of its files fails, the warnings of
    the files before it are lost. *)
Theorem C37_directory_refuted :
  exists (U : Unicode) (F : Floats) (P : Parser) (FS : FileSystem) (J : JsonParser) o b e,
    avdl_paths "/q" = ["/q/b.avdl"; "/q/bad.avdl"]
    /\ snd (extract_file "/q/b.avdl" new_builder) = Ok o /\ so_warnings o <> []
    /\ extract "/q" new_builder = (b, Err e) /\ snd (drain_warnings b) = [].
Proof.
  exists ascii_chars, few_floats, some_parser, some_files, some_json. do 3 eexists. split; [vm_compute; reflexivity|].
  split; [vm_compute; reflexivity|]. split; [vm_compute; discriminate|]. split; vm_compute; reflexivity.
Qed.
Print Assumptions C37_directory_refuted.

(** ** C44: directories *)

(** Converting a directory succeeds exactly when every .avdl file below it is
    converted, each as by a new builder, and gives the results one after
    another. *)
Theorem C44_directory :
  forall `(Unicode) `(Floats) `(Parser) `(FileSystem) `(JsonParser) dir b o,
  fs_is_dir dir = true ->
  (snd (extract dir b) = Ok o <->
   exists os, Forall2 (fun p x => snd (extract_file p (fresh (b_import_dirs b))) = Ok x) (avdl_paths dir) os
     /\ o = mkSchemata (flat_map so_schemas os) (flat_map so_warnings os)).
Proof.
  intros U F P FS J dir b o Hd. unfold extract. rewrite Hd, extract_all_ok. cbn [so_schemas so_warnings app].
  assert (E : forall p, snd (extract_file p b) = snd (extract_file p (fresh (b_import_dirs b)))).
  { intro p. apply extract_file_same. now rewrite fresh_builder. }
  split; intros (os & Hf & ->); exists os; (split; [|reflexivity]); eapply Forall2_weaken; try exact Hf; intros p x Hx; cbn beta in *; congruence.
Qed.
Print Assumptions C44_directory.

(** It fails with the error of the first file that fails. *)
Theorem C44_directory_fails :
  forall `(Unicode) `(Floats) `(Parser) `(FileSystem) `(JsonParser) dir b e,
  fs_is_dir dir = true ->
  (snd (extract dir b) = Err e <->
   exists before p after, avdl_paths dir = before ++ p :: after
     /\ (forall q, In q before -> exists x, snd (extract_file q (fresh (b_import_dirs b))) = Ok x)
     /\ snd (extract_file p (fresh (b_import_dirs b))) = Err e).
Proof.
  intros U F P FS J dir b e Hd. unfold extract. rewrite Hd, extract_all_err.
  assert (E : forall p, snd (extract_file p b) = snd (extract_file p (fresh (b_import_dirs b)))).
  { intro p. apply extract_file_same. now rewrite fresh_builder. }
  split; intros (l & p & a & Ep & Hl & Hp); exists l, p, a; (split; [exact Ep|]); split.
  - intros q Hq. rewrite <- E. auto.
  - rewrite <- E. exact Hp.
  - intros q Hq. rewrite E. auto.
  - rewrite E. exact Hp.
Qed.
Print Assumptions C44_directory_fails.

(** Which files these are, and in which order: the entries whose name ends in
    .avdl of a listing that goes through every directory by name. *)
Theorem C44_files :
  forall `(FileSystem) dir,
  proper (DirEntry "" (fs_content dir)) ->
  exists ls, listings dir (fs_content dir) ls
    /\ exists keep, (forall name, keep name = true <-> avdl_name name)
    /\ avdl_paths dir = map fst (filter (fun pn => keep (snd pn))
         ((dir, match fs_file_name dir with Some n => n | None => "" end) :: ls)).
Proof.
  intros FS dir Hp. destruct (walk_dir_listed dir Hp) as (ls & Hl & E). exists ls. split; [exact Hl|]. exists is_avdl. split; [exact is_avdl_iff|].
  unfold avdl_paths. now rewrite E.
Qed.
Print Assumptions C44_files.

(** The order in which the operating system lists directories has no
    influence. *)
Theorem C44_listing_order :
  forall `(Unicode) `(Floats) `(Parser) (FS : FileSystem) `(JsonParser) content dir b,
  proper (DirEntry "" (fs_content dir)) ->
  relisted (DirEntry "" (fs_content dir)) (DirEntry "" (content dir)) ->
  @extract _ _ _ (relist FS content) _ dir b = @extract _ _ _ FS _ dir b.
Proof.
  intros U F P FS J content dir b Hp Hr. unfold extract. cbn [relist fs_is_dir]. destruct (@fs_is_dir FS dir); [|reflexivity].
  unfold avdl_paths. rewrite (walk_dir_relist _ _ _ Hp Hr). reflexivity.
Qed.
Print Assumptions C44_listing_order.

Example C44_sample :
  @avdl_paths some_files "/q" = ["/q/b.avdl"; "/q/bad.avdl"]
  /\ proper (DirEntry "" (@fs_content some_files "/q"))
  /\ relisted (DirEntry "" (@fs_content some_files "/q")) (DirEntry "" [FileEntry "b.avdl"; FileEntry "bad.avdl"; FileEntry "notes.txt"]).
Proof.
  split; [vm_compute; reflexivity|]. split.
  - constructor; [repeat constructor|]. repeat constructor; cbn; intuition discriminate.
  - eapply rl_dir; [repeat constructor|]. cbn. change [FileEntry "notes.txt"; FileEntry "bad.avdl"; FileEntry "b.avdl"] with (rev [FileEntry "b.avdl"; FileEntry "bad.avdl"; FileEntry "notes.txt"]).
    apply Permutation_sym, Permutation_rev.
Qed.

(** A directory called x.avdl is taken for a file, and the conversion fails
    although every .avdl file (there is none) could be converted. *)
Theorem C44_directory_name_refuted :
  exists (U : Unicode) (F : Floats) (P : Parser) (FS : FileSystem) (J : JsonParser) dir b e,
    fs_is_dir dir = true /\ fs_content dir = [DirEntry "x.avdl" []] /\ snd (extract dir b) = Err e.
Proof.
  exists ascii_chars, few_floats, some_parser, some_files, some_json, "/r", new_builder. eexists. split; [reflexivity|]. split; vm_compute; reflexivity.
Qed.
Print Assumptions C44_directory_name_refuted.

(** ** C46: the order of declarations *)

(** Two files without imports with the same types in another order: if the
    first is accepted, the second is too, with the same types and messages, or
    a default value is rejected. *)
Theorem C46_order_of_types :
  forall `(Unicode) `(Floats) `(Parser) `(FileSystem) `(JsonParser) dirs src src' name dir input file items ws file' items' ws' o w,
  parse_idl name src = Ok (file, items, ws) -> parse_idl name src' = Ok (file', items', ws') ->
  (forall k p sp, ~ In (DImport k p sp) items) -> (forall k p sp, ~ In (DImport k p sp) items') ->
  same_types (type_items items) (type_items items') -> same_main file file' ->
  compile dirs src name dir input = (Ok o, w) ->
  (exists o', compile dirs src' name dir input = (Ok o', []) /\ same_main (co_file o) (co_file o')
     /\ same_types (reg_schemas (co_registry o)) (reg_schemas (co_registry o')))
  \/ (exists t es w', compile dirs src' name dir input = (Err (BadDefault t es), w')).
Proof.
  intros U F P FS J dirs src src' name dir input file items ws file' items' ws' o w Ep Ep' Hi Hi' St Sm Hc.
  destruct (compile_moved dirs src src' name dir input file items ws file' items' ws' o w Ep Ep' Hi Hi' St Sm Hc) as [(o' & E & S & Pn & _)|E]; [|right; exact E].
  left. exists o'. split; [exact E|]. split; [exact S|]. unfold same_types, reg_schemas. apply (Permutation_map snd) in Pn. unfold unplaced_registry in Pn. rewrite !map_map in Pn. rewrite !map_map. exact Pn.
Qed.
Print Assumptions C46_order_of_types.

(** Every type comes with the same schema file, whatever the order. *)
Theorem C46_schemas :
  forall `(Unicode) `(Floats) `(Parser) `(FileSystem) `(JsonParser) dirs src src' name dir input file items ws file' items' ws' o w o' w' x x',
  parse_idl name src = Ok (file, items, ws) -> parse_idl name src' = Ok (file', items', ws') ->
  (forall k p sp, ~ In (DImport k p sp) items) -> (forall k p sp, ~ In (DImport k p sp) items') ->
  same_types (type_items items) (type_items items') -> same_main file file' ->
  compile dirs src name dir input = (Ok o, w) -> compile dirs src' name dir input = (Ok o', w') ->
  extract_impl o = Ok x -> extract_impl o' = Ok x' -> Permutation (so_schemas x) (so_schemas x').
Proof.
  intros U F P FS J dirs src src' name dir input file items ws file' items' ws' o w o' w' x x' Ep Ep' Hi Hi' St Sm Hc Hc' Hx Hx'.
  destruct (compile_moved dirs src src' name dir input file items ws file' items' ws' o w Ep Ep' Hi Hi' St Sm Hc) as [(o2 & E & S & Pn & G & G')|(t & es & w2 & E)]; [|congruence].
  assert (o2 = o') as -> by congruence. exact (extract_moved _ _ _ _ G G' Pn Hx Hx').
Qed.
Print Assumptions C46_schemas.

(** Protocols that differ in the order of their types are written as
    documents that read back as the same protocol, up to that order. *)
Theorem C46_protocols :
  forall p q, same_main (IProtocol p) (IProtocol q) -> protocol_ok p = true ->
  exists jp jq ap aq,
    protocol_to_json p = Some jp /\ read_protocol (jdepth jp) jp = Some ap
    /\ protocol_to_json q = Some jq /\ read_protocol (jdepth jq) jq = Some aq
    /\ ap_name ap = ap_name aq /\ ap_namespace ap = ap_namespace aq /\ ap_attrs ap = ap_attrs aq
    /\ Permutation (ap_defs ap) (ap_defs aq) /\ Permutation (ap_messages ap) (ap_messages aq).
Proof. exact protocol_moved. Qed.
Print Assumptions C46_protocols.

Example C46_sample :
  exists p p' its its' ws ws' o w,
    @parse_idl ascii_chars few_floats some_parser "first" "first" = Ok (IProtocol p, its, ws)
    /\ @parse_idl ascii_chars few_floats some_parser "second" "second" = Ok (IProtocol p', its', ws')
    /\ (forall k f sp, ~ In (DImport k f sp) its) /\ (forall k f sp, ~ In (DImport k f sp) its')
    /\ same_types (type_items its) (type_items its') /\ type_items its <> type_items its'
    /\ same_main (IProtocol p) (IProtocol p')
    /\ the_compile [] "first" "x" "/p" None = (Ok o, w).
Proof.
  do 8 eexists. split; [vm_compute; reflexivity|]. split; [vm_compute; reflexivity|].
  split; [intros k f sp [E|[E|[]]]; discriminate|]. split; [intros k f sp [E|[E|[]]]; discriminate|].
  split; [apply perm_swap|]. split; [cbn; discriminate|]. split; [constructor; first [reflexivity|apply Permutation_refl]|].
  vm_compute. reflexivity.
Qed.

(** Default values are checked against the types declared so far only: with
    [record X { Y y = 1; }] before [record Y { }] the file is accepted, the
    other way round it is not. *)
Theorem C46_defaults_refuted :
  exists (U : Unicode) (F : Floats) (P : Parser) (FS : FileSystem) (J : JsonParser) src src' f its ws f' its' ws' o t es w w',
    parse_idl "x" src = Ok (f, its, ws) /\ parse_idl "x" src' = Ok (f', its', ws')
    /\ same_types (type_items its) (type_items its') /\ same_main f f'
    /\ compile [] src "x" "/p" None = (Ok o, w) /\ compile [] src' "x" "/p" None = (Err (BadDefault t es), w').
Proof.
  exists ascii_chars, few_floats, some_parser, some_files, some_json, "early", "late". do 11 eexists.
  split; [vm_compute; reflexivity|]. split; [vm_compute; reflexivity|]. split; [apply perm_swap|]. split; [constructor; first [reflexivity|apply Permutation_refl]|].
  split; vm_compute; reflexivity.
Qed.
Print Assumptions C46_defaults_refuted.

(** ** C50: which types come out *)

(** Exactly the types declared in the input and the files opened are
    registered; those of an IDL file keep their order. *)
Theorem C50_types :
  forall `(Unicode) `(Floats) `(Parser) `(FileSystem) `(JsonParser) dirs src name dir input o ws' file items ws,
  compile dirs src name dir input = (Ok o, ws') -> parse_idl name src = Ok (file, items, ws) ->
  (forall d its, source dir items (co_loads o) d its -> sublist (type_items its) (reg_schemas (co_registry o)))
  /\ (forall s full, declared_in_files dir items (co_loads o) s -> registrable s full -> In full (reg_names (co_registry o)))
  /\ (forall s, In s (reg_schemas (co_registry o)) -> declared_in_files dir items (co_loads o) s).
Proof. exact @compile_types. Qed.
Print Assumptions C50_types.

(** A protocol comes out with these types. *)
Theorem C50_protocol :
  forall `(Unicode) `(Floats) `(Parser) `(FileSystem) `(JsonParser) dirs src name dir input o ws' p,
  compile dirs src name dir input = (Ok o, ws') -> co_file o = IProtocol p -> p_types p = reg_schemas (co_registry o).
Proof.
  intros U F P FS J dirs src name dir input o ws' p Hc Ho. apply compile_ok in Hc. destruct Hc as (f & its & w & c & _ & _ & _ & _ & -> & _ & _).
  cbn in *. destruct f; try discriminate. injection Ho as <-. reflexivity.
Qed.
Print Assumptions C50_protocol.

Example C50_sample : exists o, compile_main = (Ok o, []) /\ reg_names (co_registry o) = ["B"; "A"; "C"; "M"].
Proof. vm_compute. eexists. split; reflexivity. Qed.

(** C10 for whole compilations: after a successful one, every name mentioned
    anywhere is the name of a type of the output. *)
Theorem C10_compiled_references_resolve :
  forall `(Unicode) `(Floats) `(Parser) `(FileSystem) `(JsonParser) dirs src name dir input o ws' full,
  compile dirs src name dir input = (Ok o, ws') -> mentioned (co_registry o) (ref_file (co_file o)) full ->
  In full (reg_names (co_registry o)).
Proof.
  intros U F P FS J dirs src name dir input o ws' full Hc Hm. apply compile_ok in Hc. destruct Hc as (f & its & w & c & _ & _ & _ & _ & -> & _ & Hv).
  exact (proj1 (check_passes _ _ _ _) Hv full Hm).
Qed.
Print Assumptions C10_compiled_references_resolve.

Example C10_compiled_sample : exists o, compile_main = (Ok o, []) /\ mentioned (co_registry o) (ref_file (co_file o)) "C".
Proof.
  vm_compute. eexists. split; [reflexivity|]. eapply in_registry; [cbn; right; right; right; left; reflexivity|].
  eapply men_field; [cbn; right; left; reflexivity|]. exact (men_ref "C" None [] None).
Qed.
