(** C38, C47, C51: the command line program. *)
From Verif Require Import SpecCli SpecCompile CliProofs SampleFile SampleWorld.

(** ** C47: arguments *)

(** What comes after the name of a subcommand is accepted exactly if it is a
    sequence of positionals and import directories, which are then kept in
    their orders; [words] says what these are. *)
Theorem C47_arguments : forall args ps ds, parse_all LsNone args = Args ps ds <-> words args ps ds.
Proof. exact parse_all_args. Qed.
Print Assumptions C47_arguments.

Theorem C47_help : forall args, parse_all LsNone args = Help <-> asks_help args.
Proof. exact parse_all_help. Qed.
Print Assumptions C47_help.

(** Everything else, an unknown option in particular, is rejected. *)
Theorem C47_rejected : forall args,
  (exists e, parse_all LsNone args = BadArgs e) <-> ~ asks_help args /\ forall ps ds, ~ words args ps ds.
Proof. exact parse_all_bad. Qed.
Print Assumptions C47_rejected.

(** The first positional is the input and the second the output. *)
Theorem C47_idl :
  forall `(Unicode) `(Floats) `(Parser) `(FileSystem) `(JsonParser) `(Console) args,
  (forall ps ds, words args ps ds -> main ("idl" :: args) = run_idl (nth_error ps 0) (nth_error ps 1) ds)
  /\ ((forall ps ds, ~ words args ps ds) -> ~ asks_help args -> exists e, main ("idl" :: args) = failing (BadUsage (Some e))).
Proof.
  intros U F P FS J C args. unfold main. cbn [lex_next next_arg String.eqb]. split.
  - intros ps ds Hw. apply parse_all_args in Hw. change (String.eqb "idl" "idl") with true. cbn iota. now rewrite Hw.
  - intros Hn Hh. destruct (proj2 (parse_all_bad args) (conj Hh Hn)) as [e E]. exists e. change (String.eqb "idl" "idl") with true. cbn iota. now rewrite E.
Qed.
Print Assumptions C47_idl.

Theorem C47_idl2schemata :
  forall `(Unicode) `(Floats) `(Parser) `(FileSystem) `(JsonParser) `(Console) args,
  (forall input ps ds, words args (input :: ps) ds -> main ("idl2schemata" :: args) = run_idl2schemata input (nth_error ps 0) ds)
  /\ ((forall input ps ds, ~ words args (input :: ps) ds) -> ~ asks_help args -> exists e, main ("idl2schemata" :: args) = failing (BadUsage (Some e))).
Proof.
  intros U F P FS J C args. unfold main. cbn [lex_next next_arg].
  change (String.eqb "idl2schemata" "idl") with false. change (String.eqb "idl2schemata" "idl2schemata") with true. cbn iota. split.
  - intros input ps ds Hw. apply parse_all_args in Hw. now rewrite Hw.
  - intros Hn Hh. destruct (parse_all LsNone args) as [[|i ps] ds| |e|] eqn:E.
    + eauto.
    + apply parse_all_args in E. now destruct (Hn i ps ds).
    + apply parse_all_help in E. contradiction.
    + eauto.
    + pose proof (parse_all_outcome args) as O. rewrite E in O. inversion O.
Qed.
Print Assumptions C47_idl2schemata.

(** Where the positionals stand among the options plays no role. *)
Theorem C47_order :
  forall `(Unicode) `(Floats) `(Parser) `(FileSystem) `(JsonParser) `(Console) args args' ps ds,
  words args ps ds -> words args' ps ds ->
  main ("idl" :: args) = main ("idl" :: args') /\ main ("idl2schemata" :: args) = main ("idl2schemata" :: args').
Proof.
  intros U F P FS J C args args' ps ds Hw Hw'. split.
  - rewrite (proj1 (C47_idl _ _ _ _ _ _ args) _ _ Hw). symmetry. exact (proj1 (C47_idl _ _ _ _ _ _ args') _ _ Hw').
  - unfold main. cbn [lex_next next_arg]. apply parse_all_args in Hw, Hw'. now rewrite Hw, Hw'.
Qed.
Print Assumptions C47_order.

(** Help for a subcommand does nothing else. *)
Theorem C47_help_only :
  forall `(Unicode) `(Floats) `(Parser) `(FileSystem) `(JsonParser) `(Console) args,
  asks_help args -> main ("idl" :: args) = quiet /\ main ("idl2schemata" :: args) = quiet.
Proof.
  intros U F P FS J C args Hh. apply parse_all_help in Hh. unfold main. cbn [lex_next next_arg].
  change (String.eqb "idl" "idl") with true. change (String.eqb "idl2schemata" "idl") with false.
  change (String.eqb "idl2schemata" "idl2schemata") with true. cbn iota. rewrite Hh. auto.
Qed.
Print Assumptions C47_help_only.

(** What is not one of the two subcommands does nothing: a name is rejected as
    an unknown subcommand, help and version are shown, other options and no
    arguments at all are errors. *)
Theorem C47_other_commands :
  forall `(Unicode) `(Floats) `(Parser) `(FileSystem) `(JsonParser) `(Console),
  (forall name args, positional name -> name <> "idl" -> name <> "idl2schemata" -> main (name :: args) = failing (UnknownSubcommand name))
  /\ (exists e, main [] = failing e)
  /\ (forall w args, asks_general w -> main (w :: args) = quiet)
  /\ (forall w args, ~ asks_general w -> ~ positional w -> w <> "--" -> exists e, main (w :: args) = failing (BadUsage (Some e)))
  /\ (forall ps, main ("--" :: "idl" :: ps) = run_idl (nth_error ps 0) (nth_error ps 1) [])
  /\ (forall input ps, main ("--" :: "idl2schemata" :: input :: ps) = run_idl2schemata input (nth_error ps 0) [])
  /\ (forall name args, name <> "idl" -> name <> "idl2schemata" -> main ("--" :: name :: args) = failing (UnknownSubcommand name)).
Proof. intros U F P FS J C. exact main_other. Qed.
Print Assumptions C47_other_commands.

Example C47_other_sample :
  positional "compile" /\ asks_general "-hx" /\ asks_general "--version=1" /\ ~ asks_general "--verbose" /\ ~ positional "--verbose".
Proof.
  split; [right; discriminate|]. split; [exact (ag_short_help "x")|]. split; [exact (ag_version_equals "1")|].
  split; [|exact (not_positional_dash _ _)]. intro X. inversion X.
Qed.

Example C47_sample :
  words ["--import-dir"; "a"; "in.avdl"; "--import-dir=b"; "-"] ["in.avdl"; "-"] ["a"; "b"]
  /\ words ["--import-dir"; "a"; "--import-dir=b"; "--"; "in.avdl"; "-"] ["in.avdl"; "-"] ["a"; "b"]
  /\ (forall ps ds, ~ words ["in.avdl"; "--import"] ps ds) /\ ~ asks_help ["in.avdl"; "--import"].
Proof.
  split; [|split; [|split]].
  - apply w_dir. apply w_positional; [right; discriminate|]. apply (w_dir_equals "b"). apply w_positional; [now left|]. constructor.
  - apply w_dir. apply (w_dir_equals "b"). constructor.
  - intros ps ds X. inversion X as [| | | |w l ps0 ds0 _ Hl]; subst. inversion Hl as [| | | |w l ps1 ds1 Hp _]; subst. exact (not_positional_dash _ _ Hp).
  - intro X. inversion X as [| | | | |w l _ Hl]; subst. inversion Hl as [| | | | |w l Hp _]; subst. exact (not_positional_dash _ _ Hp).
Qed.

(** ** C38: one file for each type *)

(** The schemas extracted from a file: one for each type, in order. *)
Theorem C38_one_schema_per_type :
  forall `(Unicode) `(Floats) `(Parser) `(FileSystem) `(JsonParser) dirs src name dir input out ws o,
  compile dirs src name dir input = (Ok out, ws) -> extract_impl out = Ok o ->
  Forall2 (fun s x => schema_name s = Some (nm_name x)
             /\ exists known, schema_to_json s [] None (build_lookup (reg_schemas (co_registry out)) None) = Some (nm_schema x, known))
          (reg_schemas (co_registry out)) (so_schemas o).
Proof.
  intros U F P FS J dirs src name dir input out ws o Hc Hx. exact (proj1 (extract_impl_each dirs src name dir input out ws o Hc Hx)).
Qed.
Print Assumptions C38_one_schema_per_type.

(** After success, the file of every extracted schema holds it, unless a later
    one has the same simple name; nothing else is written. *)
Theorem C38_files :
  forall `(Unicode) `(Floats) `(Parser) `(FileSystem) `(JsonParser) `(Console) input outdir dirs r,
  run_idl2schemata input outdir dirs = r -> run_error r = None ->
  exists o, snd (extract input (fresh dirs)) = Ok o /\ run_warnings r = so_warnings o
    /\ (forall before s after, so_schemas o = before ++ s :: after -> ~ In (nm_name s) (map nm_name after) ->
          written (run_writes r) (path_join (match outdir with Some d => d | None => "." end) (nm_name s ++ ".avsc")) (pretty (nm_schema s) ++ line_end))
    /\ (forall path content, written (run_writes r) path content -> exists s, In s (so_schemas o)
          /\ path = path_join (match outdir with Some d => d | None => "." end) (nm_name s ++ ".avsc") /\ content = (pretty (nm_schema s) ++ line_end)%string).
Proof. exact @run_schemata_written. Qed.
Print Assumptions C38_files.

(** If the input cannot be compiled, nothing is written. *)
Theorem C38_nothing_on_failure :
  forall `(Unicode) `(Floats) `(Parser) `(FileSystem) `(JsonParser) `(Console) input outdir dirs e,
  snd (extract input (fresh dirs)) = Err e ->
  run_writes (run_idl2schemata input outdir dirs) = [] /\ run_error (run_idl2schemata input outdir dirs) = Some (CompileError e)
  /\ run_warnings (run_idl2schemata input outdir dirs) = snd (drain_warnings (fst (extract input (fresh dirs)))).
Proof.
  intros U F P FS J C input outdir dirs e He. rewrite (run_schemata_err _ _ _ _ _ eq_refl He). auto.
Qed.
Print Assumptions C38_nothing_on_failure.

Example C38_sample :
  run_error (the_schemata "/p/main.avdl" (Some "out") ["/lib"]) = None
  /\ map fst (run_writes (the_schemata "/p/main.avdl" (Some "out") ["/lib"])) = ["out/B.avsc"; "out/A.avsc"; "out/C.avsc"; "out/M.avsc"].
Proof. split; vm_compute; reflexivity. Qed.

(** Two types with the same simple name in different namespaces: the file of
    the first is overwritten by the second. *)
Theorem C38_same_simple_name_refuted :
  exists (U : Unicode) (F : Floats) (P : Parser) (FS : FileSystem) (J : JsonParser) (C : Console) input o s,
    run_error (run_idl2schemata input None []) = None
    /\ snd (extract input (fresh [])) = Ok o /\ In s (so_schemas o) /\ length (so_schemas o) = 2
    /\ forall path, ~ written (run_writes (run_idl2schemata input None [])) path (pretty (nm_schema s) ++ line_end).
Proof.
  exists ascii_chars, few_floats, some_parser, some_files, some_json, some_console, "/p/twice.avdl". do 2 eexists.
  split; [vm_compute; reflexivity|]. split; [vm_compute; reflexivity|]. split; [left; reflexivity|]. split; [reflexivity|].
  intros path (b & a & E & Ha).
  assert (W : run_writes (the_schemata "/p/twice.avdl" None []) = [("./T.avsc", ("a" ++ line_end)%string); ("./T.avsc", ("b" ++ line_end)%string)]) by (vm_compute; reflexivity).
  unfold the_schemata in W. rewrite W in E. clear W. destruct b as [|x b].
  - injection E as <- <-. apply Ha. now left.
  - destruct b as [|y b]; [|destruct b; discriminate]. injection E as _ _ E _. discriminate.
Qed.
Print Assumptions C38_same_simple_name_refuted.

(** ** C51: avdl idl *)

(** On success, the document goes to the output file, with a line end, or to
    stdout; the warnings are shown. *)
Theorem C51_success :
  forall `(Unicode) `(Floats) `(Parser) `(FileSystem) `(JsonParser) `(Console) input output dirs r,
  run_idl input output dirs = r -> run_error r = None ->
  exists o, compiled input dirs (Ok o) (run_warnings r) /\
    (standard output /\ run_stdout r = pretty (io_json o) /\ run_writes r = []
     \/ exists path, output = Some path /\ path <> "-" /\ run_stdout r = "" /\ run_writes r = [(path, (pretty (io_json o) ++ line_end)%string)]).
Proof. exact @run_idl_ok. Qed.
Print Assumptions C51_success.

(** Otherwise nothing is written; when the input did not compile, the warnings
    kept for it are shown. *)
Theorem C51_failure :
  forall `(Unicode) `(Floats) `(Parser) `(FileSystem) `(JsonParser) `(Console) input output dirs r e,
  run_idl input output dirs = r -> run_error r = Some e ->
  run_stdout r = "" /\ run_writes r = []
  /\ ((exists e', e = CompileError e' /\ compiled input dirs (Err e') (run_warnings r))
      \/ (e = CannotReadStdin /\ (input = None \/ input = Some "-") /\ stdin_text = None)
      \/ (exists path o, e = CannotWrite path /\ output = Some path /\ can_write path = false /\ compiled input dirs (Ok o) (run_warnings r))).
Proof. exact @run_idl_err. Qed.
Print Assumptions C51_failure.

Example C51_sample :
  run_error (the_main ["idl"; "--import-dir"; "/lib"; "/p/main.avdl"; "out.avpr"]) = None
  /\ map fst (run_writes (the_main ["idl"; "--import-dir"; "/lib"; "/p/main.avdl"; "out.avpr"])) = ["out.avpr"]
  /\ run_warnings (the_main ["idl"; "--import-dir"; "/lib"; "/p/main.avdl"; "out.avpr"]) = [mkReport (Some "b.avdl") (OrphanedDoc 1)]
  /\ run_stdout (the_main ["idl"]) = "{}" /\ run_error (the_main ["idl"; "-"; "/locked"]) = Some (CannotWrite "/locked")
  /\ run_warnings (the_main ["idl"; "/p/main.avdl"]) = [mkReport (Some "b.avdl") (OrphanedDoc 1)].
Proof. repeat split; vm_compute; reflexivity. Qed.
