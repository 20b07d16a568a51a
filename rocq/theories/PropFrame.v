(** A run depends only on the files it searches for and reads. *)
From Verif Require Import Samples SampleFile SampleWorld SpecFrame Cli CompileProofs FrameProofs PropPipeline.

(** ** C83: files that do not take part do not matter *)

(** Take two worlds of files and two lists of import directories in which the
    input is the same, and every import of a file that takes part and is found
    in the first leads to the same file in the second. If the first run does
    not fail for want of an import, the second has the same result, be it a
    document or an error, with the same warnings. Anything else may be different: other
    files, their places, the directories. *)
Theorem C83_convert :
  forall `(Unicode) `(Floats) `(Parser) `(JsonParser) (FS FS' : FileSystem) i b b1 src name dir path,
  @input_of FS i src name dir path -> @input_of FS' i src name dir path ->
  (forall file items ws, parse_idl name src = Ok (file, items, ws) -> found_again FS FS' (b_import_dirs b) (b_import_dirs b1) dir items) ->
  (forall e, snd (@run_convert _ _ _ FS _ i b) = Err e -> ~ import_missing e) ->
  snd (@run_convert _ _ _ FS' _ i b1) = snd (@run_convert _ _ _ FS _ i b)
  /\ b_warnings (fst (@run_convert _ _ _ FS' _ i b1)) = b_warnings (fst (@run_convert _ _ _ FS _ i b)).
Proof. exact @run_convert_again. Qed.
Print Assumptions C83_convert.

Theorem C83_extract :
  forall `(Unicode) `(Floats) `(Parser) `(JsonParser) (FS FS' : FileSystem) i b b1 src name dir path,
  @input_of FS i src name dir path -> @input_of FS' i src name dir path ->
  (forall file items ws, parse_idl name src = Ok (file, items, ws) -> found_again FS FS' (b_import_dirs b) (b_import_dirs b1) dir items) ->
  (forall e, snd (@run_extract _ _ _ FS _ i b) = Err e -> ~ import_missing e) ->
  snd (@run_extract _ _ _ FS' _ i b1) = snd (@run_extract _ _ _ FS _ i b)
  /\ b_warnings (fst (@run_extract _ _ _ FS' _ i b1)) = b_warnings (fst (@run_extract _ _ _ FS _ i b)).
Proof. exact @run_extract_again. Qed.
Print Assumptions C83_extract.

(** The world in which main.avdl is compiled in the samples, and one without
    some of its files, with one changed and one added *)
Definition other_texts : list (string * string) :=
  [("/new/c.avsc", "no schema"); ("/p/late.avdl", "early"); ("/p/main.avdl", "main"); ("/p/a.avdl", "a"); ("/p/b.avdl", "b"); ("/lib/c.avsc", "c")].
Definition other_canonical (p : string) : option string := if str_mem p (keys other_texts) then Some p else None.
Lemma other_finite : forall p c, other_canonical p = Some c -> In c (keys other_texts).
Proof.
  intros p c. unfold other_canonical. destruct (str_mem p (keys other_texts)) eqn:E; [|discriminate]. intro Ec. injection Ec as <-.
  unfold str_mem in E. apply existsb_exists in E. destruct E as (x & Hx & Ex). apply String.eqb_eq in Ex. now subst.
Qed.
Definition other_files : FileSystem :=
  {| fs_join := fun d n => (d ++ "/" ++ n)%string; fs_exists := fun p => str_mem p (keys other_texts);
     fs_canonical := other_canonical; fs_files := keys other_texts; fs_finite := other_finite; fs_read := fun p => assoc p other_texts;
     fs_parent := parent; fs_file_name := fun p => Some (base_name p); fs_cwd := Some "/"; fs_is_dir := fun _ => false; fs_content := fun _ => [] |}.
Definition items_in (p text : string) : list decl_item :=
  match @parse_idl ascii_chars few_floats some_parser p text with Ok (_, its, _) => its | Err _ => [] end.
Lemma parts_of_main d its :
  @taking_part ascii_chars few_floats some_parser some_files ["/lib"] "/p" (items_in "/p/main.avdl" "main") d its ->
  d = "/p" /\ (its = items_in "/p/main.avdl" "main" \/ its = items_in "/p/a.avdl" "a" \/ its = items_in "/p/b.avdl" "b").
Proof.
  induction 1 as [|d its path sp p file its' ws _ [-> IH] Hi Hf (text & Ht & Hp)]; [auto|].
  apply (proj2 (search_iff path _ _)) in Hf. assert (Hx : its' = items_in p text) by (unfold items_in; now rewrite Hp). rewrite Hx. clear Hx Hp its'.
  destruct IH as [->|[->| ->]]; vm_compute in Hi; repeat destruct Hi as [Hi|Hi]; try contradiction; try discriminate Hi;
    injection Hi as <- _; vm_compute in Hf; try discriminate Hf; injection Hf as <-; vm_compute in Ht; injection Ht as <-; (split; [reflexivity|]); auto.
Qed.
Example C83_sample : exists r,
  @input_of some_files (FromFile "/p/main.avdl") "main" "/p/main.avdl" "/p" (Some "/p/main.avdl")
  /\ @input_of other_files (FromFile "/p/main.avdl") "main" "/p/main.avdl" "/p" (Some "/p/main.avdl")
  /\ (forall file items ws, @parse_idl ascii_chars few_floats some_parser "/p/main.avdl" "main" = Ok (file, items, ws) ->
       @found_again ascii_chars few_floats some_parser some_files other_files ["/lib"] ["/nowhere"; "/lib"; "/new"] "/p" items)
  /\ snd (@run_convert ascii_chars few_floats some_parser some_files some_json (FromFile "/p/main.avdl") lib_builder) = Ok r
  /\ snd (@run_convert ascii_chars few_floats some_parser other_files some_json (FromFile "/p/main.avdl") (mkBuilder ["/nowhere"; "/lib"; "/new"] [])) = Ok r.
Proof.
  eexists. split; [exact (@in_file some_files "/p/main.avdl" "main" eq_refl)|]. split; [exact (@in_file other_files "/p/main.avdl" "main" eq_refl)|].
  split; [|split; [vm_compute; reflexivity|vm_compute; reflexivity]].
  intros file items ws Hp d its k path sp p Ht Hi Hf. assert (Hx : items = items_in "/p/main.avdl" "main") by (unfold items_in; now rewrite Hp).
  rewrite Hx in Ht. apply parts_of_main in Ht. destruct Ht as [-> Ht]. apply (proj2 (@search_iff some_files path _ _)) in Hf.
  enough (@search other_files path ["/p"; "/nowhere"; "/lib"; "/new"] = Some (Some p) /\ @fs_read other_files p = @fs_read some_files p) as [A B].
  { apply (proj1 (@search_iff other_files path _ _)) in A. repeat split; auto. }
  destruct Ht as [->|[->| ->]]; vm_compute in Hi; repeat destruct Hi as [Hi|Hi]; try contradiction; try discriminate Hi;
    injection Hi as <- <- _; vm_compute in Hf; injection Hf as <-; split; vm_compute; reflexivity.
Qed.

(** Import directories given after the others do not matter unless an import
    is found in none of these. *)
Theorem C83_more_directories :
  forall `(Unicode) `(Floats) `(Parser) `(FileSystem) `(JsonParser) i dirs more ws,
  ((forall e, snd (run_convert i (mkBuilder dirs ws)) = Err e -> ~ import_missing e) ->
   snd (run_convert i (mkBuilder (dirs ++ more) ws)) = snd (run_convert i (mkBuilder dirs ws)))
  /\ ((forall e, snd (run_extract i (mkBuilder dirs ws)) = Err e -> ~ import_missing e) ->
   snd (run_extract i (mkBuilder (dirs ++ more) ws)) = snd (run_extract i (mkBuilder dirs ws))).
Proof.
  intros U F P FS J i dirs more ws. destruct (input_known i) as [(src & name & dir & ip & Hi)|Hi].
  - split; intro M; [apply (run_convert_again FS FS i _ _ src name dir ip Hi Hi)|apply (run_extract_again FS FS i _ _ src name dir ip Hi Hi)]; try exact M; intros; apply again_more.
  - destruct (Hi (mkBuilder dirs ws) (mkBuilder (dirs ++ more) ws)) as [A B]. now split.
Qed.
Print Assumptions C83_more_directories.

(** A directory given a second time does not matter. *)
Theorem C83_repeated_directory :
  forall `(Unicode) `(Floats) `(Parser) `(FileSystem) `(JsonParser) i before d between after ws,
  let once := mkBuilder (before ++ d :: between ++ after) ws in
  let twice := mkBuilder (before ++ d :: between ++ d :: after) ws in
  ((forall e, snd (run_convert i once) = Err e -> ~ import_missing e) -> snd (run_convert i twice) = snd (run_convert i once))
  /\ ((forall e, snd (run_extract i once) = Err e -> ~ import_missing e) -> snd (run_extract i twice) = snd (run_extract i once)).
Proof.
  intros U F P FS J i before d between after ws once twice. destruct (input_known i) as [(src & name & dir & ip & Hi)|Hi].
  - split; intro M; [apply (run_convert_again FS FS i _ _ src name dir ip Hi Hi)|apply (run_extract_again FS FS i _ _ src name dir ip Hi Hi)]; try exact M; intros; apply again_twice.
  - destruct (Hi once twice) as [A B]. now split.
Qed.
Print Assumptions C83_repeated_directory.

Example C83_directories_sample : exists r,
  snd (@run_convert ascii_chars few_floats some_parser some_files some_json (FromFile "/p/main.avdl") (mkBuilder ["/lib"] [])) = Ok r
  /\ snd (@run_convert ascii_chars few_floats some_parser some_files some_json (FromFile "/p/main.avdl") (mkBuilder ["/lib"; "/q"; "/lib"] [])) = Ok r.
Proof. eexists. split; vm_compute; reflexivity. Qed.

(** The same of the program: with [--import-dir] options added at the end it
    writes the same files and the same text to its two streams, and ends with the same status. *)
Theorem C83_program :
  forall `(Unicode) `(Floats) `(Parser) `(FileSystem) `(JsonParser) `(Console) dirs more,
  (forall input output, (forall e, run_error (run_idl input output dirs) = Some (CompileError e) -> ~ import_missing e) ->
    run_idl input output (dirs ++ more) = run_idl input output dirs)
  /\ (forall input outdir, (forall e, run_error (run_idl2schemata input outdir dirs) = Some (CompileError e) -> ~ import_missing e) ->
    run_idl2schemata input outdir (dirs ++ more) = run_idl2schemata input outdir dirs).
Proof. intros. split; intros; [now apply run_idl_more|now apply run_schemata_more]. Qed.
Print Assumptions C83_program.

Example C83_program_sample :
  run_error (@run_idl ascii_chars few_floats some_parser some_files some_json some_console (Some "/p/main.avdl") None ["/lib"]) = None
  /\ run_error (@run_idl2schemata ascii_chars few_floats some_parser some_files some_json some_console "/p/main.avdl" (Some "/out") ["/lib"]) = None.
Proof. split; vm_compute; reflexivity. Qed.
(** Without a directory in which it is found, an import is missing, and then another directory matters. *)
Example C83_missing_sample :
  (exists e, run_error (@run_idl ascii_chars few_floats some_parser some_files some_json some_console (Some "/p/main.avdl") None []) = Some (CompileError e) /\ import_missing e)
  /\ run_error (@run_idl ascii_chars few_floats some_parser some_files some_json some_console (Some "/p/main.avdl") None (nil ++ ["/lib"])) = None.
Proof. split; [eexists; split; [vm_compute; reflexivity|]|vm_compute; reflexivity]. eexists _, _. left. eexists. reflexivity. Qed.
