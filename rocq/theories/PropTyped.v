(** Reading from a file and from standard input. *)
From Verif Require Import Samples SampleFile SampleWorld SpecTyped CompileProofs TypedProofs PropLayout.

(** ** C84: a text means the same in a file and on its own *)
Section Typed.
  Existing Instance text_parser.

  (** A file in the working directory that is not imported by itself or by the files
      it imports: converting it and converting its text give the same, under whatever
      name the text goes; only the places shown, and the name in a syntax error, differ. *)
  Theorem C84_convert :
    forall `(Unicode) `(Floats) `(LexerMessages) `(JsonParser) (FS : FileSystem) path text name b,
    file_here FS path text ->
    (forall dir self file items ws, fs_cwd = Some dir -> fs_canonical path = Some self -> parse_idl path text = Ok (file, items, ws) ->
      not_imported FS (b_import_dirs b) dir items self) ->
    renamed_result path name same_json (convert path b) (convert_str text name b).
  Proof. exact @convert_here. Qed.

  Theorem C84_extract :
    forall `(Unicode) `(Floats) `(LexerMessages) `(JsonParser) (FS : FileSystem) path text name b,
    file_here FS path text ->
    (forall dir self file items ws, fs_cwd = Some dir -> fs_canonical path = Some self -> parse_idl path text = Ok (file, items, ws) ->
      not_imported FS (b_import_dirs b) dir items self) ->
    renamed_result path name same_schemas (extract_file path b) (extract_str text name b).
  Proof. exact @extract_here. Qed.

  (** avdl idl prints and writes the same for the file and for its text on standard input. *)
  Theorem C84_program :
    forall `(Unicode) `(Floats) `(LexerMessages) `(JsonParser) (FS : FileSystem) (C : Console) path text output dirs,
    file_here FS path text -> path <> "-" -> stdin_text = Some text ->
    (forall dir self file items ws, fs_cwd = Some dir -> fs_canonical path = Some self -> parse_idl path text = Ok (file, items, ws) ->
      not_imported FS dirs dir items self) ->
    renamed_run path "<stdin>" (run_idl (Some path) output dirs) (run_idl None output dirs)
    /\ renamed_run path "-" (run_idl (Some path) output dirs) (run_idl (Some "-") output dirs).
  Proof. exact @run_here. Qed.
End Typed.
Print Assumptions C84_convert.
Print Assumptions C84_extract.
Print Assumptions C84_program.

(** main.avdl imports a.avdl, which imports nothing. *)
Section Sample.
  Existing Instance ascii_chars. Existing Instance few_floats. Existing Instance the_text_parser. Existing Instance no_json.
  Definition items_at (p text : string) : list decl_item := match parse_idl p text with Ok (_, its, _) => its | Err _ => [] end.
  Lemma parts_of_it d its : taking_part world [] "/p" (items_at "/p/main.avdl" main_text) d its ->
    d = "/p" /\ (its = items_at "/p/main.avdl" main_text \/ its = items_at "/p/a.avdl" a_avdl).
  Proof.
    induction 1 as [|d its path sp p file its' ws _ [-> IH] Hi Hf (text & Ht & Hp)]; [auto|].
    apply (proj2 (@search_iff world path _ _)) in Hf. assert (Hx : its' = items_at p text) by (unfold items_at; now rewrite Hp). rewrite Hx. clear Hx Hp its'.
    destruct IH as [->| ->]; vm_compute in Hi; repeat destruct Hi as [Hi|Hi]; try contradiction; try discriminate Hi.
    injection Hi as <- _. vm_compute in Hf. injection Hf as <-. vm_compute in Ht. injection Ht as <-. auto.
  Qed.
  Example C84_sample :
    file_here world "/p/main.avdl" main_text
    /\ (forall dir self file items ws, @fs_cwd world = Some dir -> @fs_canonical world "/p/main.avdl" = Some self ->
         parse_idl "/p/main.avdl" main_text = Ok (file, items, ws) -> not_imported world [] dir items self)
    /\ match snd (@convert _ _ _ world _ "/p/main.avdl" new_builder), snd (@convert_str _ _ _ world _ main_text "typed" new_builder) with
       | Ok o, Ok o' => io_json o = main_json /\ io_json o' = main_json
       | _, _ => False
       end.
  Proof.
    split; [split; reflexivity|]. split; [|vm_compute; split; reflexivity].
    intros dir self file items ws Hd Hs Hp. vm_compute in Hd, Hs. injection Hd as <-. injection Hs as <-.
    assert (E : items = items_at "/p/main.avdl" main_text) by (unfold items_at; now rewrite Hp). subst items.
    intros d its k path sp Ht Hi Hf. apply parts_of_it in Ht. destruct Ht as [-> Ht]. apply (proj2 (@search_iff world path _ _)) in Hf.
    destruct Ht as [->| ->]; vm_compute in Hi; repeat destruct Hi as [Hi|Hi]; try contradiction; try discriminate Hi.
    injection Hi as _ <- _. vm_compute in Hf. discriminate Hf.
  Qed.

  (** A file that imports itself: as a file it is known, as a text it is not, and
      its types are declared a second time by the import. *)
  Definition self_text := "protocol P { import idl ""main.avdl""; record R {} }".
  Definition self_world := rewritten world (fun p => if String.eqb p "/p/main.avdl" then Some self_text else None).
  Theorem C84_self_import_refuted : exists path text r e,
    file_here self_world path text
    /\ snd (@convert _ _ _ self_world _ path new_builder) = Ok r
    /\ snd (@convert_str _ _ _ self_world _ text "typed" new_builder) = Err e.
  Proof. exists "/p/main.avdl", self_text. do 2 eexists. split; [split; reflexivity|]. split; vm_compute; reflexivity. Qed.
End Sample.
Print Assumptions C84_self_import_refuted.
