(** What a run looks at: the files that are searched for and read. *)
From Verif Require Export SpecCompile SpecPipeline.

Section Frame.
  Context `{Unicode} `{Floats} `{Parser}.

  (** The files whose statements take part, with the directory of each: the input, whose
      statements are [items], and the IDL files imported, directly or not *)
  Inductive taking_part (FS : FileSystem) (dirs : list string) (dir : string) (items : list decl_item) : string -> list decl_item -> Prop :=
  | tp_input : taking_part FS dirs dir items dir items
  | tp_import d its path sp p file its' ws :
      taking_part FS dirs dir items d its -> In (DImport ImportIdl path sp) its -> found_in (d :: dirs) path p ->
      idl_content p file its' ws -> taking_part FS dirs dir items (fs_parent p) its'.

  (** Every import that is found in the first world, with the import directories [dirs], is
      found at the same path in the second, with [dirs'], and the file is the same *)
  Definition found_again (FS FS' : FileSystem) (dirs dirs' : list string) (dir : string) (items : list decl_item) : Prop :=
    forall d its k path sp p, taking_part FS dirs dir items d its -> In (DImport k path sp) its -> @found_in FS (d :: dirs) path p ->
      @found_in FS' (d :: dirs') path p /\ @fs_read FS' p = @fs_read FS p
      /\ @fs_parent FS' p = @fs_parent FS p /\ @fs_file_name FS' p = @fs_file_name FS p.
End Frame.

(** The error for an import that was not found *)
Definition import_missing (e : compile_error) : Prop :=
  exists place file, (exists searched, e = At place (ImportNotFound file searched)) \/ e = At place (CannotCanonicalize file).
