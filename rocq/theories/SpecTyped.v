(** The same text, in a file and given directly. *)
From Verif Require Export SpecRewrite SpecFrame.

(** [e] and [e'] are the same error but for places and for what the input is called *)
Definition renamed_error (name name' : string) (e e' : compile_error) : Prop :=
  same_error e e' \/ exists x x', e = CannotParse name x /\ e' = CannotParse name' x' /\ same_error (CannotParse "" x) (CannotParse "" x').

(** The same result, the input being called [name] in one run and [name'] in the other *)
Definition renamed_result {A} (name name' : string) (same : A -> A -> Prop) (x x' : builder * result A compile_error) : Prop :=
  same_builder (fst x) (fst x')
  /\ match snd x, snd x' with
     | Ok o, Ok o' => same o o'
     | Err e, Err e' => renamed_error name name' e e'
     | _, _ => False
     end.
Definition renamed_run (name name' : string) (r r' : run) : Prop :=
  run_stdout r = run_stdout r' /\ run_writes r = run_writes r' /\ same_warnings (run_warnings r) (run_warnings r')
  /\ match run_error r, run_error r' with
     | Some (CompileError e), Some (CompileError e') => renamed_error name name' e e'
     | x, x' => x = x'
     end.

(** No import leads back to the file [self] *)
Definition not_imported `{Unicode} `{Floats} `{Parser} (FS : FileSystem) (dirs : list string) (dir : string) (items : list decl_item) (self : string) : Prop :=
  forall d its k path sp, taking_part FS dirs dir items d its -> In (DImport k path sp) its -> ~ found_in (d :: dirs) path self.

(** A file in the working directory *)
Definition file_here (FS : FileSystem) (path text : string) : Prop :=
  fs_read path = Some text /\ fs_cwd = Some (match fs_canonical (fs_parent path) with Some d => d | None => fs_parent path end).
