(** The command line program: src/main.rs. *)
From Verif Require Export Compile.

(** ** The argument lexer

    The crate [lexopt] (0.3), not part of the repository, as documented:
    [--name], [--name=value], [-abc], [--] ends the options.  Simplified:
    arguments are valid UTF-8, so [OsString::string] never fails, and of a
    short option only the first byte is kept (it is only compared to [h] and
    [V]). *)

Inductive lex_state :=
| LsNone
| LsPending (value : string)                        (* of [--name=value] *)
| LsShorts (rest : string)                          (* inside [-abc], after an option *)
| LsFinished.                                       (* after [--] *)

Inductive arg := Short (c : ascii) | Long (name : string) | Value (value : string).

Inductive arg_error :=
| UnexpectedValue (value : string)
| UnexpectedArg (a : arg)
| MissingValue (option : string).

(** The position of the first [=] *)
Fixpoint split_equals (s : string) : string * option string :=
  match s with
  | EmptyString => (EmptyString, None)
  | String c r =>
      if Ascii.eqb c "="%char then (EmptyString, Some r)
      else let (a, b) := split_equals r in (String c a, b)
  end.

(** [Parser::next] after [--] *)
Definition next_value (args : list string) : option arg * (lex_state * list string) :=
  match args with
  | [] => (None, (LsFinished, []))
  | a :: r => (Some (Value a), (LsFinished, r))
  end.

(** [Parser::next] at the start of an argument *)
Definition next_arg (args : list string) : option arg * (lex_state * list string) :=
  match args with
  | [] => (None, (LsNone, []))
  | a :: r =>
      match a with
      | String "-" EmptyString => (Some (Value a), (LsNone, r))
      | String "-" (String "-" EmptyString) => next_value r
      | String "-" (String "-" l) =>
          match split_equals l with
          | (name, Some v) => (Some (Long name), (LsPending v, r))
          | (name, None) => (Some (Long name), (LsNone, r))
          end
      | String "-" (String c s) => (Some (Short c), (LsShorts s, r))
      | _ => (Some (Value a), (LsNone, r))
      end
  end.

(** [Parser::next] *)
Definition lex_next (st : lex_state) (args : list string)
    : result (option arg * (lex_state * list string)) arg_error :=
  match st with
  | LsPending v => Err (UnexpectedValue v)
  | LsShorts (String c s) =>
      if Ascii.eqb c "="%char then Err (UnexpectedValue s) else Ok (Some (Short c), (LsShorts s, args))
  | LsShorts EmptyString | LsNone => Ok (next_arg args)
  | LsFinished => Ok (next_value args)
  end.

(** [Parser::value], the value of the option [--option] just seen *)
Definition lex_value (option : string) (st : lex_state) (args : list string)
    : result (string * (lex_state * list string)) arg_error :=
  match st with
  | LsPending v => Ok (v, (LsNone, args))
  | LsShorts (String c s) => Ok (if Ascii.eqb c "="%char then s else String c s, (LsNone, args))
  | _ =>
      match args with
      | v :: r => Ok (v, (match st with LsFinished => LsFinished | _ => LsNone end, r))
      | [] => Err (MissingValue option)
      end
  end.

(** ** Arguments of the subcommands *)

Inductive parsed_args :=
| Args (positionals dirs : list string)
| Help                                              (* help is printed, exit code 0 *)
| BadArgs (e : arg_error)
| ArgsOutOfFuel.                                    (* model only: never happens *)

(** src/main.rs:70-85 and 102-117, the loops of [parse_idl_args] and
    [parse_idl2schemata_args], which are the same.  [fuel]: every round uses up
    an argument or is the last one. *)
Fixpoint parse_args (fuel : nat) (st : lex_state) (args positionals dirs : list string) : parsed_args :=
  match fuel with
  | O => ArgsOutOfFuel
  | S n =>
      match lex_next st args with
      | Err e => BadArgs e
      | Ok (None, _) => Args positionals dirs
      | Ok (Some a, (st', args')) =>
          match a with
          | Long name =>
              if String.eqb name "import-dir" then
                match lex_value name st' args' with
                | Err e => BadArgs e
                | Ok (v, (st'', args'')) => parse_args n st'' args'' positionals (dirs ++ [v])
                end
              else if String.eqb name "help" then Help
              else BadArgs (UnexpectedArg a)
          | Short c => if Ascii.eqb c "h"%char then Help else BadArgs (UnexpectedArg a)
          | Value v => parse_args n st' args' (positionals ++ [v]) dirs
          end
      end
  end.
Definition parse_all (st : lex_state) (args : list string) : parsed_args :=
  parse_args (S (length args)) st args [] [].

(** ** Running *)

(** What the program sees and can do, besides the file system *)
Class Console := {
  stdin_text : option string;                       (* [None]: cannot be read, or not UTF-8 *)
  pretty : json -> string;                          (* [serde_json::to_string_pretty] *)
  can_write : string -> bool;                       (* [fs::write] to this path succeeds *)
  can_create : string -> bool                       (* [fs::create_dir_all] succeeds *)
}.

Inductive cli_error :=
| BadUsage (e : option arg_error)                   (* exit code 2, or 1 inside a subcommand *)
| UnknownSubcommand (name : string)
| CannotReadStdin
| CompileError (e : compile_error)
| CannotWrite (path : string)
| NotADirectory (path : string)
| CannotCreate (path : string).

(** What a run of the program leaves behind.  Help and version texts are not
    modelled, nor is a failing write to stdout. *)
Record run := mkRun {
  run_error : option cli_error;                     (* shown on stderr; exit code not 0 *)
  run_warnings : list report;                       (* shown on stderr before that *)
  run_stdout : string;
  run_writes : list (string * string)               (* files written, in order *)
}.
Definition quiet : run := mkRun None [] "" [].
Definition failing (e : cli_error) : run := mkRun (Some e) [] "" [].

Definition line_end : string := String (ascii_of_N 10) EmptyString.

(** [Path::join] on Unix *)
Fixpoint ends_with_slash (s : string) : bool :=
  match s with
  | EmptyString => false
  | String c EmptyString => Ascii.eqb c "/"%char
  | String _ r => ends_with_slash r
  end.
Definition path_join (dir name : string) : string :=
  match name with
  | String "/" _ => name
  | _ => if str_is_empty dir then name
         else if ends_with_slash dir then (dir ++ name)%string
         else (dir ++ "/" ++ name)%string
  end.

Section WithWorld.
  Context `{Unicode} `{Floats} `{Parser} `{FileSystem} `{JsonParser} `{Console}.

  (** src/main.rs:196-199, 250-253: a new builder with the import directories *)
  Definition with_dirs (dirs : list string) : builder := fold_left (fun b d => import_dir d b) dirs new_builder.

  (** src/main.rs:300-324 [write_output] *)
  Definition write_output (output : option string) (content : string) (warnings : list report) : run :=
    match output with
    | Some path =>
        if String.eqb path "-" then mkRun None warnings content []
        else if can_write path then mkRun None warnings "" [(path, (content ++ line_end)%string)]
        else mkRun (Some (CannotWrite path)) warnings "" []
    | None => mkRun None warnings content []
    end.

  (** src/main.rs:191-239 [run_idl] *)
  Definition run_idl (input output : option string) (dirs : list string) : run :=
    let b := with_dirs dirs in
    let finish (x : builder * result idl_output compile_error) :=
      match x with
      | (_, Ok o) => write_output output (pretty (io_json o)) (io_warnings o)
      | (b', Err e) => mkRun (Some (CompileError e)) (snd (drain_warnings b')) "" []
      end in
    let from_stdin (name : string) :=
      match stdin_text with
      | None => failing CannotReadStdin
      | Some source => finish (convert_str source name b)
      end in
    match input with
    | Some path => if String.eqb path "-" then from_stdin path else finish (convert path b)
    | None => from_stdin "<stdin>"
    end.

  (** src/main.rs:281-290, the loop of [run_idl2schemata] *)
  Fixpoint write_schemas (dir : string) (l : list named_schema) : option cli_error * list (string * string) :=
    match l with
    | [] => (None, [])
    | s :: r =>
        let path := path_join dir (nm_name s ++ ".avsc")%string in
        if can_write path then
          let (e, ws) := write_schemas dir r in (e, (path, (pretty (nm_schema s) ++ line_end)%string) :: ws)
        else (Some (CannotWrite path), [])
    end.

  (** src/main.rs:245-293 [run_idl2schemata] *)
  Definition run_idl2schemata (input : string) (outdir : option string) (dirs : list string) : run :=
    match extract input (with_dirs dirs) with
    | (b', Err e) => mkRun (Some (CompileError e)) (snd (drain_warnings b')) "" []
    | (_, Ok o) =>
        let dir := match outdir with Some d => d | None => "." end in
        if fs_exists dir && negb (fs_is_dir dir) then mkRun (Some (NotADirectory dir)) (so_warnings o) "" []
        else if can_create dir then
          let (e, ws) := write_schemas dir (so_schemas o) in mkRun e (so_warnings o) "" ws
        else mkRun (Some (CannotCreate dir)) (so_warnings o) "" []
    end.

  (** src/main.rs:138-185 [main]; [args] without the program name *)
  Definition main (args : list string) : run :=
    match lex_next LsNone args with
    | Err e => failing (BadUsage (Some e))
    | Ok (None, _) => failing (BadUsage None)
    | Ok (Some (Value name), (st, rest)) =>
        if String.eqb name "idl" then
          match parse_all st rest with
          | Args ps dirs => run_idl (nth_error ps 0) (nth_error ps 1) dirs
          | Help => quiet
          | BadArgs e => failing (BadUsage (Some e))
          | ArgsOutOfFuel => failing (BadUsage None)
          end
        else if String.eqb name "idl2schemata" then
          match parse_all st rest with
          | Args (input :: ps) dirs => run_idl2schemata input (nth_error ps 0) dirs
          | Args [] _ => failing (BadUsage (Some (MissingValue "INPUT")))
          | Help => quiet
          | BadArgs e => failing (BadUsage (Some e))
          | ArgsOutOfFuel => failing (BadUsage None)
          end
        else failing (UnknownSubcommand name)
    | Ok (Some (Short c), _) =>
        if Ascii.eqb c "h"%char || Ascii.eqb c "V"%char then quiet else failing (BadUsage (Some (UnexpectedArg (Short c))))
    | Ok (Some (Long n), _) =>
        if String.eqb n "help" || String.eqb n "version" then quiet else failing (BadUsage (Some (UnexpectedArg (Long n))))
    end.
End WithWorld.
