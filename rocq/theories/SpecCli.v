(** What command lines mean, without the argument lexer. *)
From Verif Require Export Cli SpecCompile.

(** Arguments that are not options: everything that does not begin with a
    dash, and the dash alone. *)
Definition positional (w : string) : Prop := w = "-" \/ forall r, w <> String "-" r.

(** [words args ps ds]: the arguments [args] consist of the positionals [ps]
    and the import directories [ds], in these orders. *)
Inductive words : list string -> list string -> list string -> Prop :=
| w_end : words [] [] []
| w_rest l : words ("--" :: l) l []
| w_dir d l ps ds : words l ps ds -> words ("--import-dir" :: d :: l) ps (d :: ds)
| w_dir_equals d l ps ds : words l ps ds -> words (("--import-dir=" ++ d)%string :: l) ps (d :: ds)
| w_positional w l ps ds : positional w -> words l ps ds -> words (w :: l) (w :: ps) ds.

(** Help is asked for, before anything that is wrong. *)
Inductive asks_help : list string -> Prop :=
| ah_long l : asks_help ("--help" :: l)
| ah_long_equals v l : asks_help (("--help=" ++ v)%string :: l)
| ah_short r l : asks_help (("-h" ++ r)%string :: l)
| ah_dir d l : asks_help l -> asks_help ("--import-dir" :: d :: l)
| ah_dir_equals d l : asks_help l -> asks_help (("--import-dir=" ++ d)%string :: l)
| ah_positional w l : positional w -> asks_help l -> asks_help (w :: l).

(** Help or the version is asked for in place of a subcommand. *)
Inductive asks_general : string -> Prop :=
| ag_help : asks_general "--help"
| ag_help_equals v : asks_general ("--help=" ++ v)
| ag_version : asks_general "--version"
| ag_version_equals v : asks_general ("--version=" ++ v)
| ag_short_help r : asks_general ("-h" ++ r)
| ag_short_version r : asks_general ("-V" ++ r).

(** The content of a file after some writes, if one of them was to it *)
Definition written (writes : list (string * string)) (path content : string) : Prop :=
  exists before after, writes = before ++ (path, content) :: after /\ ~ In path (map fst after).

(** Where the document goes and where the text comes from *)
Definition standard (file : option string) : Prop := file = None \/ file = Some "-".

Section Input.
  Context `{Unicode} `{Floats} `{Parser} `{FileSystem} `{JsonParser} `{Console}.
  (** [res] and [ws]: what a new builder gives for the input, and the warnings
      it reports, in its output or to be drained. *)
  Inductive compiled (input : option string) (dirs : list string) (res : result idl_output compile_error) (ws : list report) : Prop :=
  | co_path path b : input = Some path -> path <> "-" -> convert path (fresh dirs) = (b, res) ->
      ws = match res with Ok o => io_warnings o | Err _ => snd (drain_warnings b) end -> compiled input dirs res ws
  | co_stdin text b name : standard input -> stdin_text = Some text -> convert_str text name (fresh dirs) = (b, res) ->
      name = match input with Some n => n | None => "<stdin>" end ->
      ws = match res with Ok o => io_warnings o | Err _ => snd (drain_warnings b) end -> compiled input dirs res ws.
End Input.
