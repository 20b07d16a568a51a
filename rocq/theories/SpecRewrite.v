(** What it means to lay out files anew: white space and comments change, the
    tokens do not. *)
From Verif Require Export SpecLayout SpecCompile SpecLexer.
From Verif Require Export Cli.
From Verif Require Import IdlParser.
From Verif Require SpecRefs.
From Coq Require Import Permutation.

(** The lexer and the parser of the model, in place of the parser left open *)
Definition text_parser `{LexerMessages} : Parser := {| antlr_parse := parse_text |}.

(** Two IDL texts have the same tokens, leaving out white space, comments and what
    is no token at all.  Documentation comments are tokens. *)
Definition same_tokens (text text' : string) : Prop :=
  exists v v' l l', visible_part text v /\ visible_part text' v'
    /\ taken_apart (chars v) l /\ taken_apart (chars v') l' /\ kept l = kept l'.

(** The same files, with the texts [read] *)
Definition rewritten (FS : FileSystem) (read : string -> option string) : FileSystem :=
  {| fs_join := @fs_join FS; fs_exists := @fs_exists FS; fs_canonical := @fs_canonical FS; fs_files := @fs_files FS;
     fs_finite := @fs_finite FS; fs_read := read; fs_parent := @fs_parent FS; fs_file_name := @fs_file_name FS;
     fs_cwd := @fs_cwd FS; fs_is_dir := @fs_is_dir FS; fs_content := @fs_content FS |}.

(** Every file that can be read still can, with a text that is the same in the sense
    of [same], and is the same JSON if it is JSON. *)
Definition only_changed `{JsonParser} (same : string -> string -> Prop) (read read' : string -> option string) : Prop :=
  forall p, match read p, read' p with
            | None, None => True
            | Some t, Some t' => same t t' /\ parse_json t = parse_json t'
            | _, _ => False
            end.
Definition only_layout `{JsonParser} : (string -> option string) -> (string -> option string) -> Prop := only_changed same_tokens.

(** Warnings of the lexer are about what is no token; the others stay, but for the
    places they are shown at. *)
Definition not_lexical (w : warning) : bool := match w with LexerWarning _ => false | _ => true end.
Definition without_place (w : warning) : warning :=
  match w with
  | WalkWarning (NonStandardAlias a _) => WalkWarning (NonStandardAlias a nowhere)
  | WalkWarning (AnnotationsDropped ks _) => WalkWarning (AnnotationsDropped ks nowhere)
  | LexerWarning _ | OrphanedDoc _ => w
  end.
Definition lasting (l : list warning) : list warning := map without_place (filter not_lexical l).
Definition same_warnings (l l' : list report) : Prop :=
  map (fun r => (rp_file r, without_place (rp_warning r))) (filter (fun r => not_lexical (rp_warning r)) l)
  = map (fun r => (rp_file r, without_place (rp_warning r))) (filter (fun r => not_lexical (rp_warning r)) l').

(** The same error; undefined names may be listed in another order, as they are
    sorted by place, and places may differ. *)
Fixpoint same_error (e e' : compile_error) : Prop :=
  match e, e' with
  | At _ x, At _ x' => same_error x x'
  | CannotParse p (WalkError x _), CannotParse p' (WalkError x' _) => p = p' /\ x = x'
  | BadDefault t l, BadDefault t' l' => t = t' /\ map fst l = map fst l'
  | Undefined d, Undefined d' => exists names names', Permutation names names' /\ SpecRefs.reports d names /\ SpecRefs.reports d' names'
  | _, _ => e = e'
  end.
Definition same_builder (b b' : builder) : Prop :=
  b_import_dirs b = b_import_dirs b' /\ same_warnings (b_warnings b) (b_warnings b').
Definition same_result {A} (same : A -> A -> Prop) (x x' : builder * result A compile_error) : Prop :=
  same_builder (fst x) (fst x')
  /\ match snd x, snd x' with
     | Ok o, Ok o' => same o o'
     | Err e, Err e' => same_error e e'
     | _, _ => False
     end.
Definition same_json (o o' : idl_output) : Prop := io_json o = io_json o' /\ same_warnings (io_warnings o) (io_warnings o').
Definition same_schemas (o o' : schemata_output) : Prop := so_schemas o = so_schemas o' /\ same_warnings (so_warnings o) (so_warnings o').

(** The same console, with another text on its standard input *)
Definition retyped (C : Console) (stdin : option string) : Console :=
  {| stdin_text := stdin; pretty := @pretty C; can_write := @can_write C; can_create := @can_create C |}.
Definition same_input (same : string -> string -> Prop) (t t' : option string) : Prop :=
  match t, t' with None, None => True | Some t, Some t' => same t t' | _, _ => False end.
Definition same_stdin : option string -> option string -> Prop := same_input same_tokens.
(** What a run leaves behind is the same: what it prints, every file it writes, and
    whether and how it fails. *)
Definition same_run (r r' : run) : Prop :=
  run_stdout r = run_stdout r' /\ run_writes r = run_writes r' /\ same_warnings (run_warnings r) (run_warnings r')
  /\ match run_error r, run_error r' with
     | Some (CompileError e), Some (CompileError e') => same_error e e'
     | x, x' => x = x'
     end.
