(** Warnings as they are shown: message, place and label. *)
From Coq Require Import DecimalString.
From Verif Require Export Base Lexer Reader IdlParser.

(** ANTLR's lexer keeps the line (from 1) and the column (from 0) of the next
    character: [consume] of its interpreter. *)
Definition consume (p : N * N) (c : N) : N * N :=
  if (c =? 10)%N then (fst p + 1, 0)%N else (fst p, snd p + 1)%N.
(** Line and column of the tokens of the stream, as [get_line] and [get_column]
    give them, with the tokens; compare [stream] *)
Fixpoint positions (l : list piece) (offset : N) (index : nat) (p : N * N) : list (lexeme * (N * N)) :=
  match l with
  | [] => []
  | (k, t) :: l =>
      let offset' := (offset + N.of_nat (String.length (of_chars t)))%N in
      let p' := fold_left consume t p in
      match k with
      | Some k =>
          if skipped k then positions l offset' index p'
          else (mkLexeme k (of_chars t) offset index, p) :: positions l offset' (S index) p'
      | None => positions l offset' index p'
      end
  end.

(** A message, and the place and length in bytes of the text it is about *)
Record shown := mkShown { sh_message : string; sh_place : span; sh_length : N }.

Definition show_N (n : N) : string := NilZero.string_of_uint (N.to_uint n).
(** src/reader.rs:99-128 [out_of_place_doc_comment].  Tokens have a place, and at
    least one byte. *)
Definition out_of_place_doc_comment (file : string) (x : lexeme) (line column : N) : shown :=
  mkShown ("Line " ++ show_N line ++ ", char " ++ show_N (column + 1) ++ ": Ignoring out-of-place documentation comment."
           ++ String "010" "Did you mean to use a multiline comment ( /* ... */ ) instead?")%string
    (mkSpan file (lx_offset x)) (N.of_nat (String.length (lx_text x))).
(** src/reader.rs:4512-4521: the warning for the comment with this index *)
Definition orphan_shown (file text : string) (i : nat) : option shown :=
  match nth_error (positions (cut (chars (until_sub text))) 0 0 (1, 0)%N) i with
  | Some (x, (line, column)) => Some (out_of_place_doc_comment file x line column)
  | None => None
  end.

(** The texts of the other warnings: src/reader.rs:161-166, 201-206 *)
Fixpoint join_keys (l : list string) : string :=
  match l with [] => "" | [k] => k | k :: l => (k ++ ", " ++ join_keys l)%string end.
Definition walk_warning_text (w : walk_warning) : string :=
  match w with
  | AnnotationsDropped keys _ => "Annotations on union types are not supported and will be ignored: " ++ join_keys keys
  | NonStandardAlias alias _ => "Alias """ ++ alias ++ """ is not a valid Avro name. While any string is accepted to allow schema evolution to correct illegal names in old schemata, aliases should ideally be valid names."
  end%string.

(** [str::contains] *)
Fixpoint within (sub s : string) : bool :=
  String.prefix sub s || match s with EmptyString => false | String _ r => within sub r end.
(** src/reader.rs:229-247 [labels] *)
Definition label_of (message : string) : string :=
  if within "out-of-place documentation comment" message then "out-of-place doc comment"
  else if within "token recognition error" message then "unrecognized token"
  else if within "Annotations on union types" message then "annotations ignored here"
  else if within "is not a valid Avro name" message then "non-standard alias name"
  else "here".
