(** Doc comments in terms of the text of a file. *)
From Coq Require Import DecimalString.
From Verif Require Export SpecPlaces SpecLexer SpecComment.

(** What is neither a token nor a doc comment: white space, other comments, and
    characters that are no token *)
Definition no_token (p : piece) : Prop :=
  fst p = None \/ exists k, fst p = Some k /\ In k [T_WS; T_EmptyComment; T_MultiLineComment; T_SingleLineComment].
Definition bytes (l : list piece) : N := N.of_nat (String.length (of_chars (concat (map snd l)))).

(** The pieces of the text, up to a control-Z *)
Definition pieces (text : string) (l : list piece) : Prop := exists visible, visible_part text visible /\ taken_apart (chars visible) l.

(** The doc comment [c] at [pc] stands right before the token at [p]. *)
Definition right_before (f text c : string) (pc p : span) : Prop :=
  exists a w gap k t rest, pieces text (a ++ (Some T_DocComment, w) :: gap ++ (Some k, t) :: rest)
    /\ Forall no_token gap /\ ~ no_token (Some k, t) /\ c = of_chars w
    /\ pc = mkSpan f (bytes a) /\ p = mkSpan f (bytes (a ++ (Some T_DocComment, w) :: gap)).

(** The documentation of what starts at [p] *)
Inductive documented (f text : string) (p : span) : option string -> Prop :=
| doc_none : (forall c pc, ~ right_before f text c pc p) -> documented f text p None
| doc_some c pc : right_before f text c pc p -> documented f text p (option_map of_chars (clean_doc (chars c))).

(** So many of the pieces are tokens or doc comments. *)
Inductive counted : list piece -> nat -> Prop :=
| ct_nil : counted [] 0
| ct_skip p l n : no_token p -> counted l n -> counted (p :: l) n
| ct_token p l n : ~ no_token p -> counted l n -> counted (p :: l) (S n).
(** The token or doc comment number [i], from 0, starts at [p]. *)
Definition token_place (f text : string) (i : nat) (p : span) : Prop :=
  exists a k t rest, pieces text (a ++ (Some k, t) :: rest) /\ ~ no_token (Some k, t) /\ counted a i /\ p = mkSpan f (bytes a).

(** A doc comment, the pieces before it and its place *)
Definition comment_at (f text c : string) (before : list piece) (p : span) : Prop :=
  exists w rest, pieces text (before ++ (Some T_DocComment, w) :: rest) /\ c = of_chars w /\ p = mkSpan f (bytes before).

(** Line and column, from 1, of what follows these characters *)
Definition line_feeds (l : list N) : nat := length (filter (N.eqb 10) l).
Definition line_column (before : list N) (line column : N) : Prop :=
  line = N.of_nat (1 + line_feeds before)
  /\ exists a b, before = a ++ b /\ (a = [] \/ exists a', a = a' ++ [10%N]) /\ line_feeds b = 0%nat /\ column = N.of_nat (1 + length b).
Definition misplaced (line column : N) : string :=
  "Line " ++ NilZero.string_of_uint (N.to_uint line) ++ ", char " ++ NilZero.string_of_uint (N.to_uint column)
  ++ ": Ignoring out-of-place documentation comment." ++ String "010" "Did you mean to use a multiline comment ( /* ... */ ) instead?".

Section WithWorld.
  Context `{Unicode} `{Floats} `{Parser}.
  Definition schema_doc (s : schema) : option string :=
    match s with SRecord _ _ d _ _ _ _ | SEnum _ _ d _ _ _ _ | SFixed _ _ d _ _ _ => d | _ => None end.
End WithWorld.
