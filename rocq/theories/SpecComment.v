(** Vocabulary for the properties of doc comments: lines, decoration, and the
    regular expressions of src/doc_comments.rs with their usual meaning. *)
From Coq Require Export List NArith Bool.
From Verif Require Export Base.
Local Open Scope N_scope.

(** Unicode White_Space *)
Definition white_space : list N :=
  [9; 10; 11; 12; 13; 32; 133; 160; 5760; 8192; 8193; 8194; 8195; 8196; 8197; 8198; 8199; 8200;
   8201; 8202; 8232; 8233; 8239; 8287; 12288].
Definition blank (c : N) : Prop := c = 9 \/ c = 32.
Definition star : N := 42.
Definition newline : N := 10.
Definition carriage_return : N := 13.

(** The lines of a text, separated by newline characters *)
Inductive lines_of : list N -> list (list N) -> Prop :=
| lo_last l : ~ In newline l -> lines_of l [l]
| lo_more l t ls : ~ In newline l -> lines_of t ls -> lines_of (l ++ newline :: t) (l :: ls).

(** White space, at most two stars, and at most one blank after the stars *)
Definition decoration (p : list N) : Prop :=
  exists ws st b, p = ws ++ st ++ b /\ Forall (fun c => In c white_space) ws /\
    In st [[]; [star]; [star; star]] /\ (b = [] \/ st <> [] /\ exists c, blank c /\ b = [c]).

(** A line [blanks, k stars, at most one blank, content]. *)
Inductive starred (k : nat) : list N -> list N -> Prop :=
| st_intro ws b c : Forall blank ws ->
    (b = [] /\ (forall x r, c = x :: r -> ~ blank x) \/ exists x, blank x /\ b = [x]) ->
    starred k (ws ++ repeat star k ++ b ++ c) c.

(** A carriage return only as part of a line break *)
Definition cr_at_end_only (l : list N) : Prop :=
  ~ In carriage_return l \/ exists l', l = l' ++ [carriage_return] /\ ~ In carriage_return l'.
Fixpoint clean_cr (ls : list (list N)) : Prop :=
  match ls with
  | [] => True
  | [l] => ~ In carriage_return l
  | l :: rest => cr_at_end_only l /\ clean_cr rest
  end.

(** [ls] is decorated with [k] stars and [cs] is what is left without them.
    Lines that hold only blanks need no star and stay. *)
Definition blank_line (l : list N) : Prop :=
  Forall blank l \/ exists l', l = l' ++ [carriage_return] /\ Forall blank l'.
Definition decorated (k : nat) (ls cs : list (list N)) : Prop :=
  clean_cr ls /\
  match ls, cs with
  | l :: ls, c :: cs =>
      (exists r, l = repeat star k ++ r) /\ starred k l c /\
      Forall2 (fun l c => starred k l c \/ blank_line l /\ c = l) ls cs
  | _, _ => False
  end.

(** [p] is the longest white space all lines that are not blank begin with. *)
Definition all_space (l : list N) : Prop := Forall (fun c => In c white_space) l.
Definition indents (ls : list (list N)) (p : list N) : Prop :=
  all_space p /\ Forall (fun l => all_space l \/ exists r, l = p ++ r) ls.
Definition common_indentation (ls : list (list N)) (p : list N) : Prop :=
  indents ls p /\ (exists l, In l ls /\ ~ all_space l) /\
  forall q, indents ls q -> exists s, p = q ++ s.

(** [l'] is [l] without the indentation [p], if it starts with it. *)
Definition unindented (p l l' : list N) : Prop :=
  l = p ++ l' \/ (~ exists r, l = p ++ r) /\ l' = l.

Definition some_line_starts_blank (ls : list (list N)) : Prop :=
  exists c l, In (c :: l) ls /\ blank c.

(** The text of a doc comment token around [inner] *)
Definition comment_text (inner : list N) : list N := [47; star; star] ++ inner ++ [star; 47].

(** [mid] is [inner] without the white space at both ends. *)
Definition trimmed (inner mid : list N) : Prop :=
  exists a b, inner = a ++ mid ++ b /\ all_space a /\ all_space b /\
    (forall c r, mid = c :: r -> ~ In c white_space) /\ (forall c r, mid = r ++ [c] -> ~ In c white_space).

(** [ls] are the lines of a comment with some content. *)
Definition comment_lines (inner : list N) (ls : list (list N)) : Prop :=
  exists mid, trimmed inner mid /\ mid <> [] /\ lines_of mid ls.

(** ** Regular expressions *)
Inductive pattern :=
| Chr (p : N -> bool)
| Eps
| Seq (a b : pattern)
| Alt (a b : pattern)
| Rep (a : pattern).

Inductive matches : pattern -> list N -> Prop :=
| m_chr p c : p c = true -> matches (Chr p) [c]
| m_eps : matches Eps []
| m_seq a b s t : matches a s -> matches b t -> matches (Seq a b) (s ++ t)
| m_alt_l a b s : matches a s -> matches (Alt a b) s
| m_alt_r a b s : matches b s -> matches (Alt a b) s
| m_rep_nil a : matches (Rep a) []
| m_rep_cons a s t : matches a s -> matches (Rep a) t -> matches (Rep a) (s ++ t).

Definition is_c (x : N) : pattern := Chr (N.eqb x).
Definition line_break : pattern := Seq (Alt (is_c carriage_return) Eps) (is_c newline).
Definition tab_or_space : pattern := Chr (fun c => (c =? 9) || (c =? 32)).
Definition not_break : pattern := Chr (fun c => negb ((c =? carriage_return) || (c =? newline))).
Fixpoint star_times (k : nat) : pattern :=
  match k with O => Eps | S k => Seq (is_c star) (star_times k) end.

(** ^\*{k}[^\r\n]*  (?: \r?\n[\t ]*\*{k}[^\r\n]*  |  \r?\n[\t ]* )*  $ *)
Definition star_pattern (k : nat) : pattern :=
  Seq (star_times k) (Seq (Rep not_break)
    (Rep (Alt (Seq line_break (Seq (Rep tab_or_space) (Seq (star_times k) (Rep not_break))))
              (Seq line_break (Rep tab_or_space))))).

(** [^\r\n]*\r?\n[\t ]+[^\r\n]*, anywhere in the text *)
Definition ws_indent_pattern : pattern :=
  Seq (Rep not_break) (Seq line_break (Seq tab_or_space (Seq (Rep tab_or_space) (Rep not_break)))).
Definition found (p : pattern) (t : list N) : Prop :=
  exists a b c, t = a ++ b ++ c /\ matches p b.

(** ** Which comment belongs to a declaration *)
From Verif Require Import Doc.

(** Token [j] is a doc comment and only white space and empty comments stand
    between it and token [i]. *)
Definition immediately_precedes (tokens : list token) (j i : nat) : Prop :=
  (j < i)%nat /\
  (exists t, nth_error tokens j = Some t /\ tk_kind t = TDocComment) /\
  forall k t, (j < k < i)%nat -> nth_error tokens k = Some t ->
    tk_kind t = TWhitespace \/ tk_kind t = TEmptyComment.

Definition is_doc_token (tokens : list token) (i : nat) : Prop :=
  exists t, nth_error tokens i = Some t /\ tk_kind t = TDocComment.
