(** Model of src/doc_comments.rs: finding and cleaning doc comments. Texts are
    lists of code points; the wrappers at the end work on UTF-8 strings. *)
From Verif Require Export Base.

Section DocText.
Local Open Scope N_scope.

(** [char::is_whitespace]: the Unicode property White_Space *)
Definition is_whitespace (c : N) : bool :=
  ((9 <=? c) && (c <=? 13)) || (c =? 32) || (c =? 133) || (c =? 160) || (c =? 5760)
  || ((8192 <=? c) && (c <=? 8202)) || (c =? 8232) || (c =? 8233) || (c =? 8239)
  || (c =? 8287) || (c =? 12288).

(** The class [\t ] of the patterns *)
Definition is_blank (c : N) : bool := (c =? 9) || (c =? 32).

Definition c_nl : N := 10.
Definition c_cr : N := 13.
Definition c_star : N := 42.

Fixpoint drop_while (p : N -> bool) (l : list N) : list N :=
  match l with
  | c :: r => if p c then drop_while p r else l
  | [] => []
  end.
Fixpoint take_while (p : N -> bool) (l : list N) : list N :=
  match l with
  | c :: r => if p c then c :: take_while p r else []
  | [] => []
  end.

(** [str::trim_start], [str::trim_end], [str::trim] *)
Definition trim_start (l : list N) : list N := drop_while is_whitespace l.
Definition trim_end (l : list N) : list N := rev (trim_start (rev l)).
Definition trim (l : list N) : list N := trim_end (trim_start l).

(** [str::strip_prefix], [str::strip_suffix] *)
Fixpoint strip_prefix (p l : list N) : option (list N) :=
  match p, l with
  | [], _ => Some l
  | a :: p, b :: l => if a =? b then strip_prefix p l else None
  | _ :: _, [] => None
  end.
Definition strip_suffix (p l : list N) : option (list N) :=
  option_map (@rev N) (strip_prefix (rev p) (rev l)).

(** The pieces of a text between newlines; there is always at least one. *)
Fixpoint split_nl (l : list N) : list (list N) :=
  match l with
  | [] => [[]]
  | c :: r =>
      if c =? c_nl then [] :: split_nl r
      else match split_nl r with
           | first :: rest => (c :: first) :: rest
           | [] => [[c]]
           end
  end.
Fixpoint join_nl (ls : list (list N)) : list N :=
  match ls with
  | [] => []
  | [l] => l
  | l :: rest => l ++ c_nl :: join_nl rest
  end.

(** A line without the carriage return that belongs to its line break, as
    [\r?\n] and [str::lines] see it *)
Definition drop_cr (l : list N) : list N :=
  match rev l with
  | c :: r => if c =? c_cr then rev r else l
  | [] => l
  end.

(** [k] stars *)
Definition stars (k : nat) : list N := repeat c_star k.

Definition no_cr (l : list N) : bool := forallb (fun c => negb (c =? c_cr)) l.

(** One repetition of the validation patterns: after the line break, blanks and
    then nothing or [k] stars and anything but line breaks. *)
Definition star_line (k : nat) (l : list N) : bool :=
  let r := drop_while is_blank l in
  match r with
  | [] => true
  | _ => match strip_prefix (stars k) r with
         | Some rest => no_cr rest
         | None => false
         end
  end.

Fixpoint star_lines (k : nat) (ls : list (list N)) : bool :=
  match ls with
  | [] => true
  | [l] => star_line k l
  | l :: rest => star_line k (drop_cr l) && star_lines k rest
  end.

(** src/doc_comments.rs:106-115 [STAR_1_VALIDATE], [STAR_2_VALIDATE], read line
    by line. [PatternProofs.v] shows that this is what the patterns match. *)
Definition star_validate (k : nat) (text : list N) : bool :=
  match split_nl text with
  | [] => false
  | first :: rest =>
      let first := match rest with [] => first | _ => drop_cr first end in
      match strip_prefix (stars k) first with
      | Some r => no_cr r && star_lines k rest
      | None => false
      end
  end.

Definition drop_one_blank (l : list N) : list N :=
  match l with
  | c :: r => if is_blank c then r else l
  | [] => []
  end.

(** src/doc_comments.rs:121-132 [STAR_1_REPLACE], [STAR_2_REPLACE] at the start
    of the text ([^\*{k}[\t ]?]) and after a line break
    ([(\r?\n)[\t ]*\*{k}[\t ]?], keeping the break) *)
Definition star_replace_first (k : nat) (l : list N) : list N :=
  match strip_prefix (stars k) l with Some r => drop_one_blank r | None => l end.
Definition star_replace_line (k : nat) (l : list N) : list N :=
  match strip_prefix (stars k) (drop_while is_blank l) with Some r => drop_one_blank r | None => l end.
Definition star_replace (k : nat) (text : list N) : list N :=
  match split_nl text with
  | [] => []
  | first :: rest => join_nl (star_replace_first k first :: map (star_replace_line k) rest)
  end.

(** src/doc_comments.rs:134-139 [WS_INDENT_VALIDATE]: somewhere a line break is
    followed by a blank *)
Definition ws_indent_validate (text : list N) : bool :=
  match split_nl text with
  | [] => false
  | _ :: rest => existsb (fun l => match l with c :: _ => is_blank c | [] => false end) rest
  end.

(** [str::lines]: a final empty piece is not a line *)
Fixpoint drop_last_empty (ls : list (list N)) : list (list N) :=
  match ls with
  | [] => []
  | [l] => match l with [] => [] | _ => [l] end
  | l :: rest => drop_cr l :: drop_last_empty rest
  end.
Definition str_lines (text : list N) : list (list N) := drop_last_empty (split_nl text).

(** src/doc_comments.rs:215-222 [common_prefix] *)
Fixpoint common_prefix (a b : list N) : list N :=
  match a, b with
  | x :: a, y :: b => if x =? y then x :: common_prefix a b else []
  | _, _ => []
  end.

(** src/doc_comments.rs:189-199, the loop over the lines after the first *)
Definition is_nil (l : list N) : bool := match l with [] => true | _ => false end.
Fixpoint common_indent (ls : list (list N)) (cur : option (list N)) : option (list N) :=
  match ls with
  | [] => cur
  | line :: rest =>
      if is_nil (trim line) then common_indent rest cur
      else
        let indent := take_while is_whitespace line in
        common_indent rest (Some (match cur with None => indent | Some c => common_prefix c indent end))
  end.

(** src/doc_comments.rs:181-212 [try_strip_ws_indent] *)
Definition remove_indent (indent l : list N) : list N :=
  match strip_prefix indent l with Some r => r | None => l end.
Definition try_strip_ws_indent (text : list N) : option (list N) :=
  match str_lines text with
  | [] => None
  | [_] => None
  | _ :: rest =>
      match common_indent rest None with
      | None => None
      | Some [] => None
      | Some indent =>
          match split_nl text with
          | [] => None
          | first :: rest => Some (join_nl (first :: map (remove_indent indent) rest))
          end
      end
  end.

(** src/doc_comments.rs:147-178 [strip_indents] *)
Definition strip_indents (text : list N) : list N :=
  if star_validate 2 text then star_replace 2 text
  else if star_validate 1 text then star_replace 1 text
  else if ws_indent_validate text then
    match try_strip_ws_indent text with Some r => r | None => text end
  else text.

(** src/doc_comments.rs:70-83, from the comment token to the doc *)
Definition clean_doc (text : list N) : option (list N) :=
  let inner := match strip_prefix [47; 42; 42] text with
               | Some s => match strip_suffix [42; 47] s with Some i => i | None => text end
               | None => text
               end in
  let trimmed := trim inner in
  if is_nil trimmed then None else Some (strip_indents trimmed).
End DocText.

(** Tokens of the stream, hidden ones included. *)
Inductive token_kind := TDocComment | TWhitespace | TEmptyComment | TOther.
Record token := mkToken { tk_kind : token_kind; tk_text : string }.

(** src/doc_comments.rs:39-60, the scan; [before] holds the tokens before the
    declaration, nearest first. The answer is the index of the comment. *)
Fixpoint scan_doc (before : list token) : option (nat * string) :=
  match before with
  | [] => None
  | t :: rest =>
      match tk_kind t with
      | TDocComment => Some (List.length rest, tk_text t)
      | TWhitespace | TEmptyComment => scan_doc rest
      | TOther => None
      end
  end.

(** src/doc_comments.rs:26-83 [extract_doc_comment]: the consumed token index
    and the doc *)
Definition extract_doc_comment (tokens : list token) (token_index : nat) : option (nat * option string) :=
  match scan_doc (rev (firstn token_index tokens)) with
  | None => None
  | Some (i, text) => Some (i, option_map of_chars (clean_doc (chars text)))
  end.

(** src/reader.rs:4494-4525 [collect_orphaned_doc_comment_warnings]: indices of
    doc comments that no declaration consumed *)
Definition orphaned_doc_comments (tokens : list token) (consumed : list nat) : list nat :=
  filter (fun i => match nth_error tokens i with
                   | Some t => match tk_kind t with
                               | TDocComment => negb (existsb (Nat.eqb i) consumed)
                               | _ => false
                               end
                   | None => false
                   end)
         (seq 0 (List.length tokens)).
