(** Quoting in the token lists of ANTLR messages, without the code. *)
From Verif Require Export Diagnose.

(** A position is outside quotes when an even number of them precedes it. *)
Definition even_quotes (l : text) : Prop := Nat.even (count_occ N.eq_dec l quote) = true.
Definition unquoted (c : N) (l : text) : Prop := exists a b, l = a ++ c :: b /\ even_quotes a.

(** [pieces] are what lies between the unquoted commas of [l]. *)
Definition cut_at_commas (l : text) (pieces : list text) : Prop :=
  l = join [comma] pieces /\ pieces <> []
  /\ Forall (fun p => ~ unquoted comma p) pieces /\ Forall even_quotes (removelast pieces).

(** A token of a list: not empty, without spaces around it, quotes closed, no
    comma outside them *)
Definition token_text (tok : text) : Prop :=
  tok <> [] /\ trim tok = tok /\ even_quotes tok /\ ~ unquoted comma tok.

(** What a token is called in messages *)
Definition token_names : list (text * text) :=
  [(chars "<EOF>", chars "end of file"); (chars "IdentifierToken", chars "identifier");
   (chars "StringLiteral", chars "string literal"); (chars "IntegerLiteral", chars "integer literal");
   (chars "FloatingPointLiteral", chars "floating-point literal")].
Inductive called (tok : text) : text -> Prop :=
| called_special name : In (tok, name) token_names -> called tok name
| called_itself : ~ In tok (map fst token_names) -> called tok tok.

(** Tokens a user never writes *)
Definition hidden_token (tok : text) : Prop := tok = chars "DocComment" \/ tok = chars "'\u001A'".

(** [shown] is [names] without repetitions, each name at its first place. *)
Inductive without_repetition : list text -> list text -> list text -> Prop :=
| wr_nil seen : without_repetition seen [] []
| wr_seen seen x names shown : In x seen -> without_repetition seen names shown -> without_repetition seen (x :: names) shown
| wr_new seen x names shown : ~ In x seen -> without_repetition (x :: seen) names shown -> without_repetition seen (x :: names) (x :: shown).

(** [shown]: what is listed for the tokens [toks] *)
Inductive names_of : list text -> list text -> Prop :=
| no_names : names_of [] []
| names_hidden tok toks names : hidden_token tok -> names_of toks names -> names_of (tok :: toks) names
| names_shown tok name toks names : ~ hidden_token tok -> called tok name -> names_of toks names -> names_of (tok :: toks) (name :: names).
Definition listed (toks shown : list text) : Prop := exists names, names_of toks names /\ without_repetition [] names shown.

(** One, two and more names in words *)
Inductive in_words : list text -> text -> Prop :=
| words_one a : in_words [a] a
| words_two a b : in_words [a; b] (a ++ chars " or " ++ b)
| words_more front z : 2 <= length front -> in_words (front ++ [z]) (join (chars ", ") front ++ chars ", or " ++ z).

Definition expecting : text := chars "expecting {".

(** [p] occurs nowhere in [l]. *)
Definition nowhere (p l : text) : Prop := forall a b, l <> a ++ p ++ b.

(** Lists of more than five tokens are given as help, without quotes. *)
Inductive bare : text -> text -> Prop :=
| bare_quoted b : ~ In quote b -> bare ([quote] ++ b ++ [quote]) b
| bare_plain tok : ~ In quote tok -> bare tok tok.
Inductive help_names : list text -> list text -> Prop :=
| help_end : help_names [] []
| help_hidden tok toks names : hidden_token tok \/ tok = chars "<EOF>" -> help_names toks names -> help_names (tok :: toks) names
| help_shown tok b name toks names :
    ~ hidden_token tok -> tok <> chars "<EOF>" -> bare tok b -> b <> chars "<EOF>" -> called b name -> help_names toks names -> help_names (tok :: toks) (name :: names).
Definition help_list (toks shown : list text) : Prop := exists names, help_names toks names /\ without_repetition [] names shown.

(** ANTLR's message for a token that is not expected *)
Definition unexpected (kind off : text) (toks : list text) : text :=
  (kind ++ [quote] ++ off ++ [quote; 32%N]) ++ expecting ++ join [comma; 32%N] toks ++ [close_brace].
(** It is read as what it is: nothing in it looks like another part of it, or
    like another message. *)
Definition plain_message (kind off : text) (toks : list text) : Prop :=
  (kind = chars "extraneous input " \/ kind = chars "mismatched input " /\ nowhere (chars "extraneous input ") (unexpected kind off toks))
  /\ ~ In quote off /\ nowhere expecting (kind ++ [quote] ++ off ++ [quote; 32%N])
  /\ nowhere (chars "no viable alternative at input '") (unexpected kind off toks)
  /\ nowhere (chars "expecting '('") (unexpected kind off toks)
  /\ Forall (fun tok => tok <> [] /\ trim tok = tok /\ ~ In comma tok /\ ~ In close_brace tok) toks.
