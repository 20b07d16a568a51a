(** C45: the token lists of syntax errors. *)
From Verif Require Import SpecDiagnose DiagnoseProofs.

Definition sample_tokens : list text := [chars "'}'"; chars "','"; chars "IdentifierToken"; chars "<EOF>"].
Lemma sample_tokens_ok : Forall token_text sample_tokens /\ Forall (fun tok => ~ unquoted close_brace tok) sample_tokens.
Proof. split; [apply token_textb_spec|apply no_braceb_spec]; vm_compute; reflexivity. Qed.

(** A list is split at its commas outside quotes, whatever it contains. *)
Theorem C45_split_at_commas :
  forall set, exists pieces, cut_at_commas set pieces
    /\ split_token_set set = filter (fun p => match p with [] => false | _ => true end) (map trim pieces).
Proof.
  intro set. destruct (cut_exists set) as (ps & H). exists ps. split; [exact H|]. exact (split_token_set_spec _ _ H).
Qed.
Print Assumptions C45_split_at_commas.

(** There is one way to do so. *)
Theorem C45_split_unique : forall set ps qs, cut_at_commas set ps -> cut_at_commas set qs -> ps = qs.
Proof. exact cut_at_commas_unique. Qed.
Print Assumptions C45_split_unique.

Example C45_split_sample : split_token_set (chars "'{', ',' ,, '}' ,Identifier") = [chars "'{'"; chars "','"; chars "'}'"; chars "Identifier"].
Proof. vm_compute. reflexivity. Qed.

(** The list ends at the first brace outside quotes. *)
Theorem C45_closing_brace :
  forall l a b, find_closing_brace l = Some (a, b) <-> l = a ++ close_brace :: b /\ even_quotes a /\ ~ unquoted close_brace a.
Proof. exact find_closing_brace_iff. Qed.
Print Assumptions C45_closing_brace.
Theorem C45_no_closing_brace : forall l, find_closing_brace l = None <-> ~ unquoted close_brace l.
Proof. exact find_closing_brace_none. Qed.
Print Assumptions C45_no_closing_brace.

Example C45_closing_brace_sample : find_closing_brace (chars "'}', 'x'} rest") = Some (chars "'}', 'x'", chars " rest").
Proof. vm_compute. reflexivity. Qed.

(** Splitting undoes joining. *)
Theorem C45_rejoin : forall toks, Forall token_text toks -> split_token_set (join [comma; 32%N] toks) = toks.
Proof. exact rejoin. Qed.
Print Assumptions C45_rejoin.

(** A message with a list of tokens names each of them once, in order and in
    words, except those a user never writes. *)
Theorem C45_message :
  forall before toks after,
  (forall a b, before <> a ++ expecting ++ b) -> Forall token_text toks -> Forall (fun tok => ~ unquoted close_brace tok) toks ->
  forall shown, listed toks shown -> shown <> [] ->
  exists words, in_words shown words
    /\ sanitize_antlr_message (before ++ expecting ++ join [comma; 32%N] toks ++ [close_brace] ++ after)
       = rewrite_antlr_jargon (before ++ chars "expected " ++ words ++ after).
Proof. exact sanitize_tokens. Qed.
Print Assumptions C45_message.

(** If nothing is left to name, the list disappears. *)
Theorem C45_nothing_named :
  forall before toks after,
  (forall a b, before <> a ++ expecting ++ b) -> Forall token_text toks -> Forall (fun tok => ~ unquoted close_brace tok) toks ->
  listed toks [] ->
  sanitize_antlr_message (before ++ expecting ++ join [comma; 32%N] toks ++ [close_brace] ++ after) = rewrite_antlr_jargon (trim_end before ++ after).
Proof. exact sanitize_no_tokens. Qed.
Print Assumptions C45_nothing_named.
Example C45_nothing_sample :
  listed [chars "DocComment"] []
  /\ of_chars (sanitize_antlr_message (chars "extraneous input 'x' expecting {DocComment} here")) = "unexpected 'x' here".
Proof. split; [|vm_compute; reflexivity]. exists []. split; [apply names_hidden; [now left|constructor]|constructor]. Qed.

(** Up to five tokens are named in the message.  Of more, the message names only
    the token found, and the help lists the others; here for a token that is
    not a word, for which nothing is suggested. *)
Theorem C45_short_list :
  forall kind off toks, plain_message kind off toks -> toks <> [] -> length toks <= 5 ->
  displayed (unexpected kind off toks) = mkEnriched (humanize_antlr_message (sanitize_antlr_message (unexpected kind off toks))) None None.
Proof. exact short_list. Qed.
Print Assumptions C45_short_list.
Theorem C45_long_list :
  forall kind off toks shown, plain_message kind off toks -> 5 < length toks -> help_list toks shown ->
  let help := match shown with [] => None | _ => Some (chars "expected one of: " ++ join (chars ", ") shown) end in
  (off = chars "<EOF>" -> displayed (unexpected kind off toks) = mkEnriched (chars "unexpected end of file") (Some (chars "unexpected end of file")) help)
  /\ ((exists c, In c off /\ word_char c = false) -> off <> chars "<EOF>" ->
      displayed (unexpected kind off toks) = mkEnriched (chars "unexpected token `" ++ off ++ chars "`") (Some (chars "unexpected `" ++ off ++ chars "`")) help).
Proof. exact long_list. Qed.
Print Assumptions C45_long_list.

Definition six_tokens : list text := map chars ["DocComment"; "'{'"; "'null'"; "IdentifierToken"; "'@'"; "'{'"].
Lemma nowhere_check p l : contains p l = false -> nowhere p l.
Proof.
  intros Hc a b E. unfold contains in Hc. destruct (split_once p l) as [x|] eqn:S; [discriminate|]. revert a E. clear Hc.
  induction l as [|c l IH]; intros a E; cbn [split_once] in S; (destruct (strip_prefix p _) as [r|] eqn:P; [discriminate|]).
  - destruct a; [|discriminate]. change ([] = p ++ b) in E. apply strip_prefix_app in E. congruence.
  - destruct a as [|x a]; [change (c :: l = p ++ b) in E; apply strip_prefix_app in E; congruence|]. injection E as _ E. destruct (split_once p l) as [[? ?]|]; [discriminate|]. exact (IH eq_refl a E).
Qed.
Example C45_long_sample :
  plain_message (chars "mismatched input ") (chars ";") six_tokens
  /\ help_list six_tokens (map chars ["{"; "null"; "identifier"; "@"])
  /\ option_map of_chars (en_help (displayed (unexpected (chars "mismatched input ") (chars ";") six_tokens))) = Some "expected one of: {, null, identifier, @".
Proof.
  split; [|split; [|vm_compute; reflexivity]].
  - split; [right; split; [reflexivity|apply nowhere_check; vm_compute; reflexivity]|]. split; [vm_compute; intuition discriminate|].
    split; [apply nowhere_check; vm_compute; reflexivity|]. split; [apply nowhere_check; vm_compute; reflexivity|]. split; [apply nowhere_check; vm_compute; reflexivity|].
    vm_compute. repeat (constructor; [split; [discriminate|split; [reflexivity|split; intuition discriminate]]|]). constructor.
  - exists (map chars ["{"; "null"; "identifier"; "@"; "{"]). split.
    + apply help_hidden; [left; now left|].
      assert (Q : forall s name rest names, ~ In quote (chars s) -> chars s <> chars "<EOF>" -> ~ hidden_token ([quote] ++ chars s ++ [quote]) -> called (chars s) name -> help_names rest names ->
        help_names (([quote] ++ chars s ++ [quote]) :: rest) (name :: names)).
      { intros s name rest names Hq He Hh Hc Hr. eapply help_shown; [exact Hh|discriminate|apply bare_quoted; exact Hq|exact He|exact Hc|exact Hr]. }
      assert (S : forall s, ~ In (chars s) (map fst token_names) -> called (chars s) (chars s)) by (intros s Hs; apply called_itself; exact Hs).
      apply (Q "{"); [vm_compute; intuition discriminate|discriminate| |apply S; vm_compute; intuition discriminate|].
      { intros [E|E]; discriminate E. }
      apply (Q "null"); [vm_compute; intuition discriminate|discriminate| |apply S; vm_compute; intuition discriminate|].
      { intros [E|E]; discriminate E. }
      eapply help_shown; [intros [E|E]; discriminate E|discriminate|apply bare_plain; vm_compute; intuition discriminate|discriminate|apply called_special; right; left; reflexivity|].
      apply (Q "@"); [vm_compute; intuition discriminate|discriminate| |apply S; vm_compute; intuition discriminate|].
      { intros [E|E]; discriminate E. }
      apply (Q "{"); [vm_compute; intuition discriminate|discriminate| |apply S; vm_compute; intuition discriminate|constructor].
      { intros [E|E]; discriminate E. }
    + do 4 (apply wr_new; [vm_compute; intuition discriminate|]). apply wr_seen; [vm_compute; auto|]. constructor.
Qed.

Example C45_message_sample :
  Forall token_text sample_tokens /\ Forall (fun tok => ~ unquoted close_brace tok) sample_tokens
  /\ of_chars (sanitize_antlr_message (chars "extraneous input 'x' expecting {'}', ',', IdentifierToken, <EOF>} here"))
     = "unexpected 'x' expected '}', ',', identifier, or end of file here".
Proof. split; [apply sample_tokens_ok|]. split; [apply sample_tokens_ok|]. vm_compute. reflexivity. Qed.

(** Lists of more than five tokens take another way through the code, which
    ends the list at the first brace, quoted or not: the help for a missing
    brace does not mention it. *)
Theorem C45_large_list_refuted :
  exists before toks, Forall token_text toks /\ Forall (fun tok => ~ unquoted close_brace tok) toks /\ In (chars "'}'") toks
    /\ exists help, en_help (displayed (before ++ expecting ++ join [comma; 32%N] toks ++ [close_brace])) = Some help
       /\ ~ In close_brace help.
Proof.
  exists (chars "extraneous input 'x' "), (map chars ["A"; "B"; "C"; "D"; "E"; "F"] ++ [chars "'}'"; chars "G"]).
  split; [|split; [|split]].
  - apply token_textb_spec. vm_compute. reflexivity.
  - apply no_braceb_spec. vm_compute. reflexivity.
  - apply in_or_app. right. left. reflexivity.
  - eexists. split; [vm_compute; reflexivity|]. cbn. intuition discriminate.
Qed.
Print Assumptions C45_large_list_refuted.

(** For the same reason the special message for a missing brace at the end of
    the file is never given by this function. *)
Theorem C45_brace_never_expected :
  forall msg tokens, extract_expecting_tokens msg = Some tokens -> expects_close_brace tokens = false.
Proof. exact close_brace_never. Qed.
Print Assumptions C45_brace_never_expected.
Example C45_brace_sample : extract_expecting_tokens (chars "expecting {'{', '}'}") = Some (chars "'{', '").
Proof. vm_compute. reflexivity. Qed.
