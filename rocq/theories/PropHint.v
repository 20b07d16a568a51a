(** More about what is shown for a syntax error (C45). *)
From Verif Require Import SpecDiagnose DiagnoseProofs PropDiagnose.
From Verif Require Import Suggest.
From Coq Require Import Lia.

(** A word without quotes *)
Definition bare_word (off : text) : Prop :=
  exists c r, off = c :: r /\ (ascii_letter c = true \/ c = 95%N) /\ Forall (fun x => word_char x = true) r.
Definition json_words : list text := [chars "null"; chars "true"; chars "false"].
Definition expected_help (shown : list text) : option text :=
  match shown with [] => None | _ => Some (chars "expected one of: " ++ join (chars ", ") shown) end.
Definition quoting_advice (off : text) : text :=
  chars "hint: did you mean " ++ [34%N] ++ off ++ [34%N] ++ chars "? Enum default values must be quoted strings".

Lemma long_displayed kind off toks shown : plain_message kind off toks -> 5 < length toks -> help_list toks shown ->
  displayed (unexpected kind off toks) = build_unexpected_token_error off (expected_help shown) (expects_string_literal (join [comma; 32%N] toks)) false.
Proof.
  intros Hp Hl Hh. assert (Hn : toks <> []) by (intros ->; cbn in Hl; lia). pose proof Hp as (Hk & _ & _ & _ & _ & Ht).
  unfold displayed. rewrite (no_pattern _ _ _ Hp). unfold simplify_large_expecting_set. rewrite (extract_set _ _ _ Hp).
  rewrite (count_joined _ Hn Ht). match goal with |- context[Nat.leb ?a 5] => replace (Nat.leb a 5) with false by (symmetry; apply Nat.leb_gt; exact Hl) end.
  rewrite (close_brace_never _ _ (extract_set _ _ _ Hp)), (help_text _ _ Hn Ht Hh).
  pose proof (quoted_token _ _ _ Hp) as Q. destruct Hk as [Ek|[Ek Hno]].
  - rewrite <- Ek, Q. reflexivity.
  - assert (N1 : extract_quoted_token (unexpected kind off toks) (chars "extraneous input ") = None) by (unfold extract_quoted_token; now rewrite (nowhere_split _ _ Hno)).
    rewrite N1, <- Ek, Q. reflexivity.
Qed.
Lemma string_expected toks : toks <> [] -> Forall (fun tok => tok <> [] /\ trim tok = tok /\ ~ In comma tok /\ ~ In close_brace tok) toks ->
  expects_string_literal (join [comma; 32%N] toks) = existsb (fun tok => text_eqb (trim_quotes tok) (chars "StringLiteral")) toks.
Proof.
  intros Hn Ht. unfold expects_string_literal. rewrite split_at_joined by first [exact Hn | eapply Forall_impl; [|exact Ht]; cbn; tauto].
  rewrite <- (trim_tokens toks Hn) at 3 by (eapply Forall_impl; [|exact Ht]; cbn; tauto).
  generalize (hd [] toks :: map (cons 32%N) (tl toks)). intro l. induction l as [|x l IH]; [reflexivity|]. cbn [existsb map]. now rewrite IH.
Qed.
Lemma bare_word_looks off : bare_word off -> ~ In off json_words -> looks_like_bare_identifier off = true.
Proof.
  intros (c & r & -> & Hc & Hr) Hj. unfold looks_like_bare_identifier. apply text_mem_out in Hj. unfold json_words in Hj. rewrite Hj. cbn [negb andb].
  apply Bool.andb_true_iff. split; [destruct Hc as [-> | ->]; [reflexivity|now rewrite N.eqb_refl, Bool.orb_true_r]|]. apply forallb_forall. now apply Forall_forall.
Qed.
Lemma bare_word_no_eof off : bare_word off -> text_eqb off (chars "<EOF>") = false.
Proof.
  intros (c & r & -> & Hc & _). destruct (text_eqb (c :: r) (chars "<EOF>")) eqn:E; [|reflexivity]. apply text_eqb_eq in E. injection E as -> _. destruct Hc as [Hc|Hc]; discriminate Hc.
Qed.

(** Where a string literal is expected, a bare word is shown with the advice to quote
    it, added to the list of what is expected; the words of JSON are not. *)
Theorem C45_quoting_hint :
  forall kind off toks shown, plain_message kind off toks -> 5 < length toks -> help_list toks shown -> In (chars "StringLiteral") toks ->
  (bare_word off -> ~ In off json_words ->
     displayed (unexpected kind off toks)
     = mkEnriched (chars "unexpected token `" ++ off ++ chars "` -- did you mean `" ++ [34%N] ++ off ++ [34%N] ++ chars "`?")
         (Some (chars "unexpected `" ++ off ++ chars "` -- did you mean `" ++ [34%N] ++ off ++ [34%N] ++ chars "`?"))
         (Some (match expected_help shown with Some h => h ++ [10%N] ++ quoting_advice off | None => quoting_advice off end)))
  /\ (In off json_words ->
     displayed (unexpected kind off toks) = mkEnriched (chars "unexpected token `" ++ off ++ chars "`") (Some (chars "unexpected `" ++ off ++ chars "`")) (expected_help shown)).
Proof.
  intros kind off toks shown Hp Hl Hh Hs. assert (Hn : toks <> []) by (intros ->; destruct Hs). pose proof Hp as (_ & _ & _ & _ & _ & Ht).
  rewrite (long_displayed _ _ _ _ Hp Hl Hh), (string_expected _ Hn Ht).
  assert (E : existsb (fun tok => text_eqb (trim_quotes tok) (chars "StringLiteral")) toks = true) by (apply existsb_exists; exists (chars "StringLiteral"); split; [exact Hs|vm_compute; reflexivity]).
  rewrite E. unfold build_unexpected_token_error. split.
  - intros Hb Hj. rewrite (bare_word_no_eof _ Hb), (bare_word_looks _ Hb Hj). cbn [andb]. unfold append_quoting_hint, quoting_advice, dq. destruct (expected_help shown); reflexivity.
  - intros [<-|[<-|[<-|[]]]]; reflexivity.
Qed.
Print Assumptions C45_quoting_hint.

(** Where none is expected, no such advice is given: a word close to one of the
    language is taken for that (C33), any other is only shown. *)
Theorem C45_no_quoting_hint :
  forall kind off toks shown, plain_message kind off toks -> 5 < length toks -> help_list toks shown ->
  (forall tok, In tok toks -> trim_quotes tok <> chars "StringLiteral") -> bare_word off -> ~ In off json_words ->
  displayed (unexpected kind off toks) =
    match suggest_keyword (of_chars off) with
    | Some word => mkEnriched (chars "unexpected token `" ++ off ++ chars "` -- did you mean `" ++ chars word ++ chars "`?") (Some (chars "did you mean `" ++ chars word ++ chars "`?")) (expected_help shown)
    | None => mkEnriched (chars "unexpected token `" ++ off ++ chars "`") (Some (chars "unexpected `" ++ off ++ chars "`")) (expected_help shown)
    end.
Proof.
  intros kind off toks shown Hp Hl Hh Hs Hb Hj. assert (Hn : toks <> []) by (intros ->; cbn in Hl; lia). pose proof Hp as (_ & _ & _ & _ & _ & Ht).
  rewrite (long_displayed _ _ _ _ Hp Hl Hh), (string_expected _ Hn Ht).
  assert (E : existsb (fun tok => text_eqb (trim_quotes tok) (chars "StringLiteral")) toks = false).
  { destruct (existsb _ toks) eqn:E; [|reflexivity]. apply existsb_exists in E as (x & Hx & Ex). apply text_eqb_eq in Ex. now destruct (Hs x Hx). }
  rewrite E. unfold build_unexpected_token_error. now rewrite (bare_word_no_eof _ Hb), (bare_word_looks _ Hb Hj).
Qed.
Print Assumptions C45_no_quoting_hint.

(** ANTLR's words are replaced, the first "expecting" included. *)
Theorem C45_jargon :
  forall kind before after, kind = chars "extraneous input " \/ kind = chars "mismatched input " ->
  (forall a b, before ++ chars "expecting" ++ after = a ++ chars "expecting" ++ b -> length before <= length a) ->
  rewrite_antlr_jargon (kind ++ before ++ chars "expecting" ++ after) = chars "unexpected " ++ before ++ chars "expected" ++ after.
Proof.
  intros kind before after Hk F. pose proof (split_once_first _ _ _ _ eq_refl F) as S. unfold rewrite_antlr_jargon, replace_first. destruct Hk as [-> | ->].
  - rewrite (proj2 (strip_prefix_app _ _ _) eq_refl), S. reflexivity.
  - destruct (strip_prefix (chars "extraneous input ") _) eqn:E; [apply strip_prefix_app in E; discriminate E|]. rewrite (proj2 (strip_prefix_app _ _ _) eq_refl), S. reflexivity.
Qed.
Print Assumptions C45_jargon.

(** Cases that meet the hypotheses *)
Definition string_tokens : list text := map chars ["DocComment"; "StringLiteral"; "'null'"; "IdentifierToken"; "DocComment"; "StringLiteral"].
Example C45_quoting_sample :
  plain_message (chars "extraneous input ") (chars "RED") string_tokens /\ 5 < length string_tokens
  /\ help_list string_tokens (map chars ["string literal"; "null"; "identifier"]) /\ In (chars "StringLiteral") string_tokens
  /\ bare_word (chars "RED") /\ ~ In (chars "RED") json_words
  /\ of_chars (en_message (displayed (unexpected (chars "extraneous input ") (chars "RED") string_tokens)))
     = ("unexpected token `RED` -- did you mean `" ++ String (Ascii.ascii_of_N 34) ("RED" ++ String (Ascii.ascii_of_N 34) "`?"))%string.
Proof.
  split; [|split; [cbn; lia|split; [|split; [right; now left|split; [|split; [vm_compute; intuition discriminate|vm_compute; reflexivity]]]]]].
  - split; [now left|]. split; [vm_compute; intuition discriminate|].
    split; [apply nowhere_check; vm_compute; reflexivity|]. split; [apply nowhere_check; vm_compute; reflexivity|]. split; [apply nowhere_check; vm_compute; reflexivity|].
    vm_compute. repeat (constructor; [split; [discriminate|split; [reflexivity|split; intuition discriminate]]|]). constructor.
  - exists (map chars ["string literal"; "null"; "identifier"; "string literal"]). split.
    + apply help_hidden; [left; now left|].
      eapply help_shown; [intros [E|E]; discriminate E|discriminate|apply bare_plain; vm_compute; intuition discriminate|discriminate|apply called_special; right; right; left; reflexivity|].
      apply (help_shown ([quote] ++ chars "null" ++ [quote]) (chars "null")); [intros [E|E]; discriminate E|discriminate|apply bare_quoted; vm_compute; intuition discriminate|discriminate|apply called_itself; vm_compute; intuition discriminate|].
      eapply help_shown; [intros [E|E]; discriminate E|discriminate|apply bare_plain; vm_compute; intuition discriminate|discriminate|apply called_special; right; left; reflexivity|].
      apply help_hidden; [left; now left|].
      eapply help_shown; [intros [E|E]; discriminate E|discriminate|apply bare_plain; vm_compute; intuition discriminate|discriminate|apply called_special; right; right; left; reflexivity|constructor].
    + do 3 (apply wr_new; [vm_compute; intuition discriminate|]). apply wr_seen; [vm_compute; auto|]. constructor.
  - exists 82%N, (chars "ED"). split; [reflexivity|]. split; [now left|]. repeat constructor.
Qed.
Example C45_no_quoting_sample :
  plain_message (chars "mismatched input ") (chars "recrod") six_tokens /\ 5 < length six_tokens
  /\ (forall tok, In tok six_tokens -> trim_quotes tok <> chars "StringLiteral") /\ bare_word (chars "recrod") /\ ~ In (chars "recrod") json_words
  /\ of_chars (en_message (displayed (unexpected (chars "mismatched input ") (chars "recrod") six_tokens))) = "unexpected token `recrod` -- did you mean `record`?".
Proof.
  split; [|split; [cbn; lia|split; [|split; [|split; [vm_compute; intuition discriminate|vm_compute; reflexivity]]]]].
  - split; [right; split; [reflexivity|apply nowhere_check; vm_compute; reflexivity]|]. split; [vm_compute; intuition discriminate|].
    split; [apply nowhere_check; vm_compute; reflexivity|]. split; [apply nowhere_check; vm_compute; reflexivity|]. split; [apply nowhere_check; vm_compute; reflexivity|].
    vm_compute. repeat (constructor; [split; [discriminate|split; [reflexivity|split; intuition discriminate]]|]). constructor.
  - intros tok [<-|[<-|[<-|[<-|[<-|[<-|[]]]]]]]; vm_compute; discriminate.
  - exists 114%N, (chars "ecrod"). split; [reflexivity|]. split; [now left|]. repeat constructor.
Qed.
Example C45_jargon_sample :
  (forall a b, chars "'x' " ++ chars "expecting" ++ chars " ';'" = a ++ chars "expecting" ++ b -> length (chars "'x' ") <= length a)
  /\ of_chars (rewrite_antlr_jargon (chars "mismatched input 'x' expecting ';'")) = "unexpected 'x' expected ';'".
Proof.
  split; [|vm_compute; reflexivity]. intros a b E. destruct a as [|? [|? [|? [|? a]]]]; try discriminate E; cbn; lia.
Qed.
