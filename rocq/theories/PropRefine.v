(** C53-C55: how syntax errors are reported. *)
From Coq Require Import ZArith Lia.
From Verif Require Import SpecRefine RefineProofs SyntaxProofs.

(** An error at a token of a source, and a summary of a report *)
Definition at_token (before tok : string) (line column : Z) (message : string) : antlr_error :=
  mkAntlrError (Some (Z.of_nat (bytes (chars before)), Z.of_nat (bytes (chars before)) + Z.of_nat (bytes (chars tok)) - 1)%Z)
    line column (chars message).
Definition summary (o : result syntax_outcome panic) : list (nat * nat * string) :=
  match o with
  | Ok (Rejected first related) => map (fun r => (se_offset r, se_length r, of_chars (se_message r))) (first :: related)
  | _ => []
  end.
Lemma at_token_ok before tok after line column message : chars tok <> [] -> (0 <= line)%Z -> (0 <= column)%Z ->
  parser_error (chars before ++ chars tok ++ chars after) (at_token before tok line column message).
Proof.
  intros Ht Hl Hc. split; [|split; [exact Hl|exact Hc]]. exists (chars before), (chars tok), (chars after).
  split; [reflexivity|]. split; [intro E; now elim Ht|reflexivity].
Qed.
Lemma at_end_ok before line column message : (0 <= line)%Z -> (0 <= column)%Z ->
  parser_error (chars before) (at_token before "" line column message).
Proof.
  intros Hl Hc. split; [|split; [exact Hl|exact Hc]]. exists (chars before), [], [].
  split; [now rewrite !app_nil_r|]. split; [reflexivity|reflexivity].
Qed.
Lemma quiet_lexer : Forall (fun a => ~ says_unterminated a) [].
Proof. constructor. Qed.

Definition many : string := " expecting {DocComment, 'boolean', 'int', 'long', 'null', 'string', IdentifierToken}".

(** [union { }] in a record *)
Definition union_before : string := "protocol P { record R { union { ".
Definition union_after : string := " u; } }".
Definition union_source : text := chars union_before ++ chars "}" ++ chars union_after.
Definition union_errors : list antlr_error :=
  [at_token union_before "}" 1 32 ("extraneous input '}'" ++ many); at_token (union_before ++ "} u") ";" 1 35 "extraneous input ';' expecting '{'"]%string.
Lemma union_errors_ok : Forall (parser_error union_source) union_errors.
Proof.
  constructor; [apply at_token_ok; [discriminate|lia|lia]|]. constructor; [|constructor].
  exact (at_token_ok (union_before ++ "} u") ";" " } }" 1 35 "extraneous input ';' expecting '{'" ltac:(discriminate) ltac:(lia) ltac:(lia)).
Qed.

(** Reporting syntax errors does not crash, whatever the source and the errors
    of the lexer are, when the errors of the parser are at tokens. *)
Theorem C53_no_crash :
  forall source lexer parser, Forall (parser_error source) parser -> exists o, syntax_errors_reported source lexer parser = Ok o.
Proof. exact never_panics. Qed.
Print Assumptions C53_no_crash.

(** Every place shown starts at a character and ends within the source, or at
    most where the error ends that it explains. *)
Theorem C53_spans :
  forall source lexer parser first related,
  parser <> [] -> Forall (parser_error source) parser -> Forall (fun a => ~ says_unterminated a) lexer ->
  syntax_errors_reported source lexer parser = Ok (Rejected first related) ->
  Forall (fun r => exists a, In a parser /\ good_span source (collected None a) r) (first :: related).
Proof. exact rejected_spans. Qed.
Print Assumptions C53_spans.

Example C53_sample :
  Forall (parser_error union_source) union_errors
  /\ summary (syntax_errors_reported union_source [] union_errors)
     = [(24, 9, "line 1:32 union must contain at least one type member")].
Proof. split; [exact union_errors_ok|]. vm_compute. reflexivity. Qed.

(** What is reported is what the diagnoses of the specification say: the first
    that applies to the first error, or an open brace for an error at the end,
    or the errors themselves; and the report is determined. *)
Theorem C54_report :
  forall source lexer parser, parser <> [] -> Forall (parser_error source) parser -> Forall (fun a => ~ says_unterminated a) lexer ->
  exists first related, syntax_errors_reported source lexer parser = Ok (Rejected first related)
    /\ forall rs, reported source (map (collected None) parser) rs <-> rs = first :: related.
Proof. exact rejected. Qed.
Print Assumptions C54_report.

(** The brace reported as never closed is the last one open at the end of the
    text, braces in string literals aside. *)
Theorem C54_open_brace :
  forall l, (forall a, innermost_open l a -> exists stack, brace_stack l = bytes a :: stack)
    /\ (forall pos stack, brace_stack l = pos :: stack -> exists a, innermost_open l a /\ pos = bytes a)
    /\ (forall a b, innermost_open l a -> innermost_open l b -> a = b).
Proof.
  intro l. split; [exact (brace_stack_complete l)|]. split; [exact (brace_stack_sound l)|exact (innermost_unique l)].
Qed.
Print Assumptions C54_open_brace.

Section Samples.
  Let show before tok after line column message more :=
    summary (syntax_errors_reported (chars before ++ chars tok ++ chars after) [] (at_token before tok line column message :: more)).
  Example C54_samples :
    show "record R { map<" ">" " m; }" 1%Z 15%Z ("extraneous input '>'" ++ many)%string []
      = [(11, 5, "line 1:15 `map` type requires a type parameter")]
    /\ show "fixed MD5(abc" ")" ";" 1%Z 13%Z ("extraneous input ')'" ++ many)%string []
      = [(10, 3, "line 1:13 fixed type requires an integer size -- use `fixed MD5(<integer>)`, e.g., `fixed MD5(16)`")]
    /\ show "protocol " "{" " }" 1%Z 9%Z ("extraneous input '{'" ++ many)%string []
      = [(9, 1, "line 1:9 expected name after `protocol`, found `{`")]
    /\ show "enum E { A, B, " "}" "" 1%Z 15%Z ("extraneous input '}'" ++ many)%string []
      = [(13, 1, "line 1:15 trailing comma is not allowed in enum declaration")]
    /\ show "recrod Foo " "{" " }" 1%Z 11%Z ("extraneous input '{'" ++ many)%string [at_token "recrod Foo { " "}" 1 13 "extraneous input '}'"]
      = [(0, 6, "line 1:11 unrecognized `recrod` -- did you mean `record`?")]
    /\ show "record A { int x; record B " "{" " int y; }" 1%Z 27%Z "mismatched input '{' expecting {';', ','}" []
      = [(9, 1, "line 1:27 missing closing `}` for record")]
    /\ summary (syntax_errors_reported (chars "protocol P { record A { int x; }") []
         [at_token "protocol P { record A { int x; }" "" 1 32 ("mismatched input '<EOF>'" ++ many)])
      = [(11, 1, "line 1:32 unexpected end of file -- missing closing `}` for protocol")]
    /\ show "record A { int " "7" "; }" 1%Z 15%Z "mismatched input '7' expecting IdentifierToken" []
      = [(15, 1, "line 1:15 unexpected '7' expected identifier")].
  Proof. repeat split; vm_compute; reflexivity. Qed.
End Samples.

(** The words are not always whole ones: a message whose return type ends in
    "fixed" is reported as a fixed type without a size. *)
Definition prefixed_before : string := "protocol P { prefixed MD5(abc".
Theorem C54_fixed_word_refuted :
  exists source parser first related,
    source = chars prefixed_before ++ chars ")" ++ chars "; }" /\ Forall (parser_error source) parser
    /\ syntax_errors_reported source [] parser = Ok (Rejected first related)
    /\ mentions (chars "fixed type requires an integer size") (se_message first)
    /\ ~ exists a b, source = a ++ chars " fixed " ++ b.
Proof.
  exists (chars prefixed_before ++ chars ")" ++ chars "; }"), [at_token prefixed_before ")" 1 29 ("extraneous input ')'" ++ many)%string].
  eexists _, _. split; [reflexivity|]. split; [constructor; [|constructor]; apply at_token_ok; [discriminate|lia|lia]|].
  split; [vm_compute; reflexivity|]. split.
  - apply contains_iff. vm_compute. reflexivity.
  - intros (a & b & H). assert (K : contains (chars " fixed ") (chars prefixed_before ++ chars ")" ++ chars "; }") = true) by (apply contains_iff; exists a, b; exact H).
    vm_compute in K. discriminate.
Qed.
Print Assumptions C54_fixed_word_refuted.

(** A comma at the end of a union is reported as one in an enum when an enum
    stands anywhere before. *)
Definition comma_before : string := "protocol P { enum E { A } record R { union { null, ".
Theorem C54_comma_in_enum_refuted :
  exists source parser first related,
    source = chars comma_before ++ chars "}" ++ chars " u; } }" /\ Forall (parser_error source) parser
    /\ syntax_errors_reported source [] parser = Ok (Rejected first related)
    /\ mentions (chars "trailing comma is not allowed in enum declaration") (se_message first)
    /\ exists a, innermost_open (chars comma_before) a /\ opens a (chars "union").
Proof.
  exists (chars comma_before ++ chars "}" ++ chars " u; } }"), [at_token comma_before "}" 1 51 ("extraneous input '}'" ++ many)%string].
  eexists _, _. split; [reflexivity|]. split; [constructor; [|constructor]; apply at_token_ok; [discriminate|lia|lia]|].
  split; [vm_compute; reflexivity|]. split; [apply contains_iff; vm_compute; reflexivity|].
  destruct (brace_stack (chars comma_before)) as [|pos st] eqn:E; [vm_compute in E; discriminate|].
  apply brace_stack_sound in E as (a & Ha & Ep). exists a. split; [exact Ha|]. apply opens_iff.
  assert (Ea : split_at_byte (chars comma_before) (bytes a) = Some (a, [123%N] ++ chars " null, ")).
  { pose proof (brace_stack_complete _ _ Ha) as (st' & E). 
    assert (Eb : bytes a = 43).
    { assert (K : hd 0 (brace_stack (chars comma_before)) = 43) by (vm_compute; reflexivity). rewrite E in K. exact K. }
    destruct Ha as (b & Eab & _). rewrite Eb.
    assert (K : split_at_byte (chars comma_before) 43 = Some (a, [123%N] ++ b)) by (apply split_at_byte_iff; auto).
    rewrite K. assert (K2 : split_at_byte (chars comma_before) 43 = Some (firstn 43 (chars comma_before), [123%N] ++ chars " null, ")) by (vm_compute; reflexivity).
    rewrite K in K2. congruence. }
  apply split_at_byte_iff in Ea as [Ea _].
  assert (Ea' : a = firstn 43 (chars comma_before)).
  { assert (K : firstn 43 (chars comma_before) ++ ([123%N] ++ chars " null, ") = a ++ ([123%N] ++ chars " null, ")) by (rewrite <- Ea; vm_compute; reflexivity).
    now apply app_inv_tail in K. }
  rewrite Ea'. vm_compute. reflexivity.
Qed.
Print Assumptions C54_comma_in_enum_refuted.

(** A brace in a comment counts as one of the source. *)
Definition comment_source : string := "protocol P { record A { int x; } // {".
Theorem C54_brace_in_comment_refuted :
  exists parser first related,
    Forall (parser_error (chars comment_source)) parser
    /\ syntax_errors_reported (chars comment_source) [] parser = Ok (Rejected first related)
    /\ mentions (chars "missing closing `}`") (se_message first)
    /\ exists a b, chars comment_source = a ++ chars "// " ++ chars "{" ++ b /\ se_offset first = bytes (a ++ chars "// ").
Proof.
  exists [at_token comment_source "" 1 37 ("mismatched input '<EOF>'" ++ many)%string]. eexists _, _.
  split; [constructor; [|constructor]; apply at_end_ok; lia|]. split; [vm_compute; reflexivity|].
  split; [apply contains_iff; vm_compute; reflexivity|]. exists (chars "protocol P { record A { int x; } "), [].
  split; vm_compute; reflexivity.
Qed.
Print Assumptions C54_brace_in_comment_refuted.

(** Without errors of the parser the file is accepted, and each error of the
    lexer becomes a warning, in order. *)
Theorem C55_lexer_errors_are_warnings :
  forall source lexer, exists ws, syntax_errors_reported source lexer [] = Ok (Parsed ws)
    /\ Forall2 (fun a w => exists offset length, w = (shown a, offset, length)
                  /\ (ae_token a = None -> length = 1 /\ offset <= bytes source
                      /\ forall before start, lexer_error source before a -> line_start before start ->
                           Forall (fun c => (c < 128)%N) start -> offset = bytes before)) lexer ws.
Proof.
  intros source lexer. rewrite accepted. eexists. split; [reflexivity|]. induction lexer as [|a lexer IH]; [constructor|]. cbn [map]. constructor; [|exact IH].
  eexists _, _. split; [reflexivity|]. intro Et. split; [|split].
  - unfold collected. now rewrite Et.
  - unfold collected. rewrite Et. apply line_col_bound.
  - intros before start He Hs Ha. exact (proj1 (lexer_place _ _ _ _ He Hs Ha)).
Qed.
Print Assumptions C55_lexer_errors_are_warnings.

(** With an error of the parser, a string literal that is not closed is what is
    reported, at its opening quote when the line before it is ASCII. *)
Theorem C55_unterminated_string :
  forall source l1 a l2 parser before body,
  parser <> [] -> Forall (fun x => ~ says_unterminated x) l1 -> lexer_error source before a ->
  ae_message a = unterminated_text body -> ~ In 39%N body ->
  exists first, syntax_errors_reported source (l1 ++ a :: l2) parser = Ok (Rejected first [])
    /\ se_message first = chars "line " ++ show_Z (ae_line a) ++ chars ":" ++ show_Z (ae_column a) ++ chars " unterminated string literal"
    /\ se_length first = 1 /\ se_offset first <= bytes source
    /\ forall start, line_start before start -> Forall (fun c => (c < 128)%N) start -> se_offset first = bytes before.
Proof. exact unterminated_reported. Qed.
Print Assumptions C55_unterminated_string.

Definition open_string_before : string := "protocol P {
  @doc(".
Definition open_string_source : text := chars open_string_before ++ [34%N] ++ chars "text);
}".
Definition open_string : antlr_error := mkAntlrError None 2 7 (unterminated_text (chars "text);")).
Definition open_string_parser : list antlr_error := [mkAntlrError (Some (29, 29)%Z) 3 0 (chars "extraneous input '}' expecting ')'")].
Example C55_sample :
  lexer_error open_string_source (chars open_string_before) open_string
  /\ line_start (chars open_string_before) (chars "  @doc(")
  /\ Forall (fun c => (c < 128)%N) (chars "  @doc(") /\ ~ In 39%N (chars "text);")
  /\ summary (syntax_errors_reported open_string_source [open_string] open_string_parser)
     = [(20, 1, "line 2:7 unterminated string literal")].
Proof.
  assert (Hl : line_start (chars open_string_before) (chars "  @doc(")).
  { exists (chars "protocol P {" ++ [10%N]). split; [vm_compute; reflexivity|]. split; [|right; eauto].
    vm_compute. intro K. repeat (destruct K as [K|K]; [discriminate|]). exact K. }
  split; [|split; [exact Hl|split; [|split]]].
  - exists ([34%N] ++ chars "text);
}"), (chars "  @doc("). split; [reflexivity|]. split; [exact Hl|]. split; [reflexivity|]. split; vm_compute; reflexivity.
  - vm_compute. repeat (constructor; [reflexivity|]). constructor.
  - vm_compute. intro K. repeat (destruct K as [K|K]; [discriminate|]). exact K.
  - vm_compute. reflexivity.
Qed.

(** After characters outside ASCII the place is wrong, and may not even be the
    start of a character: columns count characters, and the code takes them for
    bytes. *)
Definition accents : text := [34; 233; 233; 34; 32; 35]%N.
Theorem C55_place_refuted :
  exists source before start rest, source = before ++ rest /\ line_start before start
    /\ line_col_to_byte_offset source (Z.of_nat (line_of before)) (Z.of_nat (length start)) <> bytes before
    /\ exists column, column < length start
       /\ split_at_byte source (line_col_to_byte_offset source (Z.of_nat (line_of before)) (Z.of_nat column)) = None.
Proof.
  exists accents, [34; 233; 233; 34; 32]%N, [34; 233; 233; 34; 32]%N, [35%N]. split; [reflexivity|]. split.
  - exists []. split; [reflexivity|]. split; [|now left]. intro K. repeat (destruct K as [K|K]; [discriminate|]). exact K.
  - split; [vm_compute; discriminate|]. exists 2. split; [vm_compute; lia|]. vm_compute. reflexivity.
Qed.
Print Assumptions C55_place_refuted.

(** A literal whose text looks like a message of ANTLR is not recognised. *)
Theorem C55_any_text_refuted :
  exists body a, ae_message a = unterminated_text body /\ ~ says_unterminated a.
Proof.
  exists (chars "no viable alternative at input '@x'"), (mkAntlrError None 1 0 (unterminated_text (chars "no viable alternative at input '@x'"))).
  split; [reflexivity|]. intro H. apply contains_iff in H. vm_compute in H. discriminate.
Qed.
Print Assumptions C55_any_text_refuted.
