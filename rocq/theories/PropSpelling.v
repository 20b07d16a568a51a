(** C68: how names, strings and numbers are written does not matter, from the texts of
    the files to the output. *)
From Coq Require Import ZArith Lia.
From Verif Require Import FloatText IdlParser Compile Cli.
From Verif Require Import SpecSpelling SpecFile SampleFile SampleWorld PropSource PropLayout.
From Verif Require Import LiteralsProofs FloatTextProofs RewriteProofs ReadingProofs CutProofs LexerProofs SpellingProofs PropFloat.

Section C68.
  Context `{Unicode} `{Powers} `{LexerMessages} `{JsonParser}.
  Existing Instance text_parser.

  (** Two texts with the same tokens, however these are written, and whatever white space
      and comments lie between: both are refused for the same reason, or both are read
      as the same declarations with the same warnings, but for the places noted for the
      error messages and for warnings about characters that are no token *)
  Theorem C68_reading file file' text text' : same_words text text' ->
    match parse_idl file text, parse_idl file' text' with
    | Ok (f, items, ws), Ok (f', items', ws') =>
        same_main f f' /\ Forall2 (fun i i' => match i, i' with
                                               | DImport k p _, DImport k' p' _ => k = k' /\ p = p'
                                               | DType s _ _, DType s' _ _ => unplaced s = unplaced s'
                                               | _, _ => False
                                               end) items items'
        /\ lasting ws = lasting ws'
    | Err SyntaxError, Err SyntaxError => True
    | Err (WalkError e _), Err (WalkError e' _) => e = e'
    | _, _ => False
    end.
  Proof.
    intro S. pose proof (spelling_parse file file' text text' S) as R. destruct (parse_idl file text) as [[[f i] w]|e], (parse_idl file' text') as [[[f' i'] w']|e']; [|contradiction|destruct e; contradiction|exact R].
    destruct R as (Rf & Ri & Rw). split; [now apply unplaced_same_main|]. split; [|exact Rw].
    clear -Ri. revert i' Ri. induction i as [|[k p sp|s sp fs] i IH]; intros [|[k' p' sp'|s' sp' fs'] i'] Ri; try discriminate; constructor; cbn in Ri; try (injection Ri; auto; fail); apply IH; now injection Ri.
  Qed.

  Variable FS : FileSystem.
  Variable read' : string -> option string.
  Hypothesis spelling : only_changed same_words (@fs_read FS) read'.

  (** Writing the tokens of any of the files differently changes nothing in the JSON *)
  Theorem C68_convert path b b' : same_builder b b' -> same_result same_json (@convert _ _ _ FS _ path b) (@convert _ _ _ (rewritten FS read') _ path b').
  Proof. exact (convert_layout FS read' same_words spelling_parse spelling path b b'). Qed.
  Theorem C68_convert_str text text' name b b' : same_words text text' -> same_builder b b' ->
    same_result same_json (@convert_str _ _ _ FS _ text name b) (@convert_str _ _ _ (rewritten FS read') _ text' name b').
  Proof. exact (convert_str_layout FS read' same_words spelling_parse spelling text text' name b b'). Qed.
  (** nor in the schemas, of a file or of a directory *)
  Theorem C68_extract path b b' : same_builder b b' -> same_result same_schemas (@extract _ _ _ FS _ path b) (@extract _ _ _ (rewritten FS read') _ path b').
  Proof. exact (extract_layout FS read' same_words spelling_parse spelling path b b'). Qed.
  Theorem C68_extract_str text text' name b b' : same_words text text' -> same_builder b b' ->
    same_result same_schemas (@extract_str _ _ _ FS _ text name b) (@extract_str _ _ _ (rewritten FS read') _ text' name b').
  Proof. exact (extract_str_layout FS read' same_words spelling_parse spelling text text' name b b'). Qed.
  (** nor in what the program prints and writes, nor in whether it fails *)
  Theorem C68_program (C : Console) stdin' args : same_input same_words (@stdin_text C) stdin' ->
    same_run (@main _ _ _ FS _ C args) (@main _ _ _ (rewritten FS read') _ (retyped C stdin') args).
  Proof. intro S. exact (main_layout FS read' same_words spelling_parse spelling C stdin' S args). Qed.
End C68.
Print Assumptions C68_reading.
Print Assumptions C68_convert.
Print Assumptions C68_convert_str.
Print Assumptions C68_extract.
Print Assumptions C68_extract_str.
Print Assumptions C68_program.

(** ** A file written in two ways *)
Definition plain_text := "protocol P { import idl ""a.avdl""; /** Of ""it"". */ record R { string a = ""x""; int b = -31; double c = 1.50; org.A d; } @order(""ignore"") fixed F(16); }".
Definition odd_text := "protocol `P` { import idl ""\141\56avdl""; /** Of ""it"". */ record R { string `a` = ""\u0078""; int b = -0X1f; double c = 15e-1F; `org`.A d; } @`order`(""\151gnore"") fixed F(020); }".
Definition spelt_texts := [("/p/main.avdl", plain_text); ("/p/a.avdl", "namespace org; enum A { X, Y } = X;")].
Definition spelt_texts' := [("/p/main.avdl", odd_text); ("/p/a.avdl", "namespace `org` ; enum A { `X`, Y } = `X`;")].

Lemma same_words_cut t t' : Forall2 same_token (kept (cut (chars (until_sub t)))) (kept (cut (chars (until_sub t')))) -> same_words t t'.
Proof.
  intro K. exists (until_sub t), (until_sub t'), (cut (chars (until_sub t))), (cut (chars (until_sub t'))).
  repeat split; try apply FileProofs.until_visible; try apply cut_spec. exact K.
Qed.
Lemma denotes_plain l : Forall (fun c => c <> 92%N) l -> SpecLiterals.denotes l l.
Proof. induction 1; constructor; assumption. Qed.
Ltac name_pair := right; split; [reflexivity|]; eapply sw_name; apply identifier_unquotes; reflexivity.
Ltac scalars := cbn; repeat (constructor; [split; [reflexivity|intros [A B]; (now apply A) || (now apply B)]|]); constructor.
Ltac unescaped := apply denotes_plain; cbn; repeat (constructor; [discriminate|]); constructor.
Ltac octal := match goal with |- octal_digit ?c ?d => exact (od d eq_refl) end.
Example C68_sample_words : same_words plain_text odd_text.
Proof.
  apply same_words_cut.
  let l := eval vm_compute in (kept (cut (chars (until_sub plain_text)))) in change (kept (cut (chars (until_sub plain_text)))) with l.
  let l := eval vm_compute in (kept (cut (chars (until_sub odd_text)))) in change (kept (cut (chars (until_sub odd_text)))) with l.
  repeat (apply Forall2_cons; [first [left; reflexivity|name_pair|idtac]|]); [..|apply Forall2_nil].
  all: right; (split; [reflexivity|]); cbn [fst snd].
  - apply (sw_string (chars "a.avdl") (chars "\141\56avdl") (chars "a.avdl")); [scalars|scalars|unescaped|].
    apply (de_octal3 49 52 49 1 4 1); [octal|discriminate|octal|octal|]. apply (de_octal2 53 54 5 6); [octal|octal|left; reflexivity|unescaped].
  - apply (sw_string (chars "x") (chars "\u0078") (chars "x")); [scalars|scalars|unescaped|].
    apply (de_unicode 0 [48; 48; 55; 56]%N 120 [] []); [|split; [reflexivity|intros [A B]; now apply A]|constructor].
    apply (fh 48 48 55 56 0 0 7 8); first [exact (hd_digit 0 eq_refl)|exact (hd_digit 7 eq_refl)|exact (hd_digit 8 eq_refl)].
  - apply sw_integer. apply (si "-" "31" "0X1f" 31 "" ""); try (cbn; tauto); [| |right; discriminate].
    + apply mag_dec, dm_dec; [discriminate|]. now apply sp.
    + apply mag_hex; [cbn; tauto|]. now apply sp.
  - apply (sw_decimal "" "" 1 "1.50" "15e-1F" 150 15 2 0 0 (-1)); [now left|now left| | |].
    + apply (dt "1" "." "50" 150 "" 0 ""); [now apply sp|now left|now left|now left].
    + apply (dt "15" "" "" 15 "e-1" (-1) "F"); [now apply sp|now right| |cbn; tauto]. right. apply (eo_minus ["e"; "E"]%char "e" "1" 1); [cbn; tauto|now apply sp].
    + exists 2%Z. cbn. lia.
  - apply (sw_string (chars "ignore") (chars "\151gnore") (chars "ignore")); [scalars|scalars|unescaped|].
    apply (de_octal3 49 53 49 1 5 1); [octal|discriminate|octal|octal|unescaped].
  - apply sw_integer. apply (si "" "16" "020" 16 "" ""); try (cbn; tauto).
    + apply mag_dec, dm_dec; [discriminate|]. now apply sp.
    + apply mag_oct. now apply sp.
Qed.
Example C68_sample_files : only_changed (H := no_json) same_words (fun p => assoc p spelt_texts) (fun p => assoc p spelt_texts').
Proof.
  intro p. cbn [assoc spelt_texts spelt_texts']. destruct (String.eqb p "/p/main.avdl"); [split; [exact C68_sample_words|reflexivity]|].
  destruct (String.eqb p "/p/a.avdl"); [|exact I]. split; [|reflexivity]. apply same_words_cut.
  match goal with |- Forall2 _ ?a ?b => let l := eval vm_compute in a in let l' := eval vm_compute in b in change (Forall2 same_token l l') end.
  repeat (apply Forall2_cons; [first [left; reflexivity|name_pair]|]). apply Forall2_nil.
Qed.
(** What comes out, in both cases *)
Definition spelt_world := rewritten world (fun p => assoc p spelt_texts).
Definition spelt_json : json := JObj
  [("messages", JObj []); ("protocol", JStr "P");
   ("types", JArr
     [JObj [("default", JStr "X"); ("name", JStr "A"); ("namespace", JStr "org"); ("symbols", JArr [JStr "X"; JStr "Y"]); ("type", JStr "enum")];
      JObj [("doc", JStr "Of ""it""."); ("fields", JArr [JObj [("default", JStr "x"); ("name", JStr "a"); ("type", JStr "string")];
                             JObj [("default", JNum (NNeg (-31))); ("name", JStr "b"); ("type", JStr "int")];
                             JObj [("default", JNum (NFloat 6755399441055744 (-52))); ("name", JStr "c"); ("type", JStr "double")];
                             JObj [("name", JStr "d"); ("type", JStr "org.A")]]);
            ("name", JStr "R"); ("type", JStr "record")];
      JObj [("name", JStr "F"); ("order", JStr "ignore"); ("size", JNum (NPos 16)); ("type", JStr "fixed")]])].
Definition the_floats := @float_texts usual_powers.
Example C68_sample : option_map io_json (match snd (@convert ascii_chars the_floats the_text_parser spelt_world no_json "/p/main.avdl" new_builder) with Ok o => Some o | _ => None end) = Some spelt_json.
Proof. vm_compute. reflexivity. Qed.
Example C68_sample_both : same_result same_json (@convert ascii_chars the_floats the_text_parser spelt_world no_json "/p/main.avdl" new_builder)
  (@convert ascii_chars the_floats the_text_parser (rewritten spelt_world (fun p => assoc p spelt_texts')) no_json "/p/main.avdl" new_builder).
Proof. exact (C68_convert (H := ascii_chars) (H0 := usual_powers) (H1 := plain_messages) (H2 := no_json) spelt_world _ C68_sample_files "/p/main.avdl" new_builder new_builder ltac:(split; reflexivity)). Qed.
Example C68_sample_program :
  let run := @main ascii_chars the_floats the_text_parser spelt_world no_json (retyped text_console (Some plain_text)) ["idl"; "-"; "out.avpr"] in
  let run' := @main ascii_chars the_floats the_text_parser (rewritten spelt_world (fun p => assoc p spelt_texts')) no_json (retyped text_console (Some odd_text)) ["idl"; "-"; "out.avpr"] in
  same_run run run' /\ run_error run = None /\ run_writes run' = [("out.avpr", ("P" ++ line_end)%string)].
Proof.
  split; [|vm_compute; auto]. exact (C68_program (H := ascii_chars) (H0 := usual_powers) (H1 := plain_messages) (H2 := no_json) spelt_world _ C68_sample_files (retyped text_console (Some plain_text)) (Some odd_text) _ C68_sample_words).
Qed.
(** A name that cannot be used is refused in both spellings *)
Example C68_sample_refused :
  match @parse_idl ascii_chars the_floats the_text_parser "t" "protocol P { enum E { A, A } }", @parse_idl ascii_chars the_floats the_text_parser "t" "protocol P { enum E { A, `A` } }" with
  | Err (WalkError e p), Err (WalkError e' p') => e = e' /\ p = p'
  | _, _ => False
  end.
Proof. vm_compute. split; reflexivity. Qed.

(** The two exceptions are needed: a size with a suffix is refused, ... *)
Definition read_alone (text : string) : bool := match @parse_idl ascii_chars the_floats the_text_parser "t" text with Ok _ => true | Err _ => false end.
Theorem C68_suffix_refuted : exists n, int_literal "6" n /\ int_literal "6L" n /\ read_alone "protocol P { fixed F(6); }" = true /\ read_alone "protocol P { fixed F(6L); }" = false.
Proof.
  assert (M : magnitude "6" 6) by (apply mag_dec, dm_dec; [discriminate|now apply sp]).
  exists 6%Z. split; [exact (il_pos "6" 6 "" M ltac:(now left))|]. split; [exact (il_pos "6" 6 "L" M ltac:(cbn; tauto))|]. vm_compute. auto.
Qed.
Print Assumptions C68_suffix_refuted.
(** ... and so is the least 64-bit integer unless it is in decimal *)
Theorem C68_least_refuted : exists n, int_literal "-9223372036854775808" n /\ int_literal "-0x8000000000000000" n
  /\ read_alone "protocol P { record R { long n = -9223372036854775808; } }" = true /\ read_alone "protocol P { record R { long n = -0x8000000000000000; } }" = false.
Proof.
  exists (- Z.of_N 9223372036854775808)%Z. split; [apply (il_neg "9223372036854775808" 9223372036854775808 ""); [apply mag_dec, dm_dec; [discriminate|now apply sp]|now left]|].
  split; [apply (il_neg "0x8000000000000000" 9223372036854775808 ""); [apply mag_hex; [cbn; tauto|now apply sp]|now left]|]. vm_compute. auto.
Qed.
Print Assumptions C68_least_refuted.
