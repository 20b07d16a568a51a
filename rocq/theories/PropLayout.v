(** C59: layout does not matter, from the texts of the files to the output. *)
From Coq Require Import ZArith Lia.
From Verif Require Import SpecLiterals LiteralsProofs IdlParser Compile Cli.
From Verif Require Import SpecRewrite SpecFile SampleFile SampleWorld PropSource.
From Verif Require Import RewriteProofs ReadingProofs CutProofs LexerProofs.

Section C59.
  Context `{Unicode} `{Floats} `{LexerMessages} `{JsonParser}.
  Existing Instance text_parser.

  (** Two texts with the same tokens, white space and comments aside: both are
      refused for the same reason, or both are read as the same declarations with
      the same warnings, but for the places noted for the error messages and for
      warnings about characters that are no token *)
  Theorem C59_reading file file' text text' : same_tokens text text' ->
    match parse_idl file text, parse_idl file' text' with
    | Ok (f, items, ws), Ok (f', items', ws') =>
        same_main f f' /\ Forall2 (fun i i' => match i, i' with
                                               | DImport k p _, DImport k' p' _ => k = k' /\ p = p'
                                               | DType s _ _, DType s' _ _ => unplaced s = unplaced s'
                                               | _, _ => False
                                               end) items items'
        /\ lasting ws = lasting ws'
    | Err SyntaxError, Err SyntaxError => True
    | Err (WalkError e _), Err (WalkError e' _) => e = e'
    | _, _ => False
    end.
  Proof.
    intro S. pose proof (layout_parse file file' text text' S) as R. destruct (parse_idl file text) as [[[f i] w]|e], (parse_idl file' text') as [[[f' i'] w']|e']; [|contradiction|destruct e; contradiction|exact R].
    destruct R as (Rf & Ri & Rw). split; [now apply unplaced_same_main|]. split; [|exact Rw].
    clear -Ri. revert i' Ri. induction i as [|[k p sp|s sp fs] i IH]; intros [|[k' p' sp'|s' sp' fs'] i'] Ri; try discriminate; constructor; cbn in Ri; try (injection Ri; auto; fail); apply IH; now injection Ri.
  Qed.

  Variable FS : FileSystem.
  Variable read' : string -> option string.
  Hypothesis layout : only_layout (@fs_read FS) read'.

  (** Laying out any of the files anew changes nothing in the JSON *)
  Theorem C59_convert path b b' : same_builder b b' -> same_result same_json (@convert _ _ _ FS _ path b) (@convert _ _ _ (rewritten FS read') _ path b').
  Proof. exact (convert_layout FS read' same_tokens layout_parse layout path b b'). Qed.
  Theorem C59_convert_str text text' name b b' : same_tokens text text' -> same_builder b b' ->
    same_result same_json (@convert_str _ _ _ FS _ text name b) (@convert_str _ _ _ (rewritten FS read') _ text' name b').
  Proof. exact (convert_str_layout FS read' same_tokens layout_parse layout text text' name b b'). Qed.
  (** nor in the schemas, of a file or of a directory *)
  Theorem C59_extract path b b' : same_builder b b' -> same_result same_schemas (@extract _ _ _ FS _ path b) (@extract _ _ _ (rewritten FS read') _ path b').
  Proof. exact (extract_layout FS read' same_tokens layout_parse layout path b b'). Qed.
  Theorem C59_extract_str text text' name b b' : same_tokens text text' -> same_builder b b' ->
    same_result same_schemas (@extract_str _ _ _ FS _ text name b) (@extract_str _ _ _ (rewritten FS read') _ text' name b').
  Proof. exact (extract_str_layout FS read' same_tokens layout_parse layout text text' name b b'). Qed.
  (** nor in what the program prints and writes, nor in whether it fails *)
  Theorem C59_program (C : Console) stdin' args : same_stdin (@stdin_text C) stdin' ->
    same_run (@main _ _ _ FS _ C args) (@main _ _ _ (rewritten FS read') _ (retyped C stdin') args).
  Proof. intro S. exact (main_layout FS read' same_tokens layout_parse layout C stdin' S args). Qed.
End C59.
Print Assumptions C59_reading.
Print Assumptions C59_convert.
Print Assumptions C59_convert_str.
Print Assumptions C59_extract.
Print Assumptions C59_extract_str.
Print Assumptions C59_program.

(** ** Files with real texts, in two layouts *)
Definition main_text := "@namespace(""org"") protocol Main {
  import idl ""a.avdl"";
  /** Two of them. */
  record P { A left; /* the other */ union { null, A } right = null; }
  P swap(P p);
}".
Definition main_text' := "@ namespace ( ""org"" ) protocol Main{import idl""a.avdl"";// a line
/** Two of them. */record P{A left;union{null,A}right=null;}P swap(P p);}#".
Definition a_avdl := "namespace org; enum A { X, Y } = X;".
Definition a_avdl' := "namespace
org /* here */ ;
enum A{X,Y}=X;".
Definition world_texts := [("/p/main.avdl", main_text); ("/p/a.avdl", a_avdl)].
Definition world_texts' := [("/p/main.avdl", main_text'); ("/p/a.avdl", a_avdl')].
Definition world_canonical (p : string) : option string := if str_mem p (keys world_texts) then Some p else None.
Lemma world_finite : forall p c, world_canonical p = Some c -> In c (keys world_texts).
Proof.
  intros p c. unfold world_canonical. destruct (str_mem p (keys world_texts)) eqn:E; [|discriminate]. intro Ec. injection Ec as <-.
  unfold str_mem in E. apply existsb_exists in E. destruct E as (x & Hx & Ex). apply String.eqb_eq in Ex. now subst.
Qed.
Definition world : FileSystem :=
  {| fs_join := fun d n => (d ++ "/" ++ n)%string;
     fs_exists := fun p => str_mem p (keys world_texts);
     fs_canonical := world_canonical; fs_files := keys world_texts; fs_finite := world_finite;
     fs_read := fun p => assoc p world_texts;
     fs_parent := parent; fs_file_name := fun p => Some (base_name p);
     fs_cwd := Some "/p"; fs_is_dir := fun p => str_mem p ["/p"]; fs_content := fun p => [FileEntry "main.avdl"; FileEntry "a.avdl"] |}.
Definition no_json : JsonParser := {| parse_json := fun _ => None |}.
Definition the_text_parser : Parser := text_parser (H := plain_messages).

Lemma same_tokens_cut t t' : kept (cut (chars (until_sub t))) = kept (cut (chars (until_sub t'))) -> same_tokens t t'.
Proof.
  intro K. exists (until_sub t), (until_sub t'), (cut (chars (until_sub t))), (cut (chars (until_sub t'))).
  repeat split; try apply FileProofs.until_visible; try apply cut_spec. exact K.
Qed.
Example C59_sample_layout : only_layout (H := no_json) (fun p => assoc p world_texts) (fun p => assoc p world_texts').
Proof.
  intro p. cbn [assoc world_texts world_texts']. destruct (String.eqb p "/p/main.avdl"); [|destruct (String.eqb p "/p/a.avdl"); [|exact I]];
    (split; [apply same_tokens_cut; vm_compute; reflexivity|reflexivity]).
Qed.
(** What comes out, in both cases *)
Definition main_json : json := JObj
  [("messages", JObj [("swap", JObj [("request", JArr [JObj [("name", JStr "p"); ("type", JStr "P")]]); ("response", JStr "P")])]);
   ("namespace", JStr "org"); ("protocol", JStr "Main");
   ("types", JArr
     [JObj [("default", JStr "X"); ("name", JStr "A"); ("symbols", JArr [JStr "X"; JStr "Y"]); ("type", JStr "enum")];
      JObj [("doc", JStr "Two of them.");
            ("fields", JArr [JObj [("name", JStr "left"); ("type", JStr "A")];
                             JObj [("default", JNull); ("name", JStr "right"); ("type", JArr [JStr "null"; JStr "A"])]]);
            ("name", JStr "P"); ("type", JStr "record")]])].
Definition world' := rewritten world (fun p => assoc p world_texts').
Example C59_sample : option_map io_json (match snd (@convert ascii_chars few_floats the_text_parser world no_json "/p/main.avdl" new_builder) with Ok o => Some o | _ => None end) = Some main_json.
Proof. vm_compute. reflexivity. Qed.
Example C59_sample_both : same_result same_json (@convert ascii_chars few_floats the_text_parser world no_json "/p/main.avdl" new_builder)
  (@convert ascii_chars few_floats the_text_parser world' no_json "/p/main.avdl" new_builder).
Proof. exact (C59_convert (H := ascii_chars) (H0 := few_floats) (H1 := plain_messages) (H2 := no_json) world _ C59_sample_layout "/p/main.avdl" new_builder new_builder ltac:(split; reflexivity)). Qed.
(** A directory: the schemas of each file in turn, A twice *)
Example C59_sample_directory : match snd (@extract ascii_chars few_floats the_text_parser world' no_json "/p" new_builder) with
                               | Ok o => map nm_name (so_schemas o) = ["A"; "A"; "P"]
                               | Err _ => False
                               end.
Proof. vm_compute. reflexivity. Qed.
Definition text_console : Console :=
  {| stdin_text := Some main_text; pretty := fun j => match j with JObj l => match assoc "protocol" l with Some (JStr s) => s | _ => "{}" end | _ => "" end;
     can_write := fun _ => true; can_create := fun _ => true |}.
Example C59_sample_program :
  let run := @main ascii_chars few_floats the_text_parser world no_json text_console ["idl"; "-"; "out.avpr"] in
  let run' := @main ascii_chars few_floats the_text_parser world' no_json (retyped text_console (Some main_text')) ["idl"; "-"; "out.avpr"] in
  same_run run run' /\ run_error run = None /\ run_writes run' = [("out.avpr", ("Main" ++ line_end)%string)].
Proof.
  split; [|vm_compute; auto]. apply (C59_program (H := ascii_chars) (H0 := few_floats) (H1 := plain_messages) (H2 := no_json) world _ C59_sample_layout). apply same_tokens_cut. vm_compute. reflexivity.
Qed.
(** The same complaint at another place *)
Example C59_sample_error :
  match @parse_idl ascii_chars few_floats the_text_parser "t" "schema null?;", @parse_idl ascii_chars few_floats the_text_parser "t" "schema  null ?;" with
  | Err (WalkError NullableNull p), Err (WalkError NullableNull p') => p = mkSpan "t" 7 /\ p' = mkSpan "t" 8
  | _, _ => False
  end.
Proof. vm_compute. split; reflexivity. Qed.
(** Names that are not defined are reported in both layouts *)
Example C59_sample_undefined :
  match snd (@convert_str ascii_chars few_floats the_text_parser world no_json "protocol P { record R { X x; Y y; } }" "t" new_builder),
        snd (@convert_str ascii_chars few_floats the_text_parser world no_json "protocol P { record R {
             X x; Y y; } }" "t" new_builder) with
  | Err (Undefined d), Err (Undefined d') => d <> d' /\ SpecRefs.reports d ["X"; "Y"] /\ SpecRefs.reports d' ["X"; "Y"]
  | _, _ => False
  end.
Proof. vm_compute. split; [discriminate|]. split; left; reflexivity. Qed.

(** ** One space more *)
Lemma visible_tokens t t' : visible_part t t -> visible_part t' t' -> kept (cut (chars t)) = kept (cut (chars t')) -> same_tokens t t'.
Proof. intros V V' K. exists t, t', (cut (chars t)), (cut (chars t')). split; [exact V|]. split; [exact V'|]. split; [apply cut_spec|]. split; [apply cut_spec|exact K]. Qed.
Lemma layout_refl `{JsonParser} FS : only_layout (@fs_read FS) (@fs_read FS).
Proof. intro p. destruct (fs_read p); [|exact I]. split; [apply same_tokens_cut; reflexivity|reflexivity]. Qed.
Lemma rewritten_same FS : rewritten FS (@fs_read FS) = FS.
Proof. destruct FS. reflexivity. Qed.

(** White space put between two tokens of a text leaves the JSON as it is, whatever it
    imports.  The SUB character ends a text, hence there must be none. *)
Theorem C59_white_space `{Unicode} `{Floats} `{LexerMessages} `{FileSystem} `{JsonParser} name a b la lb w bd :
  let text := of_chars (a ++ b) in let text' := of_chars (a ++ w :: b) in
  a_text a -> a_text b -> In w white -> cut (a ++ b) = la ++ lb -> concat (map snd la) = a ->
  ~ (w = line_feed /\ exists v, a = v ++ [carriage_return]) -> (b = [] -> forall t, ~ In (None, t) la) ->
  visible_part text text -> visible_part text' text' ->
  same_result same_json (@convert_str _ _ text_parser _ _ text name bd) (@convert_str _ _ text_parser _ _ text' name bd).
Proof.
  intros text text' Ha Hb Hw E Ea Hcr Hn V V'.
  rewrite <- (rewritten_same H2) at 2. apply C59_convert_str; [apply layout_refl| |split; reflexivity].
  apply visible_tokens; [exact V|exact V'|]. subst text text'.
  assert (Sw : scalar w) by (vm_compute in Hw; unfold scalar; intuition (subst; lia)).
  rewrite !chars_of_chars by (try (apply Forall_app; split); try assumption; constructor; assumption).
  symmetry. exact (kept_insert w a b la lb Hw E Ea Hcr Hn).
Qed.
Print Assumptions C59_white_space.
Lemma all_visible t : until_sub t = t -> visible_part t t.
Proof. intro E. rewrite <- E at 2. apply FileProofs.until_visible. Qed.
Example C59_white_space_sample : let a := chars "protocol P{import idl" in let b := chars """a.avdl"";}" in
  same_result same_json (@convert_str ascii_chars few_floats the_text_parser world no_json (of_chars (a ++ b)) "t" new_builder)
    (@convert_str ascii_chars few_floats the_text_parser world no_json (of_chars (a ++ 10%N :: b)) "t" new_builder)
  /\ match snd (@convert_str ascii_chars few_floats the_text_parser world no_json (of_chars (a ++ 10%N :: b)) "t" new_builder) with Ok _ => True | Err _ => False end.
Proof.
  assert (T : forall s, forallb (fun c => c <? 128)%N (chars s) = true -> a_text (chars s)).
  { intros s E. apply Forall_forall. intros c Hc. rewrite forallb_forall in E. specialize (E c Hc). apply N.ltb_lt in E. unfold scalar. lia. }
  intros a b. split; [|vm_compute; exact I].
  apply (C59_white_space (H := ascii_chars) (H0 := few_floats) (H1 := plain_messages) (H2 := world) (H3 := no_json)) with (la := firstn 7 (cut (a ++ b))) (lb := skipn 7 (cut (a ++ b))).
  1, 2: apply T; vm_compute; reflexivity.
  - vm_compute. tauto.
  - symmetry. apply firstn_skipn.
  - vm_compute. reflexivity.
  - intros [_ [v E]]. apply (f_equal (fun l => last l 0%N)) in E. rewrite last_last in E. vm_compute in E. discriminate.
  - intro E. vm_compute in E. discriminate.
  - apply all_visible. vm_compute. reflexivity.
  - apply all_visible. vm_compute. reflexivity.
Qed.
