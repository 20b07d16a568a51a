(** C81: whether the namespace of a name is written out or left to its surroundings
    does not matter, from the texts of the files to the output. *)
From Verif Require Import FloatText IdlParser Compile Cli.
From Verif Require Import SpecNaming SpecFile SampleFile SampleWorld PropSource PropLayout PropFloat.
From Verif Require Import ReaderProofs TypeProofs LiteralsProofs FileProofs RewriteProofs ReadingProofs CutProofs LexerProofs NamingProofs.

Section C81.
  Context `{Unicode} `{Floats} `{LexerMessages} `{JsonParser}.
  Existing Instance text_parser.

  (** Two texts with the same tokens, but for names that mean the same where they stand,
      are read as the same declarations with the same warnings, or refused for the same reason *)
  Theorem C81_reading file file' text text' : same_naming text text' ->
    match parse_idl file text, parse_idl file' text' with
    | Ok (f, items, ws), Ok (f', items', ws') =>
        same_main f f' /\ Forall2 (fun i i' => match i, i' with
                                               | DImport k p _, DImport k' p' _ => k = k' /\ p = p'
                                               | DType s _ _, DType s' _ _ => unplaced s = unplaced s'
                                               | _, _ => False
                                               end) items items'
        /\ lasting ws = lasting ws'
    | Err SyntaxError, Err SyntaxError => True
    | Err (WalkError e _), Err (WalkError e' _) => e = e'
    | _, _ => False
    end.
  Proof.
    intro S. pose proof (naming_parse file file' text text' S) as R. destruct (parse_idl file text) as [[[f i] w]|e], (parse_idl file' text') as [[[f' i'] w']|e']; [|contradiction|destruct e; contradiction|exact R].
    destruct R as (Rf & Ri & Rw). split; [now apply unplaced_same_main|]. split; [|exact Rw].
    clear -Ri. revert i' Ri. induction i as [|[k p sp|s sp fs] i IH]; intros [|[k' p' sp'|s' sp' fs'] i'] Ri; try discriminate; constructor; cbn in Ri; try (injection Ri; auto; fail); apply IH; now injection Ri.
  Qed.

  Variable FS : FileSystem.
  Variable read' : string -> option string.
  Hypothesis naming : only_changed same_naming (@fs_read FS) read'.

  (** Writing names differently in any of the files changes nothing in the JSON *)
  Theorem C81_convert path b b' : same_builder b b' -> same_result same_json (@convert _ _ _ FS _ path b) (@convert _ _ _ (rewritten FS read') _ path b').
  Proof. exact (convert_layout FS read' same_naming naming_parse naming path b b'). Qed.
  Theorem C81_convert_str text text' name b b' : same_naming text text' -> same_builder b b' ->
    same_result same_json (@convert_str _ _ _ FS _ text name b) (@convert_str _ _ _ (rewritten FS read') _ text' name b').
  Proof. exact (convert_str_layout FS read' same_naming naming_parse naming text text' name b b'). Qed.
  (** nor in the schemas, of a file or of a directory *)
  Theorem C81_extract path b b' : same_builder b b' -> same_result same_schemas (@extract _ _ _ FS _ path b) (@extract _ _ _ (rewritten FS read') _ path b').
  Proof. exact (extract_layout FS read' same_naming naming_parse naming path b b'). Qed.
  Theorem C81_extract_str text text' name b b' : same_naming text text' -> same_builder b b' ->
    same_result same_schemas (@extract_str _ _ _ FS _ text name b) (@extract_str _ _ _ (rewritten FS read') _ text' name b').
  Proof. exact (extract_str_layout FS read' same_naming naming_parse naming text text' name b b'). Qed.
  (** nor in what the program prints and writes, nor in whether it fails *)
  Theorem C81_program (C : Console) stdin' args : same_input same_naming (@stdin_text C) stdin' ->
    same_run (@main _ _ _ FS _ C args) (@main _ _ _ (rewritten FS read') _ (retyped C stdin') args).
  Proof. intro S. exact (main_layout FS read' same_naming naming_parse naming C stdin' S args). Qed.
End C81.
Print Assumptions C81_reading.
Print Assumptions C81_convert.
Print Assumptions C81_convert_str.
Print Assumptions C81_extract.
Print Assumptions C81_extract_str.
Print Assumptions C81_program.

(** ** A file written in two ways *)
Definition short_text := "@namespace(""org"") protocol P { import idl ""a.avdl""; record R { A a = ""X""; union { null, lib.B } u; S? s; } error E {} @namespace(""lib"") record B { A? a; org.R r; } fixed lib.S(4); R get(array<org.E> l) throws org.E; }".
Definition long_text := "@namespace(""org"") protocol org.P { import idl ""a.avdl""; record org.R { org.A a = ""X""; union { null, lib.B } u; org.S? s; } error org.E {} @namespace(""lib"") record lib.B { lib.A? a; org.R r; } fixed lib.S(4); org.R get(array<E> l) throws E; }".
Definition short_import := "namespace org; enum A { X, Y } = X; enum S { Z } enum lib.A { X }".
Definition long_import := "namespace org; enum org.A { X, Y } = X; enum `org`.S { Z } enum lib.A { X }".
Definition short_texts := [("/p/main.avdl", short_text); ("/p/a.avdl", short_import)].
Definition long_texts := [("/p/main.avdl", long_text); ("/p/a.avdl", long_import)].

Lemma naming_by_parse `{Floats} t t' :
  match @parse_text plain_messages "" (until_sub t), @parse_text plain_messages "" (until_sub t') with
  | Some p, Some p' => same_names (forget_tree (pr_tree p)) (forget_tree (pr_tree p'))
  | _, _ => False
  end ->
  Forall2 same_or_names (kept (cut (chars (until_sub t)))) (kept (cut (chars (until_sub t')))) -> same_naming t t'.
Proof.
  intros P K. exists (until_sub t), (until_sub t'), (cut (chars (until_sub t))), (cut (chars (until_sub t'))).
  repeat split; try apply until_visible; try apply cut_spec; [exact K|]. intros file u u' U U'.
  assert (A : forall s w, file_rule true file (visible (stream (cut (chars s)) 0 0)) w -> forall p, @parse_text plain_messages "" s = Some p -> forget_tree (pr_tree p) = forget_tree w).
  { intros s w W p E. destruct (parse_text_kept "" file s s p eq_refl E) as (p2 & E2 & _ & <-).
    assert (E3 : @parse_text plain_messages file s = Some (mkParsed (doc_tokens (stream (cut (chars s)) 0 0)) w (@lexer_warnings plain_messages [] (cut (chars s))))) by (apply parse_text_some; repeat split; exact W).
    rewrite E3 in E2. injection E2 as <-. reflexivity. }
  destruct (parse_text "" (until_sub t)) as [p|] eqn:E; [|contradiction]. destruct (parse_text "" (until_sub t')) as [p'|] eqn:E'; [|contradiction].
  rewrite <- (A _ _ U _ E), <- (A _ _ U' _ E'). exact P.
Qed.
Lemma reference_by ns i i' : reference i None ns = reference i' None ns -> same_reference ns i i'.
Proof.
  intro E. destruct (DenoteProofs.reference_denotes i None ns) as (n & q & R & E1), (DenoteProofs.reference_denotes i' None ns) as (n' & q' & R' & E2).
  exists (n, q). split; [exact R|]. rewrite E, E2 in E1. now injection E1 as <- <-.
Qed.
Section Declared.
  Let U := ascii_chars.
  Let F := @float_texts usual_powers.
  Local Existing Instances U F.
  Lemma declared_by p ns l (i i' : located) : In "namespace" (special p) -> w_place i = w_place i' ->
    match walk_schema_properties l (context_of p) with
    | Ok (sp, _) => extract_name (identifier_text i) = extract_name (identifier_text i')
                    /\ opt_or (compute_namespace (identifier_text i) (sp_namespace sp)) ns = opt_or (compute_namespace (identifier_text i') (sp_namespace sp)) ns
    | Err _ => False
    end -> same_declared ns l i i'.
  Proof.
    intros S P E. destruct (walk_schema_properties l (context_of p)) as [[sp evs]|e] eqn:W; [|contradiction]. split; [exact P|].
    pose proof (DeclProofs.compute_declares p i l ns sp evs S W) as A. pose proof (DeclProofs.compute_declares p i' l ns sp evs S W) as B. destruct E as [En Eq]. rewrite <- En, <- Eq in B.
    intros n q. split; intro D.
    - destruct (DefectProofs.declares_det _ _ _ _ _ _ _ A D) as [<- <-]. exact B.
    - destruct (DefectProofs.declares_det _ _ _ _ _ _ _ B D) as [<- <-]. exact A.
  Qed.
  Lemma declared_in p ns l (i : located) n q : In "namespace" (special p) -> declares i l ns n q ->
    match walk_schema_properties l (context_of p) with
    | Ok (sp, _) => q = opt_or (compute_namespace (identifier_text i) (sp_namespace sp)) ns
    | Err _ => True
    end.
  Proof.
    intros S D. destruct (walk_schema_properties l (context_of p)) as [[sp evs]|e] eqn:W; [|exact I].
    pose proof (DeclProofs.compute_declares p i l ns sp evs S W) as A. now destruct (DefectProofs.declares_det _ _ _ _ _ _ _ A D) as [_ <-].
  Qed.
End Declared.

Definition the_floats := @float_texts usual_powers.
Ltac declared p := apply (declared_by p); [left; reflexivity|reflexivity|vm_compute; split; reflexivity].
Ltac inside p D := apply (declared_in p) in D; [|left; reflexivity]; vm_compute in D; subst.
Ltac one_reference := apply reference_by; vm_compute; reflexivity.
Ltac one_type := repeat first [apply st_full|apply sp_array|apply sp_map|apply sp_union|apply sl_cons|apply sl_nil|apply sp_base, sb_primitive|apply sp_base, sb_reference; one_reference].
Ltac one_field := repeat (apply Forall2_cons; [split; [reflexivity|]; split; [one_type|reflexivity]|]); apply Forall2_nil.
Ltac one_statement := first
  [ apply ss_import
  | apply ss_named, sn_record; [declared OnRecord|let n := fresh in let q := fresh in let D := fresh in intros n q D; inside OnRecord D; one_field]
  | apply ss_named, sn_enum; declared OnEnum
  | apply ss_named, sn_fixed; declared OnFixed
  | apply ss_message, sm_message; [first [apply sr_void|apply sr_type; one_type]|one_field|repeat (apply Forall2_cons; [split; [one_reference|reflexivity]|]); apply Forall2_nil] ].
Ltac one_file := apply (@naming_by_parse the_floats);
  [ match goal with |- match ?a with _ => _ end => let a' := eval vm_compute in a in change a with a' end; cbv beta iota;
    match goal with |- match ?a with _ => _ end => let a' := eval vm_compute in a in change a with a' end; cbv beta iota;
    match goal with |- @same_names _ ?a ?b => let a' := eval vm_compute in a in let b' := eval vm_compute in b in change (@same_names the_floats a' b') end
  | match goal with |- Forall2 _ ?a ?b => let l := eval vm_compute in a in let l' := eval vm_compute in b in change (Forall2 same_or_names l l') end;
    repeat (apply Forall2_cons; [first [left; reflexivity|right; split; reflexivity]|]); apply Forall2_nil ].

Example C81_sample_names : @same_naming the_floats short_text long_text.
Proof.
  one_file. apply sf_protocol; [declared OnProtocol|]. intros n q D. inside OnProtocol D.
  repeat (apply Forall2_cons; [one_statement|]). apply Forall2_nil.
Qed.
Example C81_sample_import : @same_naming the_floats short_import long_import.
Proof.
  one_file. apply sf_schema; [apply sx_none|]. repeat (apply Forall2_cons; [one_statement|]). apply Forall2_nil.
Qed.
Example C81_sample_files : @only_changed no_json (@same_naming the_floats) (fun p => assoc p short_texts) (fun p => assoc p long_texts).
Proof.
  intro p. cbn [assoc short_texts long_texts]. destruct (String.eqb p "/p/main.avdl"); [split; [exact C81_sample_names|reflexivity]|].
  destruct (String.eqb p "/p/a.avdl"); [|exact I]. split; [exact C81_sample_import|reflexivity].
Qed.
(** What comes out, in both cases *)
Definition short_world := rewritten world (fun p => assoc p short_texts).
Definition long_world := rewritten short_world (fun p => assoc p long_texts).
Definition made (w : FileSystem) : option json :=
  option_map io_json (match snd (@convert ascii_chars the_floats the_text_parser w no_json "/p/main.avdl" new_builder) with Ok o => Some o | _ => None end).
Example C81_sample : match made short_world with Some j => made long_world = Some j | None => False end.
Proof. vm_compute. reflexivity. Qed.
Example C81_sample_both : same_result same_json (@convert ascii_chars the_floats the_text_parser short_world no_json "/p/main.avdl" new_builder)
  (@convert ascii_chars the_floats the_text_parser long_world no_json "/p/main.avdl" new_builder).
Proof. exact (C81_convert (H := ascii_chars) (H0 := the_floats) (H1 := plain_messages) (H2 := no_json) short_world _ C81_sample_files "/p/main.avdl" new_builder new_builder ltac:(split; reflexivity)). Qed.
Example C81_sample_program :
  let run := @main ascii_chars the_floats the_text_parser short_world no_json (retyped text_console (Some short_text)) ["idl"; "-"; "out.avpr"] in
  let run' := @main ascii_chars the_floats the_text_parser long_world no_json (retyped text_console (Some long_text)) ["idl"; "-"; "out.avpr"] in
  same_run run run' /\ run_error run = None /\ run_writes run' = [("out.avpr", ("P" ++ line_end)%string)].
Proof.
  split; [|vm_compute; auto]. exact (C81_program (H := ascii_chars) (H0 := the_floats) (H1 := plain_messages) (H2 := no_json) short_world _ C81_sample_files (retyped text_console (Some short_text)) (Some long_text) _ C81_sample_names).
Qed.
(** A name that cannot be used is refused in both ways of writing it *)
Example C81_sample_refused :
  match @parse_idl ascii_chars the_floats the_text_parser "t" "namespace org; record `int` {}", @parse_idl ascii_chars the_floats the_text_parser "t" "namespace org; record org.`int` {}" with
  | Err (WalkError e _), Err (WalkError e' _) => e = e'
  | _, _ => False
  end.
Proof. vm_compute. reflexivity. Qed.
