(** C85: whether the namespace of a declaration is given in an annotation or in
    its name does not matter, from the texts of the files to the output. *)
From Verif Require Import FloatText IdlParser Compile Cli.
From Verif Require Import SpecUnder SpecFile SampleFile SampleWorld PropSource PropLayout PropFloat PropNaming.
From Verif Require Import ReaderProofs FileProofs RewriteProofs ReadingProofs CutProofs LexerProofs UnderProofs.

Section C85.
  Context `{Unicode} `{Floats} `{LexerMessages} `{JsonParser}.
  Existing Instance text_parser.

  (** [@namespace("q") record N {...}] is read as [record q.N {...}], with the same
      warnings, or refused for the same reason; and so for enums, fixed types and protocols *)
  Theorem C85_reading file file' text text' : same_under text text' ->
    match parse_idl file text, parse_idl file' text' with
    | Ok (f, items, ws), Ok (f', items', ws') =>
        same_main f f' /\ Forall2 (fun i i' => match i, i' with
                                               | DImport k p _, DImport k' p' _ => k = k' /\ p = p'
                                               | DType s _ _, DType s' _ _ => unplaced s = unplaced s'
                                               | _, _ => False
                                               end) items items'
        /\ lasting ws = lasting ws'
    | Err SyntaxError, Err SyntaxError => True
    | Err (WalkError e _), Err (WalkError e' _) => e = e'
    | _, _ => False
    end.
  Proof.
    intro S. pose proof (under_parse file file' text text' S) as R. destruct (parse_idl file text) as [[[f i] w]|e], (parse_idl file' text') as [[[f' i'] w']|e']; [|contradiction|destruct e; contradiction|exact R].
    destruct R as (Rf & Ri & Rw). split; [now apply unplaced_same_main|]. split; [|exact Rw].
    clear -Ri. revert i' Ri. induction i as [|[k p sp|s sp fs] i IH]; intros [|[k' p' sp'|s' sp' fs'] i'] Ri; try discriminate; constructor; cbn in Ri; try (injection Ri; auto; fail); apply IH; now injection Ri.
  Qed.

  Variable FS : FileSystem.
  Variable read' : string -> option string.
  Hypothesis under : only_changed same_under (@fs_read FS) read'.

  (** Doing so in any of the files changes nothing in the JSON *)
  Theorem C85_convert path b b' : same_builder b b' -> same_result same_json (@convert _ _ _ FS _ path b) (@convert _ _ _ (rewritten FS read') _ path b').
  Proof. exact (convert_layout FS read' same_under under_parse under path b b'). Qed.
  Theorem C85_convert_str text text' name b b' : same_under text text' -> same_builder b b' ->
    same_result same_json (@convert_str _ _ _ FS _ text name b) (@convert_str _ _ _ (rewritten FS read') _ text' name b').
  Proof. exact (convert_str_layout FS read' same_under under_parse under text text' name b b'). Qed.
  (** nor in the schemas, of a file or of a directory *)
  Theorem C85_extract path b b' : same_builder b b' -> same_result same_schemas (@extract _ _ _ FS _ path b) (@extract _ _ _ (rewritten FS read') _ path b').
  Proof. exact (extract_layout FS read' same_under under_parse under path b b'). Qed.
  Theorem C85_extract_str text text' name b b' : same_under text text' -> same_builder b b' ->
    same_result same_schemas (@extract_str _ _ _ FS _ text name b) (@extract_str _ _ _ (rewritten FS read') _ text' name b').
  Proof. exact (extract_str_layout FS read' same_under under_parse under text text' name b b'). Qed.
  (** nor in what the program prints and writes, nor in whether it fails *)
  Theorem C85_program (C : Console) stdin' args : same_input same_under (@stdin_text C) stdin' ->
    same_run (@main _ _ _ FS _ C args) (@main _ _ _ (rewritten FS read') _ (retyped C stdin') args).
  Proof. intro S. exact (main_layout FS read' same_under under_parse under C stdin' S args). Qed.
End C85.
Print Assumptions C85_reading.
Print Assumptions C85_convert.
Print Assumptions C85_convert_str.
Print Assumptions C85_extract.
Print Assumptions C85_extract_str.
Print Assumptions C85_program.

(** ** A file written in two ways *)
Definition annotated_text := "@namespace(""org"") @v(1) protocol P { import idl ""a.avdl""; @namespace(""lib"") record R { R? r; int i = 1; } @w(2) @namespace(""x.y"") @aliases([""Old""]) enum E { A, B } = B; @namespace(""z"") fixed F(3); record S { lib.R r; lib.A a; } S get(z.F f, x.y.E e); }".
Definition dotted_text := "@v(1) protocol org.P { import idl ""a.avdl""; record lib.R { R? r; int i = 1; } @w(2) @aliases([""Old""]) enum x.y.E { A, B } = B; fixed z.F(3); record S { lib.R r; lib.A a; } S get(z.F f, x.y.E e); }".
Definition annotated_import := "namespace org; @namespace(""lib"") enum A { X, Y } = X; record B { lib.A a; }".
Definition dotted_import := "namespace org; enum lib.A { X, Y } = X; record B { lib.A a; }".
Definition annotated_texts := [("/p/main.avdl", annotated_text); ("/p/a.avdl", annotated_import)].
Definition dotted_texts := [("/p/main.avdl", dotted_text); ("/p/a.avdl", dotted_import)].

Definition has_doc (p : piece) : bool := match fst p with Some k => same_type k T_DocComment | None => false end.
Lemma undocumented_by l : existsb has_doc l = false -> undocumented l.
Proof.
  intros E t Ht. assert (X : existsb has_doc l = true) by (apply existsb_exists; exists (Some T_DocComment, t); auto). congruence.
Qed.
Lemma derived_by text p : @parse_text plain_messages "" text = Some p -> file_rule true "" (visible (stream (cut (chars text)) 0 0)) (pr_tree p).
Proof. intro E. exact (proj1 (proj1 (parse_text_some _ _ _) E)). Qed.
Lemma under_by_parse `{Floats} t t' :
  match @parse_text plain_messages "" (until_sub t), @parse_text plain_messages "" (until_sub t') with
  | Some p, Some p' => under_tree (unnumber_tree (forget_tree (pr_tree p))) (unnumber_tree (forget_tree (pr_tree p')))
  | _, _ => False
  end ->
  existsb has_doc (cut (chars (until_sub t))) || existsb has_doc (cut (chars (until_sub t'))) = false -> same_under t t'.
Proof.
  intros P D. apply Bool.orb_false_iff in D as [D D'].
  destruct (parse_text "" (until_sub t)) as [p|] eqn:E; [|contradiction]. destruct (parse_text "" (until_sub t')) as [p'|] eqn:E'; [|contradiction].
  eapply (su_moved t t' (until_sub t) (until_sub t')); try apply until_visible; try apply cut_spec; try (apply undocumented_by; assumption); try (apply derived_by; eassumption); exact P.
Qed.
Ltac moved_at n q :=
  match goal with |- @under_namespace _ ?l _ _ _ =>
    let b := eval cbv in (firstn n l) in let r := eval cbv in (skipn n l) in
    match r with ?a :: ?r => apply (@un_moved the_floats b a r _ _ q);
      [reflexivity|refine (proj1 (@walk_json_means the_floats _ (JStr q) [] _)); vm_compute; reflexivity|intros (x & Hx & Ex); cbn in Hx; repeat destruct Hx as [<-|Hx]; try contradiction; vm_compute in Ex; discriminate Ex|reflexivity|split; vm_compute; reflexivity] end end.
Ltac under_file := apply (@under_by_parse the_floats);
  [ match goal with |- match ?a with _ => _ end => let a' := eval vm_compute in a in change a with a' end; cbv beta iota;
    match goal with |- match ?a with _ => _ end => let a' := eval vm_compute in a in change a with a' end; cbv beta iota;
    match goal with |- @under_tree _ ?a ?b => let a' := eval vm_compute in a in let b' := eval vm_compute in b in change (@under_tree the_floats a' b') end
  | vm_compute; reflexivity ].
Example C85_sample_texts : @same_under the_floats annotated_text dotted_text.
Proof.
  under_file. apply ut_protocol; [moved_at 0 "org"|].
  apply Forall2_cons; [apply ui_same|]. apply Forall2_cons; [apply ui_named, un_record; moved_at 0 "lib"|]. apply Forall2_cons; [apply ui_named, un_enum; moved_at 1 "x.y"|].
  apply Forall2_cons; [apply ui_named, un_fixed; moved_at 0 "z"|]. repeat (apply Forall2_cons; [apply ui_same|]). apply Forall2_nil.
Qed.
Example C85_sample_import : @same_under the_floats annotated_import dotted_import.
Proof.
  under_file. apply ut_schema. apply Forall2_cons; [apply ui_named, un_enum; moved_at 0 "lib"|]. apply Forall2_cons; [apply ui_same|apply Forall2_nil].
Qed.
Example C85_sample_files : @only_changed no_json (@same_under the_floats) (fun p => assoc p annotated_texts) (fun p => assoc p dotted_texts).
Proof.
  intro p. cbn [assoc annotated_texts dotted_texts]. destruct (String.eqb p "/p/main.avdl"); [split; [exact C85_sample_texts|reflexivity]|].
  destruct (String.eqb p "/p/a.avdl"); [|exact I]. split; [exact C85_sample_import|reflexivity].
Qed.
Definition annotated_world := rewritten world (fun p => assoc p annotated_texts).
Definition dotted_world := rewritten annotated_world (fun p => assoc p dotted_texts).
Example C85_sample : match made annotated_world with Some j => made dotted_world = Some j | None => False end.
Proof. vm_compute. reflexivity. Qed.
Example C85_sample_program :
  let run := @main ascii_chars the_floats the_text_parser annotated_world no_json (retyped text_console (Some annotated_text)) ["idl"; "-"; "out.avpr"] in
  let run' := @main ascii_chars the_floats the_text_parser dotted_world no_json (retyped text_console (Some dotted_text)) ["idl"; "-"; "out.avpr"] in
  same_run run run' /\ run_error run = None /\ run_writes run' = [("out.avpr", ("P" ++ line_end)%string)].
Proof.
  split; [|vm_compute; auto]. exact (C85_program (H := ascii_chars) (H0 := the_floats) (H1 := plain_messages) (H2 := no_json) annotated_world _ C85_sample_files (retyped text_console (Some annotated_text)) (Some dotted_text) _ C85_sample_texts).
Qed.
(** A word that names a primitive type is refused in both places *)
Example C85_sample_refused :
  match @parse_idl ascii_chars the_floats the_text_parser "t" "@namespace(""org"") record `int` {}", @parse_idl ascii_chars the_floats the_text_parser "t" "record org.`int` {}" with
  | Err (WalkError e _), Err (WalkError e' _) => e = e'
  | _, _ => False
  end.
Proof. vm_compute. reflexivity. Qed.

(** Documentation is left out above for a reason: between the annotations and the
    declaration it is not found, and so it starts to count when the only annotation
    before it moves into the name. *)
Theorem C85_documented_refuted :
  exists (U : Unicode) (F : Floats) (M : LexerMessages) text text' t t' s s' items items' w,
    file_rule true "" (visible (stream (cut (chars text)) 0 0)) t /\ file_rule true "" (visible (stream (cut (chars text')) 0 0)) t'
    /\ under_tree (unnumber_tree (forget_tree t)) (unnumber_tree (forget_tree t'))
    /\ @parse_idl _ _ text_parser "" text = Ok (INamed [s], items, [w])
    /\ @parse_idl _ _ text_parser "" text' = Ok (INamed [s'], items', [])
    /\ s = SRecord "R" (Some "a") None [] false [] [] /\ s' = SRecord "R" (Some "a") (Some "d") [] false [] [].
Proof.
  exists ascii_chars, the_floats, plain_messages, "@namespace(""a"") /** d */ record R {}", "/** d */ record a.R {}".
  assert (P : forall text t, match @parse_text plain_messages "" text with Some p => pr_tree p = t | None => False end -> file_rule true "" (visible (stream (cut (chars text)) 0 0)) t).
  { intros text t E. destruct (parse_text "" text) as [p|] eqn:Ep; [|contradiction]. subst t. now apply derived_by. }
  eexists _, _, _, _, _, _, _.
  split; [apply P; vm_compute; reflexivity|]. split; [apply P; vm_compute; reflexivity|].
  split; [|split; [vm_compute; reflexivity|split; [vm_compute; reflexivity|split; reflexivity]]].
  match goal with |- @under_tree _ ?a ?b => let a' := eval vm_compute in a in let b' := eval vm_compute in b in change (@under_tree the_floats a' b') end.
  apply ut_schema. apply Forall2_cons; [apply ui_named, un_record; moved_at 0 "a"|apply Forall2_nil].
Qed.
Print Assumptions C85_documented_refuted.
