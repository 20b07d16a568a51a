(** C64: a file is refused exactly if it does not follow the grammar or one of its
    declarations gives a reason, and the error is that reason, at its place. *)
From Verif Require Import SpecDefects IdlParser SpecRewrite SampleFile PropSource PropLayout.
From Verif Require Import FileProofs ReadingProofs GrammarSound GrammarComplete DefectProofs.

Section C64.
  Context `{Unicode} `{Floats} `{LexerMessages}.
  Existing Instance text_parser.

  (** The tree of a text, up to the end-of-file character U+001A, by the grammar *)
  Definition tree_of (f text : string) (t : idl_tree) : Prop := exists v, visible_part text v /\ file_rule true f (tokens_of v) t.

  (** An error names a defect of the file. *)
  Theorem C64_reason f text e p : parse_idl f text = Err (WalkError e p) -> exists t, tree_of f text t /\ defect t e p.
  Proof.
    unfold parse_idl. destruct (antlr_parse f (until_sub text)) as [r|] eqn:E; [|discriminate]. destruct (walk_idl_file _ _) as [[[file items] evs]|[e' p']] eqn:W; [discriminate|].
    intro X. injection X as -> ->. apply parse_text_some in E as (E & _). exists (pr_tree r). split; [exists (until_sub text); split; [apply until_visible|exact E]|]. eapply file_err. exact W.
  Qed.
  (** A file with a defect is refused. *)
  Theorem C64_refused f text t e p : tree_of f text t -> defect t e p -> exists e' p', parse_idl f text = Err (WalkError e' p') /\ defect t e' p'.
  Proof.
    intros (v & Hv & Ht) D. apply visible_until in Hv. subst v. unfold parse_idl. cbn [antlr_parse text_parser]. destruct (parse_text f (until_sub text)) as [r|] eqn:E.
    - apply parse_text_some in E as (E & _). rewrite (file_rule_unique _ _ _ _ E Ht). destruct (walk_idl_file (pr_tokens r) t) as [[[file items] evs]|[e' p']] eqn:W; [destruct (file_fine _ _ _ _ e p W D)|].
      exists e', p'. split; [reflexivity|]. eapply file_err. exact W.
    - exfalso. assert (X : exists p, parse_text f (until_sub text) = Some p) by (eexists (mkParsed _ t _); apply parse_text_some; cbn; split; [exact Ht|]; split; reflexivity). destruct X as (r & X). congruence.
  Qed.
  (** A file that follows the grammar and has no defect is accepted, and no other. *)
  Theorem C64_accepted f text : (exists r, parse_idl f text = Ok r) <-> exists t, tree_of f text t /\ forall e p, ~ defect t e p.
  Proof.
    split.
    - intros (r & E). unfold parse_idl in E. destruct (antlr_parse f (until_sub text)) as [p|] eqn:Ep; [|discriminate]. destruct (walk_idl_file _ _) as [[[file items] evs]|[e' p']] eqn:W; [|discriminate].
      apply parse_text_some in Ep as (Ep & _). exists (pr_tree p). split; [exists (until_sub text); split; [apply until_visible|exact Ep]|]. intros e q. eapply file_fine. exact W.
    - intros (t & (v & Hv & Ht) & D). apply visible_until in Hv. subst v. unfold parse_idl. cbn [antlr_parse text_parser]. destruct (parse_text f (until_sub text)) as [p|] eqn:E.
      + apply parse_text_some in E as (E & _). rewrite (file_rule_unique _ _ _ _ E Ht). destruct (walk_idl_file (pr_tokens p) t) as [[[file items] evs]|[e' p']] eqn:W; [eauto|]. destruct (D e' p'). eapply file_err. exact W.
      + exfalso. assert (X : exists p, parse_text f (until_sub text) = Some p) by (eexists (mkParsed _ t _); apply parse_text_some; cbn; split; [exact Ht|]; split; reflexivity). destruct X as (p & X). congruence.
  Qed.
  (** The error is a syntax error exactly if there is no tree. *)
  Theorem C64_syntax f text : parse_idl f text = Err SyntaxError <-> forall t, ~ tree_of f text t.
  Proof.
    unfold parse_idl. cbn [antlr_parse text_parser]. split.
    - destruct (parse_text f (until_sub text)) as [p|] eqn:E; [destruct (walk_idl_file _ _) as [[[file items] evs]|[e' p']]; discriminate|]. intros _ t (v & Hv & Ht). apply visible_until in Hv. subst v.
      assert (X : exists p, parse_text f (until_sub text) = Some p) by (eexists (mkParsed _ t _); apply parse_text_some; cbn; split; [exact Ht|]; split; reflexivity). destruct X as (p & X). congruence.
    - intro N. destruct (parse_text f (until_sub text)) as [p|] eqn:E; [|reflexivity]. exfalso. apply parse_text_some in E as (E & _). apply (N (pr_tree p)). exists (until_sub text). split; [apply until_visible|exact E].
  Qed.
End C64.
Print Assumptions C64_reason.
Print Assumptions C64_refused.
Print Assumptions C64_accepted.
Print Assumptions C64_syntax.

(** ** Examples *)
Section Examples.
  Existing Instance ascii_chars. Existing Instance few_floats. Existing Instance the_text_parser.
  Definition complaint (text : string) : option (walk_error * N) := match parse_idl "t" text with Err (WalkError e p) => Some (e, sp_offset p) | _ => None end.
  (** One file for each reason, and where it is *)
  Example C64_sample : map complaint
    ["@x(99999999999999999999) protocol P { }"; "@namespace(1) protocol P { }"; "protocol P { @aliases([1]) fixed F(1); }"; "protocol P { record R { int @order(""x"") a; } }";
     "protocol P { @name(""x"") fixed F(1); }"; "protocol int { }"; "protocol P { fixed F(99999999999); }"; "protocol P { enum E { A, B, A } }"; "protocol P { enum E { A } = B; }";
     "protocol P { record R { int a; long b, a; } }"; "protocol P { void f(int a, int a); }"; "protocol P { int f() oneway; }"; "protocol P { record R { int a = ""x""; } }";
     "protocol P { record R { @a(1) S s; } }"; "schema union { int, union { long } };"; "schema union { date, int };"; "schema null?;"; "schema decimal(0);"; "schema array<decimal(2, 3)>;"; "schema int;"]%string
    = [Some (BadInteger, 3%N); Some (BadNamespace, 0%N); Some (BadAliases, 13%N); Some (BadOrder, 28%N);
       Some ((ReservedProperty "name"), 13%N); Some ((IllegalName "int"), 9%N); Some (BadFixedSize, 21%N); Some ((DuplicateSymbol "A"), 28%N);
       Some ((UnknownEnumDefault "B"), 28%N); Some ((DuplicateField "a"), 39%N); Some ((DuplicateParameter "a"), 27%N); Some ((OnewayResponse "f"), 13%N);
       Some ((InvalidDefault "a"), 32%N); Some (AnnotatedReference, 24%N); Some (NestedUnion, 20%N); Some ((DuplicateInUnion "int"), 21%N);
       Some (NullableNull, 7%N); Some (BadPrecision, 15%N); Some (BadScale, 24%N); None].
  Proof. vm_compute. reflexivity. Qed.
  (** The last file has no defect; the one before has its. *)
  Example C64_sample_fine : exists t, tree_of "t" "schema int;" t /\ forall e p, ~ defect t e p.
  Proof. apply (C64_accepted (H1 := plain_messages)). eexists. vm_compute. reflexivity. Qed.
  Example C64_sample_defect : exists t, tree_of "t" "schema array<decimal(2, 3)>;" t /\ defect t BadScale (mkSpan "t" 24).
  Proof. apply (C64_reason (H1 := plain_messages)). vm_compute. reflexivity. Qed.
  (** A default of the wrong kind, from the definition *)
  Example C64_sample_default ns n p q : bad_field ns (mkFieldDecl n (FullType p [] (PtNullable (BPrimitive KInt p) false)) [mkVariable n (here "a") [] (Some JTNull) q]) (InvalidDefault "a") q.
  Proof.
    eapply bf_variable; [left; reflexivity|]. set (v := mkVariable n (here "a") [] (Some JTNull) q).
    change (InvalidDefault "a") with (InvalidDefault (identifier_text (v_ident v))). change q with (v_place v). apply (bv_default _ _ v JTNull JNull (SPrim PInt)); [reflexivity|constructor| |reflexivity].
    apply vt_other; [discriminate|]. eapply dn_annotated; [apply (dn_primitive ns KInt p); [reflexivity|discriminate]|constructor|reflexivity|]. constructor. intros k (a & [] & _).
  Qed.
  (** Two branches of one kind *)
  Example C64_sample_union p q r s : bad_plain None (PtUnion [FullType p [] (PtNullable (BPrimitive KDate q) false); FullType r [] (PtNullable (BPrimitive KInt s) false)]) (DuplicateInUnion "int") r.
  Proof.
    assert (N : forall k, ~ mentioned [] k) by (intros k (a & [] & _)).
    apply (bp_duplicate _ [] (FullType p [] (PtNullable (BPrimitive KDate q) false)) [] (FullType r [] (PtNullable (BPrimitive KInt s) false)) [] (SLogical LDate []) (SPrim PInt)); try reflexivity.
    - eapply dn_annotated; [apply (dn_logical None KDate LDate q); reflexivity|constructor|reflexivity|now constructor].
    - eapply dn_annotated; [apply (dn_primitive None KInt s); [reflexivity|discriminate]|constructor|reflexivity|now constructor].
  Qed.
End Examples.
