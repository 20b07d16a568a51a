(** C66: an error of the reader is shown at the word of the file that it is about.
    C67: the reader warns of exactly the aliases that are no names and the unions
    with annotations, each at its annotation. *)
From Coq Require Import NArith Lia Permutation.
From Verif Require Import Compile IdlParser SpecRewrite SpecPlaces SampleFile SampleWorld PropSource PropLayout PropDefects PropPlaces.
From Verif Require Import FileProofs ReadingProofs GrammarSound GrammarComplete WhereProofs BlameProofs OddProofs SpecBlame.
From Verif Require Import Sizes SpecSizes.
From Verif Require SpecLiterals SizeProofs JsonTextProofs.

Section Texts.
  Context `{Unicode} `{Floats} `{LexerMessages}.
  Existing Instance text_parser.

  (** ** C66 *)
  Theorem C66_word f text e p : utf8 text -> parse_idl f text = Err (WalkError e p) -> exists word, says f text p word /\ blame e word.
  Proof.
    intros U E. apply C64_reason in E as (t & (v & Hv & Ht) & D). apply visible_until in Hv. subst v.
    destruct (file_points true f (tokens_of (until_sub text)) (word_of_type (until_sub text)) (JsonTextProofs.integer_word (until_sub text)) t e p Ht D) as (x & Hx & -> & B). exists (lx_text x). split; [|exact B]. now apply token_says.
  Qed.

  (** ** C67 *)
  Lemma accepted_events f text file items ws : parse_idl f text = Ok (file, items, ws) -> exists t evs, tree_of f text t /\
    remarked evs (odd t) /\ forall w, In (WalkWarning w) ws <-> In w (warned_of evs).
  Proof.
    unfold parse_idl. cbn [antlr_parse text_parser]. destruct (parse_text f (until_sub text)) as [r|] eqn:E; [|discriminate]. destruct (walk_idl_file _ _) as [[[file' items'] evs]|[e' p']] eqn:W; [|discriminate].
    intro X. injection X as -> -> <-. apply parse_text_some in E as (E & _). exists (pr_tree r), evs. split; [exists (until_sub text); split; [apply until_visible|exact E]|]. split; [eapply file_remarked; exact W|].
    intro w. rewrite !in_app_iff, !in_map_iff. split; [|right; right; eauto]. intros [(x & X & _)|[(x & X & _)|(x & X & Hx)]]; try discriminate. now injection X as ->.
  Qed.
  (** What is warned of is odd, *)
  Theorem C67_reason f text file items ws w : parse_idl f text = Ok (file, items, ws) -> In (WalkWarning w) ws -> exists t, tree_of f text t /\ odd t w.
  Proof. intros E Hw. apply accepted_events in E as (t & evs & Ht & [R _] & K). exists t. split; [exact Ht|]. apply R, K, Hw. Qed.
  (** what is odd is warned of, *)
  Theorem C67_warned f text file items ws t w : parse_idl f text = Ok (file, items, ws) -> tree_of f text t -> odd t w ->
    exists w', same_warning w w' /\ In (WalkWarning w') ws.
  Proof.
    intros E T O. apply accepted_events in E as (t' & evs & Ht & [_ R] & K). assert (t' = t) as ->.
    { destruct Ht as (v & Hv & Ht), T as (v' & Hv' & T). apply visible_until in Hv, Hv'. subst. eapply file_rule_unique; eauto. }
    destruct (R w O) as (w' & S & Hi). exists w'. split; [exact S|]. now apply K.
  Qed.
  (** and the warning is shown at the annotation. *)
  Theorem C67_place f text file items ws w : utf8 text -> parse_idl f text = Ok (file, items, ws) -> In (WalkWarning w) ws -> says f text (warning_place w) "@".
  Proof.
    intros U E Hw. destruct (C67_reason _ _ _ _ _ _ E Hw) as (t & (v & Hv & Ht) & D). apply visible_until in Hv. subst v.
    destruct (file_marked true f (tokens_of (until_sub text)) (word_of_type (until_sub text)) t w Ht D) as (x & Hx & -> & B). rewrite <- B. now apply token_says.
  Qed.
End Texts.
Print Assumptions C66_word.
Print Assumptions C67_reason.
Print Assumptions C67_warned.
Print Assumptions C67_place.

(** ** Compiling: the same for every file that is read *)
Section Compiling.
  Context `{Unicode} `{Floats} `{LexerMessages} `{FileSystem} `{JsonParser}.
  Existing Instance text_parser.
  Theorem C66_compiling dirs label src dir f e p : (forall f text d', involved dirs label src dir f text d' -> utf8 text) ->
    explained dirs label src dir (CannotParse f (WalkError e p)) ->
    exists text d word, involved dirs label src dir f text d /\ says f text p word /\ blame e word.
  Proof. intros U E. inversion E as [f' text d e' I P| | | | |]; subst. destruct (C66_word _ _ _ _ (U _ _ _ I) P) as (word & S & B). eauto 6. Qed.
  Theorem C66_convert path b f e p : (forall x text, fs_read x = Some text -> utf8 text) -> snd (convert path b) = Err (CannotParse f (WalkError e p)) ->
    exists src dir text d word, fs_read path = Some src /\ involved (b_import_dirs b) path src dir f text d /\ says f text p word /\ blame e word.
  Proof.
    intros U E. apply C62_convert in E as [[[X _]|(src & Hr & E)]|[X _]]; try discriminate. apply C66_compiling in E as (text & d & word & I & S & B); [exists src; eauto 10|].
    intros f' text' d' I. destruct I as [|f0 t0 d0 ip ipl q text' I0 Hs Hf Hq]; eauto.
  Qed.
  Theorem C66_convert_str src name b f e p : utf8 src -> (forall x text, fs_read x = Some text -> utf8 text) -> snd (convert_str src name b) = Err (CannotParse f (WalkError e p)) ->
    exists dir text d word, involved (b_import_dirs b) name src dir f text d /\ says f text p word /\ blame e word.
  Proof.
    intros Us U E. apply C62_convert_str in E as [[[X _]|(cwd & _ & E)]|[X _]]; try discriminate. apply C66_compiling in E as (text & d & word & I & S & B); [eauto 10|].
    intros f' text' d' I. destruct I as [|f0 t0 d0 ip ipl q text' I0 Hs Hf Hq]; eauto.
  Qed.
End Compiling.
Print Assumptions C66_compiling.
Print Assumptions C66_convert.
Print Assumptions C66_convert_str.

(** ** Examples *)
Section Examples.
  Existing Instance ascii_chars. Existing Instance few_floats. Existing Instance the_text_parser. Existing Instance world. Existing Instance no_json.
  (** The rest of the text at the place of the error, for one file of each kind *)
  Definition shown (text : string) : option (walk_error * string) :=
    match parse_idl "t" text with Err (WalkError e p) => Some (e, substring (N.to_nat (sp_offset p)) 12 text) | _ => None end.
  Example C66_sample : map shown
    ["protocol P { record R { string s; int a = ""x""; } }"; "protocol P { record R { string s; string `a`, s; } }"; "protocol P { enum E { A, @x(1) A } }"; "schema union { int, @x(1) union { long } };";
     "schema union { date, @x(1) int };"; "protocol P { @x(1) int f() oneway; }"; "protocol P { void f(int a, @x(1) long a); }"; "schema decimal(2, 3);"; "protocol P { fixed F(0x1FFFFFFFF); }"]%string
    = [Some (InvalidDefault "a", """x""; } }"); Some (DuplicateField "s", "s; } }"); Some (DuplicateSymbol "A", "@x(1) A } }"); Some (NestedUnion, "@x(1) union ");
       Some (DuplicateInUnion "int", "@x(1) int };"); Some (OnewayResponse "f", "@x(1) int f("); Some (DuplicateParameter "a", "@x(1) long a"); Some (BadScale, "3);"); Some (BadFixedSize, "0x1FFFFFFFF)")].
  Proof. vm_compute. reflexivity. Qed.
  (** Not every word will do. *)
  Example C66_sample_not : ~ blame (DuplicateField "a") "b" /\ ~ blame BadFixedSize "16" /\ ~ blame BadNamespace "record".
  Proof.
    split; [|split]; intro B; inversion B as [| | | | | | | | | | | | | | | | | |raw why V| | |]; subst; try discriminate.
    apply SizeProofs.verdict_right in V. vm_compute in V. discriminate V.
  Qed.
  Example C66_sample_utf8 : utf8 "protocol P { fixed F(0x1FFFFFFFF); }" /\ says "t" "protocol P { fixed F(0x1FFFFFFFF); }" (mkSpan "t" 21) "0x1FFFFFFFF" /\ blame BadFixedSize "0x1FFFFFFFF".
  Proof.
    split; [|split; [exists "protocol P { fixed F(", "); }"; split; reflexivity|]].
    2: { apply (bl_size _ SizeTooLarge). apply (sv_large "0x1FFFFFFFF" 8589934591 ""); [|now left|lia]. apply SpecLiterals.mag_hex; [now left|]. apply (SizeProofs.spells_read 16 "1" "FFFFFFFF" 8589934591 1); [lia|reflexivity|vm_compute; reflexivity]. }
    exists (chars "protocol P { fixed F(0x1FFFFFFFF); }"). split; [|vm_compute; reflexivity].
    assert (E : forallb (fun c => c <? 128)%N (chars "protocol P { fixed F(0x1FFFFFFFF); }") = true) by (vm_compute; reflexivity).
    apply Forall_forall. intros c Hc. rewrite forallb_forall in E. specialize (E c Hc). apply N.ltb_lt in E. unfold SpecLiterals.scalar. lia.
  Qed.
  (** Through the API *)
  Example C66_sample_convert : snd (convert_str "protocol P { fixed F(0x1FFFFFFFF); }" "t" new_builder) = Err (CannotParse "t" (WalkError BadFixedSize (mkSpan "t" 21))).
  Proof. vm_compute. reflexivity. Qed.
  (** Aliases and unions *)
  Definition warns (text : string) : list walk_warning :=
    match parse_idl "t" text with Ok (_, _, ws) => flat_map (fun w => match w with WalkWarning w => [w] | _ => [] end) ws | _ => [] end.
  Example C67_sample : map warns
    ["protocol P { @aliases([""a-b"", ""c.d"", ""1""]) record R { @b(1) @a(2) union { null, int } u; int @aliases([""""]) @order(""ignore"") i; } }";
     "schema @x(1) array<@y(2) union { int, map<@z(3) union { int }> }>;"; "protocol P { @aliases([""a-b""]) union { int } f(@c(1) union { int } @aliases([""-""]) p); }"]%string
    = [[NonStandardAlias "a-b" (mkSpan "t" 13); NonStandardAlias "1" (mkSpan "t" 13); AnnotationsDropped ["b"; "a"] (mkSpan "t" 54); NonStandardAlias "" (mkSpan "t" 93)];
       [AnnotationsDropped ["z"] (mkSpan "t" 42); AnnotationsDropped ["y"] (mkSpan "t" 19)];
       [AnnotationsDropped ["c"] (mkSpan "t" 47); NonStandardAlias "-" (mkSpan "t" 67)]].
  Proof. vm_compute. reflexivity. Qed.
  (** From the definitions *)
  Example C67_sample_odd : type_name "a.B" /\ ~ type_name "a..B" /\ ~ type_name "" /\ ~ type_name "a-b".
  Proof. rewrite <- !type_name_iff. vm_compute. repeat split; congruence. Qed.
End Examples.
