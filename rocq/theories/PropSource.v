(** C56-C58: from the text of a file to its parse tree. *)
From Coq Require Import ZArith Lia.
From Verif Require Import SpecLiterals LiteralsProofs IdlParser.
From Verif Require Import SpecLayout SpecLexer TokenProofs CutProofs SpaceProofs GrammarSound GrammarComplete LayoutProofs ReadingProofs.

(** Warnings that only give the text *)
Definition plain_messages : LexerMessages := {| recognition_message _ t := of_chars t |}.

(** Texts of code points, as Rust has them *)
Definition a_text (l : list N) : Prop := Forall scalar l.

(** ** C56: tokens *)

(** Every text is taken apart in one way: again and again the longest token, of two
    kinds the first in the list; where there is none, a recognition error *)
Theorem C56_tokens s l : cut s = l <-> taken_apart s l.
Proof. exact (cut_iff s l). Qed.
Print Assumptions C56_tokens.
Theorem C56_nothing_lost s : concat (map snd (cut s)) = s.
Proof. exact (cut_whole s). Qed.
Print Assumptions C56_nothing_lost.
Example C56_tokens_sample : cut (chars "enum E{A/*x*/}#;1e") =
  [(Some T_Enum, chars "enum"); (Some T_WS, chars " "); (Some T_IdentifierToken, chars "E"); (Some T_LBrace, chars "{");
   (Some T_IdentifierToken, chars "A"); (Some T_MultiLineComment, chars "/*x*/"); (Some T_RBrace, chars "}"); (None, chars "#");
   (Some T_Semicolon, chars ";"); (Some T_IntegerLiteral, chars "1"); (Some T_IdentifierToken, chars "e")].
Proof. vm_compute. reflexivity. Qed.

(** A name is never a word of the language, a number or [NaN] *)
Theorem C56_names s t k : In (Some T_IdentifierToken, t) (cut s) -> shaped k t -> k = T_IdentifierToken.
Proof. exact (identifier_only s t k). Qed.
Print Assumptions C56_names.
Example C56_names_sample : map fst (cut (chars "NaN enumx enum Infinity")) =
  [Some T_FloatingPointLiteral; Some T_WS; Some T_IdentifierToken; Some T_WS; Some T_Enum; Some T_WS; Some T_FloatingPointLiteral].
Proof. vm_compute. reflexivity. Qed.

(** White space ends every token but a comment with nothing in it: what comes before
    and what comes after are taken apart on their own *)
Theorem C56_white_space_ends w a : In w white -> (forall t, ~ In (None, t) (cut a)) -> (forall t, ~ In (Some T_EmptyComment, t) (cut a)) ->
  ~ (w = line_feed /\ exists v, a = v ++ [carriage_return]) -> forall b, cut (a ++ w :: b) = cut a ++ (Some T_WS, [w]) :: cut b.
Proof. exact (cut_resumes w a). Qed.
Print Assumptions C56_white_space_ends.
Theorem C56_any_tokens w l : In w white -> w <> line_feed ->
  (forall k t, In (k, t) l -> t <> [] /\ longest k t [] /\ k <> T_EmptyComment) ->
  cut (spaced w l) = flat_map (fun kt => [(Some (fst kt), snd kt); (Some T_WS, [w])]) l.
Proof.
  intros Hw Hlf H. apply cut_spaced; [exact Hw|exact Hlf|]. intros k t Hi. destruct (H k t Hi) as (Ht & Hl & Hk). split; [|exact Hk].
  apply cut_iff. rewrite <- (app_nil_r t) at 1. constructor; [exact Ht|exact Hl|constructor].
Qed.
Print Assumptions C56_any_tokens.
Lemma alone t k : cut t = [(Some k, t)] -> t <> [] /\ longest k t [].
Proof.
  intro E. apply cut_iff in E. remember t as s eqn:Es in E at 1. remember [(Some k, t)] as l0 eqn:El. destruct E as [|k' t' rest l Ht Hl H|]; [discriminate| |discriminate].
  injection El as -> -> ->. split; [exact Ht|]. inversion H; subst. exact Hl.
Qed.
Lemma alone_not_empty t k : cut t = [(Some k, t)] -> k <> T_EmptyComment -> t <> [] /\ longest k t [] /\ k <> T_EmptyComment.
Proof. intros E Hk. destruct (alone t k E). auto. Qed.
Example C56_any_tokens_sample : cut (chars "record R /*x*/ -1.5e3 ") =
  [(Some T_Record, chars "record"); (Some T_WS, [32%N]); (Some T_IdentifierToken, chars "R"); (Some T_WS, [32%N]);
   (Some T_MultiLineComment, chars "/*x*/"); (Some T_WS, [32%N]); (Some T_FloatingPointLiteral, chars "-1.5e3"); (Some T_WS, [32%N])].
Proof.
  exact (C56_any_tokens 32%N [(T_Record, chars "record"); (T_IdentifierToken, chars "R"); (T_MultiLineComment, chars "/*x*/"); (T_FloatingPointLiteral, chars "-1.5e3")]
    ltac:(vm_compute; tauto) ltac:(vm_compute; discriminate)
    ltac:(intros k t [E|[E|[E|[E|[]]]]]; injection E as <- <-; (apply alone_not_empty; [vm_compute; reflexivity|discriminate]))).
Qed.

(** A comment with nothing in it is not what it seems: up to the end of the next
    comment everything is one documentation comment *)
Theorem C56_empty_comment s rest : first_end s -> exists l, cut (chars "/**/" ++ s ++ rest) = (Some T_DocComment, chars "/**/" ++ s) :: l.
Proof. exact (empty_comment_swallows s rest). Qed.
Print Assumptions C56_empty_comment.
Definition declared (t : option parsed) : option (list string) :=
  match t with
  | Some p => match pr_tree p with
              | TreeProtocol _ _ _ l | TreeSchema _ _ l =>
                  Some (map (fun i => match i with ItImport _ x _ => x | ItMessage m => md_name m
                                      | ItNamed (NRecord r) _ => r_ident r | ItNamed (NEnum e) _ => e_ident e | ItNamed (NFixed x) _ => x_ident x end) l)
              end
  | None => None
  end.
(** One comment with nothing in it is like a space; with two, the declarations
    between them are gone, and there is no warning *)
Theorem C56_empty_comment_is_blank_refuted : let text c := ("protocol P { " ++ c ++ " record A { } " ++ c ++ " record B { } }")%string in
  let read s := @parse_text plain_messages "p.avdl" s in
  declared (read (text " ")) = Some ["A"; "B"]%string
  /\ declared (read (text "/**/")) = Some ["B"]%string
  /\ option_map pr_lexer_warnings (read (text "/**/")) = Some [].
Proof. vm_compute. auto. Qed.
Print Assumptions C56_empty_comment_is_blank_refuted.

(** A line comment on a last line that no line end ends is a recognition error *)
Theorem C56_last_comment m : Forall not_line_end m -> cut (chars "//" ++ m) = [(None, chars "//" ++ m)].
Proof. exact (last_comment_spoilt m). Qed.
Print Assumptions C56_last_comment.
Example C56_last_comment_sample :
  option_map pr_lexer_warnings (@parse_text plain_messages "p.avdl" "protocol P { } // the end") = Some ["// the end"]%string.
Proof. vm_compute. reflexivity. Qed.

(** ** C57: the grammar *)
Section C57.
  Context `{LexerMessages}.
  (** A file is read as [p] if and only if the grammar derives its tree from its
      tokens, where [void] and the names of the primitive types are not references *)
  Theorem C57_reading file text p : parse_text file text = Some p <->
    file_rule true file (tokens_of text) (pr_tree p)
    /\ pr_tokens p = doc_tokens (stream (cut (chars text)) 0 0) /\ pr_lexer_warnings p = lexer_warnings [] (cut (chars text)).
  Proof. exact (parse_text_some file text p). Qed.
  (** It is accepted if and only if the grammar as written derives some tree *)
  Theorem C57_accepted file text : (exists p, parse_text file text = Some p) <-> exists t, file_rule false file (tokens_of text) t.
  Proof. exact (parse_text_accepts file text). Qed.
End C57.
Print Assumptions C57_reading.
Print Assumptions C57_accepted.
(** Tokens have one reading *)
Theorem C57_one_reading file ts t1 t2 : file_rule true file ts t1 -> file_rule true file ts t2 -> t1 = t2.
Proof. exact (file_rule_unique file ts t1 t2). Qed.
Print Assumptions C57_one_reading.
Example C57_sample : option_map pr_tree (@parse_text plain_messages "p.avdl" "protocol P { int? f(R r) throws E; }") =
  let at_ n := mkSpan "p.avdl" n in
  Some (TreeProtocol 0 [] (mkLocated "P" (at_ 9))
    [ItMessage (mkMessageDecl 3 (at_ 13) [] (Some (PtNullable (BPrimitive KInt (at_ 13)) true)) "f"
       [mkParameter 7 (FullType (at_ 20) [] (PtNullable (BReference "R" (Some (at_ 20))) false)) (mkVariable 8 (mkLocated "r" (at_ 22)) [] None (at_ 22))]
       false [("E"%string, Some (at_ 32))])])%N.
Proof. vm_compute. reflexivity. Qed.
Example C57_sample_refused : @parse_text plain_messages "p.avdl" "protocol P { record NaN { } }" = None.
Proof. vm_compute. reflexivity. Qed.

(** ** C58: layout *)

(** Two texts whose tokens are the same, comments and white space aside, are both
    refused, or are read as the same trees but for the places in them *)
Definition same_reading `{LexerMessages} (file file' text text' : string) : Prop :=
  match parse_text file text, parse_text file' text' with
  | Some p, Some p' => pr_tokens p = pr_tokens p' /\ forget_tree (pr_tree p) = forget_tree (pr_tree p')
  | None, None => True
  | _, _ => False
  end.
Section C58.
  Context `{LexerMessages}.
  Theorem C58_same_tokens file file' text text' : kept (cut (chars text)) = kept (cut (chars text')) -> same_reading file file' text text'.
  Proof.
    intro K. unfold same_reading. destruct (parse_text file text) as [p|] eqn:E.
    - destruct (parse_text_kept _ file' _ _ _ K E) as (p' & -> & A & B). auto.
    - rewrite (parse_text_kept_none _ file' _ _ K E). exact I.
  Qed.
  (** White space between two tokens, or more of it, changes nothing *)
  Theorem C58_white_space file a b la lb w : a_text a -> a_text b -> In w white -> cut (a ++ b) = la ++ lb -> concat (map snd la) = a ->
    ~ (w = line_feed /\ exists v, a = v ++ [carriage_return]) -> (b = [] -> forall t, ~ In (None, t) la) ->
    same_reading file file (of_chars (a ++ b)) (of_chars (a ++ w :: b)).
  Proof.
    intros Ha Hb Hw E Ea Hcr Hn. assert (Sw : scalar w) by (vm_compute in Hw; unfold scalar; intuition (subst; lia)).
    apply C58_same_tokens. rewrite !chars_of_chars by (try (apply Forall_app; split); try assumption; constructor; assumption).
    symmetry. exact (kept_insert w a b la lb Hw E Ea Hcr Hn).
  Qed.
  (** A comment between two tokens, with white space around it, changes nothing *)
  Theorem C58_comment file a b c k w w' : a_text a -> a_text b -> a_text c -> In w white -> In w' white ->
    (forall t, ~ In (None, t) (cut a)) -> (forall t, ~ In (Some T_EmptyComment, t) (cut a)) ->
    ~ (w = line_feed /\ exists v, a = v ++ [carriage_return]) ->
    In k [T_MultiLineComment; T_SingleLineComment] -> longest k c [] -> ~ (w' = line_feed /\ exists v, c = v ++ [carriage_return]) ->
    same_reading file file (of_chars (a ++ w :: b)) (of_chars (a ++ w :: c ++ w' :: b)).
  Proof.
    intros Ha Hb Hc Hw Hw' Hn He Hcr Hk Hl Hcr'.
    assert (S : forall w, In w white -> scalar w) by (intros x Hx; vm_compute in Hx; unfold scalar; intuition (subst; lia)).
    assert (Ec : cut c = [(Some k, c)]).
    { apply cut_iff. rewrite <- (app_nil_r c) at 1. constructor; [|exact Hl|constructor]. intros ->. destruct Hl as (Sh & _).
      apply shaped_in in Sh. destruct Hk as [<-|[<-|[]]]; [apply block_form in Sh as (? & ? & E & _)|apply line_comment_form in Sh as (? & ? & E & _)]; discriminate. }
    apply C58_same_tokens. rewrite !chars_of_chars by (repeat first [apply Forall_app; split|apply Forall_cons]; auto).
    rewrite (cut_resumes w a Hw Hn He Hcr), (cut_resumes w a Hw Hn He Hcr (c ++ w' :: b)).
    rewrite (cut_resumes w' c Hw'), Ec, !kept_app; [cbn [kept]| | |exact Hcr'].
    - destruct Hk as [<-|[<-|[]]]; reflexivity.
    - intros t Hi. rewrite Ec in Hi. destruct Hi as [Hi|[]]. discriminate.
    - intros t Hi. rewrite Ec in Hi. destruct Hi as [Hi|[]]. injection Hi as Hi _. destruct Hk as [<-|[<-|[]]]; discriminate.
  Qed.
End C58.
Print Assumptions C58_same_tokens.
Print Assumptions C58_white_space.
Print Assumptions C58_comment.
Example C58_sample : same_reading (H := plain_messages) "a.avdl" "b.avdl" "protocol P{record R{int?f=1;}}"
  "protocol P // one
   { /* two */ record R { int ? f = 1 ; } }".
Proof. vm_compute. auto. Qed.
Example C58_comment_sample : let a := chars "protocol P {" in let b := chars " }" in let c := chars "/* none yet */" in
  same_reading (H := plain_messages) "a.avdl" "a.avdl" (of_chars (a ++ 10%N :: b)) (of_chars (a ++ 10%N :: c ++ 10%N :: b)).
Proof.
  assert (T : forall s, forallb (fun c => c <? 128)%N (chars s) = true -> a_text (chars s)).
  { intros s E. apply Forall_forall. intros c Hc. rewrite forallb_forall in E. specialize (E c Hc). apply N.ltb_lt in E. unfold scalar. lia. }
  apply (C58_comment (H := plain_messages)) with (k := T_MultiLineComment); try (apply T; vm_compute; reflexivity).
  1, 2: vm_compute; tauto.
  - intros t Hi. vm_compute in Hi. intuition discriminate.
  - intros t Hi. vm_compute in Hi. intuition discriminate.
  - intros [_ [v E]]. apply (f_equal (fun l => last l 0%N)) in E. rewrite last_last in E. vm_compute in E. discriminate.
  - left. reflexivity.
  - apply alone. vm_compute. reflexivity.
  - intros [_ [v E]]. apply (f_equal (fun l => last l 0%N)) in E. rewrite last_last in E. vm_compute in E. discriminate.
Qed.
(** A different token somewhere does change the reading *)
Example C58_sample_different : ~ same_reading (H := plain_messages) "a.avdl" "a.avdl" "protocol P { record R { } }" "protocol P { record S { } }".
Proof. vm_compute. intros [A _]. discriminate. Qed.
