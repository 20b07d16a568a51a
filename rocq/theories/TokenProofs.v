(** White space ends every token but a comment with nothing in it. *)
From Verif Require Import SpecLexer LexerProofs ShapeProofs CutProofs SpaceProofs.
From Coq Require Import Lia.

(** The kinds of token that start with a slash, and with a quote *)
Definition slashed : list token_type := [T_DocComment; T_EmptyComment; T_MultiLineComment; T_SingleLineComment].
Lemma slash_first k t : shaped k (47%N :: t) ->
  doc_comment (47%N :: t) \/ (k = T_EmptyComment) \/ block_comment (47%N :: t) \/ line_comment (47%N :: t).
Proof.
  intro H. assert (K : In k slashed).
  { pose proof H as H2. apply shaped_rule in H2 as (r & Hi & Hl). apply lang_advance in Hl.
    assert (A : forallb (fun kr => existsb (same_type (fst kr)) slashed || dead (advance 47%N (snd kr))) lexer_rules = true) by (vm_compute; reflexivity).
    rewrite forallb_forall in A. specialize (A _ Hi). cbn [fst snd] in A. apply orb_true_iff in A as [A|A].
    - apply existsb_exists in A as (k' & Hk & E). unfold same_type in E. destruct (token_type_dec k k'); [subst; exact Hk|discriminate].
    - assert (dead (advance 47%N r) = false) by (apply dead_lang; eauto). congruence. }
  rewrite shaped_in in H. destruct K as [<-|[<-|[<-|[<-|[]]]]]; cbn in H; tauto.
Qed.
Lemma quote_first k t : shaped k (34%N :: t) -> string_literal (34%N :: t).
Proof.
  intro H. assert (K : k = T_StringLiteral).
  { pose proof H as H2. apply shaped_rule in H2 as (r & Hi & Hl). apply lang_advance in Hl.
    assert (A : forallb (fun kr => same_type (fst kr) T_StringLiteral || dead (advance 34%N (snd kr))) lexer_rules = true) by (vm_compute; reflexivity).
    rewrite forallb_forall in A. specialize (A _ Hi). cbn [fst snd] in A. apply orb_true_iff in A as [A|A].
    - unfold same_type in A. destruct (token_type_dec k T_StringLiteral); [assumption|discriminate].
    - assert (dead (advance 34%N r) = false) by (apply dead_lang; eauto). congruence. }
  subst k. apply shaped_in in H. exact H.
Qed.

Lemma doc_form t : doc_comment t <-> exists q, t = 47%N :: 42%N :: 42%N :: q /\ first_end q.
Proof.
  assert (E : chars "/**" = [47; 42; 42]%N) by (vm_compute; reflexivity). split.
  - intros (p & q & -> & Hp & Hq). unfold spelled, exactly in Hp. subst p. rewrite E. exists q. auto.
  - intros (q & -> & Hq). exists [47; 42; 42]%N, q. split; [reflexivity|]. split; [symmetry; exact E|exact Hq].
Qed.
Lemma block_form t : block_comment t <-> exists c q, t = 47%N :: 42%N :: c :: q /\ c <> 42%N /\ first_end q.
Proof.
  assert (E : chars "/*" = [47; 42]%N) by (vm_compute; reflexivity). split.
  - intros (p & q & -> & Hp & c1 & q2 & -> & (c & -> & Hc) & Hq). unfold spelled, exactly in Hp. subst p. rewrite E. exists c, q2. auto.
  - intros (c & q & -> & Hc & Hq). exists [47; 42]%N, (c :: q). split; [reflexivity|]. split; [symmetry; exact E|]. exists [c], q. split; [reflexivity|]. split; [eauto|exact Hq].
Qed.
Lemma first_end_once s x : first_end s -> first_end (s ++ x) -> x = [].
Proof. intros (b & -> & _) (b' & _ & F). apply (F b x). rewrite <- app_assoc. reflexivity. Qed.

Lemma line_ends_agree m0 e0 x mm e : Forall not_line_end m0 -> Forall not_line_end mm -> (exists c r, e0 = c :: r /\ ~ not_line_end c) ->
  m0 ++ e0 ++ x = mm ++ e -> (exists c r, e = c :: r /\ ~ not_line_end c) -> e = e0 ++ x.
Proof.
  intros H0. revert mm. induction H0 as [|c m0 Hc H0 IH]; intros mm Hm He0 E He; cbn in E.
  - destruct mm as [|d mm]; [auto|]. exfalso. destruct He0 as (c & r & -> & Hc). cbn in E. injection E as -> _. inversion Hm; subst. contradiction.
  - destruct mm as [|d mm].
    + exfalso. destruct He as (c' & r & -> & Hc'). cbn in E. injection E as -> _. contradiction.
    + cbn in E. injection E as -> E. inversion Hm; subst. eauto.
Qed.

(** A token that goes on over white space is a comment with nothing in it that
    becomes a documentation comment, or a line comment that takes a line feed as
    part of its end *)
Lemma token_over_white k0 t k m w y : shaped k0 t -> t <> [] -> k0 <> T_EmptyComment -> In w white -> shaped k (t ++ m ++ w :: y) ->
  w = line_feed /\ exists v, t ++ m = v ++ [carriage_return].
Proof.
  intros H0 Ht Hk Hw H.
  assert (Hx : forall x, m ++ w :: y = x -> x <> []) by (intros x <-; destruct m; discriminate).
  destruct (white_inside _ _ w H Hw ltac:(rewrite !in_app_iff; right; right; left; reflexivity)) as [[_ D]|[[_ D]|[[_ D]|[[_ D]|[_ D]]]]].
  - apply doc_form in D as (q & E & Hq). destruct t as [|c0 t0]; [congruence|]. pose proof E as E'. cbn in E'. injection E' as -> _.
    destruct (slash_first _ _ H0) as [D|[D|[D|D]]]; [|congruence| |].
    + apply doc_form in D as (q0 & E0 & Hq0). rewrite E0 in E. cbn in E. injection E as E. subst q. destruct (Hx _ eq_refl (first_end_once _ _ Hq0 Hq)).
    + apply block_form in D as (c & q0 & E0 & Hc & _). rewrite E0 in E. cbn in E. injection E as E _. congruence.
    + apply line_comment_form in D as (mm & e & E0 & _). rewrite E0 in E. discriminate.
  - apply block_form in D as (c & q & E & Hc & Hq). destruct t as [|c0 t0]; [congruence|]. pose proof E as E'. cbn in E'. injection E' as -> _.
    destruct (slash_first _ _ H0) as [D|[D|[D|D]]]; [|congruence| |].
    + apply doc_form in D as (q0 & E0 & Hq0). rewrite E0 in E. cbn in E. injection E as E _. congruence.
    + apply block_form in D as (c' & q0 & E0 & Hc' & Hq0). rewrite E0 in E. cbn in E. injection E as -> E. subst q. destruct (Hx _ eq_refl (first_end_once _ _ Hq0 Hq)).
    + apply line_comment_form in D as (mm & e & E0 & _). rewrite E0 in E. discriminate.
  - apply line_comment_form in D as (mm & e & E & Hm & He). destruct t as [|c0 t0]; [congruence|]. pose proof E as E'. cbn in E'. injection E' as -> _.
    destruct (slash_first _ _ H0) as [D|[D|[D|D]]]; [|congruence| |].
    + apply doc_form in D as (q0 & E0 & _). rewrite E0 in E. discriminate.
    + apply block_form in D as (c & q0 & E0 & _). rewrite E0 in E. discriminate.
    + apply line_comment_form in D as (m0 & e0 & E0 & Hm0 & He0). rewrite E0 in *. cbn in E. injection E as E. rewrite <- app_assoc in E.
      assert (L : forall e, (e = [10%N] \/ e = [13%N] \/ e = [13; 10]%N) -> exists c r, e = c :: r /\ ~ not_line_end c).
      { intros e' [->|[->| ->]]; do 2 eexists; (split; [reflexivity|]); unfold not_line_end, line_feed, carriage_return; intros [A B]; congruence. }
      pose proof (line_ends_agree _ _ _ _ _ Hm0 Hm (L _ He0) E (L _ He)) as F.
      destruct He0 as [->|[->| ->]]; destruct He as [->|[->| ->]]; cbn in F; try discriminate; injection F as F; try (destruct m; discriminate).
      destruct m as [|c m]; [|injection F as _ F; destruct m; discriminate]. cbn in F. injection F as <- _. split; [reflexivity|]. exists (47%N :: 47%N :: m0). rewrite app_nil_r. reflexivity.
  - exfalso. destruct D as (c & E & _). apply (f_equal (@length N)) in E. rewrite !app_length in E. destruct t; [congruence|]. cbn in E. lia.
  - exfalso. apply string_literal_form in D as (mm & E & Hm). destruct t as [|c0 t0]; [congruence|]. pose proof E as E'. cbn in E'. injection E' as -> _.
    apply quote_first, string_literal_form in H0 as (m0 & E0 & Hm0). rewrite E0 in E. cbn in E. injection E as E. rewrite <- app_assoc in E.
    pose proof (quote_at_chars m0 ([34%N] ++ m ++ w :: y) Hm0) as Q. pose proof (quote_at_chars mm [34%N] Hm) as Q'. rewrite E, Q' in Q. cbn in Q. injection Q as Q.
    destruct (app_both _ _ _ _ E ltac:(lia)) as [_ E2]. cbn in E2. injection E2 as E2. destruct m; discriminate.
Qed.

(** After white space the cutting starts afresh *)
Lemma cut_resumes w a : In w white -> (forall t, ~ In (None, t) (cut a)) -> (forall t, ~ In (Some T_EmptyComment, t) (cut a)) ->
  ~ (w = line_feed /\ exists v, a = v ++ [carriage_return]) -> forall b, cut (a ++ w :: b) = cut a ++ (Some T_WS, [w]) :: cut b.
Proof.
  intros Hw Hn He Hcr b. apply cut_iff. pose proof (cut_spec a) as H. induction H as [|k t rest l Ht Hl H IH|t rest l Ht Hl H IH].
  - cbn [app]. change (w :: b) with ([w] ++ b). constructor; [discriminate|exact (white_alone w b Hw)|apply cut_spec].
  - cbn [app]. rewrite <- app_assoc. constructor; [exact Ht| |].
    + destruct Hl as (S & M & F). split; [exact S|]. split; [|exact F]. intros k2 t2 rest2 E S2. destruct (Nat.le_gt_cases (length t2) (length t)) as [L|L]; [exact L|]. exfalso.
      rewrite app_assoc in E. destruct (app_cases _ _ _ _ E) as [(m & E2 & Em)|(m & E2 & Em & Hm)].
      * destruct m as [|c m].
        -- rewrite app_nil_r in E2. subst t2. specialize (M k2 (t ++ rest) [] ltac:(rewrite app_nil_r; reflexivity) S2). lia.
        -- cbn [app] in Em. injection Em as <- ->. subst t2. rewrite <- app_assoc in S2. apply Hcr.
           apply (token_over_white k t k2 rest w m S Ht); [|exact Hw|exact S2]. intros ->. exact (He t (or_introl eq_refl)).
      * specialize (M k2 t2 m E2 S2). lia.
    + apply IH.
      * intros t' Hi. exact (Hn t' (or_intror Hi)).
      * intros t' Hi. exact (He t' (or_intror Hi)).
      * intros [Ew [v Ev]]. apply Hcr. split; [exact Ew|]. exists (t ++ v). rewrite Ev, app_assoc. reflexivity.
  - exfalso. exact (Hn t (or_introl eq_refl)).
Qed.

(** Tokens with white space between them are these tokens *)
Fixpoint spaced (w : N) (l : list (token_type * list N)) : list N :=
  match l with [] => [] | (_, t) :: l => t ++ w :: spaced w l end.
Lemma cut_spaced w l : In w white -> w <> line_feed -> (forall k t, In (k, t) l -> cut t = [(Some k, t)] /\ k <> T_EmptyComment) ->
  cut (spaced w l) = flat_map (fun kt => [(Some (fst kt), snd kt); (Some T_WS, [w])]) l.
Proof.
  intros Hw Hlf. induction l as [|[k t] l IH]; intro H; [apply cut_iff; constructor|]. cbn [spaced flat_map fst snd app].
  destruct (H k t (or_introl eq_refl)) as [E Hk]. rewrite cut_resumes; [|exact Hw| | |tauto]; rewrite E.
  - cbn [app]. rewrite IH; [reflexivity|]. intros k' t' Hi. apply H. right. exact Hi.
  - intros t' [X|[]]. discriminate.
  - intros t' [X|[]]. injection X as X _. contradiction.
Qed.
