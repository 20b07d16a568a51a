(** From texts to trees. *)
From Verif Require Import Canon SpecLexer IdlParser.
From Verif Require Import LexerProofs ShapeProofs CutProofs SpaceProofs GrammarSound GrammarComplete LayoutProofs.
From Coq Require Import Lia.

Lemma filler_skipped : filler = skipped.
Proof. reflexivity. Qed.
(** Two tokens of the same form; documentation is the same *)
Definition kin_piece (fm : forms) (p p' : token_type * list N) : Prop :=
  fst p = fst p' /\ form_of fm (fst p) (of_chars (snd p)) = form_of fm (fst p') (of_chars (snd p')) /\ (fst p = T_DocComment -> snd p = snd p').
Lemma kin_pieces_refl fm l : Forall2 (kin_piece fm) l l.
Proof. induction l; constructor; [repeat split|assumption]. Qed.
Lemma kin_pieces_sym fm l l' : Forall2 (kin_piece fm) l l' -> Forall2 (kin_piece fm) l' l.
Proof. induction 1 as [|x y l l' (E & E2 & D) H IH]; constructor; [|exact IH]. split; [now symmetry|]. split; [now symmetry|]. intro K. symmetry. apply D. congruence. Qed.
Definition kin_doc (x y : lexeme) : Prop := lx_type x = T_DocComment -> lx_text x = lx_text y.
Lemma stream_kin fm l : forall l' o o' i, Forall2 (kin_piece fm) (kept l) (kept l') -> Forall2 (fun x y => kin fm x y /\ kin_doc x y) (stream l o i) (stream l' o' i).
Proof.
  induction l as [|[k t] l IH]; intro l'; [|destruct k as [k|]; [destruct (skipped k) eqn:Ek|]].
  - induction l' as [|[k t] l' IH']; intros o o' i E; cbn in *; rewrite ?filler_skipped in *; [constructor|]. destruct k as [k|]; [|apply (IH' o), E]. destruct (skipped k); [apply (IH' o), E|inversion E].
  - intros o o' i E. cbn in *. rewrite ?filler_skipped in *. rewrite Ek in *. exact (IH _ _ _ _ E).
  - induction l' as [|[k' t'] l' IH']; intros o o' i E; cbn in *; rewrite ?filler_skipped in *; rewrite Ek in *; [inversion E|]. destruct k' as [k'|]; [|apply (IH' o), E]. destruct (skipped k'); [apply (IH' o), E|].
    inversion E as [|? ? ? ? K E']; subst. destruct K as (K1 & K2 & K3). cbn in *. subst k'. constructor; [|exact (IH _ _ _ _ E')]. split; [repeat split; exact K2|]. intro D. cbn. now rewrite (K3 D).
  - intros o o' i E. cbn in *. rewrite ?filler_skipped in *. exact (IH _ _ _ _ E).
Qed.
Lemma visible_kin fm l l' : Forall2 (fun x y => kin fm x y /\ kin_doc x y) l l' -> Forall2 (kin fm) (visible l) (visible l').
Proof.
  induction 1 as [|x y l l' [A _] H IH]; cbn; [constructor|]. destruct A as (E & E2). rewrite <- E. destruct (negb (hidden (lx_type x))); [constructor; [split; assumption|assumption]|assumption].
Qed.
(** Tokens that are the same but for the texts of those that are no documentation *)
Definition same_docs (t t' : token) : Prop := tk_kind t = tk_kind t' /\ (tk_kind t = TDocComment -> tk_text t = tk_text t').
Lemma doc_tokens_kin fm l l' : Forall2 (fun x y => kin fm x y /\ kin_doc x y) l l' -> Forall2 same_docs (doc_tokens l) (doc_tokens l').
Proof.
  unfold doc_tokens. intro H. apply Forall2_app; [|repeat constructor]. induction H as [|x y l l' [(E & _) D] H IH]; cbn; constructor; [|exact IH]. split; cbn; [now rewrite E|]. intro K. apply D. destruct (lx_type x); try discriminate K; reflexivity.
Qed.
Lemma doc_tokens_written l l' : Forall2 (fun x y => kin as_written x y /\ kin_doc x y) l l' -> doc_tokens l = doc_tokens l'.
Proof.
  unfold doc_tokens. intro H. f_equal. induction H as [|x y l l' [(E & E2 & _) _] H IH]; cbn; [reflexivity|]. rewrite IH, <- E. f_equal. f_equal. rewrite <- E in E2. destruct (lx_type x); exact E2.
Qed.
Lemma Forall2_firstn_same {A B} (R : A -> B -> Prop) n : forall l l', Forall2 R l l' -> Forall2 R (firstn n l) (firstn n l').
Proof. induction n as [|n IH]; intros l l' H; cbn; [constructor|]. destruct H; constructor; auto. Qed.
Lemma Forall2_rev_same {A B} (R : A -> B -> Prop) l l' : Forall2 R l l' -> Forall2 R (rev l) (rev l').
Proof. induction 1; cbn; [constructor|]. apply Forall2_app; [assumption|]. now repeat constructor. Qed.
Lemma Forall2_lengths {A B} (R : A -> B -> Prop) l l' : Forall2 R l l' -> length l = length l'.
Proof. induction 1; cbn; congruence. Qed.
Lemma scan_same l l' : Forall2 same_docs l l' -> scan_doc l = scan_doc l'.
Proof.
  induction 1 as [|x y l l' (K & D) H IH]; cbn; [reflexivity|]. rewrite <- K. destruct (tk_kind x); try exact IH; try reflexivity. rewrite (D eq_refl). now rewrite (Forall2_lengths _ _ _ H).
Qed.
Lemma extract_same l l' i : Forall2 same_docs l l' -> extract_doc_comment l i = extract_doc_comment l' i.
Proof. intro H. unfold extract_doc_comment. now rewrite (scan_same _ _ (Forall2_rev_same _ _ _ (Forall2_firstn_same _ i _ _ H))). Qed.
Lemma orphaned_same l l' consumed : Forall2 same_docs l l' -> orphaned_doc_comments l consumed = orphaned_doc_comments l' consumed.
Proof.
  intro H. unfold orphaned_doc_comments. rewrite (Forall2_lengths _ _ _ H). apply filter_ext. intro i.
  assert (E : match nth_error l i, nth_error l' i with Some x, Some y => same_docs x y | None, None => True | _, _ => False end).
  { revert l l' H. induction i as [|i IH]; intros l l' H; destruct H; cbn; auto. now apply IH. }
  destruct (nth_error l i) as [x|], (nth_error l' i) as [y|]; try contradiction; [|reflexivity]. destruct E as [E _]. now rewrite E.
Qed.
Lemma visible_length l : length (visible l) <= length l.
Proof. unfold visible. induction l as [|x l IH]; cbn; [lia|]. destruct (negb (hidden (lx_type x))); cbn; lia. Qed.

Section Text.
  Context `{LexerMessages}.
  (** The tokens of a text the grammar is about *)
  Definition tokens_of (text : string) : list lexeme := visible (stream (cut (chars text)) 0 0).

  Lemma parse_text_some file text p : parse_text file text = Some p <->
    file_rule true file (tokens_of text) (pr_tree p) /\ pr_tokens p = doc_tokens (stream (cut (chars text)) 0 0)
    /\ pr_lexer_warnings p = lexer_warnings [] (cut (chars text)).
  Proof.
    unfold parse_text, tokens_of. set (l := stream (cut (chars text)) 0 0).
    rewrite (p_file_fuel file (S (length l)) (visible l)) by (pose proof (visible_length l); lia). split.
    - intro E. destruct (p_file file (S (length (visible l))) (visible l)) as [t|] eqn:Et; [|discriminate]. injection E as <-. cbn. split; [apply p_file_spec, Et|auto].
    - intros (E & Et & Ew). apply p_file_spec in E. rewrite E. destruct p. cbn in *. subst. reflexivity.
  Qed.
  Lemma parse_text_accepts file text : (exists p, parse_text file text = Some p) <-> exists t, file_rule false file (tokens_of text) t.
  Proof.
    rewrite (file_rule_either false true). split.
    - intros [p E]. apply parse_text_some in E as (E & _). eauto.
    - intros [t E]. eexists (mkParsed _ t _). apply parse_text_some. cbn. split; [exact E|]. split; reflexivity.
  Qed.

  (** The same tokens, the same reading *)
  Lemma parse_text_kin fm file file' text text' p : Forall2 (kin_piece fm) (kept (cut (chars text))) (kept (cut (chars text'))) -> parse_text file text = Some p ->
    exists p', parse_text file' text' = Some p' /\ Forall2 same_docs (pr_tokens p) (pr_tokens p') /\ canon_tree fm (pr_tree p') = canon_tree fm (pr_tree p).
  Proof.
    intros K E. apply parse_text_some in E as (E & Et & _).
    pose proof (stream_kin _ _ _ 0%N 0%N 0 K) as A.
    destruct (file_moves fm true true file file' _ _ _ E (visible_kin _ _ _ A)) as (t' & Ht' & F).
    eexists (mkParsed _ t' _). split; [apply parse_text_some; cbn; split; [exact Ht'|split; reflexivity]|]. cbn. split; [rewrite Et; eapply doc_tokens_kin, A|symmetry; exact (F eq_refl)].
  Qed.
  Lemma parse_text_kin_none fm file file' text text' : Forall2 (kin_piece fm) (kept (cut (chars text))) (kept (cut (chars text'))) -> parse_text file text = None -> parse_text file' text' = None.
  Proof.
    intros K E. destruct (parse_text file' text') as [p'|] eqn:E'; [|reflexivity]. destruct (parse_text_kin fm file' file text' text p' (kin_pieces_sym _ _ _ K) E') as (p & Ep & _). congruence.
  Qed.
  Lemma parse_text_kept file file' text text' p : kept (cut (chars text)) = kept (cut (chars text')) -> parse_text file text = Some p ->
    exists p', parse_text file' text' = Some p' /\ pr_tokens p' = pr_tokens p /\ forget_tree (pr_tree p') = forget_tree (pr_tree p).
  Proof.
    intros K E. pose proof E as E0. apply parse_text_some in E0 as (_ & Et & _). destruct (parse_text_kin as_written file file' text text' p ltac:(rewrite K; apply kin_pieces_refl) E) as (p' & A & B & C). rewrite !written_tree in C.
    pose proof A as A0. apply parse_text_some in A0 as (_ & Et' & _). exists p'. split; [exact A|]. split; [|exact C]. rewrite Et, Et'. symmetry. apply doc_tokens_written, stream_kin. rewrite K. apply kin_pieces_refl.
  Qed.
  Lemma parse_text_kept_none file file' text text' : kept (cut (chars text)) = kept (cut (chars text')) -> parse_text file text = None -> parse_text file' text' = None.
  Proof. intro K. apply (parse_text_kin_none as_written). rewrite K. apply kin_pieces_refl. Qed.
End Text.

Lemma kept_app l l' : kept (l ++ l') = kept l ++ kept l'.
Proof. induction l as [|[[k|] t] l IH]; cbn; [reflexivity| |exact IH]. destruct (filler k); cbn; rewrite IH; reflexivity. Qed.
Lemma kept_insert w a b la lb : In w white -> cut (a ++ b) = la ++ lb -> concat (map snd la) = a ->
  ~ (w = line_feed /\ exists v, a = v ++ [carriage_return]) -> (b = [] -> forall t, ~ In (None, t) la) ->
  kept (cut (a ++ w :: b)) = kept (cut (a ++ b)).
Proof. intros Hw E Ea Hcr Hn. rewrite (cut_insert w a b la lb Hw E Ea Hcr Hn), E, !kept_app. reflexivity. Qed.

(** ** Some tokens *)
Lemma piece_longest s l k t : taken_apart s l -> In (Some k, t) l -> exists rest, longest k t rest.
Proof.
  induction 1 as [|k' t' rest l' Ht Hl H IH|t' rest l' Ht Hl H IH]; intros [].
  - injection H0 as -> ->. eauto.
  - auto.
  - discriminate.
  - auto.
Qed.
Lemma before_identifier k P : In (k, P) shapes -> k <> T_IdentifierToken -> comes_before k T_IdentifierToken.
Proof.
  intros Hi Hk. apply (in_map fst) in Hi. cbn in Hi. destruct (before_total k T_IdentifierToken Hi) as [E|[B|B]].
  - vm_compute. tauto.
  - contradiction.
  - exact B.
  - exfalso. destruct B as (a & b & c & E). pose proof kinds_nodup as D. assert (exists x, map fst shapes = x ++ [T_IdentifierToken]) as [x Ex] by (eexists (map fst (removelast shapes)); vm_compute; reflexivity).
    rewrite Ex in E, D. replace (a ++ T_IdentifierToken :: b ++ k :: c) with ((a) ++ T_IdentifierToken :: (b ++ k :: c)) in E by reflexivity.
    apply split_unique in E as [_ E]; [destruct b; discriminate|exact D].
Qed.
(** An identifier has the shape of no other token *)
Lemma identifier_only s t k : In (Some T_IdentifierToken, t) (cut s) -> shaped k t -> k = T_IdentifierToken.
Proof.
  intros Hi Hs. destruct (piece_longest _ _ _ _ (cut_spec s) Hi) as (rest & _ & _ & F).
  destruct (token_type_dec k T_IdentifierToken) as [E|E]; [exact E|]. exfalso. destruct Hs as (P & HP & Hs). apply (F k (before_identifier k P HP E)). exists P. auto.
Qed.

(** [/**/] and what comes after it *)
Lemma empty_comment_swallows s rest : first_end s -> exists l, cut (chars "/**/" ++ s ++ rest) = (Some T_DocComment, chars "/**/" ++ s) :: l.
Proof.
  intros F. assert (S : doc_comment (chars "/**/" ++ s)).
  { exists (chars "/**"), (chars "/" ++ s). split; [vm_compute; reflexivity|]. split; [reflexivity|]. destruct F as (body & -> & F). exists (chars "/" ++ body). split; [apply app_assoc|].
    intros a b E. change (chars "/") with [47%N] in E. change (chars "*/") with [42; 47]%N in *. destruct a as [|c a]; cbn in E; [discriminate|]. injection E as _ E. exact (F a b E). }
  exists (cut rest). apply cut_iff. rewrite app_assoc. constructor; [vm_compute; discriminate| |apply cut_spec]. split; [apply shaped_in; exact S|]. split.
  - intros k t' rest' E Hs. destruct (Nat.le_gt_cases (length t') (length (chars "/**/" ++ s))) as [L|L]; [exact L|]. exfalso.
    destruct (start_of _ _ _ _ E ltac:(lia)) as [m ->].
    assert (K : k = T_DocComment).
    { pose proof Hs as H2. apply shaped_rule in H2 as (r & Hi & Hl). rewrite <- !app_assoc in Hl. apply lang_residual in Hl.
      assert (A : forallb (fun kr => existsb (same_type (fst kr)) [T_DocComment; T_EmptyComment] || dead (residual (snd kr) (chars "/**/"))) lexer_rules = true) by (vm_compute; reflexivity).
      rewrite forallb_forall in A. specialize (A _ Hi). cbn [fst snd] in A. apply orb_true_iff in A as [A|A].
      - apply existsb_exists in A as (k' & Hk & Ek). unfold same_type in Ek. destruct (token_type_dec k k'); [subst k'|discriminate].
        destruct Hk as [Hk|[Hk|[]]]; [auto|]. exfalso. subst k. apply shaped_in in Hs. cbn in Hs. unfold empty_comment, spelled, exactly in Hs.
        apply (f_equal (@length N)) in Hs. cbn in Hs. rewrite !app_length in Hs. destruct F as (bd & -> & _). rewrite app_length in Hs. cbn in Hs. lia.
      - assert (dead (residual r (chars "/**/")) = false) by (apply dead_lang; eauto). congruence. }
    subst k. apply shaped_in in Hs. destruct Hs as (p & q & Eq & Hp & (bd & Eb & Hf)). unfold spelled, exactly in Hp. subst p.
    destruct F as (body & Es & _). rewrite Es in Eq. change (chars "/**/") with (chars "/**" ++ chars "/") in Eq. rewrite <- !app_assoc in Eq. apply app_inv_head in Eq.
    specialize (Hf (chars "/" ++ body) m). rewrite <- app_assoc in Hf. rewrite <- Eq in Hf. specialize (Hf eq_refl). subst m. rewrite app_nil_r in L. lia.
  - intros k' B Hs. assert (K : k' = T_End).
    { destruct B as (a & b & c & E). assert (E2 : exists z, map fst shapes = T_End :: T_DocComment :: z) by (eexists; vm_compute; reflexivity). destruct E2 as [z E2]. pose proof kinds_nodup as D. rewrite E in D, E2.
      destruct a as [|x a]; [injection E2 as -> _; reflexivity|]. injection E2 as -> E2. exfalso. destruct a as [|y a]; cbn in E2, D.
      - injection E2 as -> _. inversion D as [|? ? _ D']; subst. inversion D' as [|? ? Hn _]; subst. apply Hn, in_app_iff. right. left. reflexivity.
      - injection E2 as -> _. inversion D as [|? ? _ D']; subst. inversion D' as [|? ? Hn _]; subst. apply Hn. rewrite !in_app_iff. right. right. rewrite in_app_iff. right. left. reflexivity. }
    subst k'. apply shaped_in in Hs. cbn in Hs. unfold exactly in Hs. apply (f_equal (@length N)) in Hs. cbn in Hs. discriminate.
Qed.

(** A line comment that nothing ends *)
Lemma last_comment_spoilt m : Forall not_line_end m -> cut (chars "//" ++ m) = [(None, chars "//" ++ m)].
Proof.
  intro Hm. apply cut_iff. replace (taken_apart (chars "//" ++ m)) with (taken_apart ((chars "//" ++ m) ++ [])) by (rewrite app_nil_r; reflexivity).
  constructor; [vm_compute; discriminate| |constructor]. split.
  - intros k t' rest' E Hs. destruct t' as [|c t'].
    + apply shaped_rule in Hs as (r & Hi & Hl). apply lang_accepting in Hl.
      assert (A : existsb (fun kr => accepting (snd kr)) lexer_rules = true) by (apply existsb_exists; exists (k, r); auto). vm_compute in A. discriminate A.
    + rewrite app_nil_r in E. exact (no_line_end_no_token k (c :: t') rest' m ltac:(discriminate) Hs E Hm).
  - right. split; [reflexivity|]. exists T_SingleLineComment, [10%N]. apply shaped_in. apply line_comment_form. exists m, [10%N]. auto.
Qed.
