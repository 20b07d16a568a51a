(** Property C35: what a doc comment says. *)
From Verif Require Import Doc SpecComment CommentProofs PatternProofs.

(** Comments with these lines; the lines between the first and the last are
    the content. *)
Definition sample (ls : list string) : list N := join_nl (map chars ls).

(** C35. Whatever the comment looks like, the doc has the same lines, and a
    line loses at most leading white space, one or two stars and one blank. *)
Theorem C35_lines_kept inner ls :
  comment_lines inner ls ->
  exists t ls', clean_doc (comment_text inner) = Some t /\ lines_of t ls' /\
    Forall2 (fun l l' => exists p, l = p ++ l' /\ decoration p) ls ls'.
Proof. exact (comment_kept inner ls). Qed.
Print Assumptions C35_lines_kept.

(** A comment of white space gives no doc, and no other comment does. *)
Theorem C35_empty inner : clean_doc (comment_text inner) = None <-> all_space inner.
Proof. exact (clean_doc_empty inner). Qed.
Print Assumptions C35_empty.

(** Lines that all carry two stars lose them, together with one blank. *)
Theorem C35_two_stars inner ls cs :
  comment_lines inner ls -> decorated 2 ls cs ->
  exists t, clean_doc (comment_text inner) = Some t /\ lines_of t cs.
Proof. exact (comment_two inner ls cs). Qed.
Print Assumptions C35_two_stars.

(** Otherwise, lines that all carry one star lose it. *)
Theorem C35_one_star inner ls cs :
  comment_lines inner ls -> (forall cs', ~ decorated 2 ls cs') -> decorated 1 ls cs ->
  exists t, clean_doc (comment_text inner) = Some t /\ lines_of t cs.
Proof. exact (comment_one inner ls cs). Qed.
Print Assumptions C35_one_star.

(** Without stars, and if a line after the first starts with a blank, the
    lines after the first lose the indentation they have in common. *)
Theorem C35_indentation inner first rest p :
  comment_lines inner (first :: rest) ->
  (forall k cs, ~ decorated (S k) (first :: rest) cs) ->
  some_line_starts_blank rest -> common_indentation rest p ->
  exists t rest', clean_doc (comment_text inner) = Some t /\ lines_of t (first :: rest') /\
    Forall2 (unindented p) rest rest'.
Proof. exact (comment_indented inner first rest p). Qed.
Print Assumptions C35_indentation.

(** Otherwise the text is kept as it is. *)
Theorem C35_unchanged inner first rest :
  comment_lines inner (first :: rest) ->
  (forall k cs, ~ decorated (S k) (first :: rest) cs) -> ~ some_line_starts_blank rest ->
  exists t, clean_doc (comment_text inner) = Some t /\ lines_of t (first :: rest).
Proof. exact (comment_plain inner first rest). Qed.
Print Assumptions C35_unchanged.

(** The line-wise tests of the model agree with the regular expressions of the
    code. *)
Theorem C35_star_pattern k text :
  (0 < k)%nat -> star_validate k text = true <-> matches (star_pattern k) text.
Proof. intro H. exact (star_validate_pattern k H text). Qed.
Print Assumptions C35_star_pattern.

Theorem C35_indent_pattern text : ws_indent_validate text = true <-> found ws_indent_pattern text.
Proof. exact (ws_validate_pattern text). Qed.
Print Assumptions C35_indent_pattern.

(** ** Examples *)
Ltac lines := repeat match goal with
  | |- lines_of _ [_] => apply lo_last
  | |- lines_of _ (?l :: _ :: _) => refine (lo_more l _ _ _ _)
  | |- ~ In _ _ => cbn; intuition discriminate
  end.

Example C35_one_star_example :
  comment_lines (sample [""; " * First line"; " *   second "; " "]) [chars "* First line"; chars " *   second"] /\
  decorated 1 [chars "* First line"; chars " *   second"] [chars "First line"; chars "  second"] /\
  forall cs, ~ decorated 2 [chars "* First line"; chars " *   second"] cs.
Proof.
  split; [|split].
  - exists (sample ["* First line"; " *   second"]). split; [|split; [discriminate|]].
    + exists [10; 32]%N, [32; 10; 32]%N. split; [reflexivity|]. split; [repeat constructor; cbn; tauto|].
      split; [repeat constructor; cbn; tauto|]. split.
      * intros c r E. injection E as <- <-. cbn. intuition discriminate.
      * intros c r E. change (sample ["* First line"; " *   second"]) with (sample ["* First line"; " *   secon"] ++ [100%N]) in E.
        apply app_inj_tail in E. destruct E as [_ <-]. cbn. intuition discriminate.
    + lines.
  - split; [split; [left; cbn; intuition discriminate|cbn; intuition discriminate]|]. split; [|split].
    + exists (chars " First line"). reflexivity.
    + apply (st_intro 1 [] [32%N] (chars "First line")); [constructor|]. right. exists 32%N. split; [now right|reflexivity].
    + constructor; [|constructor]. left. apply (st_intro 1 [32%N] [32%N] (chars "  second")).
      * constructor; [now right|constructor].
      * right. exists 32%N. split; [now right|reflexivity].
  - intros cs [_ H]. destruct cs; [exact H|]. destruct H as ((r & E) & _). discriminate.
Qed.
Example C35_one_star_result :
  option_map of_chars (clean_doc (comment_text (sample [""; " * First line"; " *   second "; " "])))
  = Some (of_chars (sample ["First line"; "  second"])).
Proof. vm_compute. reflexivity. Qed.

Example C35_two_stars_example :
  decorated 2 [chars "** A"; chars " **  B"; chars " "; chars "**"] [chars "A"; chars " B"; chars " "; []].
Proof.
  split; [repeat (split; [left; cbn; intuition discriminate|]); cbn; intuition discriminate|]. split; [|split].
  - exists (chars " A"). reflexivity.
  - apply (st_intro 2 [] [32%N] (chars "A")); [constructor|]. right. exists 32%N. split; [now right|reflexivity].
  - constructor; [|constructor; [|constructor; [|constructor]]].
    + left. apply (st_intro 2 [32%N] [32%N] (chars " B")).
      * constructor; [now right|constructor].
      * right. exists 32%N. split; [now right|reflexivity].
    + right. split; [|reflexivity]. left. constructor; [now right|constructor].
    + left. apply (st_intro 2 [] [] []); [constructor|]. left. split; [reflexivity|discriminate].
Qed.

Example C35_indentation_example :
  common_indentation [chars "    b"; chars "  c"; []] (chars "  ") /\
  clean_doc (comment_text (sample [" a"; "    b"; "  c"; ""; "d"])) = Some (sample ["a"; "    b"; "  c"; ""; "d"]) /\
  clean_doc (comment_text (sample [" a"; "    b"; "  c"; ""; "  d"])) = Some (sample ["a"; "  b"; "c"; ""; "d"]).
Proof.
  split; [|split; vm_compute; reflexivity].
  split; [|split].
  - split; [repeat constructor; cbn; tauto|]. constructor; [right; now exists (chars "  b")|].
    constructor; [right; now exists (chars "c")|]. constructor; [left; constructor|constructor].
  - exists (chars "  c"). split; [right; now left|]. intro H. inversion H as [|? ? _ H1]; subst.
    inversion H1 as [|? ? _ H2]; subst. inversion H2 as [|? ? H3 _]; subst. cbn in H3. intuition discriminate.
  - intros q [Hq H]. inversion H as [|? ? _ H1]; subst. inversion H1 as [|? ? [Ha|[r E]] _]; subst.
    + exfalso. inversion Ha as [|? ? _ Hb]; subst. inversion Hb as [|? ? _ Hc]; subst.
      inversion Hc as [|? ? Hd _]; subst. cbn in Hd. intuition discriminate.
    + destruct q as [|q1 q]; [now exists (chars "  ")|]. destruct q as [|q2 q]; cbn in E.
      * injection E as <- _. now exists [32%N].
      * injection E as <- <- E. destruct q as [|q3 q]; [now exists []|]. injection E as <- _.
        exfalso. inversion Hq as [|? ? _ Hb]; subst. inversion Hb as [|? ? _ Hc]; subst.
        inversion Hc as [|? ? Hd _]; subst. cbn in Hd. intuition discriminate.
Qed.
