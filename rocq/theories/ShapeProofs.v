(** The expressions of the lexer denote the shapes of SpecLexer. *)
From Verif Require Import SpecLexer LexerProofs.
From Coq Require Import Lia Setoid Morphisms.

Definition same (P Q : texts) : Prop := forall s, P s <-> Q s.
#[local] Instance same_equiv : Equivalence same.
Proof. split; unfold same; [intros P s; tauto|intros P Q H s; symmetry; apply H|]. intros P Q R H H' s. rewrite H. apply H'. Qed.
#[local] Instance then_proper : Proper (same ==> same ==> same) then_.
Proof. intros P P' H Q Q' H' s. unfold then_. split; intros (a & b & E & A & B); exists a, b; (split; [exact E|]); split; try apply H; try apply H'; assumption. Qed.
#[local] Instance either_proper : Proper (same ==> same ==> same) either.
Proof. intros P P' H Q Q' H' s. unfold either. rewrite (H s), (H' s). reflexivity. Qed.
#[local] Instance maybe_proper : Proper (same ==> same) maybe.
Proof. intros P P' H s. unfold maybe. rewrite (H s). reflexivity. Qed.
Lemma many_mono (P Q : texts) s : (forall x, P x -> Q x) -> many P s -> many Q s.
Proof. intros H. induction 1; constructor; auto. Qed.
#[local] Instance many_proper : Proper (same ==> same) many.
Proof. intros P P' H s. split; apply many_mono; intros x; apply H. Qed.
#[local] Instance some_proper : Proper (same ==> same) some_of.
Proof. intros P P' H. unfold some_of. rewrite H. reflexivity. Qed.

Lemma then_exactly a b : same (then_ (exactly a) (exactly b)) (exactly (a ++ b)).
Proof. intro s. unfold then_, exactly. split; [intros (x & y & -> & -> & ->); reflexivity|]. intros ->. eauto. Qed.
Lemma then_assoc P Q R : same (then_ (then_ P Q) R) (then_ P (then_ Q R)).
Proof.
  intro s. unfold then_. split.
  - intros (x & y & -> & (a & b & -> & Ha & Hb) & Hy). exists a, (b ++ y). rewrite app_assoc. eauto 10.
  - intros (a & x & -> & Ha & b & y & -> & Hb & Hy). exists (a ++ b), y. rewrite app_assoc. eauto 10.
Qed.
Lemma then_either_r P Q R : same (then_ P (either Q R)) (either (then_ P Q) (then_ P R)).
Proof.
  intro s. unfold then_, either. split.
  - intros (x & y & -> & Hx & [Hy|Hy]); [left|right]; eauto.
  - intros [(x & y & -> & Hx & Hy)|(x & y & -> & Hx & Hy)]; exists x, y; auto.
Qed.
Lemma then_either_l P Q R : same (then_ (either P Q) R) (either (then_ P R) (then_ Q R)).
Proof.
  intro s. unfold then_, either. split.
  - intros (x & y & -> & [Hx|Hx] & Hy); [left|right]; eauto.
  - intros [(x & y & -> & Hx & Hy)|(x & y & -> & Hx & Hy)]; exists x, y; auto.
Qed.
Lemma then_empty_r P : same (then_ P (exactly [])) P.
Proof. intro s. unfold then_, exactly. split; [intros (x & y & -> & Hx & ->); rewrite app_nil_r; exact Hx|]. intro H. exists s, []. rewrite app_nil_r. auto. Qed.
Lemma either_assoc P Q R : same (either (either P Q) R) (either P (either Q R)).
Proof. intro s. unfold either. tauto. Qed.

Lemma lang_char c : same (lang (char_of c)) (exactly [c]).
Proof.
  intro s. cbn. unfold exactly. split.
  - intros (c' & -> & H). rewrite orb_false_r in H. apply andb_true_iff in H as [A B]. cbn in *. apply N.leb_le in A, B. f_equal. lia.
  - intros ->. exists c. cbn. rewrite !N.leb_refl. auto.
Qed.
Lemma lang_word_of l : same (lang (word_of l)) (exactly l).
Proof.
  induction l as [|c l IH]; [reflexivity|]. destruct l as [|c' l]; [apply lang_char|].
  change (word_of (c :: c' :: l)) with (RSeq (char_of c) (word_of (c' :: l))). cbn [lang].
  rewrite IH, lang_char, then_exactly. reflexivity.
Qed.
Lemma lang_word w : same (lang (word w)) (spelled w).
Proof. apply lang_word_of. Qed.
Lemma lang_optional r : same (lang (optional r)) (maybe (lang r)).
Proof. intro s. cbn. unfold either, maybe. tauto. Qed.
Lemma lang_plus r : same (lang (plus r)) (some_of (lang r)).
Proof. reflexivity. Qed.
Lemma lang_in l : same (lang (RIn l)) (in_table l).
Proof.
  intro s. cbn. unfold in_table. split.
  - intros (c & -> & H). apply in_ranges_spec in H as (lo & hi & H). eauto 6.
  - intros (c & lo & hi & -> & H & H'). exists c. split; [reflexivity|]. apply in_ranges_spec. eauto.
Qed.
Lemma lang_between a b : same (lang (RIn [(a, b)])) (between a b).
Proof.
  rewrite lang_in. intro s. unfold in_table, between. split.
  - intros (c & lo & hi & -> & [E|[]] & H). injection E as <- <-. eauto.
  - intros (c & -> & H). exists c, a, b. split; [reflexivity|]. split; [left; reflexivity|exact H].
Qed.
Lemma in_table_cons a b l : same (in_table ((a, b) :: l)) (either (between a b) (in_table l)).
Proof.
  intro s. unfold in_table, between, either. split.
  - intros (c & lo & hi & -> & [E|H] & H'); [injection E as <- <-; eauto|eauto 8].
  - intros [(c & -> & H)|(c & lo & hi & -> & H & H')]; [exists c, a, b|exists c, lo, hi]; cbn; auto.
Qed.
Lemma in_table_one a b : same (in_table [(a, b)]) (between a b).
Proof. rewrite <- lang_in. apply lang_between. Qed.
Lemma lang_one_of w : same (lang (one_of w)) (char_in (chars w)).
Proof.
  unfold one_of. rewrite lang_in. intro s. unfold in_table, char_in. split.
  - intros (c & lo & hi & -> & H & H'). apply in_map_iff in H as (x & E & H). injection E as <- <-. exists c. split; [reflexivity|].
    replace c with x by lia. exact H.
  - intros (c & -> & H). exists c, c, c. split; [reflexivity|]. split; [apply in_map_iff; eauto|lia].
Qed.
Lemma between_one c : same (between c c) (exactly [c]).
Proof. rewrite <- lang_between. apply lang_char. Qed.
Lemma char_in_two a b : same (char_in [a; b]) (either (exactly [a]) (exactly [b])).
Proof.
  intro s. unfold char_in, either, exactly. split.
  - intros (c & -> & [<-|[<-|[]]]); auto.
  - intros [->| ->]; eexists; (split; [reflexivity|]); cbn; auto.
Qed.
Lemma either_comm P Q : same (either P Q) (either Q P).
Proof. intro s. unfold either. tauto. Qed.
Lemma char_in_perm l l' : (forall c, In c l <-> In c l') -> same (char_in l) (char_in l').
Proof. intros H s. unfold char_in. split; intros (c & -> & Hc); exists c; (split; [reflexivity|apply H, Hc]). Qed.

(** ** Digits *)
Lemma lang_digit : same (lang digit_rule) a_digit.
Proof.
  unfold digit_rule, digit9_rule. cbn [lang]. rewrite lang_char. change (fun s => exists c, s = [c] /\ in_ranges c [(49%N, 57%N)] = true) with (lang (RIn [(49, 57)%N])).
  rewrite lang_between. intro s. unfold either, exactly, between, a_digit, between. split.
  - intros [->|(c & -> & H)]; eexists; (split; [reflexivity|]); lia.
  - intros (c & -> & H). destruct (N.eq_dec c 48) as [->|Hn]; [left; reflexivity|right; exists c; split; [reflexivity|lia]].
Qed.
Lemma lang_hex : same (lang hex_digit_rule) hexadecimal.
Proof. unfold hex_digit_rule. rewrite lang_in, !in_table_cons. intro s. unfold hexadecimal, a_digit, either. cbn. split; [|tauto]. intros [H|[H|[H|(c & lo & hi & _ & [] & _)]]]; tauto. Qed.
Lemma lang_oct : same (lang oct_digit_rule) octal.
Proof. apply lang_between. Qed.

Lemma lang_seq a b : lang (RSeq a b) = then_ (lang a) (lang b).
Proof. reflexivity. Qed.
Lemma lang_alt a b : lang (RAlt a b) = either (lang a) (lang b).
Proof. reflexivity. Qed.
Lemma lang_star a : lang (RStar a) = many (lang a).
Proof. reflexivity. Qed.

Lemma lang_integer : same (lang integer_literal_rule) integer.
Proof.
  unfold integer_literal_rule, integer, digit9_rule. cbn [seqs alts].
  rewrite !lang_seq, !lang_alt, !lang_seq, !lang_optional, !lang_star, !lang_char, !lang_one_of, !lang_plus, lang_hex, lang_digit, lang_oct, lang_between.
  change (chars "Xx") with [88; 120]%N. change (chars "Ll") with [76; 108]%N. rewrite !char_in_two.
  rewrite (either_comm (exactly [88%N])), (either_comm (exactly [76%N])), either_assoc. reflexivity.
Qed.

Lemma lang_exponent (m : string) (mark : texts) : same (char_in (chars m)) mark ->
  same (lang (seqs [one_of m; optional (one_of "+-"); plus digit_rule])) (exponent mark).
Proof.
  intro H. cbn [seqs]. rewrite !lang_seq, lang_optional, !lang_one_of, lang_plus, lang_digit, H.
  change (chars "+-") with [43; 45]%N. rewrite char_in_two. reflexivity.
Qed.
Lemma lang_dec_exponent : same (lang decimal_exponent_rule) (exponent (either (spelled "e") (spelled "E"))).
Proof. apply lang_exponent. change (chars "Ee") with [69; 101]%N. rewrite char_in_two. apply either_comm. Qed.
Lemma lang_hex_exponent : same (lang hex_exponent_rule) (exponent (either (spelled "p") (spelled "P"))).
Proof. apply lang_exponent. change (chars "Pp") with [80; 112]%N. rewrite char_in_two. apply either_comm. Qed.
Lemma lang_size_letter : same (lang float_suffix_rule) size_letter.
Proof. unfold float_suffix_rule, size_letter. rewrite lang_one_of. apply char_in_perm. intro c. cbn. tauto. Qed.

Lemma lang_float : same (lang float_literal_rule) floating.
Proof.
  unfold float_literal_rule, floating, decimal_float_rule, hex_float_rule, decimal_float, hexadecimal_float. cbn [seqs alts].
  rewrite !lang_seq, !lang_alt, !lang_seq, !lang_alt, !lang_seq, !lang_optional, !lang_star, !lang_char, !lang_one_of, !lang_plus, !lang_word,
    lang_hex, lang_digit, lang_dec_exponent, lang_hex_exponent, lang_size_letter.
  change (chars "Xx") with [88; 120]%N. change (chars "+-") with [43; 45]%N. rewrite !char_in_two.
  rewrite (either_comm (exactly [88%N])). rewrite !then_either_l, !then_either_r. rewrite !then_assoc, !either_assoc. reflexivity.
Qed.

Lemma lang_name_part : same (lang identifier_name_rule) name_part.
Proof.
  unfold identifier_name_rule, identifier_part_rule, name_part, simple_name. cbn [seqs].
  rewrite !lang_alt, !lang_seq, !lang_star, !lang_char, !lang_in. apply either_comm.
Qed.
Lemma lang_identifier : same (lang identifier_rule) identifier_name.
Proof.
  unfold identifier_rule, identifier_name. rewrite !lang_seq, lang_star, lang_seq, lang_name_part, lang_between.
  enough (H : same (between 45 46) (either (spelled ".") (spelled "-"))) by (rewrite H; reflexivity).
  intro s. unfold between, either, spelled, exactly. split.
  - intros (c & -> & Hc). destruct (N.eq_dec c 45) as [->|Hn]; [right; reflexivity|left]. replace c with 46%N by lia. reflexivity.
  - intros [->| ->]; [exists 46%N|exists 45%N]; (split; [reflexivity|]); lia.
Qed.

(** ** Comments *)
Lemma many_any s : many (lang any_char) s.
Proof. induction s as [|c s IH]; [constructor|]. apply (many_more _ [c] s); [exists c; auto|exact IH]. Qed.

Lemma lang_first_end : same (lang (RShortest (RSeq (RStar any_char) (word "*/")))) first_end.
Proof.
  assert (E : forall s, lang (RSeq (RStar any_char) (word "*/")) s <-> exists body, s = body ++ chars "*/").
  { intro s. rewrite lang_seq. split.
    - intros (a & b & -> & _ & H). apply lang_word in H. rewrite H. eauto.
    - intros (body & ->). exists body, (chars "*/"). split; [reflexivity|]. split; [apply many_any|]. apply lang_word. reflexivity. }
  intro s. unfold first_end. cbn [lang]. split.
  - intros [H Hm]. apply E in H as [body Hb]. exists body. split; [exact Hb|]. intros a b X.
    destruct b as [|c b]; [reflexivity|]. exfalso. apply (Hm (a ++ chars "*/") (c :: b)); [rewrite <- app_assoc; exact X|discriminate|].
    apply E. eauto.
  - intros (body & Hb & Hm). split; [apply E; eauto|]. intros p q X Hq H. apply E in H as [a ->]. apply Hq, (Hm a). rewrite <- app_assoc in X. exact X.
Qed.

Lemma lang_not l : same (lang (RNot l)) (fun s => exists c, s = [c] /\ in_ranges c l = false).
Proof. reflexivity. Qed.

Lemma lang_line_comment : same (lang single_line_comment_rule) line_comment.
Proof.
  unfold single_line_comment_rule, line_comment, line_end. cbn [seqs].
  rewrite !lang_seq, lang_star, lang_alt, lang_seq, lang_optional, !lang_char, lang_word.
  assert (H : same (lang (RNot [(10, 10); (13, 13)]%N)) (fun s => exists c, s = [c] /\ c <> line_feed /\ c <> carriage_return)).
  { intro s. cbn [lang]. split; intros (c & -> & H); exists c; (split; [reflexivity|]).
    - destruct (N.eq_dec c 10) as [->|A]; [discriminate H|]. destruct (N.eq_dec c 13) as [->|B]; [discriminate H|]. auto.
    - unfold line_feed, carriage_return in H. destruct (in_ranges c [(10, 10); (13, 13)]%N) eqn:E; [|reflexivity].
      apply in_ranges_spec in E as (lo & hi & [X|[X|[]]] & L); injection X as <- <-; lia. }
  rewrite H. clear H.
  enough (H : same (either (exactly [10%N]) (then_ (exactly [13%N]) (maybe (exactly [10%N]))))
    (either (either (exactly [line_feed]) (exactly [carriage_return])) (exactly [carriage_return; line_feed]))) by (rewrite H; reflexivity).
  intro s. unfold either, then_, maybe, exactly, line_feed, carriage_return. split.
  - intros [->|(a & b & -> & -> & [->| ->])]; cbn; tauto.
  - intros [[->| ->]| ->]; [tauto| |]; right; [exists [13%N], []|exists [13%N], [10%N]]; cbn; auto.
Qed.

(** ** String literals *)
Lemma in_ranges_simple c l : in_ranges c (map (fun c => (c, c)) l) = true <-> In c l.
Proof.
  rewrite in_ranges_spec. split.
  - intros (lo & hi & H & L). apply in_map_iff in H as (x & E & H). injection E as <- <-. replace c with x by lia. exact H.
  - intro H. exists c, c. split; [apply in_map_iff; eauto|lia].
Qed.

(** The places a quote can be: after a backslash, or not *)
Fixpoint quote_at (s : list N) : option nat :=
  match s with
  | [] => None
  | c :: r =>
      if N.eqb c 34 then Some 1
      else if N.eqb c 92 then match r with
                              | [] => None
                              | _ :: r' => option_map (fun n => S (S n)) (quote_at r')
                              end
      else option_map S (quote_at r)
  end.
Lemma quote_at_app x s : (exists c, x = [c] /\ c <> 34%N /\ c <> 92%N)
    \/ (exists e tail, x = 92%N :: e :: tail /\ Forall (fun c => c <> 34%N /\ c <> 92%N) tail) ->
  quote_at (x ++ s) = option_map (fun n => length x + n) (quote_at s).
Proof.
  assert (T : forall tail, Forall (fun c => c <> 34%N /\ c <> 92%N) tail -> quote_at (tail ++ s) = option_map (fun n => length tail + n) (quote_at s)).
  { induction 1 as [|c tail [A B] _ IH]; cbn; [destruct (quote_at s); reflexivity|].
    rewrite (proj2 (N.eqb_neq _ _) A), (proj2 (N.eqb_neq _ _) B), IH. destruct (quote_at s); reflexivity. }
  intros [(c & -> & A & B)|(e & tail & -> & H)].
  - rewrite (T [c]); [reflexivity|]. constructor; [auto|constructor].
  - cbn. rewrite (T tail H). destruct (quote_at s); reflexivity.
Qed.

(** One character or escape of the lexer's loop, and of a literal *)
Definition loop_char : texts := lang string_char_rule.

Ltac table := repeat match goal with
  | H : lang (RSeq _ _) _ |- _ => destruct H as (? & ? & -> & ? & ?)
  | H : lang (optional _) _ |- _ => apply lang_optional in H as [->|H]
  | H : lang oct_digit_rule _ |- _ => apply lang_oct in H as (? & -> & ?)
  | H : lang hex_digit_rule _ |- _ => apply lang_hex in H
  | H : lang (char_of _) _ |- _ => apply lang_char in H; unfold exactly in H; subst
  | H : lang (RIn [(_, _)]) _ |- _ => apply lang_between in H as (? & -> & ?)
  end.

Lemma hexadecimal_char s : hexadecimal s -> exists c, s = [c] /\ (48 <= c <= 57 \/ 65 <= c <= 70 \/ 97 <= c <= 102)%N.
Proof. intros [[(c & -> & H)|(c & -> & H)]|(c & -> & H)]; exists c; split; auto. Qed.
Lemma hexadecimal_of c : (48 <= c <= 57 \/ 65 <= c <= 70 \/ 97 <= c <= 102)%N -> hexadecimal [c].
Proof. intros [H|[H|H]]; [left; left|left; right|right]; exists c; auto. Qed.

(** Seen from the outside: a quote, another plain character, or an escape *)
Lemma loop_char_form str : loop_char str <-> str = [34%N] \/ string_char str.
Proof.
  unfold loop_char, string_char_rule, escape_rule. cbn [alts seqs]. split.
  - intros [(c & -> & H)|H].
    + destruct (N.eq_dec c 34) as [->|Hq]; [auto|]. right. left. left. left. left. left. exists c. split; [reflexivity|].
      intro Hi. cbn in Hi. unfold quote, backslash in Hi.
      destruct Hi as [<-|[<-|[<-|[<-|[<-|[E|[<-|[]]]]]]]]; try discriminate H. congruence.
    + right. destruct H as (a & b & -> & Ha & Hb). apply lang_char in Ha. unfold exactly in Ha. subst a.
      destruct Hb as [Hb|[Hb|[Hb|Hb]]].
      * left. left. left. left. right. exists [92%N], b. split; [reflexivity|]. split; [reflexivity|].
        change (lang (RIn (map (fun c => (c, c)) [34; 39; 92; 98; 102; 110; 114; 116]%N)) b) in Hb.
        destruct Hb as (c & -> & Hc). exists c. split; [reflexivity|]. apply in_ranges_simple in Hc. cbn in Hc. cbn. unfold quote, backslash. tauto.
      * destruct Hb as (x & y & -> & Hx & Hy). apply lang_optional in Hy as [->|Hy]; table.
        -- left. left. left. right. rewrite app_nil_r. exists [92%N]; eexists; (split; [reflexivity|]); (split; [reflexivity|]). eexists; eauto.
        -- left. left. right. exists [92%N]; eexists; (split; [reflexivity|]); (split; [reflexivity|]). eexists; eexists; (split; [reflexivity|]). split; eexists; eauto.
      * table. left. right. exists [92%N]; eexists; (split; [reflexivity|]); (split; [reflexivity|]).
        eexists; eexists; (split; [reflexivity|]). split; [eexists; eauto|]. eexists; eexists; (split; [reflexivity|]). split; eexists; eauto.
      * table. right. exists [92%N]; eexists; (split; [reflexivity|]); (split; [reflexivity|]).
        exists [117%N]; eexists; (split; [reflexivity|]); (split; [reflexivity|]).
        do 3 (eexists; eexists; (split; [reflexivity|]); (split; [eassumption|])). assumption.
  - intros [->|H].
    + left. exists 34%N. split; reflexivity.
    + destruct H as [[[[[H|H]|H]|H]|H]|H].
      * destruct H as (c & -> & H). left. exists c. split; [reflexivity|].
        destruct (in_ranges c [(8, 10); (12, 13); (92, 92)]%N) eqn:E; [|reflexivity]. exfalso. apply H.
        apply in_ranges_spec in E as (lo & hi & [X|[X|[X|[]]]] & L); injection X as <- <-; cbn; unfold backslash.
        -- assert (c = 8 \/ c = 9 \/ c = 10)%N as [->|[->| ->]] by lia; tauto.
        -- assert (c = 12 \/ c = 13)%N as [->| ->] by lia; tauto.
        -- replace c with 92%N by lia. tauto.
      * right. destruct H as (a & b & -> & -> & c & -> & Hc). exists [92%N], [c]. split; [reflexivity|]. split; [apply lang_char; reflexivity|].
        left. change (lang (RIn (map (fun c => (c, c)) [34; 39; 92; 98; 102; 110; 114; 116]%N)) [c]). exists c. split; [reflexivity|]. apply in_ranges_simple.
        cbn in Hc. unfold quote, backslash in Hc. cbn. tauto.
      * right. destruct H as (a & b & -> & -> & H). exists [92%N], b. split; [reflexivity|]. split; [apply lang_char; reflexivity|].
        right. left. exists b, []. rewrite app_nil_r. split; [reflexivity|]. split; [apply lang_oct, H|apply lang_optional; left; reflexivity].
      * right. destruct H as (a & b & -> & -> & x & y & -> & Hx & Hy). exists [92%N], (x ++ y). split; [reflexivity|]. split; [apply lang_char; reflexivity|].
        right. left. exists x, y. split; [reflexivity|]. split; [apply lang_oct, Hx|apply lang_optional; right; apply lang_oct, Hy].
      * right. destruct H as (a & b & -> & -> & x & y & -> & Hx & z & w & -> & Hz & Hw). exists [92%N], (x ++ z ++ w). split; [reflexivity|]. split; [apply lang_char; reflexivity|].
        right. right. left. exists x, (z ++ w). split; [reflexivity|]. split; [apply lang_between, Hx|]. exists z, w. split; [reflexivity|]. split; apply lang_oct; assumption.
      * right. destruct H as (a & b & -> & -> & x & y & -> & Hx & h1 & r1 & -> & H1 & h2 & r2 & -> & H2 & h3 & h4 & -> & H3 & H4).
        exists [92%N], (x ++ h1 ++ h2 ++ h3 ++ h4). split; [reflexivity|]. split; [apply lang_char; reflexivity|].
        right. right. right. exists x, (h1 ++ h2 ++ h3 ++ h4). split; [reflexivity|]. split; [apply lang_char; rewrite Hx; reflexivity|].
        exists h1, (h2 ++ h3 ++ h4). split; [reflexivity|]. split; [apply lang_hex, H1|]. exists h2, (h3 ++ h4). split; [reflexivity|]. split; [apply lang_hex, H2|].
        exists h3, h4. split; [reflexivity|]. split; apply lang_hex; assumption.
Qed.

Lemma string_char_form x : string_char x -> (exists c, x = [c] /\ c <> 34%N /\ c <> 92%N)
    \/ (exists e tail, x = 92%N :: e :: tail /\ Forall (fun c => c <> 34%N /\ c <> 92%N) tail).
Proof.
  intros [[[[[H|H]|H]|H]|H]|H].
  - left. destruct H as (c & -> & H). exists c. split; [reflexivity|]. split; intros ->; apply H; cbn; unfold quote, backslash; tauto.
  - right. destruct H as (a & b & -> & -> & c & -> & _). exists c, []. split; [reflexivity|constructor].
  - right. destruct H as (a & b & -> & -> & c & -> & _). exists c, []. split; [reflexivity|constructor].
  - right. destruct H as (a & b & -> & -> & x' & y & -> & (c & -> & _) & (d & -> & Hd)). exists c, [d]. split; [reflexivity|]. constructor; [lia|constructor].
  - right. destruct H as (a & b & -> & -> & x' & y & -> & (c & -> & _) & z & w & -> & (d & -> & Hd) & (e & -> & He)). exists c, [d; e]. split; [reflexivity|].
    repeat constructor; lia.
  - right. destruct H as (a & b & -> & -> & x' & y & -> & -> & h1 & r1 & -> & H1 & h2 & r2 & -> & H2 & h3 & h4 & -> & H3 & H4).
    apply hexadecimal_char in H1 as (c1 & -> & H1), H2 as (c2 & -> & H2), H3 as (c3 & -> & H3), H4 as (c4 & -> & H4).
    exists 117%N, [c1; c2; c3; c4]. split; [reflexivity|]. repeat constructor; lia.
Qed.

Lemma quote_at_chars b s : many string_char b -> quote_at (b ++ s) = option_map (fun n => length b + n) (quote_at s).
Proof.
  induction 1 as [|a b Ha Hb IH]; [cbn; destruct (quote_at s); reflexivity|].
  rewrite <- app_assoc, (quote_at_app a _ (string_char_form a Ha)), IH, app_length. destruct (quote_at s); cbn; [f_equal; lia|reflexivity].
Qed.
(** A text of the loop ending in a quote holds a free quote *)
Lemma quote_at_loop b s : many loop_char b -> exists n, quote_at (b ++ 34%N :: s) = Some n /\ n <= S (length b).
Proof.
  induction 1 as [|a b Ha Hb (n & E & L)].
  - exists 1. split; [reflexivity|cbn; lia].
  - apply loop_char_form in Ha as [->|Ha].
    + exists 1. split; [reflexivity|cbn; lia].
    + exists (length a + n). rewrite <- app_assoc, (quote_at_app a _ (string_char_form a Ha)), E, app_length. split; [reflexivity|lia].
Qed.

Lemma loop_no_quote b : many loop_char b ->
  many string_char b \/ exists x y, b = x ++ 34%N :: y /\ many loop_char x.
Proof.
  induction 1 as [|a b Ha Hb [IH|(x & y & -> & Hx)]].
  - left. constructor.
  - apply loop_char_form in Ha as [->|Ha]; [right; exists [], b; split; [reflexivity|constructor]|]. left. constructor; assumption.
  - right. exists (a ++ x), y. rewrite <- app_assoc. split; [reflexivity|]. constructor; assumption.
Qed.

Lemma lang_string : same (lang string_literal_rule) string_literal.
Proof.
  unfold string_literal_rule, string_literal. rewrite lang_seq, lang_char. change [34%N] with [quote] at 1.
  enough (E : same (lang (RShortest (RSeq (RStar string_char_rule) (char_of 34)))) (then_ (many string_char) (exactly [quote]))) by (rewrite E; reflexivity).
  assert (L : forall s, lang (RSeq (RStar string_char_rule) (char_of 34)) s <-> exists b, s = b ++ [34%N] /\ many loop_char b).
  { intro s. rewrite lang_seq. split.
    - intros (b & q & -> & Hb & Hq). apply lang_char in Hq. rewrite Hq. eauto.
    - intros (b & -> & Hb). exists b, [34%N]. split; [reflexivity|]. split; [exact Hb|]. apply lang_char. reflexivity. }
  intro s. cbn [lang]. split.
  - intros [H Hm]. apply L in H as (b & -> & Hb). exists b, [34%N]. split; [reflexivity|]. split; [|reflexivity].
    destruct (loop_no_quote b Hb) as [H|(x & y & -> & Hx)]; [exact H|]. exfalso.
    apply (Hm (x ++ [34%N]) (y ++ [34%N])); [rewrite <- !app_assoc; reflexivity|destruct y; discriminate|]. apply L. eauto.
  - intros (b & q & -> & Hb & ->). split.
    + apply L. exists b. split; [reflexivity|]. revert Hb. apply many_mono. intros x Hx. apply loop_char_form. auto.
    + intros p q E Hq Hp. apply L in Hp as (x & -> & Hx).
      destruct (quote_at_loop x q Hx) as (n & En & Hn).
      assert (E2 : quote_at (b ++ [34%N]) = Some (length b + 1)) by (rewrite (quote_at_chars b _ Hb); reflexivity).
      change [quote] with [34%N] in E. rewrite <- app_assoc in E. cbn in E. rewrite E in E2. rewrite En in E2. injection E2 as E2.
      apply (f_equal (@length N)) in E. rewrite !app_length in E. cbn in E. destruct q; [congruence|]. cbn in E. lia.
Qed.

(** ** All the rules *)
Lemma rules_shapes : Forall2 (fun kr kP => fst kr = fst kP /\ same (lang (snd kr)) (snd kP)) lexer_rules shapes.
Proof.
  unfold lexer_rules, shapes. apply Forall2_app; [|apply Forall2_app].
  - repeat apply Forall2_cons; try apply Forall2_nil; (split; [reflexivity|]); cbn [snd].
    + apply lang_char.
    + unfold doc_comment_rule, doc_comment. rewrite lang_seq, lang_word, lang_first_end. reflexivity.
    + apply lang_word.
    + unfold multi_line_comment_rule, block_comment. cbn [seqs]. rewrite lang_seq, lang_seq, lang_word, lang_first_end.
      enough (H : same (lang (RNot [(42, 42)%N])) (fun s => exists c, s = [c] /\ c <> 42%N)) by (rewrite H; reflexivity).
      intro s. cbn [lang]. split; intros (c & -> & H); exists c; (split; [reflexivity|]).
      * intros ->. discriminate H.
      * destruct (in_ranges c [(42, 42)%N]) eqn:E; [|reflexivity]. apply in_ranges_spec in E as (lo & hi & [X|[]] & L). injection X as <- <-. lia.
    + apply lang_line_comment.
    + unfold ws_rule, white_space. rewrite lang_in. intro s. unfold in_table, char_in, white. split.
      * intros (c & lo & hi & -> & H & L). exists c. split; [reflexivity|]. destruct H as [X|[X|[X|[]]]]; injection X as <- <-; cbn.
        -- assert (c = 9 \/ c = 10)%N as [->| ->] by lia; tauto.
        -- assert (c = 12 \/ c = 13)%N as [->| ->] by lia; tauto.
        -- replace c with 32%N by lia; tauto.
      * intros (c & -> & [<-|[<-|[<-|[<-|[<-|[]]]]]]); [exists 9%N, 9%N, 10%N|exists 10%N, 9%N, 10%N|exists 12%N, 12%N, 13%N|exists 13%N, 12%N, 13%N|exists 32%N, 32%N, 32%N];
          (split; [reflexivity|]); (split; [cbn; tauto|lia]).
  - change (reserved ++ signs) with (keyword_rules ++ sign_rules). induction (keyword_rules ++ sign_rules) as [|[k w] l IH]; constructor; [|exact IH].
    split; [reflexivity|]. apply lang_word.
  - repeat apply Forall2_cons; try apply Forall2_nil; (split; [reflexivity|]); cbn [snd].
    + apply lang_string.
    + apply lang_integer.
    + apply lang_float.
    + apply lang_identifier.
Qed.
