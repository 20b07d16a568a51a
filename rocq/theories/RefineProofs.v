(** Proofs about the reports of syntax errors. *)
From Coq Require Import ZArith Lia.
From Verif Require Import CommentProofs DiagnoseProofs SpecRefine.

(** ** Texts *)
Lemma width_pos c : 1 <= width c.
Proof. unfold width, utf8_encode_char. destruct (c <? 128)%N, (c <? 2048)%N, (c <? 65536)%N; cbn; lia. Qed.
Lemma utf8_length_cons c l : utf8_length (c :: l) = width c + utf8_length l.
Proof. unfold utf8_length, width. cbn. now rewrite app_length. Qed.
Lemma utf8_length_app a b : utf8_length (a ++ b) = utf8_length a + utf8_length b.
Proof. unfold utf8_length. now rewrite flat_map_app, app_length. Qed.
Lemma bytes_utf8 l : bytes l = utf8_length l.
Proof.
  unfold bytes, of_chars, string_of_bytes, utf8_length. rewrite <- (map_length ascii_of_N (flat_map utf8_encode_char l)).
  generalize (map ascii_of_N (flat_map utf8_encode_char l)). induction l0; cbn; congruence.
Qed.
Lemma bytes_app a b : bytes (a ++ b) = bytes a + bytes b.
Proof. rewrite !bytes_utf8. apply utf8_length_app. Qed.
Lemma bytes_nil_inv l : bytes l = 0 -> l = [].
Proof. rewrite bytes_utf8. destruct l as [|c l]; [reflexivity|]. rewrite utf8_length_cons. pose proof (width_pos c). lia. Qed.
Lemma bytes_inj a b a' b' : a ++ b = a' ++ b' -> bytes a = bytes a' -> a = a' /\ b = b'.
Proof.
  rewrite !bytes_utf8. revert a'. induction a as [|c a IH]; intros [|c' a'] E H.
  - now split.
  - rewrite utf8_length_cons in H. pose proof (width_pos c'). cbn in H. lia.
  - rewrite utf8_length_cons in H. pose proof (width_pos c). cbn in H. lia.
  - cbn in E. injection E as -> E. rewrite !utf8_length_cons in H. destruct (IH a' E ltac:(lia)) as [-> ->]. now split.
Qed.

Lemma split_at_byte_iff l : forall i a b, split_at_byte l i = Some (a, b) <-> l = a ++ b /\ i = bytes a.
Proof.
  intros i a b. rewrite bytes_utf8. revert i a b. induction l as [|c l IH]; intros i a b; cbn.
  - destruct i; split.
    + intros [= <- <-]. now split.
    + intros [E _]. symmetry in E. now apply app_eq_nil in E as [-> ->].
    + discriminate.
    + intros [E H]. symmetry in E. apply app_eq_nil in E as [-> ->]. cbn in H. lia.
  - destruct i.
    + split.
      * intros [= <- <-]. now split.
      * intros [E H]. destruct a as [|c' a]; [now cbn in E; subst|]. rewrite utf8_length_cons in H. pose proof (width_pos c'). lia.
    + destruct (Nat.leb_spec (width c) (S i)).
      * destruct (split_at_byte l (S i - width c)) as [[a' b']|] eqn:E.
        -- apply IH in E as [-> E]. split.
           ++ intros [= <- <-]. split; [reflexivity|]. rewrite utf8_length_cons. lia.
           ++ intros [E' H']. assert (E2 : bytes (c :: a') = bytes a) by (rewrite !bytes_utf8, utf8_length_cons; lia).
              change (c :: a' ++ b') with ((c :: a') ++ b') in E'. destruct (bytes_inj _ _ _ _ E' E2) as [-> ->]. reflexivity.
        -- split; [discriminate|]. intros [E' H']. destruct a as [|c' a]; [cbn in H'; lia|].
           cbn in E'. injection E' as <- E'. rewrite utf8_length_cons in H'.
           assert (split_at_byte l (S i - width c) = Some (a, b)) by (apply IH; split; [exact E'|lia]). congruence.
      * split; [discriminate|]. intros [E' H']. destruct a as [|c' a]; [cbn in H'; lia|].
        cbn in E'. injection E' as <- E'. rewrite utf8_length_cons in H'. lia.
Qed.

Lemma word_char_iff c : word_char c = true <-> in_word c.
Proof.
  unfold word_char, ascii_letter, ascii_digit, in_word.
  rewrite !Bool.orb_true_iff, !Bool.andb_true_iff, !N.leb_le, N.eqb_eq. lia.
Qed.
Lemma name_char_iff c : name_char c = true <-> in_name c.
Proof. unfold name_char, in_name. rewrite Bool.orb_true_iff, word_char_iff, N.eqb_eq. reflexivity. Qed.
Lemma word_not_space c : in_word c -> ~ In c white_space.
Proof.
  unfold in_word, white_space. cbn. intros H K.
  repeat (destruct K as [K|K]; [subst c; lia|]). exact K.
Qed.
Lemma name_not_space c : in_name c -> ~ In c white_space.
Proof.
  intros [H | ->]; [now apply word_not_space|]. cbn. intro K. repeat (destruct K as [K|K]; [discriminate|]). exact K.
Qed.

Lemma not_after_nil class : not_after class [].
Proof. intros a c E. destruct a; discriminate. Qed.
Lemma not_after_snoc class l c : not_after class (l ++ [c]) <-> ~ class c.
Proof.
  split.
  - intro H. exact (H l c eq_refl).
  - intros H a c' E. apply app_inj_tail in E as [_ <-]. exact H.
Qed.
Lemma not_after_app class a b : b <> [] -> not_after class (a ++ b) <-> not_after class b.
Proof.
  intro Hb. destruct (exists_last Hb) as (b' & c & ->). rewrite app_assoc, !not_after_snoc. reflexivity.
Qed.
Lemma word_end (class class' : N -> Prop) a w : (forall c, class c -> class' c -> False) -> w <> [] -> Forall class w -> not_after class' (a ++ w).
Proof.
  intros Hd Hw H. apply not_after_app; [exact Hw|]. destruct (exists_last Hw) as (w' & c & ->).
  apply not_after_snoc. intro Hc. apply Forall_app in H as [_ H]. inversion_clear H. eauto.
Qed.

(** The characters at the end of a text that satisfy [p] *)
Lemma split_word_iff p (class : N -> Prop) l a w : (forall c, p c = true <-> class c) ->
  split_word p l = (a, w) <-> l = a ++ w /\ Forall class w /\ not_after class a.
Proof.
  intro Hp. unfold split_word. split.
  - intros [= <- <-]. repeat split.
    + rewrite <- rev_app_distr, <- take_drop. now rewrite rev_involutive.
    + apply Forall_rev. eapply Forall_impl; [|apply take_while_all]. intros c. apply Hp.
    + intros a' c E Hc. assert (E' : drop_while p (rev l) = c :: rev a').
      { rewrite <- (rev_involutive (drop_while p (rev l))), E, rev_app_distr. reflexivity. }
      apply drop_while_stop in E'. apply Hp in Hc. congruence.
  - intros (-> & Hw & Ha). rewrite rev_app_distr.
    assert (Hw' : Forall (fun c => p c = true) (rev w)) by (apply Forall_rev; eapply Forall_impl; [|exact Hw]; intros c; apply Hp).
    assert (E : drop_while p (rev w ++ rev a) = rev a).
    { rewrite drop_while_app by exact Hw'. destruct (rev a) as [|c r] eqn:Er; [reflexivity|]. cbn.
      assert (p c = false) as ->; [|reflexivity]. destruct (p c) eqn:Ec; [|reflexivity]. exfalso. apply Hp in Ec.
      apply (Ha (rev r) c); [|exact Ec]. rewrite <- (rev_involutive a), Er. reflexivity. }
    rewrite E, rev_involutive. f_equal. apply (f_equal (@length N)) in E as El.
    pose proof (take_drop p (rev w ++ rev a)) as Et. rewrite E in Et. apply app_inv_tail in Et. now rewrite <- Et, rev_involutive.
Qed.

Lemma trim_end_iff l a : trim_end l = a <-> exists s, l = a ++ s /\ all_space s /\ not_after (fun c => In c white_space) a.
Proof.
  assert (H : trim_end l = fst (split_word is_whitespace l)) by reflexivity. rewrite H.
  pose proof (fun a w => split_word_iff is_whitespace (fun c => In c white_space) l a w is_whitespace_iff) as Hi.
  destruct (split_word is_whitespace l) as [a' w'] eqn:E. cbn. split.
  - intros <-. destruct (proj1 (Hi _ _) eq_refl) as (-> & Hw & Ha). exists w'. auto.
  - intros (s & -> & Hs & Ha). assert (E' : (a', w') = (a, s)) by (apply Hi; auto). congruence.
Qed.
Lemma trim_end_exact a s : all_space s -> not_after (fun c => In c white_space) a -> trim_end (a ++ s) = a.
Proof. intros. apply trim_end_iff. eauto. Qed.
Lemma trim_end_split l : exists s, l = trim_end l ++ s /\ all_space s /\ not_after (fun c => In c white_space) (trim_end l).
Proof. now apply trim_end_iff. Qed.

Lemma strip_suffix_iff p l r : strip_suffix p l = Some r <-> l = r ++ p.
Proof.
  unfold strip_suffix. destruct (strip_prefix (rev p) (rev l)) as [q|] eqn:E; cbn.
  - apply strip_prefix_app in E. split.
    + intros [= <-]. rewrite <- (rev_involutive l), E, rev_app_distr, rev_involutive. reflexivity.
    + intros ->. rewrite rev_app_distr in E. apply app_inv_head in E. now rewrite <- E, rev_involutive.
  - split; [discriminate|]. intros ->. rewrite rev_app_distr in E.
    assert (strip_prefix (rev p) (rev p ++ rev r) = Some (rev r)) by now apply strip_prefix_app. congruence.
Qed.
Lemma ends_with_iff p l : ends_with p l = true <-> exists r, l = r ++ p.
Proof.
  unfold ends_with. destruct (strip_suffix p l) eqn:E.
  - apply strip_suffix_iff in E. split; [eauto|reflexivity].
  - split; [discriminate|]. intros (r & H). apply strip_suffix_iff in H. congruence.
Qed.

Lemma split_once_none p l : split_once p l = None -> forall a b, l <> a ++ p ++ b.
Proof.
  induction l as [|c l IH]; cbn; intros H a b E.
  - symmetry in E. apply app_eq_nil in E as [-> E]. destruct p; [|discriminate]. discriminate.
  - destruct (strip_prefix p (c :: l)) as [r|] eqn:Es; [discriminate|].
    destruct (split_once p l) as [[? ?]|] eqn:Eo; [discriminate|].
    destruct a as [|c' a].
    + cbn in E. assert (strip_prefix p (c :: l) = Some b) by now apply strip_prefix_app. congruence.
    + cbn in E. injection E as _ E. exact (IH eq_refl a b E).
Qed.
Lemma contains_iff p l : contains p l = true <-> mentions p l.
Proof.
  unfold contains, mentions. destruct (split_once p l) as [[a b]|] eqn:E.
  - apply split_once_sound in E. split; [eauto|reflexivity].
  - split; [discriminate|]. intros (a & b & H). now apply (split_once_none _ _ E) in H.
Qed.
Lemma contains_char c l : contains [c] l = true <-> In c l.
Proof.
  rewrite contains_iff. split.
  - intros (a & b & ->). rewrite !in_app_iff. cbn. auto.
  - intro H. apply in_split in H as (a & b & ->). exists a, b. reflexivity.
Qed.

Lemma trim_iff l mid : mid <> [] -> trim l = mid <-> trimmed l mid.
Proof.
  intro Hne. split; [|intro H; now apply trim_trimmed].
  intro E. unfold trim in E. apply trim_end_iff in E as (s & E & Hs & Ha).
  unfold trim_start in E. destruct (drop_while_split is_whitespace l) as (s0 & E0 & Hs0). rewrite E in E0.
  exists s0, s. repeat split.
  - exact E0.
  - eapply Forall_impl; [|exact Hs0]. intro c. apply is_whitespace_iff.
  - exact Hs.
  - intros c r -> Hc. assert (drop_while is_whitespace l = c :: (r ++ s)) as Ed by now rewrite E.
    apply drop_while_stop in Ed. apply is_whitespace_iff in Hc. congruence.
  - intros c r E1. exact (Ha r c E1).
Qed.
Lemma trim_any l : trimmed l (trim l).
Proof.
  destruct (trim l) as [|c r] eqn:E; [|apply trim_iff; [discriminate|exact E]].
  exists [], l. repeat split.
  - constructor.
  - apply trim_nil_iff. now rewrite E.
  - discriminate.
  - intros c r E'. destruct r; discriminate.
Qed.
Lemma trim_unique l mid : trimmed l mid -> trim l = mid.
Proof.
  intro H. destruct mid as [|c r]; [|apply trim_trimmed; [exact H|discriminate]].
  destruct H as (a & b & -> & Ha & Hb & _). cbn.
  assert (H : is_nil (trim (a ++ b)) = true) by (apply trim_nil_iff; now apply Forall_app).
  destruct (trim (a ++ b)); [reflexivity|discriminate].
Qed.
Lemma trim_one c l : ~ In c white_space -> text_eqb (trim l) [c] = true <-> surrounded [c] l.
Proof.
  intro Hc. rewrite text_eqb_eq, (trim_iff l [c] ltac:(discriminate)). split.
  - intros (a & b & -> & Ha & Hb & _). exists a, b. auto.
  - intros (a & b & -> & Ha & Hb). exists a, b. repeat split; [exact Ha|exact Hb| |].
    + intros c' r [= <- _]. exact Hc.
    + intros c' r E. apply (app_inj_tail [] r) in E as [_ <-]. exact Hc.
Qed.

(** ** Positions in messages *)
Lemma digit_bool l : digits l -> Forall (fun c => ascii_digit c = true) l.
Proof. apply Forall_impl. intros c H. unfold ascii_digit. apply Bool.andb_true_iff. rewrite !N.leb_le. lia. Qed.
Lemma take_while_app p a c r : Forall (fun c => p c = true) a -> p c = false -> take_while p (a ++ c :: r) = a.
Proof. induction 1 as [|x a Hx _ IH]; intro Hc; cbn; [now rewrite Hc|]. now rewrite Hx, IH. Qed.
Lemma extract_prefix p shown : position p -> extract_line_prefix (p ++ shown) = Ok p.
Proof.
  intros (n & m & Hn & Hm & ->). unfold extract_line_prefix.
  assert (E1 : split_once (chars "line ") ((chars "line " ++ n ++ chars ":" ++ m ++ chars " ") ++ shown)
    = Some ([], n ++ chars ":" ++ m ++ chars " " ++ shown)).
  { rewrite <- !app_assoc. reflexivity. }
  rewrite E1.
  assert (E2 : split_once (chars ":") (n ++ chars ":" ++ m ++ chars " " ++ shown) = Some (n, m ++ chars " " ++ shown)).
  { clear E1. induction Hn as [|c n Hc _ IH]; [reflexivity|].
    assert (Ec : (58 =? c)%N = false) by (apply N.eqb_neq; lia).
    change ((c :: n) ++ chars ":" ++ m ++ chars " " ++ shown) with (c :: (n ++ chars ":" ++ m ++ chars " " ++ shown)).
    cbn [split_once]. change (chars ":") with [58%N] at 1. cbn [strip_prefix]. rewrite Ec.
    change (split_once [58%N]) with (split_once (chars ":")). now rewrite IH. }
  rewrite E2. change (chars " " ++ shown) with (32%N :: shown).
  rewrite drop_while_app by now apply digit_bool. cbn [drop_while]. change (ascii_digit 32) with false.
  change (32 <? 128)%N with true. cbn iota. rewrite take_while_app by (try apply digit_bool; auto). cbn [app].
  f_equal. now rewrite <- !app_assoc.
Qed.
Lemma positioned_prefix e p : positioned e p -> extract_line_prefix (se_message e) = Ok p.
Proof. intros (Hp & shown & ->). now apply extract_prefix. Qed.
Lemma positioned_unique e p q : positioned e p -> positioned e q -> p = q.
Proof. intros Hp Hq. apply positioned_prefix in Hp, Hq. congruence. Qed.

(** ** The detectors, one by one *)
Lemma preceded_split source e before : preceded_by source e before <-> exists rest, split_at_byte source (se_offset e) = Some (before, rest).
Proof.
  unfold preceded_by. split; intros (rest & H); exists rest; now apply split_at_byte_iff.
Qed.
Lemma error_text_iff e source before tok : error_text e source = Some (before, tok) <-> at_text source e before tok.
Proof.
  unfold error_text, at_text. split.
  - destruct (split_at_byte source (se_offset e)) as [[b r]|] eqn:E1; [|discriminate].
    destruct (split_at_byte r (se_length e)) as [[k a]|] eqn:E2; [|discriminate]. intros [= <- <-].
    apply split_at_byte_iff in E1 as [-> E1], E2 as [-> E2]. eauto.
  - intros (after & -> & E1 & E2). assert (H1 : split_at_byte (before ++ tok ++ after) (se_offset e) = Some (before, tok ++ after)) by now apply split_at_byte_iff.
    assert (H2 : split_at_byte (tok ++ after) (se_length e) = Some (tok, after)) by now apply split_at_byte_iff. now rewrite H1, H2.
Qed.

Definition total (d : syntax_error -> text -> result (option syntax_error) panic) : Prop :=
  forall source e, well_placed source e -> exists o, d e source = Ok o.
Definition sound (d : syntax_error -> text -> result (option syntax_error) panic) (diag : diagnosis) : Prop :=
  forall source e r, well_placed source e -> d e source = Ok (Some r) -> diag source e r.
Definition complete (d : syntax_error -> text -> result (option syntax_error) panic) (diag : diagnosis) : Prop :=
  forall source e r, diag source e r -> d e source = Ok (Some r).

Lemma prefix_total e k : (exists p, positioned e p) -> exists o, with_prefix e k = Ok o.
Proof. intros (p & H). unfold with_prefix. rewrite (positioned_prefix _ _ H). eauto. Qed.
Lemma prefix_sound e k r : (exists p, positioned e p) -> with_prefix e k = Ok (Some r) -> exists p, positioned e p /\ r = k p.
Proof. intros (p & H). unfold with_prefix. rewrite (positioned_prefix _ _ H). intros [= <-]. eauto. Qed.
Lemma prefix_complete e k p : positioned e p -> with_prefix e k = Ok (Some (k p)).
Proof. intro H. unfold with_prefix. now rewrite (positioned_prefix _ _ H). Qed.

Local Ltac totality :=
  repeat match goal with
  | |- exists o, with_prefix _ _ = Ok o => now apply prefix_total
  | |- exists o, Ok _ = Ok o => eauto
  | |- exists o, (if ?b then _ else _) = Ok o => destruct b
  | |- exists o, (match ?x with _ => _ end) = Ok o => destruct x
  end.

Lemma ws_brace : ~ In 123%N white_space. Proof. cbn. intro K. repeat (destruct K as [K|K]; [discriminate|]). exact K. Qed.
Lemma end_not_space a c : ~ In c white_space -> not_after (fun c => In c white_space) (a ++ [c]).
Proof. intro H. now apply not_after_snoc. Qed.
Lemma trim_after a c s : ~ In c white_space -> all_space s -> trim_end (a ++ [c] ++ s) = a ++ [c].
Proof. intros Hc Hs. rewrite app_assoc. apply trim_end_exact; [exact Hs|]. now apply end_not_space. Qed.

Lemma empty_union_total : total detect_empty_union.
Proof.
  intros source e ((before & Hb) & Hp). unfold detect_empty_union. apply preceded_split in Hb as (rest & ->). totality.
Qed.
Lemma empty_union_sound : sound detect_empty_union empty_union.
Proof.
  intros source e r (_ & Hp). unfold detect_empty_union. destruct (split_at_byte source (se_offset e)) as [[before rest]|] eqn:E; [|discriminate].
  destruct (contains (chars "`}`") (se_message e)) eqn:Em; [|discriminate]. cbn [negb].
  destruct (strip_suffix (chars "{") (trim_end before)) as [bb|] eqn:E1; [|discriminate].
  destruct (strip_suffix (chars "union") (trim_end bb)) as [u|] eqn:E2; [|discriminate].
  intro H. apply prefix_sound in H as (p & Hpp & ->); [|exact Hp].
  apply split_at_byte_iff in E as [-> Eo]. apply strip_suffix_iff in E1, E2.
  destruct (trim_end_split before) as (s2 & Hb & Hs2 & _). destruct (trim_end_split bb) as (s1 & Hbb & Hs1 & _).
  rewrite E2 in Hbb. rewrite E1, Hbb in Hb. rewrite <- !app_assoc in Hb. apply contains_iff in Em.
  assert (Hlen : se_offset e + se_length e - utf8_length u = bytes (chars "union" ++ s1 ++ chars "{" ++ s2) + se_length e).
  { rewrite Eo, Hb, bytes_app, <- bytes_utf8. lia. }
  rewrite Hlen, <- bytes_utf8. apply EmptyUnion; auto. exists rest. rewrite <- Hb. auto.
Qed.
Lemma empty_union_complete : complete detect_empty_union empty_union.
Proof.
  intros source e r H. destruct H as [u s1 s2 p Hb Hs1 Hs2 Hm Hp]. unfold detect_empty_union.
  pose proof Hb as Hb'. apply preceded_split in Hb as (rest & ->). apply contains_iff in Hm. rewrite Hm. cbn [negb].
  assert (E1 : trim_end (u ++ chars "union" ++ s1 ++ chars "{" ++ s2) = (u ++ chars "union" ++ s1) ++ chars "{").
  { replace (u ++ chars "union" ++ s1 ++ chars "{" ++ s2) with ((u ++ chars "union" ++ s1) ++ [123%N] ++ s2) by (rewrite <- !app_assoc; reflexivity).
    apply trim_after; [exact ws_brace|exact Hs2]. }
  rewrite (proj2 (strip_suffix_iff _ _ _) E1).
  assert (E2 : trim_end (u ++ chars "union" ++ s1) = u ++ chars "union").
  { rewrite app_assoc. apply trim_end_exact; [exact Hs1|]. apply (end_not_space (u ++ chars "unio") 110%N) || idtac.
    change (chars "union") with (chars "unio" ++ [110%N]). rewrite app_assoc. apply end_not_space.
    apply word_not_space. unfold in_word. lia. }
  rewrite (proj2 (strip_suffix_iff _ _ _) E2). rewrite (prefix_complete _ _ _ Hp). destruct Hb' as (rest' & _ & Eo).
  do 3 f_equal; [|].
  - now rewrite bytes_utf8.
  - rewrite Eo, bytes_app, <- bytes_utf8. lia.
Qed.

Lemma wordb l : forallb word_char l = true -> Forall in_word l.
Proof. rewrite forallb_forall, Forall_forall. intros H c Hc. now apply word_char_iff, H. Qed.
Lemma word_name l : Forall in_word l -> Forall in_name l.
Proof. apply Forall_impl. intros c H. now left. Qed.
Lemma trim_name u w s : w <> [] -> Forall in_name w -> all_space s -> trim_end (u ++ w ++ s) = u ++ w.
Proof.
  intros Hw Hn Hs. rewrite app_assoc. apply trim_end_exact; [exact Hs|]. eapply word_end; [|exact Hw|exact Hn].
  cbn. intros c H. now apply name_not_space.
Qed.
Lemma trim_word u w s : w <> [] -> Forall in_word w -> all_space s -> trim_end (u ++ w ++ s) = u ++ w.
Proof. intros Hw Hn. apply trim_name; [exact Hw|now apply word_name]. Qed.
Lemma not_ws c : existsb (N.eqb c) white_space = false -> ~ In c white_space.
Proof. intros H K. assert (existsb (N.eqb c) white_space = true) by (apply existsb_exists; exists c; split; [exact K|apply N.eqb_refl]). congruence. Qed.

Lemma empty_parameter_total : total detect_empty_type_parameter.
Proof. intros source e (_ & Hp). unfold detect_empty_type_parameter. destruct (error_text e source) as [[before tok]|]; totality. Qed.
Lemma at_text_offset source e before tok : at_text source e before tok -> se_offset e = bytes before.
Proof. intros (after & _ & H & _). exact H. Qed.
Lemma at_text_preceded source e before tok : at_text source e before tok -> preceded_by source e before.
Proof. intros (after & -> & H & _). exists (tok ++ after). auto. Qed.
Lemma empty_parameter_sound : sound detect_empty_type_parameter empty_parameter.
Proof.
  intros source e r (_ & Hp). unfold detect_empty_type_parameter. destruct (error_text e source) as [[before tok]|] eqn:E; [|discriminate].
  apply error_text_iff in E. destruct (text_eqb (trim tok) (chars ">")) eqn:Et; [|discriminate]. cbn [negb].
  apply trim_one in Et; [|now apply not_ws].
  destruct (strip_suffix (chars "<") (trim_end before)) as [ba|] eqn:E1; [|discriminate]. apply strip_suffix_iff in E1.
  destruct (trim_end_split before) as (s2 & Hb & Hs2 & _). destruct (trim_end_split ba) as (s1 & Hba & Hs1 & _).
  rewrite E1 in Hb.
  assert (K : forall kw example u, trim_end ba = u ++ kw -> In (kw, example) [(chars "map", chars "map<string>"); (chars "array", chars "array<string>")] ->
    with_prefix e (fun p => mkSyntaxError (utf8_length u) (se_offset e + se_length e - utf8_length u)
                  (p ++ chars "`" ++ kw ++ chars "` type requires a type parameter") (Some (chars "missing type inside `<>`"))
                  (Some (chars "specify the value type, e.g., `" ++ example ++ chars "`"))) = Ok (Some r) ->
    empty_parameter source e r).
  { intros kw example u Eu Hin H. apply prefix_sound in H as (p & Hpp & ->); [|exact Hp].
    rewrite Hba, Eu in Hb. rewrite <- !app_assoc in Hb. rewrite Hb in E.
    assert (Hlen : se_offset e + se_length e - utf8_length u = bytes (kw ++ s1 ++ chars "<" ++ s2) + se_length e).
    { rewrite (at_text_offset _ _ _ _ E), bytes_app, <- bytes_utf8. lia. }
    rewrite Hlen, <- bytes_utf8.
    assert (Hex : example ++ chars "`" = kw ++ chars "<string>`").
    { destruct Hin as [[= <- <-] | [[= <- <-] | []]]; reflexivity. }
    rewrite Hex. eapply EmptyParameter; eauto. destruct Hin as [[= <- <-] | [[= <- <-] | []]]; cbn; auto. }
  destruct (strip_suffix (chars "map") (trim_end ba)) as [u|] eqn:E2.
  { apply strip_suffix_iff in E2. eapply K; [exact E2|cbn; auto]. }
  destruct (strip_suffix (chars "array") (trim_end ba)) as [u|] eqn:E3; [|discriminate].
  apply strip_suffix_iff in E3. eapply K; [exact E3|cbn; auto].
Qed.
Lemma suffix_clash (u v a b : text) (c d : N) : u ++ a ++ [c] = v ++ b ++ [d] -> c <> d -> False.
Proof. rewrite !app_assoc. intros E H. apply app_inj_tail in E as [_ E]. auto. Qed.
Lemma empty_parameter_complete : complete detect_empty_type_parameter empty_parameter.
Proof.
  intros source e r H. destruct H as [u kw s1 s2 tok p Hkw Hb Hs1 Hs2 Ht Hp]. unfold detect_empty_type_parameter.
  rewrite (proj2 (error_text_iff _ _ _ _) Hb). apply (trim_one 62%N) in Ht; [|now apply not_ws]. change [62%N] with (chars ">") in Ht. rewrite Ht. cbn [negb].
  assert (E1 : trim_end (u ++ kw ++ s1 ++ chars "<" ++ s2) = (u ++ kw ++ s1) ++ chars "<").
  { replace (u ++ kw ++ s1 ++ chars "<" ++ s2) with ((u ++ kw ++ s1) ++ [60%N] ++ s2) by (rewrite <- !app_assoc; reflexivity).
    apply trim_after; [now apply not_ws|exact Hs2]. }
  rewrite (proj2 (strip_suffix_iff _ _ _) E1).
  assert (Hw : kw <> [] /\ Forall in_word kw).
  { destruct Hkw as [<- | [<- | []]]; (split; [discriminate|now apply wordb]). }
  rewrite (trim_word u kw s1 (proj1 Hw) (proj2 Hw) Hs1).
  assert (Hlen : se_offset e + se_length e - utf8_length u = bytes (kw ++ s1 ++ chars "<" ++ s2) + se_length e).
  { rewrite (at_text_offset _ _ _ _ Hb), bytes_app, <- bytes_utf8. lia. }
  destruct Hkw as [<- | [<- | []]].
  - rewrite (proj2 (strip_suffix_iff (chars "map") (u ++ chars "map") u) eq_refl).
    rewrite (prefix_complete _ _ _ Hp), Hlen, <- (bytes_utf8 u). reflexivity.
  - destruct (strip_suffix (chars "map") (u ++ chars "array")) as [v|] eqn:E.
    + exfalso. apply strip_suffix_iff in E. exact (suffix_clash u v (chars "arra") (chars "ma") _ _ E ltac:(discriminate)).
    + rewrite (proj2 (strip_suffix_iff (chars "array") (u ++ chars "array") u) eq_refl).
      rewrite (prefix_complete _ _ _ Hp), Hlen, <- (bytes_utf8 u). reflexivity.
Qed.

(** fixed *)
Lemma fixed_total : total detect_fixed_non_integer.
Proof.
  intros source e ((before & Hb) & Hp). unfold detect_fixed_non_integer. apply preceded_split in Hb as (rest & ->). totality.
Qed.
Lemma not_paren_iff c : negb (c =? open_paren)%N = true <-> c <> 40%N.
Proof. rewrite Bool.negb_true_iff, N.eqb_neq. reflexivity. Qed.
Lemma last_not_class (class : N -> Prop) l : l <> [] -> not_after class l -> exists a c, l = a ++ [c] /\ ~ class c.
Proof. intros H Hn. destruct (exists_last H) as (a & c & ->). exists a, c. split; [reflexivity|]. exact (Hn a c eq_refl). Qed.
Lemma Forall_not_in (c : N) l : Forall (fun x => x <> c) l <-> ~ In c l.
Proof. rewrite Forall_forall. split; [intros H K; exact (H c K eq_refl)|intros H x K ->; auto]. Qed.
Lemma size_length size : match utf8_length size with O => 1 | S n => S n end = Nat.max 1 (bytes size).
Proof. rewrite bytes_utf8. destruct (utf8_length size); reflexivity. Qed.
Lemma fixed_sound : sound detect_fixed_non_integer bad_size.
Proof.
  intros source e r (_ & Hp). unfold detect_fixed_non_integer.
  destruct (contains (chars "`)`") (se_message e)) eqn:Em; [|discriminate]. cbn [negb]. apply contains_iff in Em.
  destruct (split_at_byte source (se_offset e)) as [[before rest]|] eqn:E; [|discriminate].
  destruct (split_word (fun c => negb (c =? open_paren)%N) before) as [tp size] eqn:Es.
  apply (split_word_iff _ (fun c => c <> 40%N) _ _ _ not_paren_iff) in Es as (Eb & Hsz & Htp).
  destruct tp as [|x tp']; [discriminate|].
  destruct (last_not_class _ (x :: tp') ltac:(discriminate) Htp) as (tp & c & Etp & Hc).
  assert (c = 40%N) by lia. subst c. rewrite Etp in *. clear x tp' Etp. rewrite removelast_last.
  destruct (split_word word_char (trim_end tp)) as [bn name] eqn:En.
  apply (split_word_iff _ in_word _ _ _ word_char_iff) in En as (En & Hn & Hbn).
  destruct name as [|y name'] eqn:Ename; [discriminate|]. rewrite <- Ename in *. assert (Hne : name <> []) by congruence. clear y name' Ename.
  destruct (ends_with (chars "fixed") (trim_end bn)) eqn:Ef; [|discriminate]. cbn [negb].
  apply ends_with_iff in Ef as (u & Eu). destruct (trim_end_split bn) as (s1 & Hbn' & Hs1 & _). destruct (trim_end_split tp) as (s2 & Htp' & Hs2 & _).
  rewrite Eu in Hbn'. rewrite En, Hbn' in Htp'. rewrite Hbn' in Hbn. rewrite <- !app_assoc in Htp', Hbn.
  intro H. apply prefix_sound in H as (p & Hpp & ->); [|exact Hp].
  apply split_at_byte_iff in E as [-> Eo].
  assert (Ebefore : before = u ++ chars "fixed" ++ s1 ++ name ++ s2 ++ chars "(" ++ size).
  { rewrite Eb, Htp'. rewrite <- !app_assoc. reflexivity. }
  assert (Epar : tp ++ [40%N] = u ++ chars "fixed" ++ s1 ++ name ++ s2 ++ chars "(").
  { rewrite Htp'. rewrite <- !app_assoc. reflexivity. }
  rewrite Epar, size_length, <- bytes_utf8.
  apply (BadSize (before ++ rest) e u s1 name s2 size (trim size) p); auto.
  - exists rest. now rewrite <- Ebefore.
  - split; [exact Hne|]. now split.
  - now apply Forall_not_in.
  - apply trim_any.
Qed.
Lemma fixed_complete : complete detect_fixed_non_integer bad_size.
Proof.
  intros source e r H. destruct H as [u s1 name s2 size shown p Hb Hs1 Hs2 (Hne & Hn & Hu) Hsz Hsh Hm Hp]. unfold detect_fixed_non_integer.
  apply contains_iff in Hm. rewrite Hm. cbn [negb]. apply preceded_split in Hb as (rest & ->).
  set (tp := u ++ chars "fixed" ++ s1 ++ name ++ s2 ++ chars "(").
  assert (Es : split_word (fun c => negb (c =? open_paren)%N) (u ++ chars "fixed" ++ s1 ++ name ++ s2 ++ chars "(" ++ size) = (tp, size)).
  { apply (split_word_iff _ (fun c => c <> 40%N) _ _ _ not_paren_iff). split; [unfold tp; now rewrite <- !app_assoc|].
    split; [now apply Forall_not_in|]. unfold tp. rewrite !app_assoc. apply (not_after_snoc _ _ 40%N). intro K. now apply K. }
  rewrite Es. assert (Et : tp = ((u ++ chars "fixed" ++ s1) ++ name ++ s2) ++ [40%N]) by (unfold tp; rewrite <- !app_assoc; reflexivity).
  assert (Hn0 : exists x tp', tp = x :: tp'). { destruct tp as [|x tp']; [destruct ((u ++ chars "fixed" ++ s1) ++ name ++ s2); discriminate|eauto]. }
  destruct Hn0 as (x & tp' & Ex).
  assert (Er : removelast tp = (u ++ chars "fixed" ++ s1) ++ name ++ s2) by (rewrite Et; apply removelast_last).
  rewrite <- size_length. unfold tp in *. clear tp. rewrite Er, (trim_word _ _ _ Hne Hn Hs2).
  rewrite (proj2 (split_word_iff _ in_word _ _ _ word_char_iff) (conj eq_refl (conj Hn Hu))).
  rewrite Ex. rewrite <- Ex. destruct name as [|y name']; [congruence|].
  rewrite (trim_word u (chars "fixed") s1 ltac:(discriminate) ltac:(now apply wordb) Hs1).
  rewrite (proj2 (ends_with_iff (chars "fixed") (u ++ chars "fixed")) (ex_intro _ u eq_refl)). cbn [negb].
  rewrite (prefix_complete _ _ _ Hp), <- bytes_utf8. rewrite (trim_unique _ _ Hsh). reflexivity.
Qed.

(** Names *)
Lemma no_name_total : total detect_missing_name.
Proof. intros source e (_ & Hp). unfold detect_missing_name. destruct (error_text e source) as [[before tok]|]; totality. Qed.
Definition construct_of (keyword : text) : text := if text_eqb keyword (chars "error") then chars "error record" else keyword.
Lemma declared_keyword kw : In kw [chars "protocol"; chars "record"; chars "enum"; chars "fixed"; chars "error"] ->
  In (kw, construct_of kw, chars "My" ++ capitalized kw) declarations.
Proof. intros [<- | [<- | [<- | [<- | [<- | []]]]]]; vm_compute; tauto. Qed.
Lemma declarations_inv kw construct example : In (kw, construct, example) declarations ->
  In kw [chars "protocol"; chars "record"; chars "enum"; chars "fixed"; chars "error"] /\ construct = construct_of kw /\ example = chars "My" ++ capitalized kw.
Proof.
  intros [H | [H | [H | [H | [H | []]]]]]; injection H as <- <- <-; (split; [cbn [In]; tauto|split; vm_compute; reflexivity]).
Qed.
Definition name_report (e : syntax_error) (kw construct : text) (p : text) : syntax_error :=
  mkSyntaxError (se_offset e) (se_length e)
    (p ++ chars "expected name after `" ++ kw ++ chars "`, found `{`")
    (Some (chars "expected " ++ construct ++ chars " name before `{`"))
    (Some (chars "add a name, e.g., `" ++ kw ++ chars " My" ++ capitalized kw ++ chars " { ... }`")).
Lemma detect_missing_name_eq e source : detect_missing_name e source =
  match error_text e source with
  | None => Ok None
  | Some (before, tok) =>
      let kw := snd (split_word word_char (trim_end before)) in
      if text_eqb (trim tok) (chars "{") && text_mem kw [chars "protocol"; chars "record"; chars "enum"; chars "fixed"; chars "error"]
      then with_prefix e (name_report e kw (construct_of kw)) else Ok None
  end.
Proof.
  unfold detect_missing_name. destruct (error_text e source) as [[before tok]|]; [|reflexivity].
  cbv zeta. set (kw := snd _). clearbody kw. destruct (text_eqb (trim tok) (chars "{")); [|reflexivity]. cbn [negb andb].
  destruct (text_mem kw [chars "protocol"; chars "record"; chars "enum"; chars "fixed"]) eqn:E.
  - apply text_mem_in in E.
    assert (E2 : text_mem kw [chars "protocol"; chars "record"; chars "enum"; chars "fixed"; chars "error"] = true).
    { apply text_mem_in. cbn [In] in *. tauto. }
    rewrite E2. replace (construct_of kw) with kw; [reflexivity|].
    destruct E as [<- | [<- | [<- | [<- | []]]]]; reflexivity.
  - destruct (text_eqb kw (chars "error")) eqn:E3.
    + apply text_eqb_eq in E3. subst kw. reflexivity.
    + assert (E2 : text_mem kw [chars "protocol"; chars "record"; chars "enum"; chars "fixed"; chars "error"] = false); [|now rewrite E2].
      unfold text_mem in *. cbn [existsb] in *. rewrite !Bool.orb_false_iff in *. tauto.
Qed.
Lemma keyword_word kw : In kw [chars "protocol"; chars "record"; chars "enum"; chars "fixed"; chars "error"] -> kw <> [] /\ Forall in_word kw.
Proof. intros [<- | [<- | [<- | [<- | [<- | []]]]]]; (split; [discriminate|now apply wordb]). Qed.
Lemma no_name_sound : sound detect_missing_name no_name.
Proof.
  intros source e r (_ & Hp). rewrite detect_missing_name_eq. destruct (error_text e source) as [[before tok]|] eqn:E; [|discriminate].
  apply error_text_iff in E. cbv zeta. destruct (split_word word_char (trim_end before)) as [u kw] eqn:Es. cbn [snd].
  destruct (text_eqb (trim tok) (chars "{")) eqn:Et; [|discriminate]. cbn [andb].
  destruct (text_mem kw _) eqn:Ek; [|discriminate]. apply text_mem_in in Ek.
  intro H. apply prefix_sound in H as (p & Hpp & ->); [|exact Hp].
  apply (split_word_iff _ in_word _ _ _ word_char_iff) in Es as (Es & Hw & Hu).
  destruct (trim_end_split before) as (s & Hb & Hs & _). rewrite Es in Hb. rewrite <- app_assoc in Hb.
  unfold name_report. apply declared_keyword in Ek. rewrite Hb in E.
  apply (trim_one 123%N) in Et; [|exact ws_brace].
  pose proof (NoName source e u kw _ _ s tok p Ek Hu Hs E Et Hpp) as K. rewrite <- app_assoc in K. exact K.
Qed.
Lemma no_name_complete : complete detect_missing_name no_name.
Proof.
  intros source e r H. destruct H as [u kw construct example s tok p Hd Hu Hs Hb Ht Hp]. rewrite detect_missing_name_eq.
  rewrite (proj2 (error_text_iff _ _ _ _) Hb). cbv zeta. apply declarations_inv in Hd as (Hk & -> & ->).
  destruct (keyword_word _ Hk) as [Hne Hw]. rewrite (trim_word u kw s Hne Hw Hs).
  rewrite (proj2 (split_word_iff _ in_word _ _ _ word_char_iff) (conj eq_refl (conj Hw Hu))). cbn [snd].
  apply (trim_one 123%N) in Ht; [|exact ws_brace]. change [123%N] with (chars "{") in Ht. rewrite Ht.
  rewrite (proj2 (text_mem_in _ _) Hk). cbn [andb]. rewrite (prefix_complete _ _ _ Hp). unfold name_report.
  rewrite <- app_assoc. reflexivity.
Qed.

(** Trailing commas *)
Lemma trailing_comma_total : total detect_trailing_comma_in_enum.
Proof. intros source e (_ & Hp). unfold detect_trailing_comma_in_enum. destruct (error_text e source) as [[before tok]|]; totality. Qed.
Lemma enum_with_brace_iff l : enum_with_brace l = true <-> exists a b, l = a ++ chars "enum" ++ b /\ In 123%N b.
Proof.
  induction l as [|c l IH]; cbn [enum_with_brace].
  - split; [discriminate|]. intros (a & b & E & _). destruct a; discriminate.
  - rewrite Bool.orb_true_iff, IH. split.
    + intros [H | (a & b & -> & Hb)].
      * destruct (strip_prefix (chars "enum") (c :: l)) as [b|] eqn:E; [|discriminate]. apply strip_prefix_app in E.
        apply contains_char in H. exists [], b. auto.
      * exists (c :: a), b. auto.
    + intros ([|c' a] & b & E & Hb).
      * left. assert (strip_prefix (chars "enum") (c :: l) = Some b) as -> by now apply strip_prefix_app. now apply contains_char.
      * right. cbn [app] in E. injection E as <- ->. exists a, b. split; [reflexivity|exact Hb].
Qed.
Lemma symbol_iff u symbol : snd (split_word word_char (trim_end u)) = symbol <-> symbol_before u symbol.
Proof.
  destruct (trim_end_split u) as (s & Hu & Hs & Hn). destruct (split_word word_char (trim_end u)) as [v w] eqn:E. cbn [snd].
  pose proof E as E'. apply (split_word_iff _ in_word _ _ _ word_char_iff) in E' as (Ev & Hw & Hv). split.
  - intros <-. exists v, s. rewrite Ev in Hu, Hn. rewrite <- app_assoc in Hu. auto.
  - intros (v' & s' & Hu' & Hs' & Hw' & Hv' & Hn'). assert (Et : trim_end u = v' ++ symbol).
    { apply trim_end_iff. exists s'. rewrite <- app_assoc. auto. }
    assert (split_word word_char (trim_end u) = (v', symbol)); [|congruence].
    apply (split_word_iff _ in_word _ _ _ word_char_iff). auto.
Qed.
Lemma trailing_comma_sound : sound detect_trailing_comma_in_enum trailing_comma.
Proof.
  intros source e r (_ & Hp). unfold detect_trailing_comma_in_enum. destruct (error_text e source) as [[before tok]|] eqn:E; [|discriminate].
  apply error_text_iff in E. destruct (text_eqb (trim tok) (chars "}")) eqn:Et; [|discriminate]. cbn [negb].
  apply (trim_one 125%N) in Et; [|now apply not_ws].
  destruct (strip_suffix (chars ",") (trim_end before)) as [u|] eqn:E1; [|discriminate]. apply strip_suffix_iff in E1.
  destruct (enum_with_brace before) eqn:Ee; [|discriminate]. cbn [negb].
  intro H. apply prefix_sound in H as (p & Hpp & ->); [|exact Hp].
  destruct (trim_end_split before) as (s & Hb & Hs & _). rewrite E1 in Hb. rewrite <- app_assoc in Hb. subst before.
  apply enum_with_brace_iff in Ee as (a & b & Ea & Hb). rewrite <- bytes_utf8.
  eapply TrailingComma; eauto. now apply symbol_iff.
Qed.
Lemma trailing_comma_complete : complete detect_trailing_comma_in_enum trailing_comma.
Proof.
  intros source e r H. destruct H as [u s tok a b symbol p Hb Hs Ht Ea Hin Hsym Hp]. unfold detect_trailing_comma_in_enum.
  rewrite (proj2 (error_text_iff _ _ _ _) Hb). apply (trim_one 125%N) in Ht; [|now apply not_ws]. change [125%N] with (chars "}") in Ht. rewrite Ht. cbn [negb].
  assert (E1 : trim_end (u ++ chars "," ++ s) = u ++ chars ",") by (apply (trim_after u 44%N s); [now apply not_ws|exact Hs]).
  rewrite E1, (proj2 (strip_suffix_iff (chars ",") (u ++ chars ",") u) eq_refl).
  rewrite (proj2 (enum_with_brace_iff (u ++ chars "," ++ s)) (ex_intro _ a (ex_intro _ b (conj Ea Hin)))). cbn [negb].
  apply symbol_iff in Hsym. rewrite Hsym, (prefix_complete _ _ _ Hp), <- bytes_utf8. reflexivity.
Qed.

(** Misspelt keywords *)
Lemma misspelled_total : total detect_misspelled_keyword.
Proof.
  intros source e ((before & Hb) & Hp). unfold detect_misspelled_keyword. apply preceded_split in Hb as (rest & ->). totality.
Qed.
Lemma misspelled_sound : sound detect_misspelled_keyword misspelled.
Proof.
  intros source e r (_ & Hp). unfold detect_misspelled_keyword. destruct (split_at_byte source (se_offset e)) as [[before rest]|] eqn:E; [|discriminate].
  destruct (split_word name_char (trim_end before)) as [bn name] eqn:En.
  apply (split_word_iff _ in_name _ _ _ name_char_iff) in En as (En & Hn & Hbn).
  destruct name as [|x name'] eqn:Ex; [discriminate|]. rewrite <- Ex in *. assert (Hne : name <> []) by congruence. clear x name' Ex.
  destruct (split_word word_char (trim_end bn)) as [u w] eqn:Ew.
  apply (split_word_iff _ in_word _ _ _ word_char_iff) in Ew as (Ew & Hw & Hu).
  destruct w as [|x w'] eqn:Ex; [discriminate|]. rewrite <- Ex in *. assert (Hnw : w <> []) by congruence. clear x w' Ex.
  destruct (suggest_keyword (of_chars w)) as [kw|] eqn:Ek; [|discriminate].
  intro H. apply prefix_sound in H as (p & Hpp & ->); [|exact Hp].
  apply split_at_byte_iff in E as [-> Eo].
  destruct (trim_end_split before) as (s2 & Hb & Hs2 & _). destruct (trim_end_split bn) as (s1 & Hb1 & Hs1 & _).
  rewrite Ew in Hb1. rewrite En in Hb. rewrite Hb1 in Hb, Hbn. rewrite <- !app_assoc in Hb. rewrite <- !app_assoc in Hbn.
  rewrite <- !bytes_utf8. apply (Misspelled (before ++ rest) e u w s1 name s2 kw p); auto.
  - exists rest. now rewrite <- Hb.
  - split; [exact Hne|]. now split.
  - split; [exact Hnw|]. now split.
Qed.
Lemma misspelled_complete : complete detect_misspelled_keyword misspelled.
Proof.
  intros source e r H. destruct H as [u w s1 name s2 kw p Hb Hs1 Hs2 (Hne & Hn & Hbn) (Hnw & Hw & Hu) Hk Hp]. unfold detect_misspelled_keyword.
  apply preceded_split in Hb as (rest & ->).
  assert (E1 : trim_end (u ++ w ++ s1 ++ name ++ s2) = (u ++ w ++ s1) ++ name).
  { replace (u ++ w ++ s1 ++ name ++ s2) with ((u ++ w ++ s1) ++ name ++ s2) by (now rewrite <- !app_assoc). now apply trim_name. }
  rewrite E1, (proj2 (split_word_iff _ in_name _ _ _ name_char_iff) (conj eq_refl (conj Hn Hbn))).
  rewrite (trim_word u w s1 Hnw Hw Hs1), (proj2 (split_word_iff _ in_word _ _ _ word_char_iff) (conj eq_refl (conj Hw Hu))).
  destruct name; [congruence|]. destruct w; [congruence|]. rewrite Hk, (prefix_complete _ _ _ Hp), <- !bytes_utf8. reflexivity.
Qed.

(** Braces *)
Definition scan_step (st : nat * bool * bool * list nat) (c : N) : nat * bool * bool * list nat :=
  match st with
  | (pos, in_string, pb, stack) =>
      let pos' := pos + width c in
      if in_string then (pos', negb ((c =? 34)%N && negb pb), (c =? 92)%N && negb pb, stack)
      else if (c =? 34)%N then (pos', true, pb, stack)
      else if (c =? open_brace)%N then (pos', false, pb, pos :: stack)
      else if (c =? close_brace)%N then (pos', false, pb, tl stack)
      else (pos', false, pb, stack)
  end.
Lemma open_braces_scan l : forall pos i p s, open_braces pos i p s l = snd (fold_left scan_step l (pos, i, p, s)).
Proof.
  induction l as [|c l IH]; intros; [reflexivity|]. cbn [open_braces fold_left scan_step]. cbv zeta.
  destruct i; [apply IH|]. destruct (c =? 34)%N; [apply IH|]. destruct (c =? open_brace)%N; [apply IH|].
  destruct (c =? close_brace)%N; apply IH.
Qed.

Lemma literal_body_app a b : literal_body a -> literal_body b -> literal_body (a ++ b).
Proof. induction 1; cbn [app]; intros Hb; [exact Hb|apply body_plain|apply body_escape]; auto. Qed.
Lemma balanced_app a b : balanced a -> balanced b -> balanced (a ++ b).
Proof.
  induction 1 as [|c r H1 H2 H3 _ IH|s r Hs _ IH|x r Hx _ _ IH]; intro Hb; cbn [app]; [exact Hb| | |].
  - apply bal_char; auto.
  - rewrite <- app_assoc. cbn [app]. apply bal_literal; auto.
  - rewrite <- app_assoc. cbn [app]. apply bal_braces; auto.
Qed.
Lemma whole_app a b : whole_literals a -> whole_literals b -> whole_literals (a ++ b).
Proof.
  induction 1 as [|c r H1 _ IH|s r Hs _ IH]; intro Hb; cbn [app]; [exact Hb| |].
  - apply wl_char; auto.
  - rewrite <- app_assoc. cbn [app]. apply wl_literal; auto.
Qed.
Lemma balanced_whole l : balanced l -> whole_literals l.
Proof.
  induction 1 as [|c r H1 H2 H3 _ IH|s r Hs _ IH|x r _ IHx _ IH].
  - constructor.
  - apply wl_char; auto.
  - apply wl_literal; auto.
  - apply wl_char; [discriminate|]. apply whole_app; [exact IHx|]. apply wl_char; [discriminate|exact IH].
Qed.

Lemma scan_body s : literal_body s -> forall pos st, fold_left scan_step s (pos, true, false, st) = (pos + utf8_length s, true, false, st).
Proof.
  induction 1 as [|c r H1 H2 _ IH|c r _ IH]; intros pos st; [cbn; now rewrite Nat.add_0_r| |].
  - cbn [fold_left scan_step]. apply N.eqb_neq in H1, H2. rewrite H1, H2. cbn [negb andb]. rewrite IH, utf8_length_cons. now rewrite Nat.add_assoc.
  - cbn [fold_left scan_step]. change (92 =? 34)%N with false. change (92 =? 92)%N with true. cbn [negb andb]. rewrite !Bool.andb_false_r. cbn [negb].
    rewrite IH, !utf8_length_cons. now rewrite !Nat.add_assoc.
Qed.
Lemma scan_literal s : literal_body s -> forall pos st, fold_left scan_step (34%N :: s ++ [34%N]) (pos, false, false, st) = (pos + utf8_length (34%N :: s ++ [34%N]), false, false, st).
Proof.
  intros Hs pos st. cbn [fold_left scan_step]. change (34 =? 34)%N with true. cbn iota. rewrite fold_left_app, (scan_body _ Hs). cbn [fold_left scan_step].
  change (34 =? 34)%N with true. change (34 =? 92)%N with false. cbn [negb andb]. rewrite utf8_length_cons, utf8_length_app, utf8_length_cons. f_equal. f_equal. f_equal. cbn. lia.
Qed.
Lemma scan_balanced l : balanced l -> forall pos st, fold_left scan_step l (pos, false, false, st) = (pos + utf8_length l, false, false, st).
Proof.
  induction 1 as [|c r H1 H2 H3 _ IH|s r Hs _ IH|x r _ IHx _ IH]; intros pos st; [cbn; now rewrite Nat.add_0_r| | |].
  - cbn [fold_left scan_step]. unfold open_brace, close_brace. apply N.eqb_neq in H1, H2, H3. rewrite H1, H2, H3, IH, utf8_length_cons. now rewrite Nat.add_assoc.
  - replace (34%N :: s ++ 34%N :: r) with ((34%N :: s ++ [34%N]) ++ r) by (cbn [app]; now rewrite <- app_assoc).
    rewrite fold_left_app, (scan_literal _ Hs), IH, utf8_length_app. now rewrite Nat.add_assoc.
  - cbn [fold_left scan_step]. change (123 =? 34)%N with false. change (123 =? open_brace)%N with true. cbn iota.
    rewrite fold_left_app, IHx. cbn [fold_left scan_step]. change (125 =? 34)%N with false. change (125 =? open_brace)%N with false. change (125 =? close_brace)%N with true. cbn iota. cbn [tl].
    rewrite IH, utf8_length_cons, utf8_length_app, utf8_length_cons. f_equal. f_equal. f_equal. lia.
Qed.
Lemma scan_whole l : whole_literals l -> forall pos st, exists st', fold_left scan_step l (pos, false, false, st) = (pos + utf8_length l, false, false, st').
Proof.
  induction 1 as [|c r H1 _ IH|s r Hs _ IH]; intros pos st; [exists st; cbn; now rewrite Nat.add_0_r| |].
  - cbn [fold_left scan_step]. apply N.eqb_neq in H1. rewrite H1, utf8_length_cons, Nat.add_assoc.
    destruct (c =? open_brace)%N; [apply IH|]. destruct (c =? close_brace)%N; apply IH.
  - replace (34%N :: s ++ 34%N :: r) with ((34%N :: s ++ [34%N]) ++ r) by (cbn [app]; now rewrite <- app_assoc).
    rewrite fold_left_app, (scan_literal _ Hs), utf8_length_app, Nat.add_assoc. apply IH.
Qed.

Lemma brace_stack_complete l a : innermost_open l a -> exists st, brace_stack l = bytes a :: st.
Proof.
  intros (b & -> & Ha & Hb). unfold brace_stack. rewrite open_braces_scan, !fold_left_app.
  destruct (scan_whole a Ha 0 []) as (st & ->). exists st. rewrite bytes_utf8. cbn [fold_left scan_step].
  change (123 =? 34)%N with false. change (123 =? open_brace)%N with true. cbn iota.
  destruct Hb as [Hb | (b1 & b2 & -> & Hb1 & s & Hs & Hb2)].
  - now rewrite (scan_balanced b Hb).
  - rewrite fold_left_app, (scan_balanced b1 Hb1). destruct Hb2 as [-> | ->]; cbn [fold_left scan_step]; change (34 =? 34)%N with true; cbn iota.
    + now rewrite (scan_body s Hs).
    + now rewrite fold_left_app, (scan_body s Hs).
Qed.

Inductive layers : text -> list nat -> Prop :=
| lay_bottom l : whole_literals l -> layers l []
| lay_open a b s : layers a s -> balanced b -> layers (a ++ 123%N :: b) (bytes a :: s).
Lemma layers_whole l s : layers l s -> whole_literals l.
Proof.
  induction 1 as [l H|a b s _ IH Hb]; [exact H|]. apply whole_app; [exact IH|]. apply wl_char; [discriminate|]. now apply balanced_whole.
Qed.
Lemma layers_balanced l s b : layers l s -> balanced b -> layers (l ++ b) s.
Proof.
  intros H Hb. destruct H as [l H|a b' s H Hb'].
  - constructor. apply whole_app; [exact H|]. now apply balanced_whole.
  - rewrite <- app_assoc. cbn [app]. constructor; [exact H|]. now apply balanced_app.
Qed.
Definition scanned (l : text) (st : nat * bool * bool * list nat) : Prop :=
  match st with
  | (pos, false, pb, s) => pos = bytes l /\ pb = false /\ layers l s
  | (pos, true, pb, s) => pos = bytes l /\ exists l0 body, literal_body body /\ layers l0 s
      /\ l = l0 ++ 34%N :: body ++ if pb then [92%N] else []
  end.
Lemma scan_invariant l : scanned l (fold_left scan_step l (0, false, false, [])).
Proof.
  induction l as [|c l IH] using rev_ind.
  - cbn. repeat split. constructor. constructor.
  - rewrite fold_left_app. cbn [fold_left]. destruct (fold_left scan_step l (0, false, false, [])) as [[[pos i] pb] s].
    assert (Epos : bytes (l ++ [c]) = bytes l + width c) by (rewrite bytes_app, (bytes_utf8 [c]), utf8_length_cons; cbn; lia).
    unfold scanned in IH. unfold scan_step. cbv zeta. destruct i.
    + destruct IH as (-> & l0 & body & Hb & Hl & El). destruct (N.eqb_spec c 34) as [-> | H34].
      * destruct pb; cbn [negb andb scanned].
        -- split; [now rewrite Epos|]. exists l0, (body ++ [92%N; 34%N]). split; [|split; [exact Hl|]].
           ++ apply literal_body_app; [exact Hb|]. apply body_escape, body_nil.
           ++ rewrite El, <- !app_assoc. cbn [app]. rewrite <- !app_assoc. reflexivity.
        -- split; [now rewrite Epos|]. split; [reflexivity|]. rewrite app_nil_r in El. rewrite El.
           replace ((l0 ++ 34%N :: body) ++ [34%N]) with (l0 ++ (34%N :: body ++ [34%N])) by (rewrite <- app_assoc; reflexivity).
           apply layers_balanced; [exact Hl|]. apply bal_literal; [exact Hb|constructor].
      * cbn [negb andb]. destruct pb.
        -- rewrite Bool.andb_false_r. cbn [scanned]. split; [now rewrite Epos|]. exists l0, (body ++ [92%N; c]). split; [|split; [exact Hl|]].
           ++ apply literal_body_app; [exact Hb|]. apply body_escape, body_nil.
           ++ rewrite El, <- !app_assoc. cbn [app]. rewrite <- !app_assoc. reflexivity.
        -- cbn [negb]. rewrite Bool.andb_true_r. rewrite app_nil_r in El. destruct (N.eqb_spec c 92) as [-> | H92]; cbn [scanned].
           ++ split; [now rewrite Epos|]. exists l0, body. split; [exact Hb|]. split; [exact Hl|]. rewrite El, <- app_assoc. reflexivity.
           ++ split; [now rewrite Epos|]. exists l0, (body ++ [c]). split; [|split; [exact Hl|]].
              ** apply literal_body_app; [exact Hb|]. constructor; [exact H34|exact H92|constructor].
              ** rewrite app_nil_r, El, <- app_assoc. reflexivity.
    + destruct IH as (-> & -> & Hl). destruct (N.eqb_spec c 34) as [-> | H34]; cbn [scanned].
      * split; [now rewrite Epos|]. exists l, []. split; [constructor|]. split; [exact Hl|reflexivity].
      * unfold open_brace, close_brace. destruct (N.eqb_spec c 123) as [-> | H123]; cbn [scanned].
        -- split; [now rewrite Epos|]. split; [reflexivity|]. constructor; [exact Hl|constructor].
        -- destruct (N.eqb_spec c 125) as [-> | H125]; cbn [scanned]; (split; [now rewrite Epos|]; split; [reflexivity|]).
           ++ destruct Hl as [l Hl|a b s Hl Hb]; cbn [tl].
              ** constructor. apply whole_app; [exact Hl|]. apply wl_char; [discriminate|constructor].
              ** rewrite <- app_assoc. cbn [app]. apply layers_balanced; [exact Hl|]. apply bal_braces; [exact Hb|constructor].
           ++ apply layers_balanced; [exact Hl|]. apply bal_char; auto. constructor.
Qed.
Lemma brace_stack_sound l pos st : brace_stack l = pos :: st -> exists a, innermost_open l a /\ pos = bytes a.
Proof.
  unfold brace_stack. rewrite open_braces_scan. pose proof (scan_invariant l) as H.
  destruct (fold_left scan_step l (0, false, false, [])) as [[[pos' i] pb] s]. cbn [snd]. intros ->.
  destruct i; cbn [scanned] in H.
  - destruct H as (_ & l0 & body & Hb & Hl & ->). inversion Hl as [|a b s Ha Hb' Ea Es]. subst. exists a. split; [|reflexivity].
    exists (b ++ 34%N :: body ++ if pb then [92%N] else []). split; [now rewrite <- !app_assoc|]. split; [now apply layers_whole in Ha|].
    right. exists b, (34%N :: body ++ if pb then [92%N] else []). split; [reflexivity|]. split; [exact Hb'|].
    exists body. split; [exact Hb|]. destruct pb; [now right|left; now rewrite app_nil_r].
  - destruct H as (_ & _ & Hl). inversion Hl as [|a b s Ha Hb' Ea Es]. subst. exists a. split; [|reflexivity].
    exists b. split; [reflexivity|]. split; [now apply layers_whole in Ha|]. now left.
Qed.
Lemma innermost_unique l a b : innermost_open l a -> innermost_open l b -> a = b.
Proof.
  intros Ha Hb. pose proof (brace_stack_complete _ _ Ha) as (s & E). pose proof (brace_stack_complete _ _ Hb) as (s' & E').
  destruct Ha as (r & Er & _), Hb as (r' & Er' & _). rewrite E in E'. injection E' as E' _. rewrite Er in Er'.
  exact (proj1 (bytes_inj _ _ _ _ Er' E')).
Qed.
Lemma innermost_split l a : innermost_open l a -> exists b, l = a ++ b.
Proof. intros (b & -> & _). eauto. Qed.

(** What a brace opens *)
Lemma text_eqb_false a b : a <> b -> text_eqb a b = false.
Proof. intro H. destruct (text_eqb a b) eqn:E; [|reflexivity]. now apply text_eqb_eq in E. Qed.
Definition lookup_construct (name : text) : option string :=
  if text_eqb name (chars "protocol") then Some "protocol"
  else if text_eqb name (chars "record") then Some "record"
  else if text_eqb name (chars "error") then Some "error record"
  else if text_eqb name (chars "enum") then Some "enum"
  else None.
Lemma lookup_construct_iff kw name : option_map chars (lookup_construct kw) = Some name <-> In (kw, name) named_constructs.
Proof.
  unfold lookup_construct, named_constructs. cbn [In]. split.
  - destruct (text_eqb kw (chars "protocol")) eqn:E1; [apply text_eqb_eq in E1; subst kw; cbn [option_map]; intros [= <-]; tauto|].
    destruct (text_eqb kw (chars "record")) eqn:E2; [apply text_eqb_eq in E2; subst kw; cbn [option_map]; intros [= <-]; tauto|].
    destruct (text_eqb kw (chars "error")) eqn:E3; [apply text_eqb_eq in E3; subst kw; cbn [option_map]; intros [= <-]; tauto|].
    destruct (text_eqb kw (chars "enum")) eqn:E4; [apply text_eqb_eq in E4; subst kw; cbn [option_map]; intros [= <-]; tauto|].
    discriminate.
  - intros [H | [H | [H | [H | []]]]]; injection H as <- <-; reflexivity.
Qed.
Lemma identify_eq b : identify_construct b =
  match split_word name_char (trim_end b) with
  | (before, name) =>
      match lookup_construct name with
      | Some c => Some c
      | None =>
          if text_eqb name (chars "union") then Some "union"%string
          else match name with [] => None | _ => lookup_construct (snd (split_word word_char (trim_end before))) end
      end
  end.
Proof.
  unfold identify_construct, lookup_construct. destruct (split_word name_char (trim_end b)) as [before name].
  destruct name as [|c r]; [reflexivity|].
  repeat match goal with |- context [if text_eqb (c :: r) ?x then _ else _] => destruct (text_eqb (c :: r) x); try reflexivity end.
Qed.
Lemma constructs_word kw name : In (kw, name) constructs -> kw <> [] /\ Forall in_word kw.
Proof. intros [H | [H | [H | [H | [H | []]]]]]; injection H as <- _; (split; [discriminate|now apply wordb]). Qed.
Lemma opens_iff b name : opens b name <-> option_map chars (identify_construct b) = Some name.
Proof.
  rewrite identify_eq. split.
  - intros [u kw s nm Hin Hu Hs | u kw s1 n s2 nm Hin Hu Hs1 (Hn & Hnn & Hna) Hnot Hs2].
    + destruct (constructs_word _ _ Hin) as [Hne Hw]. rewrite (trim_word u kw s Hne Hw Hs).
      rewrite (proj2 (split_word_iff _ in_name _ _ _ name_char_iff) (conj eq_refl (conj (word_name _ Hw) Hu))).
      unfold constructs in Hin. apply in_app_iff in Hin as [Hin | [[= <- <-] | []]]; [|reflexivity].
      apply lookup_construct_iff in Hin. destruct (lookup_construct kw); [exact Hin|discriminate].
    + replace (u ++ kw ++ s1 ++ n ++ s2) with ((u ++ kw ++ s1) ++ n ++ s2) by now rewrite <- !app_assoc.
      rewrite (trim_name _ n s2 Hn Hnn Hs2), (proj2 (split_word_iff _ in_name _ _ _ name_char_iff) (conj eq_refl (conj Hnn Hna))).
      assert (El : lookup_construct n = None).
      { destruct (lookup_construct n) as [x|] eqn:E; [|reflexivity]. exfalso. apply Hnot.
        assert (K : option_map chars (lookup_construct n) = Some (chars x)) by now rewrite E.
        apply lookup_construct_iff in K. apply in_map_iff. exists (n, chars x). split; [reflexivity|]. unfold constructs. apply in_app_iff. now left. }
      rewrite El, text_eqb_false.
      2:{ intros ->. apply Hnot. apply in_map_iff. exists (chars "union", chars "union"). split; [reflexivity|]. unfold constructs. apply in_app_iff. right. now left. }
      assert (Hk : In (kw, nm) constructs) by (unfold constructs; apply in_app_iff; now left).
      destruct (constructs_word _ _ Hk) as [Hne Hw]. rewrite (trim_word u kw s1 Hne Hw Hs1).
      rewrite (proj2 (split_word_iff _ in_word _ _ _ word_char_iff) (conj eq_refl (conj Hw Hu))). cbn [snd].
      destruct n; [congruence|]. now apply lookup_construct_iff.
  - destruct (split_word name_char (trim_end b)) as [before n] eqn:En.
    apply (split_word_iff _ in_name _ _ _ name_char_iff) in En as (En & Hn & Hbefore).
    destruct (trim_end_split b) as (s & Eb & Hs & _). rewrite En, <- app_assoc in Eb. rewrite Eb.
    destruct (lookup_construct n) as [x|] eqn:El.
    + cbn [option_map]. intros [= <-]. apply opens_bare; auto.
      assert (K : option_map chars (lookup_construct n) = Some (chars x)) by now rewrite El.
      apply lookup_construct_iff in K. unfold constructs. apply in_app_iff. now left.
    + destruct (text_eqb n (chars "union")) eqn:Eu.
      * apply text_eqb_eq in Eu. subst n. cbn [option_map]. intros [= <-]. apply opens_bare; auto.
        unfold constructs. apply in_app_iff. right. now left.
      * destruct n as [|c r] eqn:Ec; [discriminate|]. rewrite <- Ec in *. assert (Hne : n <> []) by congruence. clear c r Ec.
        destruct (split_word word_char (trim_end before)) as [u kw] eqn:Ek. cbn [snd]. intro H. apply lookup_construct_iff in H.
        apply (split_word_iff _ in_word _ _ _ word_char_iff) in Ek as (Ek & Hw & Hu).
        destruct (trim_end_split before) as (s1 & Ebf & Hs1 & _). rewrite Ek, <- app_assoc in Ebf. rewrite Ebf in *. rewrite <- !app_assoc.
        apply opens_named; auto.
        -- split; [exact Hne|]. now split.
        -- intro K. apply in_map_iff in K as ((k, nm) & E & K). cbn [fst] in E. subst k. unfold constructs in K. apply in_app_iff in K as [K | [K | []]].
           ++ apply lookup_construct_iff in K. rewrite El in K. discriminate.
           ++ injection K as K _. rewrite <- K, text_eqb_refl in Eu. discriminate.
Qed.
Lemma opens_what_iff b o : opens_what b o <-> o = option_map chars (identify_construct b).
Proof.
  destruct o as [name|]; cbn [opens_what].
  - rewrite opens_iff. split; congruence.
  - split.
    + intro H. destruct (identify_construct b) as [x|] eqn:E; [|reflexivity]. exfalso. apply (H (chars x)). apply opens_iff. now rewrite E.
    + intros H name K. apply opens_iff in K. congruence.
Qed.
Lemma trim_end_idem l : trim_end (trim_end l) = trim_end l.
Proof. destruct (trim_end_split l) as (s & _ & _ & H). rewrite <- (app_nil_r (trim_end l)) at 1. apply trim_end_exact; [constructor|exact H]. Qed.
Lemma identify_trim l : identify_construct (trim_end l) = identify_construct l.
Proof. unfold identify_construct. now rewrite trim_end_idem. Qed.

Lemma missing_brace_total e source l more message help : (exists p, positioned e p) -> source = l ++ more ->
  exists o, missing_brace e source (brace_stack l) message help = Ok o.
Proof.
  intros Hp ->. unfold missing_brace. destruct (brace_stack l) as [|pos st] eqn:E; [eauto|].
  apply brace_stack_sound in E as (a & Ha & ->). destruct (innermost_split _ _ Ha) as (b & ->).
  assert (split_at_byte ((a ++ b) ++ more) (bytes a) = Some (a, b ++ more)) as -> by (apply split_at_byte_iff; now rewrite <- app_assoc).
  totality.
Qed.
Lemma brace_report a p message help o :
  never_closed a p message help (option_map chars o)
  = mkSyntaxError (bytes a) 1 (p ++ message ++ match o with Some name => chars " for " ++ chars name | None => [] end)
      (Some (match o with Some name => chars "this " ++ chars name ++ chars " is never closed" | None => chars "this `{` is never closed" end))
      (Some help).
Proof.
  assert (E : chars "this " ++ chars "`{`" ++ chars " is never closed" = chars "this `{` is never closed") by (vm_compute; reflexivity).
  destruct o; unfold never_closed; cbn [option_map]; [reflexivity|]. now rewrite E.
Qed.
Lemma missing_brace_iff e source l more message help r : (exists p, positioned e p) -> source = l ++ more ->
  missing_brace e source (brace_stack l) message help = Ok (Some r) <->
  exists a what p, innermost_open l a /\ opens_what a what /\ positioned e p /\ r = never_closed a p message help what.
Proof.
  intros Hp ->. unfold missing_brace. split.
  - destruct (brace_stack l) as [|pos st] eqn:E; [discriminate|].
    apply brace_stack_sound in E as (a & Ha & ->). destruct (innermost_split _ _ Ha) as (b & El). rewrite El at 1.
    assert (split_at_byte ((a ++ b) ++ more) (bytes a) = Some (a, b ++ more)) as -> by (apply split_at_byte_iff; now rewrite <- app_assoc).
    intro H. apply prefix_sound in H as (p & Hpp & ->); [|exact Hp]. rewrite identify_trim, <- brace_report.
    exists a, (option_map chars (identify_construct a)), p. split; [exact Ha|]. split; [now apply opens_what_iff|]. auto.
  - intros (a & what & p & Ha & Hw & Hpp & ->). destruct (brace_stack_complete _ _ Ha) as (st & ->). destruct (innermost_split _ _ Ha) as (b & ->).
    assert (split_at_byte ((a ++ b) ++ more) (bytes a) = Some (a, b ++ more)) as -> by (apply split_at_byte_iff; now rewrite <- app_assoc).
    rewrite (prefix_complete _ _ _ Hpp), identify_trim. apply opens_what_iff in Hw. rewrite Hw, brace_report. reflexivity.
Qed.

Lemma declares_type_iff w : declares_type w = true <-> In w type_keywords.
Proof. apply text_mem_in. Qed.
Lemma type_keyword_word w : In w type_keywords -> w <> [] /\ Forall in_word w.
Proof. intros [<- | [<- | [<- | [<- | []]]]]; (split; [discriminate|now apply wordb]). Qed.
Definition declares_bool (before : text) : bool :=
  let (before_name, name) := split_word name_char (trim_end before) in
  match name with
  | [] => false
  | _ => declares_type name || declares_type (snd (split_word word_char (trim_end before_name)))
  end.
Lemma declares_iff before : declares_bool before = true <-> declares before.
Proof.
  unfold declares_bool, declares. split.
  - destruct (split_word name_char (trim_end before)) as [u n] eqn:En.
    apply (split_word_iff _ in_name _ _ _ name_char_iff) in En as (En & Hn & Hu).
    destruct (trim_end_split before) as (s & Eb & Hs & _). rewrite En, <- app_assoc in Eb.
    destruct n as [|c r] eqn:Ec; [discriminate|]. rewrite <- Ec in *. assert (Hne : n <> []) by congruence. clear c r Ec.
    destruct (split_word word_char (trim_end u)) as [v kw] eqn:Ek. cbn [snd].
    apply (split_word_iff _ in_word _ _ _ word_char_iff) in Ek as (Ek & Hw & Hv).
    destruct (trim_end_split u) as (s' & Eu & Hs' & _). rewrite Ek, <- app_assoc in Eu.
    rewrite Bool.orb_true_iff, !declares_type_iff. intro H. exists u, n, s. split; [exact Eb|]. split; [exact Hs|].
    split; [split; [exact Hne|now split]|]. destruct H as [H|H]; [now left|]. right. exists v, kw, s'. auto.
  - intros (u & n & s & -> & Hs & (Hne & Hn & Hu) & H). rewrite (trim_name u n s Hne Hn Hs).
    rewrite (proj2 (split_word_iff _ in_name _ _ _ name_char_iff) (conj eq_refl (conj Hn Hu))).
    destruct n as [|c r] eqn:Ec; [congruence|]. rewrite <- Ec in *. clear c r Ec.
    rewrite Bool.orb_true_iff, !declares_type_iff. destruct H as [H | (v & kw & s' & -> & Hs' & Hv & Hk)]; [now left|]. right.
    destruct (type_keyword_word _ Hk) as [Hkn Hw]. rewrite (trim_word v kw s' Hkn Hw Hs').
    now rewrite (proj2 (split_word_iff _ in_word _ _ _ word_char_iff) (conj eq_refl (conj Hw Hv))).
Qed.
Lemma detect_missing_close_eq e source : detect_missing_close_brace_before_declaration e source =
  match error_text e source with
  | None => Ok None
  | Some (before, tok) =>
      if text_eqb (trim tok) (chars "{") && (contains (chars "';'") (se_message e) || contains (chars "','") (se_message e)) && declares_bool before
      then missing_brace e source (brace_stack before) (chars "missing closing `}`") (chars "add a closing `}` before the next type declaration")
      else Ok None
  end.
Proof.
  unfold detect_missing_close_brace_before_declaration, declares_bool. destruct (error_text e source) as [[before tok]|]; [|reflexivity].
  destruct (text_eqb (trim tok) (chars "{")); [|reflexivity]. cbn [negb andb].
  destruct (contains (chars "';'") (se_message e) || contains (chars "','") (se_message e)); [|reflexivity]. cbn [negb andb].
  destruct (split_word name_char (trim_end before)) as [u n]. destruct n; reflexivity.
Qed.
Lemma missing_close_total : total detect_missing_close_brace_before_declaration.
Proof.
  intros source e (_ & Hp). rewrite detect_missing_close_eq. destruct (error_text e source) as [[before tok]|] eqn:E; [|eauto].
  destruct (_ && _); [|eauto]. apply error_text_iff in E as (after & E & _). eapply missing_brace_total; [exact Hp|exact E].
Qed.
Lemma missing_close_sound : sound detect_missing_close_brace_before_declaration missing_close.
Proof.
  intros source e r (_ & Hp). rewrite detect_missing_close_eq. destruct (error_text e source) as [[before tok]|] eqn:E; [|discriminate].
  destruct (_ && _) eqn:Ec; [|discriminate]. apply Bool.andb_true_iff in Ec as [Ec Hd]. apply Bool.andb_true_iff in Ec as [Ht Hm].
  apply (trim_one 123%N) in Ht; [|exact ws_brace]. apply Bool.orb_true_iff in Hm. rewrite !contains_iff in Hm. apply declares_iff in Hd.
  apply error_text_iff in E. pose proof E as (after & Es & _). intro H. apply (missing_brace_iff _ _ _ _ _ _ _ Hp Es) in H as (a & what & p & Ha & Hw & Hpp & ->).
  eapply MissingClose; eauto.
Qed.
Lemma missing_close_complete : complete detect_missing_close_brace_before_declaration missing_close.
Proof.
  intros source e r H. destruct H as [before tok a what p Hb Ht Hm Hd Ha Hw Hp]. rewrite detect_missing_close_eq.
  rewrite (proj2 (error_text_iff _ _ _ _) Hb). apply (trim_one 123%N) in Ht; [|exact ws_brace]. change [123%N] with (chars "{") in Ht.
  rewrite Ht, (proj2 (declares_iff _) Hd). rewrite <- !contains_iff, <- Bool.orb_true_iff in Hm. rewrite Hm. cbn [andb].
  destruct Hb as (after & Es & _). apply (missing_brace_iff _ _ _ _ _ _ _ (ex_intro _ p Hp) Es). eauto 10.
Qed.

Lemma unclosed_total : total detect_unclosed_brace.
Proof.
  intros source e (_ & Hp). unfold detect_unclosed_brace. destruct (negb _); [eauto|]. apply (missing_brace_total e source source []); [exact Hp|].
  symmetry. apply app_nil_r.
Qed.
Lemma unclosed_sound : sound detect_unclosed_brace unclosed.
Proof.
  intros source e r (_ & Hp). unfold detect_unclosed_brace. destruct (contains _ (se_message e)) eqn:Em; [|discriminate]. cbn [negb].
  apply contains_iff in Em. intro H. apply (missing_brace_iff _ _ _ [] _ _ _ Hp (eq_sym (app_nil_r source))) in H as (a & what & p & Ha & Hw & Hpp & ->).
  apply Unclosed; auto.
Qed.
Lemma unclosed_complete : complete detect_unclosed_brace unclosed.
Proof.
  intros source e r H. destruct H as [a what p Hm Ha Hw Hp]. unfold detect_unclosed_brace. apply contains_iff in Hm. rewrite Hm. cbn [negb].
  apply (missing_brace_iff _ _ _ [] _ _ _ (ex_intro _ p Hp) (eq_sym (app_nil_r source))). eauto 10.
Qed.

(** ** All detectors *)
Definition decides (d : syntax_error -> text -> result (option syntax_error) panic) (diag : diagnosis) : Prop :=
  forall source e, well_placed source e -> exists o, d e source = Ok o /\ forall r, diag source e r <-> o = Some r.
Lemma decide d diag : total d -> sound d diag -> complete d diag -> decides d diag.
Proof.
  intros Ht Hs Hc source e He. destruct (Ht source e He) as (o & E). exists o. split; [exact E|]. intro r. split.
  - intro H. apply Hc in H. congruence.
  - intros ->. eauto.
Qed.
Lemma first_refined_decides ds diags : Forall2 decides ds diags -> forall source e, well_placed source e ->
  exists o, first_refined ds e source = Ok o /\ forall r, first_diagnosis source e r diags <-> o = Some r.
Proof.
  intros H source e He. induction H as [|d diag ds diags Hd _ IH]; cbn [first_refined].
  - exists None. split; [reflexivity|]. intro r. split; [inversion 1|discriminate].
  - destruct (Hd source e He) as (o & -> & Ho). destruct o as [r0|].
    + exists (Some r0). split; [reflexivity|]. intro r. split.
      * inversion 1 as [d' ds' H1|d' ds' H1 H2]; subst; [now apply Ho|]. exfalso. apply (H1 r0). now apply Ho.
      * intro E. apply fd_here. now apply Ho.
    + destruct IH as (o & -> & Ho'). exists o. split; [reflexivity|]. intro r. split.
      * inversion 1 as [d' ds' H1|d' ds' H1 H2]; subst; [apply Ho in H1; discriminate|]. now apply Ho'.
      * intro E. apply fd_later; [|now apply Ho']. intros r' K. apply Ho in K. discriminate.
Qed.
Lemma all_decide more : Forall2 decides
  ([detect_empty_union; detect_empty_type_parameter; detect_fixed_non_integer; detect_missing_name;
    detect_trailing_comma_in_enum]
   ++ match more with [] => [] | _ => [detect_misspelled_keyword] end
   ++ [detect_missing_close_brace_before_declaration])
  ([empty_union; empty_parameter; bad_size; no_name; trailing_comma] ++ (if Nat.ltb 1 (S (@length syntax_error more)) then [misspelled] else []) ++ [missing_close]).
Proof.
  apply Forall2_app; [|apply Forall2_app].
  - constructor; [exact (decide _ _ empty_union_total empty_union_sound empty_union_complete)|].
    constructor; [exact (decide _ _ empty_parameter_total empty_parameter_sound empty_parameter_complete)|].
    constructor; [exact (decide _ _ fixed_total fixed_sound fixed_complete)|].
    constructor; [exact (decide _ _ no_name_total no_name_sound no_name_complete)|].
    constructor; [exact (decide _ _ trailing_comma_total trailing_comma_sound trailing_comma_complete)|]. constructor.
  - destruct more as [|x more]; [constructor|]. change (Nat.ltb 1 (S (length (x :: more)))) with true. cbn iota.
    constructor; [exact (decide _ _ misspelled_total misspelled_sound misspelled_complete)|constructor].
  - constructor; [exact (decide _ _ missing_close_total missing_close_sound missing_close_complete)|constructor].
Qed.
Lemma last_snoc {A} (front : list A) x d : last (front ++ [x]) d = x.
Proof. induction front as [|y front IH]; [reflexivity|]. cbn [app]. destruct (front ++ [x]) eqn:E; [destruct front; discriminate|]. exact IH. Qed.

Lemma refine_reported source errors : errors <> [] -> Forall (well_placed source) errors ->
  exists o, refine_errors_with_source errors source = Ok o /\ o <> Some []
    /\ forall rs, reported source errors rs <-> rs = match o with Some l => l | None => errors end.
Proof.
  intros Hne Hw. destruct errors as [|first more] eqn:Ee; [congruence|]. rewrite <- Ee in Hw.
  assert (Hfirst : well_placed source first) by (rewrite Ee in Hw; now inversion Hw).
  destruct (@exists_last _ (first :: more) ltac:(discriminate)) as (front & e' & El).
  assert (Hlast : well_placed source e').
  { rewrite Forall_forall in Hw. apply Hw. rewrite Ee, El, in_app_iff. right. now left. }
  unfold refine_errors_with_source. destruct (first_refined_decides _ _ (all_decide more) source first Hfirst) as (o & -> & Ho).
  change (first_diagnosis source first) with (fun r => first_diagnosis source first r) in Ho.
  assert (Ho' : forall r, first_diagnosis source first r (diagnoses (first :: more)) <-> o = Some r) by exact Ho.
  destruct o as [r0|].
  - exists (Some [r0]). split; [reflexivity|]. split; [discriminate|]. intro rs. split.
    + intros [e0 m r E H | e0 m fr e1 r E H _ _ | e0 m fr e1 E H _ _]; injection E as <- <-.
      * apply Ho' in H. now injection H as <-.
      * exfalso. apply (H r0). now apply Ho'.
      * exfalso. apply (H r0). now apply Ho'.
    + intros ->. apply (explained_first _ _ first more); [reflexivity|]. now apply Ho'.
  - assert (Hno : forall r, ~ first_diagnosis source first r (diagnoses (first :: more))) by (intros r K; apply Ho' in K; discriminate).
    assert (Ela : last (first :: more) first = e') by (rewrite El; apply last_snoc). rewrite Ela.
    destruct (decide _ _ unclosed_total unclosed_sound unclosed_complete source e' Hlast) as (o & -> & Hu).
    assert (Hlast' : forall fr e1, first :: more = fr ++ [e1] -> fr = front /\ e1 = e').
    { intros fr e1 E. rewrite El in E. apply app_inj_tail in E as [-> ->]. auto. }
    destruct o as [r0|].
    + exists (Some (r0 :: removelast (first :: more))). split; [reflexivity|]. split; [discriminate|].
      rewrite El, removelast_last, <- El. intro rs. split.
      * intros [e0 m r E H | e0 m fr e1 r E _ E1 H | e0 m fr e1 E _ E1 H]; injection E as <- <-.
        -- exfalso. exact (Hno _ H).
        -- apply Hlast' in E1 as [-> ->]. apply Hu in H. now injection H as <-.
        -- apply Hlast' in E1 as [-> ->]. exfalso. apply (H r0). now apply Hu.
      * intros ->. apply (explained_end _ _ first more front e'); auto. now apply Hu.
    + exists None. split; [reflexivity|]. split; [discriminate|]. intro rs. split.
      * intros [e0 m r E H | e0 m fr e1 r E _ E1 H | e0 m fr e1 E _ E1 H]; injection E as <- <-.
        -- exfalso. exact (Hno _ H).
        -- apply Hlast' in E1 as [-> ->]. apply Hu in H. discriminate.
        -- reflexivity.
      * intros ->. apply (unexplained _ _ first more front e'); auto. intros r' K. apply Hu in K. discriminate.
Qed.

(** ** Spans *)
Lemma bytes_pos l : l <> [] -> 1 <= bytes l.
Proof. intro H. destruct (bytes l) eqn:E; [apply bytes_nil_inv in E; congruence|lia]. Qed.
Lemma preceded_le source e before : preceded_by source e before -> se_offset e <= bytes source.
Proof. intros (rest & -> & E). rewrite bytes_app. lia. Qed.
Lemma first_diagnosis_in source e r ds : first_diagnosis source e r ds -> exists d, In d ds /\ d source e r.
Proof. induction 1 as [d ds H|d ds _ _ IH]; [exists d; split; [now left|exact H]|]. destruct IH as (d' & Hin & H). exists d'. split; [now right|exact H]. Qed.
Lemma never_closed_span source l a p message help what e : (exists more, source = l ++ more) -> innermost_open l a -> good_span source e (never_closed a p message help what).
Proof.
  intros (more & ->) (b & -> & _). unfold never_closed. split; [|split].
  - exists a, (([123%N] ++ b) ++ more). cbn [se_offset]. split; [now rewrite <- !app_assoc|reflexivity].
  - cbn [se_length]. lia.
  - left. unfold span_end. cbn [se_offset se_length]. rewrite !bytes_app. change (bytes [123%N]) with 1. lia.
Qed.
Lemma first_spans source e r ds : incl ds [empty_union; empty_parameter; bad_size; no_name; trailing_comma; misspelled; missing_close] ->
  1 <= se_length e -> first_diagnosis source e r ds -> good_span source e r.
Proof.
  intros Hincl Hlen H. apply first_diagnosis_in in H as (d & Hin & H). apply Hincl in Hin.
  destruct Hin as [<- | [<- | [<- | [<- | [<- | [<- | [<- | []]]]]]]].
  - destruct H as [u s1 s2 p (rest & -> & Eo) _ _ _ _]. split; [|split].
    + exists u, ((chars "union" ++ s1 ++ chars "{" ++ s2) ++ rest). cbn [se_offset]. split; [now rewrite <- !app_assoc|reflexivity].
    + cbn [se_length]. lia.
    + right. unfold span_end. cbn [se_offset se_length]. rewrite Eo, !(bytes_app u). lia.
  - destruct H as [u kw s1 s2 tok p _ (after & -> & Eo & _) _ _ _ _]. split; [|split].
    + exists u, ((kw ++ s1 ++ chars "<" ++ s2) ++ tok ++ after). cbn [se_offset]. split; [now rewrite <- !app_assoc|reflexivity].
    + cbn [se_length]. lia.
    + right. unfold span_end. cbn [se_offset se_length]. rewrite Eo, !(bytes_app u). lia.
  - destruct H as [u s1 name s2 size shown p (rest & Es & Eo) _ _ _ _ _ _ _]. split; [|split].
    + exists (u ++ chars "fixed" ++ s1 ++ name ++ s2 ++ chars "("), (size ++ rest). cbn [se_offset]. split; [rewrite Es; now rewrite <- !app_assoc|reflexivity].
    + cbn [se_length]. lia.
    + right. unfold span_end. cbn [se_offset se_length]. rewrite Eo. rewrite !bytes_app. lia.
  - destruct H as [u kw construct example s tok p _ _ _ Ht _ _]. split; [|split].
    + apply at_text_preceded in Ht. destruct Ht as (rest & Es & Eo). exists (u ++ kw ++ s), rest. auto.
    + exact Hlen.
    + right. unfold span_end. cbn [se_offset se_length]. lia.
  - destruct H as [u s tok a b symbol p (after & -> & _) _ _ _ _ _ _]. split; [|split].
    + exists u, ((chars "," ++ s) ++ tok ++ after). cbn [se_offset]. split; [now rewrite <- !app_assoc|reflexivity].
    + cbn [se_length]. lia.
    + left. unfold span_end. cbn [se_offset se_length]. rewrite !bytes_app. change (bytes (chars ",")) with 1. lia.
  - destruct H as [u word s1 name s2 kw p (rest & -> & _) _ _ _ (Hne & _) _ _]. split; [|split].
    + exists u, ((word ++ s1 ++ name ++ s2) ++ rest). cbn [se_offset]. split; [now rewrite <- !app_assoc|reflexivity].
    + cbn [se_length]. now apply bytes_pos.
    + left. unfold span_end. cbn [se_offset se_length]. rewrite !bytes_app. lia.
  - destruct H as [before tok a what p (after & -> & _) _ _ _ Ha _ _]. apply (never_closed_span _ before); [eauto|exact Ha].
Qed.
Lemma diagnoses_incl errors : incl (diagnoses errors) [empty_union; empty_parameter; bad_size; no_name; trailing_comma; misspelled; missing_close].
Proof. unfold diagnoses. destruct (Nat.ltb 1 (length errors)); intros d H; cbn [app In] in *; tauto. Qed.
Lemma reported_spans source errors rs : Forall (well_placed source) errors -> Forall (fun e => 1 <= se_length e) errors ->
  reported source errors rs -> Forall (fun r => exists e, In e errors /\ good_span source e r) rs.
Proof.
  intros Hw Hl H.
  assert (Hself : forall e, In e errors -> exists e', In e' errors /\ good_span source e' e).
  { intros e Hin. rewrite Forall_forall in Hw, Hl. exists e. split; [exact Hin|]. split; [exact (proj1 (Hw e Hin))|]. split; [exact (Hl e Hin)|]. right. lia. }
  destruct H as [e more r E H | e more front e' r E _ E1 H | e more front e' E _ E1 _].
  - constructor; [|constructor]. exists e. split; [rewrite E; now left|]. eapply first_spans; [apply diagnoses_incl| |exact H].
    rewrite E in Hl. now inversion Hl.
  - constructor.
    + exists e'. split; [rewrite E1, in_app_iff; right; now left|]. destruct H as [a what p _ Ha _ _]. apply (never_closed_span source source); [exists []; now rewrite app_nil_r|exact Ha].
    + apply Forall_forall. intros x Hx. apply Hself. rewrite E1, in_app_iff. now left.
  - apply Forall_forall. exact Hself.
Qed.

(** ** The listener *)
Lemma show_uint_digits u : digits (show_uint u).
Proof. induction u; cbn [show_uint]; [constructor|..]; (constructor; [lia|exact IHu]). Qed.
Lemma show_Z_digits z : (0 <= z)%Z -> digits (show_Z z).
Proof.
  destruct z as [|p|p]; intro H; cbn [show_Z].
  - constructor; [lia|constructor].
  - apply show_uint_digits.
  - lia.
Qed.
Lemma collected_positioned source a : (0 <= ae_line a)%Z -> (0 <= ae_column a)%Z ->
  positioned (collected source a) (chars "line " ++ show_Z (ae_line a) ++ chars ":" ++ show_Z (ae_column a) ++ chars " ").
Proof.
  intros Hl Hc. split.
  - exists (show_Z (ae_line a)), (show_Z (ae_column a)). split; [now apply show_Z_digits|]. split; [now apply show_Z_digits|reflexivity].
  - exists (en_message (displayed (ae_message a))). unfold collected. match goal with |- se_message (let (_, _) := ?x in _) = _ => destruct x end. cbn [se_message]. now rewrite <- !app_assoc.
Qed.
Lemma collected_placed source a : parser_error source a -> well_placed source (collected None a) /\ 1 <= se_length (collected None a).
Proof.
  intros ((before & tok & after & -> & Hend & Et) & Hl & Hc).
  assert (E : se_offset (collected None a) = bytes before /\ 1 <= se_length (collected None a)).
  { unfold collected. rewrite Et. destruct (Z.leb_spec 0 (Z.of_nat (bytes before))); [|lia].
    destruct (Z.leb_spec (Z.of_nat (bytes before)) (Z.of_nat (bytes before) + Z.of_nat (bytes tok) - 1)); cbn [andb se_offset se_length]; lia. }
  destruct E as [Eo El]. split; [|exact El]. split.
  - exists before, (tok ++ after). auto.
  - eexists. now apply collected_positioned.
Qed.
