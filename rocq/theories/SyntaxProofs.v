(** Proofs about lexer errors and about the report of all syntax errors. *)
From Coq Require Import ZArith Lia.
From Verif Require Import CommentProofs DiagnoseProofs SpecRefine RefineProofs.

(** ** Lines and columns *)
Lemma newline_split (a : text) : In 10%N a -> exists l a', a = l ++ 10%N :: a' /\ ~ In 10%N l.
Proof.
  induction a as [|c a IH]; [intros []|]. intro H. destruct (N.eq_dec c 10) as [-> | Hc].
  - exists [], a. split; [reflexivity|intros []].
  - destruct H as [H|H]; [congruence|]. destruct (IH H) as (l & a' & -> & Hl). exists (c :: l), a'. split; [reflexivity|].
    intros [K|K]; [congruence|auto].
Qed.
Lemma split_at_line l r : ~ In 10%N l -> split_at 10%N (l ++ 10%N :: r) = l :: split_at 10%N r.
Proof.
  induction l as [|c l IH]; intro H; cbn [app split_at].
  - reflexivity.
  - destruct (N.eqb_spec c 10) as [-> | _]; [exfalso; apply H; now left|]. rewrite IH; [reflexivity|]. intro K. apply H. now right.
Qed.
Lemma split_at_last l : ~ In 10%N l -> split_at 10%N l = [l].
Proof.
  induction l as [|c l IH]; intro H; [reflexivity|]. cbn [split_at]. destruct (N.eqb_spec c 10) as [-> | _]; [exfalso; apply H; now left|].
  rewrite IH; [reflexivity|]. intro K. apply H. now right.
Qed.
Lemma split_at_first s r : ~ In 10%N s -> exists first rest, split_at 10%N (s ++ r) = (s ++ first) :: rest.
Proof.
  intro Hs. destruct (in_dec N.eq_dec 10%N r) as [Hr|Hr].
  - destruct (newline_split r Hr) as (l & r' & -> & Hl). exists l, (split_at 10%N r'). rewrite app_assoc. apply split_at_line.
    rewrite in_app_iff. tauto.
  - exists r, []. apply split_at_last. rewrite in_app_iff. tauto.
Qed.
Lemma line_offset_exact n : forall a s r off, length a <= n -> (a = [] \/ exists a', a = a' ++ [10%N]) -> ~ In 10%N s -> Forall (fun c => (c < 128)%N) s ->
  line_offset (split_at 10%N (a ++ s ++ r)) (count_occ N.eq_dec a 10%N) (length s) off = off + utf8_length (a ++ s).
Proof.
  assert (Hascii : forall s, Forall (fun c => (c < 128)%N) s -> utf8_length s = length s).
  { induction 1 as [|c s Hc _ IH]; [reflexivity|]. rewrite utf8_length_cons, IH. unfold width, utf8_encode_char. apply N.ltb_lt in Hc. rewrite Hc. reflexivity. }
  induction n as [|n IH]; intros a s r off Hn Ha Hs Has.
  - destruct a; [|cbn in Hn; lia]. cbn [app count_occ]. destruct (split_at_first s r Hs) as (f & rest & ->). cbn [line_offset].
    rewrite utf8_length_app, (Hascii s Has). lia.
  - destruct a as [|c0 a0] eqn:Ea0.
    + cbn [app count_occ]. destruct (split_at_first s r Hs) as (f & rest & ->). cbn [line_offset]. rewrite utf8_length_app, (Hascii s Has). lia.
    + rewrite <- Ea0 in *. assert (Hin : In 10%N a).
      { destruct Ha as [Ha | (a' & Ha)]; [congruence|]. rewrite Ha, in_app_iff. right. now left. }
      destruct (newline_split a Hin) as (l & a' & E & Hl). rewrite E. rewrite <- !app_assoc. cbn [app].
      rewrite split_at_line by exact Hl. rewrite count_occ_app. cbn [count_occ]. destruct (N.eq_dec 10 10); [|congruence].
      rewrite (proj1 (count_occ_not_In N.eq_dec l 10%N) Hl). cbn [Nat.add line_offset]. rewrite IH; auto.
      * rewrite (utf8_length_app l), utf8_length_cons. change (width 10%N) with 1. lia.
      * rewrite E, app_length in Hn. cbn [length] in Hn. lia.
      * destruct Ha as [Ha | (b & Ha)]; [congruence|]. destruct a' as [|x a'] using rev_ind; [now left|]. right. clear IHa'.
        rewrite E in Ha. change (l ++ 10%N :: a' ++ [x]) with (l ++ (10%N :: a') ++ [x]) in Ha. rewrite app_assoc in Ha.
        apply app_inj_tail in Ha as [_ ->]. eauto.
Qed.
Lemma line_col_exact before start rest : line_start before start -> Forall (fun c => (c < 128)%N) start ->
  line_col_to_byte_offset (before ++ rest) (Z.of_nat (line_of before)) (Z.of_nat (length start)) = bytes before.
Proof.
  intros (a & -> & Hs & Ha) Has. unfold line_col_to_byte_offset, line_of.
  destruct (Z.leb_spec (Z.of_nat (S (count_occ N.eq_dec (a ++ start) 10%N))) 0); [lia|]. destruct (Z.ltb_spec (Z.of_nat (length start)) 0); [lia|]. cbn [orb].
  replace (Z.to_nat (Z.of_nat (S (count_occ N.eq_dec (a ++ start) 10%N)) - 1)) with (count_occ N.eq_dec (a ++ start) 10%N) by lia.
  rewrite Nat2Z.id, count_occ_app, (proj1 (count_occ_not_In N.eq_dec start 10%N) Hs), Nat.add_0_r, <- app_assoc.
  rewrite (line_offset_exact (length a)); auto. now rewrite bytes_utf8.
Qed.
Lemma line_offset_bound n : forall l t col off, length l <= n -> line_offset (split_at 10%N l) t col off <= off + utf8_length l.
Proof.
  induction n as [|n IH]; intros l t col off Hn.
  - destruct l; [|cbn in Hn; lia]. cbn. destruct t; lia.
  - destruct (in_dec N.eq_dec 10%N l) as [Hin|Hin].
    + destruct (newline_split l Hin) as (a & r & -> & Ha). rewrite split_at_line by exact Ha. rewrite utf8_length_app, utf8_length_cons. change (width 10%N) with 1.
      destruct t; cbn [line_offset]; [lia|]. rewrite app_length in Hn. cbn [length] in Hn. specialize (IH r t col (off + utf8_length a + 1) ltac:(lia)). lia.
    + rewrite (split_at_last l Hin). destruct t; cbn [line_offset]; lia.
Qed.
Lemma line_col_bound source line column : line_col_to_byte_offset source line column <= bytes source.
Proof.
  unfold line_col_to_byte_offset. rewrite bytes_utf8. destruct (_ || _); [lia|]. apply (line_offset_bound (length source)). lia.
Qed.

(** ** Unterminated string literals *)
Definition recognition : text := chars "token recognition error at: '" ++ [34%N].
Lemma quote_split (l1 r1 l2 r2 : text) : l1 ++ 39%N :: r1 = l2 ++ 39%N :: r2 -> ~ In 39%N l2 ->
  (l1 = l2 /\ r1 = r2) \/ exists z, l1 = l2 ++ 39%N :: z /\ r2 = z ++ 39%N :: r1.
Proof.
  revert l1. induction l2 as [|c l2 IH]; intros [|d l1] E H; cbn [app] in E.
  - injection E as <-. now left.
  - injection E as -> <-. right. exists l1. auto.
  - injection E as <- E. exfalso. apply H. now left.
  - injection E as -> E. destruct (IH l1 E) as [[-> ->] | (z & -> & ->)].
    + intro K. apply H. now right.
    + now left.
    + right. exists z. auto.
Qed.
Lemma two_quotes body a r : ~ In 39%N body -> unterminated_text body = a ++ 39%N :: r ->
  (a = chars "token recognition error at: " /\ r = 34%N :: body ++ [39%N]) \/ r = [].
Proof.
  intros Hb E. assert (E' : a ++ 39%N :: r = chars "token recognition error at: " ++ 39%N :: (34%N :: body ++ [39%N])) by (rewrite <- E; reflexivity).
  apply quote_split in E' as [[-> ->] | (z & -> & E')]; [now left| |].
  - right. change (34%N :: body ++ [39%N]) with ((34%N :: body) ++ 39%N :: []) in E'. symmetry in E'. apply quote_split in E' as [[_ ->] | (y & _ & E')].
    + reflexivity.
    + symmetry in E'. apply app_eq_nil in E' as [_ E']. discriminate.
    + intros [K|K]; [discriminate|auto].
  - vm_compute. intro K. repeat (destruct K as [K|K]; [discriminate|]). exact K.
Qed.
Lemma ends_differ (a b x y : text) : length x = length y -> a ++ x = b ++ y -> x = y.
Proof.
  intros Hl E. apply (f_equal (@rev N)) in E. rewrite !rev_app_distr in E. apply (f_equal (firstn (length (rev x)))) in E.
  rewrite firstn_app, firstn_all, Nat.sub_diag, firstn_O, app_nil_r in E.
  rewrite rev_length, Hl, <- (rev_length y), firstn_app, firstn_all, Nat.sub_diag, firstn_O, app_nil_r in E.
  rewrite <- (rev_involutive x), E. apply rev_involutive.
Qed.
Lemma not_before_quote body a p : ~ In 39%N body -> (exists q, p = q ++ chars "t ") -> forall r, unterminated_text body = a ++ p ++ 39%N :: r -> r = [].
Proof.
  intros Hb (q & ->) r E. rewrite app_assoc in E. apply (two_quotes body _ _ Hb) in E as [[E _]|E]; [|exact E].
  exfalso. change (chars "token recognition error at: ") with (chars "token recognition error at" ++ chars ": ") in E. rewrite app_assoc in E.
  apply ends_differ in E; [discriminate|reflexivity].
Qed.
Lemma no_viable_none body : ~ In 39%N body -> extract_no_viable_input (unterminated_text body) = None.
Proof.
  intro Hb. unfold extract_no_viable_input. destruct (split_once (chars "no viable alternative at input '") (unterminated_text body)) as [[a r]|] eqn:E; [|reflexivity].
  apply split_once_sound in E. assert (r = []) as ->.
  { apply (not_before_quote body a (chars "no viable alternative at input ") Hb); [exists (chars "no viable alternative at inpu"); reflexivity|]. rewrite E. reflexivity. }
  reflexivity.
Qed.
Lemma quoted_none body p : ~ In 39%N body -> (exists q, p = q ++ chars "t ") -> extract_quoted_token (unterminated_text body) p = None.
Proof.
  intros Hb Hp. unfold extract_quoted_token. destruct (split_once p (unterminated_text body)) as [[a [|c r]]|] eqn:E; try reflexivity.
  destruct (N.eqb_spec c quote) as [-> | _]; [|reflexivity]. apply split_once_sound in E.
  assert (r = []) as -> by (apply (not_before_quote body a p Hb Hp); exact E). reflexivity.
Qed.
Lemma enrich_none body : ~ In 39%N body -> enrich_antlr_error (unterminated_text body) = None.
Proof.
  intro Hb. unfold enrich_antlr_error. rewrite (no_viable_none body Hb). cbv zeta iota.
  assert (E4 : contains (chars "expecting '('") (unterminated_text body) = false).
  { destruct (contains (chars "expecting '('") (unterminated_text body)) eqn:E; [|reflexivity]. apply contains_iff in E as (a & b & E).
    assert (E' : unterminated_text body = (a ++ chars "expecting ") ++ 39%N :: (chars "('" ++ b)) by (rewrite E, <- app_assoc; reflexivity).
    apply (two_quotes body _ _ Hb) in E' as [[_ E']|E']; discriminate. }
  rewrite E4. cbn [andb]. unfold simplify_large_expecting_set.
  destruct (extract_expecting_tokens (unterminated_text body)); [|reflexivity]. destruct (Nat.leb _ 5); [reflexivity|].
  rewrite !(quoted_none body _ Hb); [reflexivity| |].
  - exists (chars "mismatched inpu"). reflexivity.
  - exists (chars "extraneous inpu"). reflexivity.
Qed.

(** A pattern that cannot start inside a text *)
Fixpoint differ (p s : text) : bool :=
  match p, s with a :: p, b :: s => negb (a =? b)%N || differ p s | _, _ => false end.
Fixpoint never_starts (p s : text) : bool := match s with [] => true | _ :: r => differ p s && never_starts p r end.
Lemma differ_strip p : forall s w, differ p s = true -> strip_prefix p (s ++ w) = None.
Proof.
  induction p as [|a p IH]; intros [|b s] w H; try discriminate. cbn [app strip_prefix]. cbn [differ] in H.
  destruct (a =? b)%N; [|reflexivity]. now apply IH.
Qed.
Lemma split_once_skip p s w : never_starts p s = true ->
  split_once p (s ++ w) = match split_once p w with Some (a, b) => Some (s ++ a, b) | None => None end.
Proof.
  induction s as [|c s IH]; intro H.
  - cbn [app]. destruct (split_once p w) as [[? ?]|]; reflexivity.
  - cbn [never_starts] in H. apply Bool.andb_true_iff in H as [H1 H2]. cbn [app split_once].
    change (c :: s ++ w) with ((c :: s) ++ w). rewrite (differ_strip _ _ _ H1), (IH H2). destruct (split_once p w) as [[? ?]|]; reflexivity.
Qed.
Lemma replace_from_skip n p by_ s : never_starts p s = true -> forall w, exists w', replace_from n p by_ (s ++ w) = s ++ w'.
Proof.
  destruct n as [|n]; intros H w; cbn [replace_from]; [eauto|]. rewrite (split_once_skip _ _ _ H).
  destruct (split_once p w) as [[a b]|]; [|eauto]. rewrite <- app_assoc. eauto.
Qed.
Lemma replace_skip p by_ s w : never_starts p s = true -> exists w', replace p by_ (s ++ w) = s ++ w'.
Proof. intro H. unfold replace. now apply replace_from_skip. Qed.
Lemma jargon_skip w : rewrite_antlr_jargon (recognition ++ w) = recognition ++ w.
Proof.
  unfold rewrite_antlr_jargon, starts_with. rewrite !differ_strip by (vm_compute; reflexivity). reflexivity.
Qed.
Lemma trim_end_skip w : exists w', trim_end (recognition ++ w) = recognition ++ w'.
Proof.
  destruct (trim_end_split w) as (s & Ew & Hs & Hn). exists (trim_end w). apply trim_end_iff. exists s.
  split; [rewrite <- app_assoc; congruence|]. split; [exact Hs|]. destruct (trim_end w) as [|c r] eqn:E.
  - rewrite app_nil_r. unfold recognition. apply not_after_snoc. now apply not_ws.
  - apply not_after_app; [discriminate|exact Hn].
Qed.
Lemma sanitize_skip w : exists w', sanitize_antlr_message (recognition ++ w) = recognition ++ w'.
Proof.
  unfold sanitize_antlr_message. cbv zeta.
  destruct (replace_skip (chars "<EOF>") (chars "end of file") recognition w ltac:(vm_compute; reflexivity)) as (w1 & E1).
  rewrite E1, jargon_skip. rewrite (split_once_skip _ _ _ (eq_refl : never_starts (chars "expecting {") recognition = true)).
  destruct (split_once (chars "expecting {") w) as [[a b]|]; [|eauto].
  destruct (find_closing_brace b) as [[set after]|]; [|eauto].
  destruct (shown_tokens set) as [|x xs].
  - destruct (trim_end_skip a) as (w2 & ->). rewrite <- app_assoc, jargon_skip. eauto.
  - rewrite <- !app_assoc, jargon_skip. eauto.
Qed.
Lemma humanize_skip w : exists w', humanize_antlr_message (recognition ++ w) = recognition ++ w'.
Proof.
  unfold humanize_antlr_message. cbn [fold_left fst snd].
  destruct (replace_skip (chars "IdentifierToken") (chars "identifier") recognition w ltac:(vm_compute; reflexivity)) as (w1 & ->).
  destruct (replace_skip (chars "StringLiteral") (chars "string literal") recognition w1 ltac:(vm_compute; reflexivity)) as (w2 & ->).
  destruct (replace_skip (chars "IntegerLiteral") (chars "integer literal") recognition w2 ltac:(vm_compute; reflexivity)) as (w3 & ->).
  now apply replace_skip.
Qed.
Lemma displayed_unterminated body : ~ In 39%N body -> exists w, en_message (displayed (unterminated_text body)) = recognition ++ w.
Proof.
  intro Hb. unfold displayed. rewrite (enrich_none body Hb). cbn [en_message].
  replace (unterminated_text body) with (recognition ++ (body ++ chars "'")) by (unfold unterminated_text, recognition; now rewrite <- !app_assoc).
  destruct (sanitize_skip (body ++ chars "'")) as (w & ->). apply humanize_skip.
Qed.

Lemma collected_message source a : se_message (collected source a) = shown a.
Proof. unfold collected, shown. match goal with |- se_message (let (_, _) := ?x in _) = _ => destruct x end. reflexivity. Qed.
Lemma is_unterminated_iff source a : is_unterminated_string_lexer_error (se_message (collected source a)) = true <-> says_unterminated a.
Proof. rewrite collected_message. unfold is_unterminated_string_lexer_error. apply contains_iff. Qed.
Lemma shown_unterminated a body : ~ In 39%N body -> ae_message a = unterminated_text body -> says_unterminated a.
Proof.
  intros Hb E. unfold says_unterminated, shown. rewrite E. destruct (displayed_unterminated body Hb) as (w & ->).
  exists (chars "line " ++ show_Z (ae_line a) ++ chars ":" ++ show_Z (ae_column a) ++ chars " "), w. rewrite <- !app_assoc. reflexivity.
Qed.
Lemma split_once_fresh c p P r : ~ In c P -> split_once (c :: p) (P ++ (c :: p) ++ r) = Some (P, r).
Proof.
  induction P as [|x P IH]; intro H.
  - cbn [app]. assert (E : strip_prefix (c :: p) (c :: p ++ r) = Some r) by now apply (strip_prefix_app (c :: p)).
    cbn [split_once]. now rewrite E.
  - cbn [app split_once strip_prefix]. destruct (N.eqb_spec c x) as [-> | _]; [exfalso; apply H; now left|].
    change (c :: p ++ r) with ((c :: p) ++ r). rewrite IH; [reflexivity|]. intro K. apply H. now right.
Qed.
Lemma digits_free c l : digits l -> (c < 48 \/ 57 < c)%N -> ~ In c l.
Proof. intros H Hc K. unfold digits in H. rewrite Forall_forall in H. specialize (H c K). lia. Qed.
Lemma unterminated_message_eq a body : ~ In 39%N body -> ae_message a = unterminated_text body -> (0 <= ae_line a)%Z -> (0 <= ae_column a)%Z ->
  unterminated_message (shown a) = chars "line " ++ show_Z (ae_line a) ++ chars ":" ++ show_Z (ae_column a) ++ chars " unterminated string literal".
Proof.
  intros Hb Em Hl Hc. unfold unterminated_message, shown. rewrite Em. destruct (displayed_unterminated body Hb) as (w & ->).
  set (L := show_Z (ae_line a)). set (C := show_Z (ae_column a)).
  assert (HL : digits L) by now apply show_Z_digits. assert (HC : digits C) by now apply show_Z_digits. clearbody L C.
  assert (E : split_once (chars "token recognition error") (chars "line " ++ L ++ chars ":" ++ C ++ chars " " ++ recognition ++ w)
              = Some (chars "line " ++ L ++ chars ":" ++ C ++ chars " ", chars " at: '" ++ [34%N] ++ w)).
  { replace (chars "line " ++ L ++ chars ":" ++ C ++ chars " " ++ recognition ++ w)
      with ((chars "line " ++ L ++ chars ":" ++ C ++ chars " ") ++ chars "token recognition error" ++ (chars " at: '" ++ [34%N] ++ w))
      by (unfold recognition; rewrite <- !app_assoc; reflexivity).
    assert (Ek : chars "token recognition error" = 116%N :: chars "oken recognition error") by (vm_compute; reflexivity).
    rewrite Ek. apply split_once_fresh. rewrite !in_app_iff.
    intros [K | [K | [K | [K | K]]]].
    - vm_compute in K. repeat (destruct K as [K|K]; [discriminate|]). exact K.
    - revert K. apply digits_free; [exact HL|lia].
    - vm_compute in K. repeat (destruct K as [K|K]; [discriminate|]). exact K.
    - revert K. apply digits_free; [exact HC|lia].
    - vm_compute in K. repeat (destruct K as [K|K]; [discriminate|]). exact K. }
  rewrite E. assert (Et : trim_end (chars "line " ++ L ++ chars ":" ++ C ++ chars " ") = chars "line " ++ L ++ chars ":" ++ C).
  { apply trim_end_iff. exists (chars " "). split; [now rewrite <- !app_assoc|]. split.
    - constructor; [|constructor]. apply is_whitespace_iff. reflexivity.
    - rewrite !app_assoc. destruct C as [|c C'] eqn:EC.
      + rewrite app_nil_r. apply (not_after_snoc _ _ 58%N). now apply not_ws.
      + apply not_after_app; [discriminate|]. destruct (exists_last (l := c :: C') ltac:(discriminate)) as (f & x & Ex). rewrite Ex. apply not_after_snoc.
        rewrite Ex in HC. apply Forall_app in HC as [_ HC]. inversion HC. subst. apply word_not_space. unfold in_word. lia. }
  rewrite Et. destruct (chars "line " ++ L ++ chars ":" ++ C) as [|x xs] eqn:Ex; [discriminate|]. rewrite <- Ex, <- !app_assoc. reflexivity.
Qed.

Lemma find_first source l1 a l2 : Forall (fun x => ~ says_unterminated x) l1 -> says_unterminated a ->
  find_unterminated_string_error (map (collected (Some source)) (l1 ++ a :: l2)) = Some (collected (Some source) a).
Proof.
  intros H Ha. unfold find_unterminated_string_error. induction H as [|x l1 Hx _ IH]; cbn [app map find].
  - now rewrite (proj2 (is_unterminated_iff (Some source) a) Ha).
  - destruct (is_unterminated_string_lexer_error (se_message (collected (Some source) x))) eqn:E; [|exact IH].
    apply is_unterminated_iff in E. now elim Hx.
Qed.
Lemma find_none source l : Forall (fun x => ~ says_unterminated x) l -> find_unterminated_string_error (map (collected (Some source)) l) = None.
Proof.
  intros H. unfold find_unterminated_string_error. induction H as [|x l1 Hx _ IH]; cbn [app map find]; [reflexivity|].
  destruct (is_unterminated_string_lexer_error (se_message (collected (Some source) x))) eqn:E; [|exact IH].
  apply is_unterminated_iff in E. now elim Hx.
Qed.
Lemma find_cases (l : list antlr_error) : Forall (fun x => ~ says_unterminated x) l \/ exists l1 a l2, l = l1 ++ a :: l2 /\ Forall (fun x => ~ says_unterminated x) l1 /\ says_unterminated a.
Proof.
  induction l as [|x l IH]; [left; constructor|].
  destruct (is_unterminated_string_lexer_error (se_message (collected None x))) eqn:E.
  - right. exists [], x, l. split; [reflexivity|]. split; [constructor|]. now apply is_unterminated_iff in E.
  - assert (Hx : ~ says_unterminated x) by (intro K; apply (is_unterminated_iff None) in K; congruence).
    destruct IH as [IH | (l1 & a & l2 & -> & H1 & Ha)]; [left; now constructor|].
    right. exists (x :: l1), a, l2. split; [reflexivity|]. split; [now constructor|exact Ha].
Qed.

(** ** Reports *)
Lemma accepted source lexer : syntax_errors_reported source lexer []
  = Ok (Parsed (map (fun a => (shown a, se_offset (collected (Some source) a), se_length (collected (Some source) a))) lexer)).
Proof.
  unfold syntax_errors_reported. cbn [map]. do 2 f_equal. rewrite map_map. apply map_ext. intro a. now rewrite collected_message.
Qed.
Lemma rejected source lexer parser : parser <> [] -> Forall (parser_error source) parser -> Forall (fun a => ~ says_unterminated a) lexer ->
  exists first related, syntax_errors_reported source lexer parser = Ok (Rejected first related)
    /\ forall rs, reported source (map (collected None) parser) rs <-> rs = first :: related.
Proof.
  intros Hne Hp Hl. unfold syntax_errors_reported. rewrite (find_none source lexer Hl).
  assert (Hw : Forall (well_placed source) (map (collected None) parser)).
  { apply Forall_forall. intros e He. apply in_map_iff in He as (a & <- & Ha). rewrite Forall_forall in Hp. now apply collected_placed, Hp. }
  assert (Hne' : map (collected None) parser <> []) by (destruct parser; [congruence|discriminate]).
  destruct (refine_reported source _ Hne' Hw) as (o & Eo & Hno & Hr).
  destruct (map (collected None) parser) as [|f m]; [congruence|]. rewrite Eo.
  destruct o as [[|r rs]|].
  - congruence.
  - exists r, rs. split; [reflexivity|exact Hr].
  - exists f, m. split; [reflexivity|exact Hr].
Qed.
Lemma promoted source l1 a l2 parser : parser <> [] -> Forall (fun a => ~ says_unterminated a) l1 -> says_unterminated a ->
  syntax_errors_reported source (l1 ++ a :: l2) parser
  = Ok (Rejected (mkSyntaxError (se_offset (collected (Some source) a)) (se_length (collected (Some source) a)) (unterminated_message (shown a))
          (Some (chars "unterminated string literal")) (Some (chars "string literals must be closed with a `" ++ [34%N] ++ chars "` on the same line"))) []).
Proof.
  intros Hne H1 Ha. unfold syntax_errors_reported. rewrite (find_first source l1 a l2 H1 Ha), collected_message.
  destruct parser; [congruence|]. reflexivity.
Qed.
Lemma never_panics source lexer parser : Forall (parser_error source) parser -> exists o, syntax_errors_reported source lexer parser = Ok o.
Proof.
  intro Hp. destruct parser as [|p parser]; [rewrite accepted; eauto|].
  destruct (find_cases lexer) as [H | (l1 & a & l2 & -> & H1 & Ha)].
  - destruct (rejected source lexer (p :: parser) ltac:(discriminate) Hp H) as (f & r & E & _). rewrite E. eauto.
  - rewrite (promoted source l1 a l2 (p :: parser) ltac:(discriminate) H1 Ha). eauto.
Qed.

Lemma rejected_spans source lexer parser first related : parser <> [] -> Forall (parser_error source) parser -> Forall (fun a => ~ says_unterminated a) lexer ->
  syntax_errors_reported source lexer parser = Ok (Rejected first related) ->
  Forall (fun r => exists a, In a parser /\ good_span source (collected None a) r) (first :: related).
Proof.
  intros Hne Hp Hl E. destruct (rejected source lexer parser Hne Hp Hl) as (f & m & E' & Hr). rewrite E in E'. injection E' as <- <-.
  assert (Hb : Forall (fun a => well_placed source (collected None a) /\ 1 <= se_length (collected None a)) parser).
  { eapply Forall_impl; [|exact Hp]. intros a. apply collected_placed. }
  assert (K : Forall (fun r => exists e, In e (map (collected None) parser) /\ good_span source e r) (first :: related)).
  { apply (reported_spans source (map (collected None) parser)).
    - apply Forall_map. eapply Forall_impl; [|exact Hb]. now intros a [H _].
    - apply Forall_map. eapply Forall_impl; [|exact Hb]. now intros a [_ H].
    - now apply Hr. }
  eapply Forall_impl; [|exact K]. intros r (e & He & H). apply in_map_iff in He as (a & <- & Ha). eauto.
Qed.
Lemma lexer_place source before a start : lexer_error source before a -> line_start before start -> Forall (fun c => (c < 128)%N) start ->
  se_offset (collected (Some source) a) = bytes before /\ se_length (collected (Some source) a) = 1.
Proof.
  intros (rest & start' & -> & Hs' & Et & El & Ec) Hs Has. unfold collected. rewrite Et, El, Ec. cbn [se_offset se_length]. split; [|reflexivity].
  assert (start' = start) as ->; [|now apply line_col_exact].
  destruct Hs as (x & -> & Hn & Hx), Hs' as (y & E & Hn' & Hy). clear - Hn Hx Hn' Hy E.
  destruct (Nat.le_gt_cases (length x) (length y)) as [H|H].
  - assert (Hxy : exists z, y = x ++ z /\ start = z ++ start').
    { exists (skipn (length x) y). split.
      - rewrite <- (firstn_skipn (length x) y) at 1. f_equal. apply (f_equal (firstn (length x))) in E.
        rewrite firstn_app, firstn_all, Nat.sub_diag, firstn_O, app_nil_r, firstn_app in E.
        replace (length x - length y) with 0 in E by lia. rewrite firstn_O, app_nil_r in E. now symmetry.
      - apply (f_equal (skipn (length x))) in E. rewrite skipn_app, skipn_all, Nat.sub_diag in E. cbn [skipn app] in E.
        rewrite skipn_app in E. replace (length x - length y) with 0 in E by lia. exact E. }
    destruct Hxy as (z & -> & ->). destruct z as [|c z] using rev_ind; [reflexivity|]. clear IHz. exfalso. apply Hn. rewrite !in_app_iff. left. right.
    destruct Hy as [Hy | (a' & Hy)]; [apply app_eq_nil in Hy as [_ Hy]; destruct z; discriminate|].
    rewrite app_assoc in Hy. apply app_inj_tail in Hy as [_ ->]. now left.
  - assert (Hxy : exists z, x = y ++ z /\ start' = z ++ start).
    { exists (skipn (length y) x). split.
      - rewrite <- (firstn_skipn (length y) x) at 1. f_equal. apply (f_equal (firstn (length y))) in E.
        rewrite (firstn_app (length y) y), firstn_all, Nat.sub_diag, firstn_O, app_nil_r, firstn_app in E.
        replace (length y - length x) with 0 in E by lia. rewrite firstn_O, app_nil_r in E. exact E.
      - apply (f_equal (skipn (length y))) in E. rewrite (skipn_app (length y) y), skipn_all, Nat.sub_diag in E. cbn [skipn app] in E.
        rewrite skipn_app in E. replace (length y - length x) with 0 in E by lia. now symmetry. }
    destruct Hxy as (z & -> & ->). destruct z as [|c z] using rev_ind; [reflexivity|]. clear IHz. exfalso. apply Hn'. rewrite !in_app_iff. left. right.
    destruct Hx as [Hx | (a' & Hx)]; [apply app_eq_nil in Hx as [_ Hx]; destruct z; discriminate|].
    rewrite app_assoc in Hx. apply app_inj_tail in Hx as [_ ->]. now left.
Qed.
Lemma unterminated_reported source l1 a l2 parser before body :
  parser <> [] -> Forall (fun x => ~ says_unterminated x) l1 -> lexer_error source before a ->
  ae_message a = unterminated_text body -> ~ In 39%N body ->
  exists first, syntax_errors_reported source (l1 ++ a :: l2) parser = Ok (Rejected first [])
    /\ se_message first = chars "line " ++ show_Z (ae_line a) ++ chars ":" ++ show_Z (ae_column a) ++ chars " unterminated string literal"
    /\ se_length first = 1 /\ se_offset first <= bytes source
    /\ forall start, line_start before start -> Forall (fun c => (c < 128)%N) start -> se_offset first = bytes before.
Proof.
  intros Hne H1 He Em Hb. rewrite (promoted source l1 a l2 parser Hne H1 (shown_unterminated _ _ Hb Em)). eexists. split; [reflexivity|].
  cbn [se_message se_length se_offset]. pose proof He as (rest & start & _ & _ & Et & El & Ec). split; [|split; [|split]].
  - apply (unterminated_message_eq a body Hb Em); [rewrite El|rewrite Ec]; lia.
  - unfold collected. rewrite Et. reflexivity.
  - unfold collected. rewrite Et. cbn [se_offset]. apply line_col_bound.
  - intros start' Hs Has. exact (proj1 (lexer_place _ _ _ _ He Hs Has)).
Qed.
