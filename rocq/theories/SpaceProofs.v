(** White space put between two tokens is a token of its own and leaves the others
    as they are. *)
From Verif Require Import SpecLexer LexerProofs ShapeProofs CutProofs.
From Coq Require Import Lia.

(** ** Which tokens can have white space inside *)
Fixpoint avoids (w : N) (r : regex) : bool :=
  match r with
  | RVoid | REmpty => true
  | RIn l => negb (in_ranges w l)
  | RNot l => in_ranges w l
  | RSeq a b | RAlt a b => avoids w a && avoids w b
  | RStar a | RShortest a => avoids w a
  end.
Lemma avoids_lang w r : avoids w r = true -> forall s, lang r s -> ~ In w s.
Proof.
  induction r as [| |l|l|a IHa b IHb|a IHa b IHb|a IHa|a IHa]; cbn; intros E s H.
  - destruct H.
  - subst s. intros [].
  - destruct H as (c & -> & H). intros [->|[]]. rewrite H in E. discriminate.
  - destruct H as (c & -> & H). intros [->|[]]. congruence.
  - apply andb_true_iff in E as [Ea Eb]. destruct H as (x & y & -> & Hx & Hy). intro Hw. apply in_app_iff in Hw as [Hw|Hw]; [exact (IHa Ea _ Hx Hw)|exact (IHb Eb _ Hy Hw)].
  - apply andb_true_iff in E as [Ea Eb]. destruct H as [H|H]; [exact (IHa Ea _ H)|exact (IHb Eb _ H)].
  - induction H as [|x y Hx Hy IH]; [intros []|]. intro Hw. apply in_app_iff in Hw as [Hw|Hw]; [exact (IHa E _ Hx Hw)|exact (IH Hw)].
  - exact (IHa E _ (proj1 H)).
Qed.

(** The shape of a kind *)
Fixpoint shape_in (k : token_type) (l : list (token_type * texts)) : texts :=
  match l with
  | [] => fun _ => False
  | (k', P) :: l => if same_type k' k then P else shape_in k l
  end.
Lemma shaped_in k t : shaped k t <-> shape_in k shapes t.
Proof.
  unfold shaped. generalize kinds_nodup. generalize shapes. induction l as [|[k' P] l IH]; cbn; intro D.
  - split; [intros (P & [] & _)|tauto].
  - inversion D as [|? ? Hn Hd]; subst. unfold same_type. destruct (token_type_dec k' k) as [->|Hk].
    + split; [|eauto]. intros (Q & [E|E] & HQ); [injection E as ->; exact HQ|]. exfalso. apply Hn. exact (in_map fst _ _ E).
    + rewrite <- (IH Hd). split; intros (Q & H & HQ); [destruct H as [E|E]; [injection E as ? ->; congruence|]|]; eauto.
Qed.

Definition roomy : list token_type := [T_DocComment; T_MultiLineComment; T_SingleLineComment; T_WS; T_StringLiteral].
Lemma white_inside k t w : shaped k t -> In w white -> In w t ->
  (k = T_DocComment /\ doc_comment t) \/ (k = T_MultiLineComment /\ block_comment t) \/ (k = T_SingleLineComment /\ line_comment t)
  \/ (k = T_WS /\ white_space t) \/ (k = T_StringLiteral /\ string_literal t).
Proof.
  intros H Hw Ht. assert (K : In k roomy).
  { pose proof H as H2. apply shaped_rule in H2 as (r & Hi & Hl).
    assert (A : forallb (fun kr => existsb (same_type (fst kr)) roomy || forallb (fun w => avoids w (snd kr)) white) lexer_rules = true) by (vm_compute; reflexivity).
    rewrite forallb_forall in A. specialize (A _ Hi). cbn [fst snd] in A. apply orb_true_iff in A as [A|A].
    - apply existsb_exists in A as (k' & Hk & E). unfold same_type in E. destruct (token_type_dec k k'); [subst; exact Hk|discriminate].
    - rewrite forallb_forall in A. destruct (avoids_lang w r (A w Hw) t Hl Ht). }
  rewrite shaped_in in H. destruct K as [<-|[<-|[<-|[<-|[<-|[]]]]]]; cbn in H; tauto.
Qed.

(** ** Cutting lists *)
Lemma split_after {A} (w : A) p : forall u y q, u ++ w :: y = p ++ q -> ~ In w p -> exists u', u = p ++ u' /\ q = u' ++ w :: y.
Proof.
  induction p as [|c p IH]; intros u y q E Hn; [exists u; auto|]. destruct u as [|c' u]; cbn in E.
  - injection E as -> _. exfalso. apply Hn. left. reflexivity.
  - injection E as -> E. destruct (IH u y q E) as (u' & -> & ->); [intro H; apply Hn; right; exact H|]. exists u'. auto.
Qed.
Lemma split_before {A} (w : A) q : forall u y p, u ++ w :: y = p ++ q -> ~ In w q -> exists y', y = y' ++ q /\ p = u ++ w :: y'.
Proof.
  intros u. induction u as [|c u IH]; intros y p E Hn; destruct p as [|c' p]; cbn in E.
  - subst q. exfalso. apply Hn. left. reflexivity.
  - injection E as -> ->. exists p. auto.
  - subst q. exfalso. apply Hn. right. apply in_app_iff. right. left. reflexivity.
  - injection E as -> E. destruct (IH y p E Hn) as (y' & -> & ->). exists y'. auto.
Qed.
(** Where a cut falls *)
Lemma app_cases {A} (a b c d : list A) : a ++ b = c ++ d -> (exists m, c = a ++ m /\ b = m ++ d) \/ (exists m, a = c ++ m /\ d = m ++ b /\ m <> []).
Proof.
  revert c. induction a as [|x a IH]; intros c E; cbn in E.
  - left. exists c. auto.
  - destruct c as [|y c]; cbn in E.
    + right. exists (x :: a). repeat split; [symmetry; exact E|discriminate].
    + injection E as -> E. destruct (IH c E) as [(m & -> & ->)|(m & -> & -> & Hm)]; [left|right]; exists m; auto.
Qed.

Lemma first_end_exists s : (exists a b, s = a ++ chars "*/" ++ b) -> exists p z, s = p ++ z /\ first_end p.
Proof.
  intros (a & b & ->). revert b. remember (length a) as n eqn:En. revert a En. induction n as [n IH] using (well_founded_induction Wf_nat.lt_wf). intros a -> b.
  assert (D : (exists a' b', a ++ chars "*/" = a' ++ chars "*/" ++ b' /\ b' <> []) \/ ~ exists a' b', a ++ chars "*/" = a' ++ chars "*/" ++ b' /\ b' <> []).
  { set (P := fun s => exists a', s = a' ++ chars "*/").
    assert (Pd : forall s, {P s} + {~ P s}).
    { intro s. destruct (lang_dec (RSeq (RStar any_char) (word "*/")) s) as [H|H]; [left|right].
      - destruct H as (x & y & -> & _ & Hy). apply lang_word in Hy. unfold spelled, exactly in Hy. subst y. exists x. reflexivity.
      - intros (a' & ->). apply H. exists a', (chars "*/"). split; [reflexivity|]. split; [apply many_any|apply lang_word; reflexivity]. }
    assert (S : forall l m, {exists a' b', l ++ m = a' ++ b' /\ length l <= length a' /\ b' <> [] /\ P a'} + {~ exists a' b', l ++ m = a' ++ b' /\ length l <= length a' /\ b' <> [] /\ P a'}).
    { intros l m. revert l. induction m as [|c m IHm]; intro l.
      - right. intros (a' & b' & E & L & Hb & _). apply (f_equal (@length N)) in E. rewrite !app_length in E. cbn in E. destruct b'; [congruence|]. cbn in E. lia.
      - destruct (Pd l) as [Hp|Hp]; [left; exists l, (c :: m); repeat split; [lia|discriminate|exact Hp]|].
        destruct (IHm (l ++ [c])) as [H|H]; [left|right].
        + destruct H as (a' & b' & E & L & Hb & Hq). exists a', b'. rewrite <- app_assoc in E. rewrite app_length in L. repeat split; try assumption. lia.
        + intros (a' & b' & E & L & Hb & Hq). apply H. exists a', b'. rewrite <- app_assoc. repeat split; try assumption. rewrite app_length. cbn.
          destruct (Nat.eq_dec (length l) (length a')) as [E2|E2]; [|lia]. destruct (app_both _ _ _ _ E E2) as [-> _]. contradiction. }
    destruct (S [] (a ++ chars "*/")) as [H|H]; [left|right].
    - destruct H as (a' & b' & E & _ & Hb & (x & ->)). exists x, b'. rewrite <- app_assoc in E. split; assumption.
    - intros (a' & b' & E & Hb). apply H. exists (a' ++ chars "*/"), b'. rewrite <- app_assoc. repeat split; try assumption; [cbn; lia|]. exists a'. reflexivity. }
  destruct D as [(a' & b' & E & Hb)|D].
  - destruct (IH (length a')) with (a := a') (b := b' ++ b) as (p & z & Ep & Hp); [|reflexivity|].
    + apply (f_equal (@length N)) in E. rewrite !app_length in E. cbn in E. destruct b'; [congruence|]. cbn in E. lia.
    + exists p, z. split; [|exact Hp]. rewrite <- Ep. rewrite !app_assoc. rewrite !app_assoc in E. rewrite E. reflexivity.
  - exists (a ++ chars "*/"), b. rewrite <- app_assoc. split; [reflexivity|]. exists a. split; [reflexivity|]. intros x y E. destruct y as [|c y]; [reflexivity|].
    exfalso. apply D. exists x, (c :: y). split; [exact E|discriminate].
Qed.

Lemma first_end_without u w y : first_end (u ++ w :: y) -> In w white -> exists y' z, y = y' ++ z /\ y' <> [] /\ first_end (u ++ y').
Proof.
  intros (body & E & F) Hw. assert (Hn : ~ In w (chars "*/")) by (vm_compute in Hw; vm_compute; intuition (subst; discriminate)).
  destruct (split_before w (chars "*/") u y body E Hn) as (y1 & -> & ->).
  destruct (first_end_exists (u ++ y1 ++ chars "*/")) as (p & z & Ep & Hp); [exists (u ++ y1), []; rewrite app_nil_r, <- app_assoc; reflexivity|].
  destruct (app_cases _ _ _ _ Ep) as [(m & -> & Em)|(m & -> & Em & Hm)].
  - exists m, z. split; [exact Em|]. split; [|exact Hp]. intros ->. rewrite app_nil_r in Hp. destruct Hp as (bd & -> & _).
    specialize (F bd (w :: y1 ++ chars "*/") ltac:(rewrite <- app_assoc; reflexivity)). discriminate.
  - exfalso. destruct Hp as (bd & -> & _). specialize (F bd (m ++ w :: y1 ++ chars "*/")). rewrite <- !app_assoc in F. specialize (F eq_refl). destruct m; discriminate.
Qed.

(** ** What no token starts with *)
Lemma slashes k m : shaped k (47%N :: 47%N :: m) -> line_comment (47%N :: 47%N :: m).
Proof.
  intro H. assert (K : k = T_SingleLineComment).
  { pose proof H as H2. apply shaped_rule in H2 as (r & Hi & Hl). apply lang_advance, lang_advance in Hl.
    assert (A : forallb (fun kr => same_type (fst kr) T_SingleLineComment || dead (advance 47%N (advance 47%N (snd kr)))) lexer_rules = true) by (vm_compute; reflexivity).
    rewrite forallb_forall in A. specialize (A _ Hi). cbn [fst snd] in A. apply orb_true_iff in A as [A|A].
    - unfold same_type in A. destruct (token_type_dec k T_SingleLineComment); [assumption|discriminate].
    - assert (dead (advance 47%N (advance 47%N r)) = false) by (apply dead_lang; eauto). congruence. }
  subst k. apply shaped_in in H. exact H.
Qed.
Lemma not_alone t k : In t [chars "/"; chars "//"; chars "/*"] -> ~ shaped k t.
Proof.
  intro Hi. apply no_shape. assert (A : forallb (fun t => match first_match lexer_rules t with None => true | _ => false end) [chars "/"; chars "//"; chars "/*"] = true) by (vm_compute; reflexivity).
  rewrite forallb_forall in A. specialize (A _ Hi). destruct (first_match lexer_rules t); [discriminate|reflexivity].
Qed.

Definition not_line_end (c : N) : Prop := c <> line_feed /\ c <> carriage_return.
Lemma many_single (P : N -> Prop) s : many (fun s => exists c, s = [c] /\ P c) s <-> Forall P s.
Proof.
  split.
  - induction 1 as [|a b (c & -> & Hc) _ IH]; [constructor|]. cbn. constructor; assumption.
  - induction 1 as [|c s Hc _ IH]; [constructor|]. change (c :: s) with ([c] ++ s). constructor; [eauto|exact IH].
Qed.
Lemma line_comment_form t : line_comment t <-> exists m e, t = 47%N :: 47%N :: m ++ e /\ Forall not_line_end m /\ (e = [10%N] \/ e = [13%N] \/ e = [13; 10]%N).
Proof.
  split.
  - intros (a & b & -> & Ha & m & e & -> & Hm & He). assert (a = [47; 47]%N) as -> by (unfold spelled, exactly in Ha; rewrite Ha; vm_compute; reflexivity).
    apply many_single in Hm. exists m, e. split; [reflexivity|]. split; [exact Hm|].
    destruct He as [[He|He]|He]; unfold exactly, line_feed, carriage_return in He; auto.
  - intros (m & e & -> & Hm & He). exists [47; 47]%N, (m ++ e). split; [reflexivity|]. split; [vm_compute; reflexivity|]. exists m, e. split; [reflexivity|].
    split; [apply many_single, Hm|]. unfold line_end, either, exactly. destruct He as [->|[->| ->]]; auto.
Qed.
(** An unfinished line comment starts with no token *)
Lemma no_line_end_no_token k t r m : t <> [] -> shaped k t -> 47%N :: 47%N :: m = t ++ r -> Forall not_line_end m -> False.
Proof.
  intros Ht H E Hm. destruct t as [|c [|d t]]; [congruence| |]; cbn in E.
  - injection E as <- _. apply (not_alone [47%N] k); [left; vm_compute; reflexivity|exact H].
  - injection E as <- <- ->. apply slashes, line_comment_form in H as (m' & e & E & _ & He). injection E as ->. rewrite <- app_assoc in Hm. apply Forall_app in Hm as [_ Hm].
    apply Forall_app in Hm as [Hm _]. unfold not_line_end, line_feed, carriage_return in Hm. destruct He as [->|[->| ->]]; inversion Hm as [|? ? [H1 H2] _]; congruence.
Qed.

(** ** Strings *)
Lemma string_char_white x w : string_char x -> In w white -> In w x -> x = [w].
Proof.
  intros H Hw Hi. assert (L : loop_char x) by (apply loop_char_form; auto). destruct L as [(c & -> & _)|L].
  - destruct Hi as [->|[]]. reflexivity.
  - exfalso. assert (A : forallb (fun w => avoids w (RSeq (char_of 92) escape_rule)) white = true) by (vm_compute; reflexivity).
    rewrite forallb_forall in A. exact (avoids_lang w _ (A w Hw) x L Hi).
Qed.
Lemma string_without u w y : many string_char (u ++ w :: y) -> In w white -> many string_char (u ++ y).
Proof.
  intros H Hw. remember (u ++ w :: y) as s eqn:E. revert u E. induction H as [|a b Ha Hb IH]; intros u E; [destruct u; discriminate|].
  destruct (app_cases _ _ _ _ E) as [(m & -> & Eb)|(m & -> & Em & Hm)].
  - rewrite <- app_assoc. constructor; [exact Ha|]. exact (IH m Eb).
  - destruct m as [|c m]; [congruence|]. injection Em as <- ->.
    assert (X := string_char_white _ w Ha Hw ltac:(apply in_app_iff; right; left; reflexivity)). destruct u as [|c' u]; [|injection X as _ X; destruct u; discriminate].
    injection X as ->. exact Hb.
Qed.
Lemma string_literal_form t : string_literal t <-> exists m, t = 34%N :: m ++ [34%N] /\ many string_char m.
Proof.
  split.
  - intros (a & b & -> & -> & m & c & -> & Hm & ->). exists m. auto.
  - intros (m & -> & Hm). exists [34%N], (m ++ [34%N]). split; [reflexivity|]. split; [reflexivity|]. exists m, [34%N]. repeat split. exact Hm.
Qed.

(** ** Taking the white space out again *)

(** A token over a boundary at which white space was put: without the white space a
    token crosses the boundary, too *)
Lemma without_white k u w y k0 t m : shaped k (u ++ w :: y) -> In w white -> u = t ++ m -> t <> [] -> shaped k0 t ->
  ~ (w = line_feed /\ exists v, u = v ++ [carriage_return]) ->
  exists k' y' z, y = y' ++ z /\ y' <> [] /\ shaped k' (u ++ y').
Proof.
  intros H Hw Eu Ht Hk0 Hcr. assert (Hu : u <> []) by (rewrite Eu; destruct t; [congruence|discriminate]).
  destruct (white_inside _ _ w H Hw ltac:(apply in_app_iff; right; left; reflexivity)) as [[_ D]|[[_ D]|[[_ D]|[[_ D]|[_ D]]]]].
  - destruct D as (p & q & E & Hp & Hq). unfold spelled, exactly in Hp. subst p.
    destruct (split_after w (chars "/**") _ _ _ E) as (u' & -> & ->); [vm_compute in Hw; vm_compute; intuition (subst; discriminate)|].
    destruct (first_end_without u' w y Hq Hw) as (y' & z & -> & Hy & Hf). exists T_DocComment, y', z. repeat split; [exact Hy|]. apply shaped_in. rewrite <- app_assoc.
    exists (chars "/**"), (u' ++ y'). repeat split. exact Hf.
  - destruct D as (p & q & E & Hp & c1 & q2 & -> & (c & -> & Hc) & Hq). unfold spelled, exactly in Hp. subst p.
    destruct (split_after w (chars "/*") _ _ _ E) as (u' & Eu' & E2); [vm_compute in Hw; vm_compute; intuition (subst; discriminate)|].
    destruct u' as [|c' u'].
    + exfalso. rewrite app_nil_r in Eu'. rewrite Eu' in Eu. apply (not_alone t k0); [|exact Hk0].
      assert (Ec : chars "/*" = [47; 42]%N) by (vm_compute; reflexivity). rewrite Ec in Eu.
      destruct t as [|c1 [|c2 t]]; [congruence| |]; cbn [app] in Eu.
      * injection Eu as <- _. left. vm_compute. reflexivity.
      * injection Eu as <- <- Eu. destruct t; [|discriminate]. right. right. left. vm_compute. reflexivity.
    + injection E2 as <- ->. destruct (first_end_without u' w y Hq Hw) as (y' & z & -> & Hy & Hf). exists T_MultiLineComment, y', z. repeat split; [exact Hy|]. apply shaped_in. rewrite Eu', <- app_assoc.
      exists (chars "/*"), ((c :: u') ++ y'). repeat split. exists [c], (u' ++ y'). repeat split; [eauto|exact Hf].
  - apply line_comment_form in D as (mm & e & E & Hm & He). change (47%N :: 47%N :: mm ++ e) with ([47; 47]%N ++ mm ++ e) in E.
    destruct (split_after w [47; 47]%N _ _ _ E) as (u' & Eu' & E2); [vm_compute in Hw; cbn; intuition (subst; discriminate)|].
    symmetry in E2. destruct (app_cases _ _ _ _ E2) as [(x & -> & Ex)|(x & Eux & Ex & Hx)].
    + destruct x as [|c x].
      * (* the white space is the line end *)
        rewrite app_nil_r in Hm. cbn in Ex. destruct He as [->|[->| ->]]; injection Ex as Ew ->; try subst w.
        -- exfalso. apply (no_line_end_no_token k0 t m u' Ht Hk0); [|exact Hm]. rewrite <- Eu, Eu'. reflexivity.
        -- exfalso. apply (no_line_end_no_token k0 t m u' Ht Hk0); [|exact Hm]. rewrite <- Eu, Eu'. reflexivity.
        -- exists T_SingleLineComment, [10%N], []. repeat split; [discriminate|]. apply shaped_in. apply line_comment_form. exists u', [10%N]. rewrite Eu'. auto.
      * injection Ex as <- ->. exists T_SingleLineComment, (x ++ e), []. rewrite app_nil_r. repeat split; [destruct He as [->|[->| ->]]; destruct x; discriminate|]. apply shaped_in. apply line_comment_form. exists (u' ++ x), e. rewrite Eu'.
        split; [cbn; rewrite <- app_assoc; reflexivity|]. split; [|exact He]. apply Forall_app in Hm as [H1 H2]. inversion H2; subst. apply Forall_app. auto.
    + exfalso. destruct x as [|c x]; [congruence|]. destruct He as [->|[->| ->]]; cbn in Ex; injection Ex as <- Ex.
      * destruct x; discriminate.
      * destruct x; discriminate.
      * destruct x as [|c x]; [|injection Ex as _ Ex; destruct x; discriminate]. injection Ex as <- _. apply Hcr. split; [reflexivity|]. exists ([47; 47]%N ++ mm). rewrite Eu', Eux, <- app_assoc. reflexivity.
  - exfalso. destruct D as (c & E & _). destruct u as [|c' [|d u]]; [congruence|discriminate|discriminate].
  - apply string_literal_form in D as (mm & E & Hm). change (34%N :: mm ++ [34%N]) with ([34%N] ++ mm ++ [34%N]) in E.
    destruct (split_after w [34%N] _ _ _ E) as (u' & Eu' & E2); [vm_compute in Hw; cbn; intuition (subst; discriminate)|].
    symmetry in E2. destruct (split_before w [34%N] _ _ _ E2) as (y1 & -> & ->); [vm_compute in Hw; cbn; intuition (subst; discriminate)|].
    exists T_StringLiteral, (y1 ++ [34%N]), []. rewrite app_nil_r. repeat split; [destruct y1; discriminate|]. apply shaped_in. apply string_literal_form. exists (u' ++ y1). split; [rewrite Eu', <- !app_assoc; reflexivity|].
    exact (string_without _ _ _ Hm Hw).
Qed.

Lemma white_alone w rest : In w white -> longest T_WS [w] rest.
Proof.
  intro Hw. assert (S : forall k t, shaped k (w :: t) -> k = T_WS /\ t = []).
  { intros k t H. pose proof H as H2. apply shaped_rule in H2 as (r & Hi & Hl). apply lang_advance in Hl.
    assert (A : forallb (fun kr => same_type (fst kr) T_WS || forallb (fun w => dead (advance w (snd kr))) white) lexer_rules = true) by (vm_compute; reflexivity).
    rewrite forallb_forall in A. specialize (A _ Hi). cbn [fst snd] in A. apply orb_true_iff in A as [A|A].
    - unfold same_type in A. destruct (token_type_dec k T_WS); [subst k|discriminate]. split; [reflexivity|]. apply shaped_in in H. destruct H as (c & E & _). injection E as _ ->. reflexivity.
    - rewrite forallb_forall in A. assert (dead (advance w r) = false) by (apply dead_lang; eauto). rewrite (A w Hw) in H0. discriminate. }
  split; [apply shaped_in; exists w; auto|]. split.
  - intros k t' rest' E H. destruct t' as [|c t']; [cbn; lia|]. injection E as <- _. destruct (S _ _ H) as [_ ->]. reflexivity.
  - intros k' B H. destruct (S _ _ H) as [-> _]. destruct B as (a & b & c & E). pose proof kinds_nodup as D. rewrite E in D. apply NoDup_remove_2 in D. apply D. rewrite !in_app_iff. right. right. left. reflexivity.
Qed.

Lemma insert_white w b lb : In w white -> taken_apart b lb -> forall la a,
  taken_apart (a ++ b) (la ++ lb) -> concat (map snd la) = a ->
  ~ (w = line_feed /\ exists v, a = v ++ [carriage_return]) ->
  (b = [] -> forall t, ~ In (None, t) la) ->
  taken_apart (a ++ w :: b) (la ++ (Some T_WS, [w]) :: lb).
Proof.
  intros Hw Hb. induction la as [|[k t] la IH]; intros a H Ea Hcr Hn; cbn [map snd concat] in Ea.
  - subst a. cbn [app]. change (w :: b) with ([w] ++ b). constructor; [discriminate|exact (white_alone w b Hw)|exact Hb].
  - subst a. cbn [app] in *. rewrite <- app_assoc in H. remember (t ++ concat (map snd la) ++ b) as s eqn:Es. remember (@cons piece (k, t) (@app piece la lb)) as l eqn:El.
    set (a' := concat (map snd la)) in *.
    assert (T : taken_apart (a' ++ b) (la ++ lb) -> taken_apart (a' ++ w :: b) (la ++ (Some T_WS, [w]) :: lb)).
    { intro X. apply IH; [exact X|reflexivity| |].
      - intros [Ew [v Ev]]. apply Hcr. split; [exact Ew|]. exists (t ++ v). rewrite Ev, app_assoc. reflexivity.
      - intros Eb t' Ht'. exact (Hn Eb t' (or_intror Ht')). }
    destruct H as [|k' t' rest l' Ht Hl H|t' rest l' Ht Hl H]; [discriminate| |]; injection El as <- <- ->; apply app_inv_head in Es; subst rest; rewrite <- app_assoc; constructor; try assumption; try (exact (T H)).
    + destruct Hl as (S & M & F). split; [exact S|]. split; [|exact F]. intros k2 t2 rest2 E S2. destruct (Nat.le_gt_cases (length t2) (length t')) as [L|L]; [exact L|]. exfalso.
      replace (t' ++ a' ++ w :: b) with ((t' ++ a') ++ w :: b) in E by (rewrite <- app_assoc; reflexivity).
      destruct (app_cases _ _ _ _ E) as [(m & E2 & Em)|(m & E2 & Em & Hm)].
      * destruct m as [|c m].
        -- rewrite app_nil_r in E2. subst t2. specialize (M k2 (t' ++ a') b ltac:(rewrite <- app_assoc; reflexivity) S2). lia.
        -- cbn [app] in Em. injection Em as <- ->. subst t2. destruct (without_white _ _ _ _ k' t' a' S2 Hw eq_refl Ht S Hcr) as (k3 & y' & z & -> & Hy & S3).
           specialize (M k3 ((t' ++ a') ++ y') (z ++ rest2) ltac:(rewrite <- !app_assoc; reflexivity) S3). rewrite !app_length in M. destruct y'; [congruence|]. cbn in M. lia.
      * (* within the part before *)
        specialize (M k2 t2 (m ++ b)). rewrite app_assoc, E2, <- app_assoc in M. specialize (M eq_refl S2). lia.
    + destruct Hl as (N & S). destruct S as [(begun & c & -> & Hb2 & Hm)|[Er _]].
      * split; [|left; exists begun, c; auto]. intros k2 t2 rest2 E S2. destruct (Nat.le_gt_cases (length t2) (length (begun ++ [c]))) as [L|L].
        -- destruct (start_of _ _ _ _ (eq_sym E) L) as [m Em]. apply (N k2 t2 (m ++ a' ++ b)); [|exact S2]. rewrite Em, <- app_assoc. reflexivity.
        -- destruct (start_of _ _ _ _ E ltac:(lia)) as [m ->]. exact (Hm k2 m S2).
      * apply app_eq_nil in Er as [_ Eb]. destruct (Hn Eb t' (or_introl eq_refl)).
Qed.

(** The part after a boundary is taken apart on its own *)
Lemma rest_apart la : forall a b lb, taken_apart (a ++ b) (la ++ lb) -> concat (map snd la) = a -> taken_apart b lb.
Proof.
  induction la as [|[k t] la IH]; intros a b lb H Ea; cbn in *; [subst a; exact H|]. subst a. rewrite <- app_assoc in H.
  remember (t ++ concat (map snd la) ++ b) as s eqn:Es. remember (@cons piece (k, t) (@app piece la lb)) as l eqn:El.
  destruct H as [|k' t' rest l' Ht Hl H|t' rest l' Ht Hl H]; [discriminate| |]; injection El as <- <- ->; apply app_inv_head in Es; subst rest; exact (IH _ _ _ H eq_refl).
Qed.
Theorem cut_insert w a b la lb : In w white -> cut (a ++ b) = la ++ lb -> concat (map snd la) = a ->
  ~ (w = line_feed /\ exists v, a = v ++ [carriage_return]) -> (b = [] -> forall t, ~ In (None, t) la) ->
  cut (a ++ w :: b) = la ++ (Some T_WS, [w]) :: lb.
Proof.
  intros Hw H Ea Hcr Hn. apply cut_iff. apply cut_iff in H. exact (insert_white w b lb Hw (rest_apart _ _ _ _ H Ea) la a H Ea Hcr Hn).
Qed.
