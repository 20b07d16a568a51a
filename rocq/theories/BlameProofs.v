(** The place of an error is that of the word that is wrong. *)
From Verif Require Import IdlParser SpecLexer SpecGrammar.
From Verif Require Import SizeProofs ReaderProofs FileProofs TypeProofs WhereProofs SpecDefects SpecBlame.
From Coq Require Import Lia.

Section Words.
  Context `{Unicode} `{Floats}.
  Context (strict : bool) (file : string) (all : list lexeme).
  Hypothesis spelled_out : forall x k w, In x all -> of_type k x -> In (k, w) (SpecLexer.reserved ++ signs) -> lx_text x = w.
  Hypothesis numbers : forall x, In x all -> of_type T_IntegerLiteral x -> exists z, int_literal (lx_text x) z.
  Lemma number_verdict x : In x all -> of_type T_IntegerLiteral x -> exists r, size_verdict (lx_text x) r /\ forall n, parse_integer_as_u32 (lx_text x) = Some n <-> r = Ok n.
  Proof.
    intros Hx T. destruct (numbers x Hx T) as (z & L). destruct (verdict_total _ _ L) as (r & V). exists r. split; [exact V|]. intro n. rewrite size_is_u32, (verdict_right _ _ V). tauto.
  Qed.

  Definition points (at_ : span) (e : walk_error) : Prop := exists x, In x all /\ at_ = mkSpan file (lx_offset x) /\ blame e (lx_text x).
  Lemma points_at x e : In x all -> blame e (lx_text x) -> points (mkSpan file (lx_offset x)) e.
  Proof. intros Hx B. exists x. auto. Qed.

  Lemma json_points t e at_ : bad_json t e at_ -> forall ts, json_value file ts t -> incl ts all -> points at_ e.
  Proof.
    induction 1 as [raw B|raw B|l t e at_ Ht B IH|o k t e at_ Ht B IH]; intros ts J I.
    - inversion J as [|x Tx E1 E2| | | | | |]; subst. apply points_at; [apply I; now left|]. constructor. intros p j M. apply (B j). inversion M; subst. now constructor.
    - inversion J as [| |x Tx E1 E2| | | | |]; subst. apply points_at; [apply I; now left|]. constructor. intros p j M. apply (B j). inversion M; subst; now constructor.
    - inversion J as [| | | | | |a ts0 l0 b Ta Hl Tb E1 E2|]; subst. destruct (listed_in _ _ _ _ Hl Ht) as (sub & Hs & Hi). apply (IH sub Hs). intros y Hy. apply I. right. apply in_or_app. left. auto.
    - inversion J as [| | | | | | |a ts0 l0 b Ta Hl Tb E1 E2]; subst. destruct (listed_in _ _ _ _ Hl Ht) as (sub & Hs & Hi). inversion Hs as [k0 colon ts1 v Tk Tc Hv E1 E2]; subst.
      apply (IH ts1 Hv). intros y Hy. apply I. right. apply in_or_app. left. apply Hi. do 2 right. exact Hy.
  Qed.
  Lemma property_points p a e at_ ts : bad_annotation p a e at_ -> property file ts a -> incl ts all -> points at_ e.
  Proof.
    intros B P I. inversion P as [s x l ts0 v r Ts Hx Tl Hv Tr E1 E2]; subst. assert (Hs : In s all) by (apply I; now left).
    assert (W : lx_text s = "@") by (apply (spelled_out s T_At); [exact Hs|exact Ts|cbn; tauto]).
    destruct B as [e at_ B|v' _ _ _ _|v' _ _ _ _|v' _ _ _ _|_]; cbn [an_place] in *; try (apply points_at; [exact Hs|]; rewrite W; constructor; fail).
    apply (json_points _ _ _ B ts0 Hv). intros y Hy. apply I. do 3 right. apply in_or_app. now left.
  Qed.
  Lemma annotations_points p a e at_ ts : bad_annotations p a e at_ -> repeated (property file) ts a -> incl ts all -> points at_ e.
  Proof.
    intros (x & Hx & B) R I. destruct (repeated_in _ _ _ _ R Hx) as (sub & Hs & Hi). apply (property_points _ _ _ _ _ B Hs). intros y Hy. apply I. auto.
  Qed.
  Lemma annotated_word ps a : repeated (property file) ps a -> incl ps all -> a <> [] -> exists x r, ps = x :: r /\ lx_text x = "@".
  Proof.
    intros R I N. destruct (property_at _ _ _ R) as [[-> ->]|(x & r & p & l & -> & Tx & ->)]; [congruence|]. exists x, r. split; [reflexivity|]. apply (spelled_out x T_At); [apply I; now left|exact Tx|cbn; tauto].
  Qed.
  Lemma unannotated ps : repeated (property file) ps [] -> ps = [].
  Proof. intro R. destruct (property_at _ _ _ R) as [[-> _]|(x & r & p & l & _ & _ & X)]; [reflexivity|discriminate]. Qed.
  Lemma keyword_tokens x k : In x all -> In (lx_type x, k) primitive_words -> lx_text x = keyword_word k.
  Proof.
    intros Hx Hk. apply (spelled_out x (lx_type x)); [exact Hx|reflexivity|]. unfold primitive_words in Hk. repeat (destruct Hk as [Hk|Hk]; [injection Hk as <- <-; cbn; tauto|]). destruct Hk.
  Qed.
  Lemma base_word_at ts b o : base strict file ts b -> incl ts all -> exists x r, ts = x :: r /\ lx_text x = plain_word (PtNullable b o).
  Proof.
    intros B I. inversion B as [x k Hk E1 E2|d l p r Td Tl Tp Tr E1 E2|d l p c s r Td Tl Tp Tc Ts Tr E1 E2|x Hx Hn E1 E2]; subst; eexists _, _; (split; [reflexivity|]); cbn [plain_word keyword_word].
    - apply keyword_tokens; [apply I; now left|exact Hk].
    - apply (spelled_out d T_Decimal); [apply I; now left|exact Td|cbn; tauto].
    - apply (spelled_out d T_Decimal); [apply I; now left|exact Td|cbn; tauto].
    - reflexivity.
  Qed.
  Lemma plain_word_at ts p : plain strict file ts p -> incl ts all -> exists x r, ts = x :: r /\ lx_text x = plain_word p.
  Proof.
    intros P I. inversion P as [a l ts0 t g Ta Tl Hf Tg E1 E2|a l ts0 t g Ta Tl Hf Tg E1 E2|u b ts0 l r Tu Tb Hs Tr E1 E2|ts0 b Hb E1 E2|ts0 b q Hb Tq E1 E2]; subst.
    1, 2, 3: eexists _, _; (split; [reflexivity|]); cbn [plain_word].
    - apply (spelled_out a T_Array); [apply I; now left|exact Ta|cbn; tauto].
    - apply (spelled_out a T_Map); [apply I; now left|exact Ta|cbn; tauto].
    - apply (spelled_out u T_Union); [apply I; now left|exact Tu|cbn; tauto].
    - now apply base_word_at.
    - destruct (base_word_at ts0 b true Hb) as (x & r & -> & W); [intros y Hy; apply I, in_or_app; now left|]. cbn [app]. eauto.
  Qed.
  Lemma type_word_at ts t : full strict file ts t -> incl ts all -> exists x r, ts = x :: r /\ full_place t = mkSpan file (lx_offset x) /\ lx_text x = type_word t.
  Proof.
    intros F I. inversion F as [ps a ts0 p sp Hps Hp Ho E1 E2]; subst. destruct Ho as (x & r & E & ->). exists x, r. split; [exact E|]. split; [reflexivity|]. destruct a as [|a l]; cbn [type_word].
    - rewrite (unannotated _ Hps) in *. cbn [app] in *. destruct (plain_word_at _ _ Hp I) as (y & r' & -> & W). injection E as -> _. exact W.
    - destruct (annotated_word _ _ Hps) as (y & r' & -> & W); [intros y Hy; apply I, in_or_app; now left|discriminate|]. injection E as -> _. exact W.
  Qed.
  Lemma base_points ts b o ns e at_ : base strict file ts b -> incl ts all -> bad_plain ns (PtNullable b o) e at_ -> points at_ e.
  Proof.
    intros B I X. inversion X as [| | | | |kp|p s o' sp Hp|p s o' sp Hp]; subst.
    - destruct (base_word_at _ _ true B I) as (x & r & -> & W). inversion B as [y k Hk E1 E2| | |]; subst. apply points_at; [apply I; now left|]. rewrite W. constructor.
    - inversion B as [x k Hk E1 E2|d l p0 r Td Tl Tp Tr E1 E2|d l p0 c s0 r Td Tl Tp Tc Ts Tr E1 E2|]; subst.
      + exfalso. unfold primitive_words in Hk. repeat (destruct Hk as [Hk|Hk]; [discriminate|]). destruct Hk.
      + assert (Hx : In p0 all) by (apply I; do 2 right; now left). apply points_at; [exact Hx|]. destruct (number_verdict _ Hx Tp) as (r0 & V & R). apply (bl_precision _ r0 V). intros n E. apply Hp, R, E.
      + assert (Hx : In p0 all) by (apply I; do 2 right; now left). apply points_at; [exact Hx|]. destruct (number_verdict _ Hx Tp) as (r0 & V & R). apply (bl_precision _ r0 V). intros n E. apply Hp, R, E.
    - inversion B as [x k Hk E1 E2| |d l p0 c s0 r Td Tl Tp Tc Ts Tr E1 E2|]; subst.
      + exfalso. unfold primitive_words in Hk. repeat (destruct Hk as [Hk|Hk]; [discriminate|]). destruct Hk.
      + assert (Hx : In s0 all) by (apply I; do 4 right; now left). apply points_at; [exact Hx|]. destruct (number_verdict _ Hx Ts) as (r0 & V & R). apply (bl_scale _ r0 V). cbn in Hp. intro Z. apply R in Z. destruct Hp as [Hp|(n & m & _ & Hm & L)]; [congruence|]. rewrite Hm in Z. injection Z as ->. lia.
  Qed.
  Lemma types_point :
    (forall t ts ns e at_, full strict file ts t -> incl ts all -> bad_type ns t e at_ -> points at_ e)
    /\ (forall p ts ns e at_, plain strict file ts p -> incl ts all -> bad_plain ns p e at_ -> points at_ e).
  Proof.
    apply types_ind.
    - intros pl a p IH ts ns e at_ F I B. pose proof F as F0. inversion F as [ps a0 ts0 t0 sp Hps Hp Ho E1 E2]; subst.
      assert (I1 : incl ps all) by (intros y Hy; apply I, in_or_app; now left). assert (I2 : incl ts0 all) by (intros y Hy; apply I, in_or_app; now right).
      inversion B as [sp' l' p' e' at' Ba|sp' l' p' e' at' Bp|sp' l' p' Hl Hr]; subst; [exact (annotations_points _ _ _ _ _ Ba Hps I1)|exact (IH _ _ _ _ Hp I2 Bp)|].
      destruct (type_word_at _ _ F0 I) as (x & r & E & Ep & W). cbn in Ep. subst at_. apply points_at; [apply I; rewrite E; now left|]. rewrite W. destruct a; [congruence|]. constructor.
    - intros t IH ts ns e at_ P I B. inversion P as [a l ts0 t0 g Ta Tl Hf Tg E1 E2| | | |]; subst. inversion B; subst. eapply IH; [exact Hf| |eassumption]. intros y Hy. apply I. do 2 right. apply in_or_app. now left.
    - intros t IH ts ns e at_ P I B. inversion P as [|a l ts0 t0 g Ta Tl Hf Tg E1 E2| | |]; subst. inversion B; subst. eapply IH; [exact Hf| |eassumption]. intros y Hy. apply I. do 2 right. apply in_or_app. now left.
    - intros l IH ts ns e at_ P I B. inversion P as [| |u b ts0 l0 r Tu Tb Hs Tr E1 E2| |]; subst. rewrite Forall_forall in IH.
      assert (Part : forall t, In t l -> exists sub, full strict file sub t /\ incl sub all).
      { intros t Ht. destruct (separated_in _ _ _ _ Hs Ht) as (sub & Hf & Hi). exists sub. split; [exact Hf|]. intros y Hy. apply I. do 2 right. apply in_or_app. left. auto. }
      inversion B as [| |ts1 t e' at' Ht Bt|ts1 t Ht Ut|a1 t b1 t' c1 s s' k D D' K K'| | |]; subst.
      + destruct (Part t Ht) as (sub & Hf & Hi). exact (IH t Ht _ _ _ _ Hf Hi Bt).
      + destruct (Part t Ht) as (sub & Hf & Hi). destruct (type_word_at _ _ Hf Hi) as (x & r' & -> & -> & W). apply points_at; [apply Hi; now left|]. rewrite W. now constructor.
      + destruct (Part t') as (sub & Hf & Hi); [apply in_or_app; right; right; apply in_or_app; right; now left|]. destruct (type_word_at _ _ Hf Hi) as (x & r' & -> & -> & W).
        apply points_at; [apply Hi; now left|]. rewrite W, <- K'. econstructor. exact D'.
    - intros b o ts ns e at_ P I B. inversion P as [| | |ts0 b0 Hb E1 E2|ts0 b0 q Hb Tq E1 E2]; subst; [eapply base_points; eauto|]. eapply base_points; [exact Hb| |exact B]. intros y Hy. apply I, in_or_app. now left.
  Qed.
  Lemma variable_points ts v t ns e at_ : variable_rule file ts v -> incl ts all -> bad_variable ns t v e at_ -> points at_ e.
  Proof.
    intros V I B. destruct B as [e at_ Ba|d e at_ Ed Bj|d j s Ed Hj Hs Hv].
    - inversion V as [ps a x i p Hps Hx Hst Ho E1 E2|ps a x eq ts0 j i p Hps Hx Te Hj Hst Ho E1 E2]; subst; (eapply annotations_points; [exact Ba|exact Hps|]; intros y Hy; apply I, in_or_app; now left).
    - inversion V as [ps a x i p Hps Hx Hst Ho E1 E2|ps a x eq ts0 j i p Hps Hx Te Hj Hst Ho E1 E2]; subst; [discriminate|]. injection Ed as <-.
      eapply json_points; [exact Bj|exact Hj|]. intros y Hy. apply I, in_or_app. right. do 2 right. exact Hy.
    - inversion V as [ps a x i p Hps Hx Hst Ho E1 E2|ps a x eq ts0 j0 i p Hps Hx Te Hj0 Hst Ho E1 E2]; subst; [discriminate|]. injection Ed as <-. cbn [v_place v_ident].
      destruct Ho as (y & yr & Ey & ->). destruct (json_start _ _ _ Hj0) as (y' & yr' & Ey' & W). assert (y' = y) as -> by congruence.
      assert (Hy : In y all) by (apply I, in_or_app; right; do 2 right; rewrite Ey; now left). apply points_at; [exact Hy|].
      assert (lx_text y = json_word j0) as -> by (destruct W as [W|(k & Tk & Hk)]; [exact W|exact (spelled_out _ _ _ Hy Tk Hk)]). econstructor; eassumption.
  Qed.
  Lemma variable_named ts v : variable_rule file ts v -> exists x, In x ts /\ v_ident v = located_at file x.
  Proof.
    intro V. inversion V as [ps a x i p Hps Hx Hst Ho E1 E2|ps a x eq ts0 j i p Hps Hx Te Hj Hst Ho E1 E2]; subst; exists x; (split; [apply in_or_app; right; now left|reflexivity]).
  Qed.
  Lemma twice_in x p l : twice x p l -> In (x, p) l.
  Proof. intros (a & p0 & b & c & ->). apply in_or_app. right. right. apply in_or_app. right. now left. Qed.
  Lemma name_points x n : In x all -> simple_name (located_at file x) n -> In n type_words -> points (w_place (located_at file x)) (IllegalName n).
  Proof. intros Hx S T. apply points_at; [exact Hx|]. now constructor. Qed.
  Lemma named_points ts d ns e at_ : named_rule strict file ts d -> incl ts all -> bad_named ns d e at_ -> points at_ e.
  Proof.
    intros N I B. inversion N as [ps a f x l n r s i Hps Hf Hx Hl Hn' Hr Hs Hst E1 E2|ps a en x b ts0 l r d0 df i Hps He Hx Hb Hl Hr Hd Hst E1 E2|ps a k x b ts0 l r er i Hps Hk Hx Hb Hf Hrb Hs E1 E2]; subst;
      (assert (I0 : incl ps all) by (intros y Hy; apply I, in_or_app; now left)).
    - inversion B as [d' e' at' Ba|d' n0 Sn Tn| | | | |x' Sz]; subst; [exact (annotations_points _ _ _ _ _ Ba Hps I0)| |].
      + apply name_points; [apply I, in_or_app; right; right; now left|exact Sn|exact Tn].
      + assert (Hz : In n all) by (apply I, in_or_app; right; do 3 right; now left). apply points_at; [exact Hz|]. destruct (number_verdict _ Hz Hn') as (r0 & V & R). destruct r0 as [v|why]; [|exact (bl_size _ why V)]. pose proof (proj2 (R v) eq_refl) as Sv. cbn in Sz. congruence.
    - inversion B as [d' e' at' Ba|d' n0 Sn Tn| | |en' y at' Tw|en' y Ed Nd|]; subst; [exact (annotations_points _ _ _ _ _ Ba Hps I0)| | |].
      + apply name_points; [apply I, in_or_app; right; right; now left|exact Sn|exact Tn].
      + apply twice_in in Tw. apply in_map_iff in Tw as (w & Ew & Hw). cbn [e_symbols] in Hw. injection Ew as <- <-. destruct (listed_in _ _ _ _ Hl Hw) as (sub & Hsub & Hi). inversion Hsub as [ps1 a1 x1 p1 Hps1 Hx1 Ho1 E1 E2]; subst.
        assert (I1 : incl (ps1 ++ [x1]) all) by (intros y Hy; apply I, in_or_app; right; do 3 right; apply in_or_app; left; auto).
        destruct Ho1 as (y & r1 & Ey & Ep). cbn [w_place]. subst p1. apply points_at; [apply I1; rewrite Ey; now left|]. cbn [w_text]. destruct a1 as [|a1 l1].
        * rewrite (unannotated _ Hps1) in Ey. injection Ey as -> _. apply bl_symbol.
        * destruct (annotated_word _ _ Hps1) as (z & r2 & -> & W); [intros z Hz; apply I1, in_or_app; now left|discriminate|]. injection Ey as -> _. rewrite W. apply bl_symbol_annotated.
      + cbn [e_default] in Ed. subst df. inversion Hd as [|eq z s Te Hz Ts E1 E2]; subst. apply points_at; [apply I, in_or_app; right; do 3 right; apply in_or_app; right; do 2 right; now left|]. apply bl_enum_default.
    - assert (Part : forall f, In f l -> exists sub, field_rule strict file sub f /\ incl sub all).
      { intros f0 Hf0. destruct (repeated_in _ _ _ _ Hf Hf0) as (sub & Hsub & Hi). exists sub. split; [exact Hsub|]. intros y Hy. apply I, in_or_app. right. do 3 right. apply in_or_app. left. auto. }
      inversion B as [d' e' at' Ba|d' n0 Sn Tn|r' n0 q f0 e' at' Dc Hf0 Bf|r' y at' Tw| | |]; subst; [exact (annotations_points _ _ _ _ _ Ba Hps I0)| | |].
      + apply name_points; [apply I, in_or_app; right; right; now left|exact Sn|exact Tn].
      + cbn [r_fields] in Hf0. destruct (Part f0 Hf0) as (sub & Hsub & Hi). inversion Hsub as [tsf t vs vl sc i2 Ht Hvs Hsc Hst2 E1 E2]; subst. destruct Bf as [e at_ Bt|v e at_ Hv Bv].
        * eapply (proj1 types_point); [exact Ht| |exact Bt]. intros y Hy. apply Hi, in_or_app. now left.
        * destruct (separated_in _ _ _ _ Hvs Hv) as (vt & Hvt & Hvi). eapply variable_points; [exact Hvt| |exact Bv]. intros y Hy. apply Hi, in_or_app. right. apply in_or_app. left. auto.
      + apply twice_in in Tw. apply in_map_iff in Tw as ([f0 v] & Ew & Hw). cbn [snd] in Ew. injection Ew as <- <-. unfold variables_of in Hw. apply in_flat_map in Hw as (f1 & Hf1 & Hw). cbn [r_fields] in Hf1.
        apply in_map_iff in Hw as (v1 & Ev & Hv). injection Ev as <- ->. destruct (Part f1 Hf1) as (sub & Hsub & Hi). inversion Hsub as [tsf t vs vl sc i2 Ht Hvs Hsc Hst2 E1 E2]; subst.
        destruct (separated_in _ _ _ _ Hvs Hv) as (vt & Hvt & Hvi). destruct (variable_named _ _ Hvt) as (z & Hz & Ez). rewrite Ez. apply points_at; [apply Hi, in_or_app; right; apply in_or_app; left; auto|]. apply bl_field.
  Qed.
  Lemma message_points ts m ns e at_ : message_rule strict file ts m -> incl ts all -> bad_message ns m e at_ -> points at_ e.
  Proof.
    intros M I B. inversion M as [ps a tsr t x l params ps' r0 en ow errs s i pl Hps Hres Hx Hl Hpar Hrp Hend Hsc Hst Hop E1 E2]; subst.
    assert (I1 : incl ps all) by (intros y Hy; apply I, in_or_app; now left). assert (I2 : incl tsr all) by (intros y Hy; apply I, in_or_app; right; apply in_or_app; now left).
    assert (Part : forall pa, In pa ps' -> exists sub, parameter_rule strict file sub pa /\ incl sub all).
    { intros pa Hpa. destruct (listed_in _ _ _ _ Hpar Hpa) as (sub & Hsub & Hi). exists sub. split; [exact Hsub|]. intros y Hy. apply I. do 2 (apply in_or_app; right). do 2 right. apply in_or_app. left. auto. }
    destruct Hop as (y & r & Ey & ->). assert (Hy : In y all).
    { assert (Hi : In y (ps ++ tsr)) by (rewrite Ey; now left). apply in_app_or in Hi as [Hi|Hi]; auto. }
    assert (Word : a <> [] -> lx_text y = "@").
    { intro N. destruct (annotated_word _ _ Hps I1 N) as (z & r' & -> & W). injection Ey as -> _. exact W. }
    inversion B as [e' at' Ba|p e' at' Ep Bp|p Ep Hr Hn|pa e' at' Hpa Bt|pa e' at' Hpa Bv|z at' Tw|p Ho Ep Hn]; subst; cbn [md_annotations md_result md_parameters md_place md_oneway md_name] in *.
    - exact (annotations_points _ _ _ _ _ Ba Hps I1).
    - subst t. inversion Hres as [|ts0 t0 Ht Hv E1 E2]; subst. exact (proj2 types_point _ _ _ _ _ Ht I2 Bp).
    - apply points_at; [exact Hy|]. rewrite (Word Hn). constructor.
    - destruct (Part pa Hpa) as (sub & Hsub & Hi). inversion Hsub as [ts0 t0 vs v i0 Ht Hv Hst0 E1 E2]; subst. eapply (proj1 types_point); [exact Ht| |exact Bt]. intros z Hz. apply Hi, in_or_app. now left.
    - destruct (Part pa Hpa) as (sub & Hsub & Hi). inversion Hsub as [ts0 t0 vs v i0 Ht Hv Hst0 E1 E2]; subst. eapply variable_points; [exact Hv| |exact Bv]. intros z Hz. apply Hi, in_or_app. now right.
    - apply twice_in in Tw. apply in_map_iff in Tw as (pa & Ew & Hpa). injection Ew as <- <-. destruct (Part pa Hpa) as (sub & Hsub & Hi). inversion Hsub as [ts0 t0 vs v i0 Ht Hv Hst0 E1 E2]; subst. cbn [pa_type pa_variable].
      destruct (type_word_at _ _ Ht) as (z & r' & -> & -> & W); [intros z Hz; apply Hi, in_or_app; now left|]. apply points_at; [apply Hi; now left|]. rewrite W. constructor.
    - subst t. inversion Hres as [|ts0 t0 Ht Hv E1 E2]; subst. apply points_at; [exact Hy|]. destruct a as [|a0 a].
      + rewrite (unannotated _ Hps) in Ey. cbn [app] in Ey. destruct (plain_word_at _ _ Ht I2) as (z & r' & -> & W). injection Ey as -> _. rewrite W. now apply bl_oneway.
      + rewrite Word by discriminate. apply bl_oneway_annotated.
  Qed.
  Lemma file_points t e at_ : file_rule strict file all t -> defect t e at_ -> points at_ e.
  Proof.
    intros F B. destruct B as [start l x its e at_ Ba|start l x its n Sn Tn|t ns d p e at_ Hns Hi Bn|t ns m e at_ Hns Hi Bm|nsd ft its ns e at_ Hns Bt].
    - inversion F as [ps a p0 x0 b ts0 l0 r rest i Hps Hp Hx Hb Hr Hrb He Hst E1 E2|]; subst. eapply annotations_points; [exact Ba|exact Hps|]. rewrite <- E1. intros y Hy. apply in_or_app. now left.
    - inversion F as [ps a p0 x0 b ts0 l0 r rest i Hps Hp Hx Hb Hr Hrb He Hst E1 E2|]; subst. apply name_points; [rewrite <- E1; apply in_or_app; right; right; now left|exact Sn|exact Tn].
    - destruct (tree_item _ _ _ _ _ F Hi) as (m & sub & Hs & Hin). inversion Hs as [|ts0 d0 q Hn Ho E1 E2|]; subst. eapply named_points; eauto.
    - destruct (tree_item _ _ _ _ _ F Hi) as (m0 & sub & Hs & Hin). inversion Hs as [| |ts0 md Em Hm E1 E2]; subst. eapply message_points; eauto.
    - inversion F as [|ns_ts ns' main_ts main ts0 l rest Hns' Hm Hrep He E1 E2]; subst. inversion Hm as [|k ts1 t1 s Hk Hf Hs E3 E4]; subst. eapply (proj1 types_point); [exact Hf| |exact Bt].
      rewrite <- E1. intros y Hy. apply in_or_app. right. apply in_or_app. left. right. apply in_or_app. now left.
  Qed.

  (** The place of a warning is that of an annotation. *)
  Definition marked (at_ : span) : Prop := exists x, In x all /\ at_ = mkSpan file (lx_offset x) /\ lx_text x = "@".
  Lemma annotation_marked p l w ts : odd_annotation p l w -> repeated (property file) ts l -> incl ts all -> marked (warning_place w).
  Proof.
    intros B R I. destruct B as [a al s Ha _ _ _ _ _]. destruct (repeated_in _ _ _ _ R Ha) as (sub & Hs & Hi). inversion Hs as [x y l0 ts0 v r Tx Hy Tl Hv Tr E1 E2]; subst. cbn.
    exists x. assert (Hx : In x all) by (apply I, Hi; now left). split; [exact Hx|]. split; [reflexivity|]. apply (spelled_out x T_At); [exact Hx|exact Tx|cbn; tauto].
  Qed.
  Lemma types_marked :
    (forall t ts w, full strict file ts t -> incl ts all -> odd_type t w -> marked (warning_place w)) /\ (forall p ts w, plain strict file ts p -> incl ts all -> odd_plain p w -> marked (warning_place w)).
  Proof.
    apply types_ind.
    - intros pl a p IH ts w F I B. pose proof F as F0. inversion F as [ps a0 ts0 t0 sp Hps Hp Ho E1 E2]; subst.
      inversion B as [sp l us ks Hl N K E3 E4|sp l q w' Bp]; subst; [|eapply IH; [exact Hp| |exact Bp]; intros y Hy; apply I, in_or_app; now right].
      destruct (type_word_at _ _ F0 I) as (x & r & E & Ep & W). cbn in Ep |- *. exists x. split; [apply I; rewrite E; now left|]. split; [exact Ep|]. rewrite W. destruct a; [congruence|reflexivity].
    - intros t IH ts w P I B. inversion P as [a l ts0 t0 g Ta Tl Hf Tg E1 E2| | | |]; subst. inversion B; subst. eapply IH; [exact Hf| |eassumption]. intros y Hy. apply I. do 2 right. apply in_or_app. now left.
    - intros t IH ts w P I B. inversion P as [|a l ts0 t0 g Ta Tl Hf Tg E1 E2| | |]; subst. inversion B; subst. eapply IH; [exact Hf| |eassumption]. intros y Hy. apply I. do 2 right. apply in_or_app. now left.
    - intros l IH ts w P I B. inversion P as [| |u b ts0 l0 r Tu Tb Hs Tr E1 E2| |]; subst. rewrite Forall_forall in IH. inversion B as [| |us t w' Ht Bt]; subst.
      destruct (separated_in _ _ _ _ Hs Ht) as (sub & Hf & Hi). eapply IH; [exact Ht|exact Hf| |exact Bt]. intros y Hy. apply I. do 2 right. apply in_or_app. left. auto.
    - intros b o ts w P I B. inversion B.
  Qed.
  Lemma variable_marked ts v w : variable_rule file ts v -> incl ts all -> odd_annotation OnField (v_annotations v) w -> marked (warning_place w).
  Proof.
    intros V I B. inversion V as [ps a x i p Hps Hx Hst Ho E1 E2|ps a x eq ts0 j i p Hps Hx Te Hj Hst Ho E1 E2]; subst; (eapply annotation_marked; [exact B|exact Hps|]; intros y Hy; apply I, in_or_app; now left).
  Qed.
  Lemma named_marked ts d w : named_rule strict file ts d -> incl ts all -> odd_named d w -> marked (warning_place w).
  Proof.
    intros N I B. destruct B as [d w B|r f w Hf B|r f v w Hf Hv B].
    - inversion N as [ps a f x l n r s i Hps Hf Hx Hl Hn' Hr Hs Hst E1 E2|ps a en x b ts0 l r d0 df i Hps He Hx Hb Hl Hr Hd Hst E1 E2|ps a k x b ts0 l r er i Hps Hk Hx Hb Hf Hrb Hs E1 E2]; subst;
        (eapply annotation_marked; [exact B|exact Hps|]; intros y Hy; apply I, in_or_app; now left).
    - inversion N as [| |ps a k x b ts0 l r0 er i Hps Hk Hx Hb Hfs Hrb Hs E1 E2]; subst. destruct (repeated_in _ _ _ _ Hfs Hf) as (sub & Hsub & Hi). inversion Hsub as [tsf t vs vl sc i2 Ht Hvs Hsc Hst2 E1 E2]; subst.
      eapply (proj1 types_marked); [exact Ht| |exact B]. intros y Hy. apply I, in_or_app. right. do 3 right. apply in_or_app. left. apply Hi, in_or_app. now left.
    - inversion N as [| |ps a k x b ts0 l r0 er i Hps Hk Hx Hb Hfs Hrb Hs E1 E2]; subst. destruct (repeated_in _ _ _ _ Hfs Hf) as (sub & Hsub & Hi). inversion Hsub as [tsf t vs vl sc i2 Ht Hvs Hsc Hst2 E1 E2]; subst.
      destruct (separated_in _ _ _ _ Hvs Hv) as (vt & Hvt & Hvi). eapply variable_marked; [exact Hvt| |exact B]. intros y Hy. apply I, in_or_app. right. do 3 right. apply in_or_app. left. apply Hi, in_or_app. right. apply in_or_app. left. auto.
  Qed.
  Lemma message_marked ts m w : message_rule strict file ts m -> incl ts all -> odd_message m w -> marked (warning_place w).
  Proof.
    intros M I B. inversion M as [ps a tsr t x l params ps' r0 en ow errs s i pl Hps Hres Hx Hl Hpar Hrp Hend Hsc Hst Hop E1 E2]; subst.
    assert (Part : forall pa, In pa ps' -> exists sub, parameter_rule strict file sub pa /\ incl sub all).
    { intros pa Hpa. destruct (listed_in _ _ _ _ Hpar Hpa) as (sub & Hsub & Hi). exists sub. split; [exact Hsub|]. intros y Hy. apply I. do 2 (apply in_or_app; right). do 2 right. apply in_or_app. left. auto. }
    destruct B as [p w Ep B|pa w Hpa B|pa w Hpa B]; cbn [md_result md_parameters] in *.
    - subst t. inversion Hres as [|ts0 t0 Ht Hv E1 E2]; subst. eapply (proj2 types_marked); [exact Ht| |exact B]. intros y Hy. apply I, in_or_app. right. apply in_or_app. now left.
    - destruct (Part pa Hpa) as (sub & Hsub & Hi). inversion Hsub as [ts0 t0 vs v i0 Ht Hv Hst0 E1 E2]; subst. eapply (proj1 types_marked); [exact Ht| |exact B]. intros z Hz. apply Hi, in_or_app. now left.
    - destruct (Part pa Hpa) as (sub & Hsub & Hi). inversion Hsub as [ts0 t0 vs v i0 Ht Hv Hst0 E1 E2]; subst. eapply variable_marked; [exact Hv| |exact B]. intros z Hz. apply Hi, in_or_app. now right.
  Qed.
  Lemma file_marked t w : file_rule strict file all t -> odd t w -> marked (warning_place w).
  Proof.
    intros F B. destruct B as [t d p w Hi B|t m w Hi B|nsd ft its w B].
    - destruct (tree_item _ _ _ _ _ F Hi) as (m & sub & Hs & Hin). inversion Hs as [|ts0 d0 q Hn Ho E1 E2|]; subst. eapply named_marked; eauto.
    - destruct (tree_item _ _ _ _ _ F Hi) as (m0 & sub & Hs & Hin). inversion Hs as [| |ts0 md Em Hm E1 E2]; subst. eapply message_marked; eauto.
    - inversion F as [|ns_ts ns' main_ts main ts0 l rest Hns' Hm Hrep He E1 E2]; subst. inversion Hm as [|k ts1 t1 s Hk Hf Hs E3 E4]; subst. eapply (proj1 types_marked); [exact Hf| |exact B].
      rewrite <- E1. intros y Hy. apply in_or_app. right. apply in_or_app. left. right. apply in_or_app. now left.
  Qed.
End Words.
