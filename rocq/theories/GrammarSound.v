(** What the parser returns follows the grammar. *)
From Verif Require Import SpecGrammar IdlParser.
From Coq Require Import Lia.

Lemma same_type_eq a b : same_type a b = true <-> a = b.
Proof. unfold same_type. destruct (token_type_dec a b); split; congruence. Qed.
Lemma same_type_refl a : same_type a a = true.
Proof. apply same_type_eq. reflexivity. Qed.
Lemma same_type_neq a b : same_type a b = false <-> a <> b.
Proof. unfold same_type. destruct (token_type_dec a b); split; congruence. Qed.

Lemma p_token_some k ts x r : p_token k ts = Some (x, r) -> ts = x :: r /\ of_type k x.
Proof. destruct ts as [|y ts]; [discriminate|]. cbn. destruct (same_type (lx_type y) k) eqn:E; [|discriminate]. intro H. injection H as -> ->. split; [reflexivity|apply same_type_eq, E]. Qed.
Lemma identifier_name_type k : identifier_type k = true <-> (k = T_IdentifierToken \/ In k words).
Proof.
  split.
  - destruct k; intro H; try discriminate H; [..|left; reflexivity]; right; cbn; tauto.
  - intros [->|H]; [reflexivity|]. cbn in H. repeat (destruct H as [<-|H]; [reflexivity|]). destruct H.
Qed.
Lemma p_identifier_some ts x r : p_identifier ts = Some (x, r) -> ts = x :: r /\ a_name x.
Proof.
  destruct ts as [|y ts]; [discriminate|]. cbn. destruct (identifier_type (lx_type y)) eqn:E; [|discriminate].
  intro H. injection H as -> ->. split; [reflexivity|apply identifier_name_type, E].
Qed.

Definition sound {A} (p : lexemes -> option (A * lexemes)) (P : list lexeme -> A -> Prop) : Prop :=
  forall ts a r, p ts = Some (a, r) -> exists pre, ts = pre ++ r /\ P pre a.

Tactic Notation "take" ident(x) ident(r) := match goal with
  | H : (match p_token ?k ?ts with _ => _ end) = Some _ |- _ =>
      let E := fresh "E" in let K := fresh "K" in destruct (p_token k ts) as [[x r]|] eqn:E; [|discriminate H];
      apply p_token_some in E as [-> K]
  | H : (match p_identifier ?ts with _ => _ end) = Some _ |- _ =>
      let E := fresh "E" in let K := fresh "K" in destruct (p_identifier ts) as [[x r]|] eqn:E; [|discriminate H];
      apply p_identifier_some in E as [-> K]
  end.
Tactic Notation "take" := let x := fresh "x" in let r := fresh "r" in take x r.

Lemma p_list_sound {A} (p : lexemes -> option (A * lexemes)) P n : sound p P -> sound (p_list p n) (separated P).
Proof.
  intro Hp. induction n as [|n IH]; intros ts l r E; [discriminate|]. cbn [p_list] in E.
  destruct (p ts) as [[a r1]|] eqn:Ea; [|discriminate]. destruct (Hp _ _ _ Ea) as (pre & -> & Ha).
  destruct (ahead [T_Comma] r1) eqn:Ec.
  - take c r2. destruct (p_list p n r2) as [[l2 r3]|] eqn:E2; [|discriminate]. injection E as <- <-.
    destruct (IH _ _ _ E2) as (pre2 & -> & H2). exists (pre ++ c :: pre2). rewrite <- app_assoc. split; [reflexivity|]. constructor; assumption.
  - injection E as <- <-. exists pre. split; [reflexivity|constructor; assumption].
Qed.
Lemma p_loop_sound {A} more (p : lexemes -> option (A * lexemes)) P n : sound p P -> sound (p_loop more p n) (repeated P).
Proof.
  intro Hp. induction n as [|n IH]; intros ts l r E; [discriminate|]. cbn [p_loop] in E. destruct (more ts).
  - destruct (p ts) as [[a r1]|] eqn:Ea; [|discriminate]. destruct (Hp _ _ _ Ea) as (pre & -> & Ha).
    destruct (p_loop more p n r1) as [[l2 r2]|] eqn:E2; [|discriminate]. injection E as <- <-.
    destruct (IH _ _ _ E2) as (pre2 & -> & H2). exists (pre ++ pre2). rewrite <- app_assoc. split; [reflexivity|constructor; assumption].
  - injection E as <- <-. exists []. split; [reflexivity|constructor].
Qed.
Lemma p_loop_stops {A} more (p : lexemes -> option (A * lexemes)) n ts l r : p_loop more p n ts = Some (l, r) -> more r = false.
Proof.
  revert ts l. induction n as [|n IH]; intros ts l; [discriminate|]. cbn. destruct (more ts) eqn:E.
  - destruct (p ts) as [[a r1]|]; [|discriminate]. destruct (p_loop more p n r1) as [[l2 r2]|] eqn:E2; [|discriminate]. intro H. injection H as <- <-. exact (IH _ _ E2).
  - intro H. injection H as <- <-. exact E.
Qed.

Tactic Notation "take_list" constr(lem) := match goal with
  | H : (match ?e with Some _ => _ | None => None end) = Some _ |- _ =>
      let E := fresh "E" in let pre := fresh "pre" in let K := fresh "K" in let r := fresh "r" in
      destruct e as [[? r]|] eqn:E; [|discriminate H]; apply lem in E as (pre & -> & K)
  end.

Section WithSource.
  Context (file : string).
  Notation json_value := (json_value file). Notation property := (property file).

  Lemma p_json_pair_sound p : sound p json_value -> sound (p_json_pair p) (json_pair json_value).
  Proof.
    intros Hp ts a r E. unfold p_json_pair in E. take k r1. take c r2. destruct (p r2) as [[v r3]|] eqn:Ev; [|discriminate].
    injection E as <- <-. destruct (Hp _ _ _ Ev) as (pre & -> & Hv). exists (k :: c :: pre). split; [reflexivity|constructor; assumption].
  Qed.

  Lemma p_json_sound n : sound (p_json file n) json_value.
  Proof.
    induction n as [|n IH]; intros ts a r E; [discriminate|]. cbn [p_json] in E.
    destruct (ahead [T_LBrace] ts).
    - take x r1. destruct (ahead [T_RBrace] r1).
      + take y r2. injection E as <- <-. exists [x; y]. split; [reflexivity|]. exact (jv_object file x [] [] y K (listed_none _) K0).
      + take_list (p_list_sound _ _ n (p_json_pair_sound _ IH)). take y r2. injection E as <- <-.
        exists (x :: pre ++ [y]). cbn. rewrite <- app_assoc. split; [reflexivity|]. apply jv_object; [exact K|constructor; exact K0|exact K1].
    - destruct (ahead [T_LBracket] ts).
      + take x r1. destruct (ahead [T_RBracket] r1).
        * take y r2. injection E as <- <-. exists [x; y]. split; [reflexivity|]. exact (jv_array file x [] [] y K (listed_none _) K0).
        * take_list (p_list_sound _ _ n IH). take y r2. injection E as <- <-.
          exists (x :: pre ++ [y]). cbn. rewrite <- app_assoc. split; [reflexivity|]. apply jv_array; [exact K|constructor; exact K0|exact K1].
      + unfold p_json_literal in E. destruct ts as [|x ts]; [discriminate|]. exists [x].
        destruct (lx_type x) eqn:Ex; try discriminate E; injection E as <- <-; (split; [reflexivity|constructor; exact Ex]).
  Qed.

  Lemma p_property_sound n : sound (p_property file n) property.
  Proof.
    intros ts a r E. unfold p_property in E. take. take. take. take_list (p_json_sound n). take. injection E as <- <-.
    eexists (_ :: _ :: _ :: pre ++ [_]). cbn. rewrite <- app_assoc. split; [reflexivity|]. constructor; assumption.
  Qed.
  Lemma p_properties_sound n : sound (p_properties file n) (repeated property).
  Proof. apply p_loop_sound, p_property_sound. Qed.

  (** What a parser of nonempty pieces consumes starts where it starts *)
  Lemma starts_first pre r : pre <> [] -> starts_at pre (first_index (pre ++ r)).
  Proof. destruct pre as [|x pre]; [congruence|]. intros _. exists x, pre. split; reflexivity. Qed.
  Lemma starts_more ps x (r : list lexeme) : starts_at (ps ++ [x]) (first_index (ps ++ x :: r)).
  Proof. replace (ps ++ x :: r) with ((ps ++ [x]) ++ r) by (rewrite <- app_assoc; reflexivity). apply starts_first. destruct ps; discriminate. Qed.

  Notation base := (base true file). Notation plain := (plain true file). Notation full := (full true file).

  Lemma plain_keyword_spec k w : plain_keyword k = Some w <-> In (k, w) primitive_words.
  Proof.
    split.
    - destruct k; intro H; try discriminate H; injection H as <-; cbn; tauto.
    - cbn. intro H. repeat (destruct H as [H|H]; [injection H as <- <-; reflexivity|]). destruct H.
  Qed.
  Lemma plain_keyword_none k : plain_keyword k = None <-> ~ In k (map fst primitive_words).
  Proof.
    split.
    - intros H Hi. apply in_map_iff in Hi as ([k' w] & <- & Hi). apply plain_keyword_spec in Hi. cbn in *. congruence.
    - intro H. destruct (plain_keyword k) as [w|] eqn:E; [|reflexivity]. exfalso. apply H. apply plain_keyword_spec in E. exact (in_map fst _ _ E).
  Qed.

  Lemma p_base_sound : sound (p_base file) base.
  Proof.
    intros ts a r E. unfold p_base in E. destruct ts as [|x ts]; [discriminate|]. destruct (plain_keyword (lx_type x)) as [k|] eqn:Ek.
    - injection E as <- <-. exists [x]. split; [reflexivity|]. constructor. apply plain_keyword_spec, Ek.
    - destruct (ahead [T_Decimal; T_LParen] (x :: ts)).
      + destruct (p_decimal file (x :: ts)) as [[k r']|] eqn:Ed; [|discriminate]. injection E as <- <-.
        unfold p_decimal in Ed. take d r1. take l r2. take p r3. destruct (ahead [T_Comma] r3).
        * take. take. take. injection Ed as <- <-. eexists [_; _; _; _; _; _]. split; [cbn; eassumption || reflexivity|]. constructor; assumption.
        * take. injection Ed as <- <-. eexists [_; _; _; _]. split; [cbn; eassumption || reflexivity|]. constructor; assumption.
      + destruct (p_identifier (x :: ts)) as [[y r']|] eqn:Ei; [|discriminate]. injection E as <- <-.
        apply p_identifier_some in Ei as [X Hy]. injection X as -> ->. exists [y]. split; [reflexivity|]. constructor; [exact Hy|]. intros _. apply plain_keyword_none, Ek.
  Qed.
  Lemma p_nullable_sound : sound (p_nullable file) plain.
  Proof.
    intros ts a r E. unfold p_nullable in E. take_list p_base_sound. destruct (ahead [T_QuestionMark] r0).
    - take q r1. injection E as <- <-. exists (pre ++ [q]). rewrite <- app_assoc. split; [reflexivity|]. constructor; assumption.
    - injection E as <- <-. exists pre. split; [reflexivity|]. constructor; assumption.
  Qed.
  Lemma p_plain_with_sound p n : sound p full -> sound (p_plain_with file p n) plain.
  Proof.
    intros Hp ts a r E. unfold p_plain_with in E. destruct (ahead [T_Array; T_LT] ts); [|destruct (ahead [T_Map; T_LT] ts); [|destruct (ahead [T_Union; T_LBrace] ts)]].
    - take. take. take_list Hp. take. injection E as <- <-. eexists (_ :: _ :: pre ++ [_]). cbn. rewrite <- app_assoc. split; [reflexivity|]. constructor; assumption.
    - take. take. take_list Hp. take. injection E as <- <-. eexists (_ :: _ :: pre ++ [_]). cbn. rewrite <- app_assoc. split; [reflexivity|]. constructor; assumption.
    - take. take. take_list (p_list_sound p _ n Hp). take. injection E as <- <-. eexists (_ :: _ :: pre ++ [_]). cbn. rewrite <- app_assoc. split; [reflexivity|]. constructor; assumption.
    - exact (p_nullable_sound _ _ _ E).
  Qed.
  Lemma opens_first ts rest : ts <> [] -> opens file ts (first_place file (ts ++ rest)).
  Proof. destruct ts as [|x ts]; [congruence|]. intros _. exists x, ts. auto. Qed.
  Lemma opens_more ps x rest : opens file (ps ++ [x]) (first_place file (ps ++ x :: rest)).
  Proof. destruct ps as [|y ps]; eexists _, _; split; reflexivity. Qed.
  Lemma plain_nonempty s ts t : SpecGrammar.plain s file ts t -> ts <> [].
  Proof.
    assert (B : forall ts b, SpecGrammar.base s file ts b -> ts <> []) by (intros ? ? []; discriminate).
    intros [| | |? ? Hb|? ? ? Hb]; try discriminate; [exact (B _ _ Hb)|]. destruct ts0; discriminate.
  Qed.
  Lemma full_nonempty s ts t : SpecGrammar.full s file ts t -> ts <> [].
  Proof. intros [ps a ts' t' p' _ Hp _]. apply plain_nonempty in Hp. destruct ps; [exact Hp|discriminate]. Qed.
  Lemma p_full_sound n : sound (p_full file n) full.
  Proof.
    induction n as [|n IH]; intros ts a r E; [discriminate|]. cbn [p_full] in E. take_list (p_properties_sound n).
    take_list (p_plain_with_sound _ n IH). injection E as <- <-. exists (pre ++ pre0). rewrite <- app_assoc. split; [reflexivity|]. constructor; try assumption.
    rewrite app_assoc. apply opens_first. apply plain_nonempty in K0. destruct pre; [exact K0|discriminate].
  Qed.
  Lemma p_plain_sound n : sound (p_plain file n) plain.
  Proof. apply p_plain_with_sound, p_full_sound. Qed.

  Lemma json_nonempty ts v : json_value ts v -> ts <> [].
  Proof. intros []; discriminate. Qed.
  Lemma p_variable_sound n : sound (p_variable file n) (variable_rule file).
  Proof.
    intros ts a r E. unfold p_variable in E. take_list (p_properties_sound n). take x r1. destruct (ahead [T_Equals] r1).
    - take. take_list (p_json_sound n). injection E as <- <-. eexists (pre ++ _ :: _ :: pre0). rewrite <- app_assoc. split; [reflexivity|].
      apply variable_default; try assumption; [apply starts_more|]. apply opens_first. eapply json_nonempty; eassumption.
    - injection E as <- <-. eexists (pre ++ [_]). rewrite <- app_assoc. split; [reflexivity|]. apply variable_plain; try assumption; [apply starts_more|apply opens_more].
  Qed.

  Lemma p_field_sound n : sound (p_field file n) (field_rule true file).
  Proof.
    intros ts a r E. unfold p_field in E. take_list (p_full_sound n). take_list (p_list_sound _ _ n (p_variable_sound n)). take. injection E as <- <-.
    eexists (pre ++ pre0 ++ [_]). rewrite <- !app_assoc. split; [reflexivity|]. constructor; try assumption. apply starts_first. eapply full_nonempty; eassumption.
  Qed.
  Lemma p_symbol_sound n : sound (p_symbol file n) (symbol_rule file).
  Proof.
    intros ts a r E. unfold p_symbol in E. take_list (p_properties_sound n). take. injection E as <- <-.
    eexists (pre ++ [_]). rewrite <- app_assoc. split; [reflexivity|]. econstructor; try eassumption. apply opens_more.
  Qed.
  Lemma p_enum_default_sound : sound (p_enum_default file) (enum_default_rule file).
  Proof.
    intros ts a r E. unfold p_enum_default in E. destruct (ahead [T_Equals] ts).
    - take. take. take. injection E as <- <-. eexists [_; _; _]. split; [reflexivity|]. constructor; assumption.
    - injection E as <- <-. exists []. split; [reflexivity|constructor].
  Qed.

  (** The rest of a declaration, with its annotations [ps] before it *)
  Definition sound_after {A} (p : lexemes -> option (A * lexemes)) (P : list lexeme -> A -> Prop) (ps : list lexeme) : Prop :=
    forall ts a r, p ts = Some (a, r) -> exists pre, ts = pre ++ r /\ P (ps ++ pre) a.

  Lemma p_fixed_sound ps a ts d r : repeated property ps a -> p_fixed file (first_index (ps ++ ts)) a ts = Some (d, r) ->
    exists pre, ts = pre ++ r /\ named_rule true file (ps ++ pre) d.
  Proof.
    intros Hp E. unfold p_fixed in E. take. take. take. take. take. take. injection E as <- <-.
    eexists [_; _; _; _; _; _]. split; [reflexivity|]. apply named_fixed; try assumption. apply starts_more.
  Qed.
  Lemma p_enum_sound n ps a ts d r : repeated property ps a -> p_enum file n (first_index (ps ++ ts)) a ts = Some (d, r) ->
    exists pre, ts = pre ++ r /\ named_rule true file (ps ++ pre) d.
  Proof.
    intros Hp E. unfold p_enum in E. take. take. take.
    assert (S : sound (fun r => if ahead [T_RBrace] r then Some ([], r) else p_list (p_symbol file n) n r) (listed (symbol_rule file))).
    { intros ts' l' r' E'. destruct (ahead [T_RBrace] ts'); [injection E' as <- <-; exists []; split; [reflexivity|constructor]|].
      apply (p_list_sound _ _ n (p_symbol_sound n)) in E' as (pre & -> & H'). exists pre. split; [reflexivity|constructor; exact H']. }
    match type of E with (match ?e with _ => _ end) = _ => destruct e as [[l' r']|] eqn:El; [|discriminate E] end.
    apply S in El as (pre & -> & Hl). take. take_list p_enum_default_sound. injection E as <- <-.
    eexists (_ :: _ :: _ :: pre ++ _ :: pre0). split; [cbn; rewrite <- app_assoc; reflexivity|]. apply named_enum; try assumption. apply starts_more.
  Qed.
  Lemma p_record_sound n ps a ts d r : repeated property ps a -> p_record file n (first_index (ps ++ ts)) a ts = Some (d, r) ->
    exists pre, ts = pre ++ r /\ named_rule true file (ps ++ pre) d.
  Proof.
    intros Hp E. unfold p_record in E. destruct ts as [|k ts]; [discriminate|].
    destruct (same_type (lx_type k) T_Record || same_type (lx_type k) T_Error) eqn:Ek; [|discriminate].
    take. take. take_list (p_loop_sound (fun r => negb (ahead [T_RBrace] r)) _ _ n (p_field_sound n)). take. injection E as <- <-.
    eexists (k :: _ :: _ :: pre ++ [_]). split; [cbn; rewrite <- app_assoc; reflexivity|]. apply named_record; try assumption; [|apply starts_more].
    destruct (same_type (lx_type k) T_Error) eqn:E2; [apply same_type_eq, E2|]. rewrite orb_false_r in Ek. apply same_type_eq, Ek.
  Qed.

  Lemma p_result_sound n : sound (p_result file n) (result_rule true file).
  Proof.
    intros ts a r E. unfold p_result in E. destruct (ahead [T_Void] ts && negb (ahead [T_Void; T_QuestionMark] ts)) eqn:Ev.
    - take. injection E as <- <-. eexists [_]. split; [reflexivity|]. constructor; assumption.
    - destruct (p_plain file n ts) as [[t r']|] eqn:Ep; [|discriminate]. injection E as <- <-. pose proof Ep as Ep0. apply p_plain_sound in Ep as (pre & -> & Hp).
      exists pre. split; [reflexivity|]. constructor; [exact Hp|]. intros _ x -> Hx.
      cbn in Ev. rewrite (proj2 (same_type_eq _ _) Hx) in Ev. destruct r' as [|q r']; [discriminate Ev|]. cbn in Ev.
      destruct (same_type (lx_type q) T_QuestionMark) eqn:Eq; [|discriminate Ev]. apply same_type_eq in Eq.
      unfold p_plain, p_plain_with in Ep0. cbn [app ahead] in Ep0. rewrite Hx in Ep0. cbn in Ep0.
      unfold p_nullable, p_base in Ep0. cbn [app ahead] in Ep0. rewrite Hx in Ep0. cbn in Ep0. rewrite Hx in Ep0. cbn in Ep0. rewrite Eq in Ep0. cbn in Ep0.
      injection Ep0 as _ Ep0. apply (f_equal (@length lexeme)) in Ep0. cbn in Ep0. lia.
  Qed.
  Lemma p_parameter_sound n : sound (p_parameter file n) (parameter_rule true file).
  Proof.
    intros ts a r E. unfold p_parameter in E. take_list (p_full_sound n). take_list (p_variable_sound n). injection E as <- <-.
    exists (pre ++ pre0). rewrite <- app_assoc. split; [reflexivity|]. constructor; try assumption. apply starts_first. eapply full_nonempty; eassumption.
  Qed.
  Lemma names_sound l ts : separated (fun ts (x : lexeme) => ts = [x] /\ a_name x) ts l -> separated (name_rule file) ts (map (fun x => (lx_text x, place file x)) l).
  Proof. induction 1 as [ts a [-> Ha]|ts a c ts' l [-> Ha] Hc H IH]; cbn [map].
    - apply sep_one. constructor. exact Ha.
    - apply sep_more; [constructor; exact Ha|exact Hc|exact IH].
  Qed.
  Lemma p_throws_sound n : sound (p_throws file n) (ending_rule file).
  Proof.
    intros ts a r E. unfold p_throws in E. destruct (ahead [T_Oneway] ts); [|destruct (ahead [T_Throws] ts)].
    - take. injection E as <- <-. eexists [_]. split; [reflexivity|]. constructor; assumption.
    - take. assert (S : sound p_identifier (fun ts (x : lexeme) => ts = [x] /\ a_name x)).
      { intros ts' y r' Ex. apply p_identifier_some in Ex as [-> Hx]. exists [y]. auto. }
      take_list (p_list_sound _ _ n S). injection E as <- <-. eexists (_ :: pre). split; [reflexivity|]. constructor; [assumption|]. apply names_sound. assumption.
    - injection E as <- <-. exists []. split; [reflexivity|constructor].
  Qed.
  Lemma result_nonempty s ts t : result_rule s file ts t -> ts <> [].
  Proof. intros [v Hv|ts' t' H _]; [discriminate|]. exact (plain_nonempty _ _ _ H). Qed.
  Lemma p_message_sound n ps a ts m r : repeated property ps a -> p_message file n (first_index (ps ++ ts)) (first_place file (ps ++ ts)) a ts = Some (m, r) ->
    exists pre, ts = pre ++ r /\ message_rule true file (ps ++ pre) m.
  Proof.
    intros Hp E. unfold p_message in E. take_list (p_result_sound n). take. take.
    assert (S : sound (fun r => if ahead [T_RParen] r then Some ([], r) else p_list (p_parameter file n) n r) (listed (parameter_rule true file))).
    { intros ts' l' r' E'. destruct (ahead [T_RParen] ts'); [injection E' as <- <-; exists []; split; [reflexivity|constructor]|].
      apply (p_list_sound _ _ n (p_parameter_sound n)) in E' as (pre' & -> & H'). exists pre'. split; [reflexivity|constructor; exact H']. }
    match type of E with (match ?e with _ => _ end) = _ => destruct e as [[l' r']|] eqn:El; [|discriminate E] end.
    apply S in El as (pre' & -> & Hl). take.
    match type of E with (match ?e with _ => _ end) = _ => destruct e as [[[ow er] r']|] eqn:Et; [|discriminate E] end.
    apply p_throws_sound in Et as (pre2 & -> & He). take. injection E as <- <-.
    eexists (pre ++ _ :: _ :: pre' ++ _ :: pre2 ++ [_]). split; [rewrite <- !app_assoc; cbn; rewrite <- !app_assoc; cbn; rewrite <- !app_assoc; reflexivity|].
    apply result_nonempty in K as K'. apply message_of; try assumption; rewrite app_assoc; [apply starts_first|apply opens_first]; (destruct ps; [exact K'|discriminate]).
  Qed.

  Lemma import_of_spec k i : import_of k = Some i <-> In (k, i) import_words.
  Proof.
    split.
    - destruct k; intro H; try discriminate H; injection H as <-; cbn; tauto.
    - cbn. intro H. repeat (destruct H as [H|H]; [injection H as <- <-; reflexivity|]). destruct H.
  Qed.
  Lemma p_import_sound m : sound (p_import file) (item_rule true file m).
  Proof.
    intros ts a r E. unfold p_import in E. take x r1. destruct r1 as [|k r1]; [discriminate|]. destruct (import_of (lx_type k)) as [i|] eqn:Ei; [|discriminate].
    take. take. injection E as <- <-. eexists [_; _; _; _]. split; [reflexivity|]. constructor; try assumption. apply import_of_spec, Ei.
  Qed.
  Lemma named_nonempty ts d : named_rule true file ts d -> ts <> [].
  Proof. intros []; match goal with |- ?p ++ _ <> _ => destruct p end; discriminate. Qed.
  Lemma p_item_sound m n : sound (p_item file m n) (item_rule true file m).
  Proof.
    intros ts a r E. unfold p_item in E. destruct (import_ahead ts); [exact (p_import_sound m _ _ _ E)|].
    destruct (p_properties file n ts) as [[ps r1]|] eqn:Ep; [|discriminate]. apply p_properties_sound in Ep as (pre & -> & Hp).
    destruct (fixed_ahead r1); [|destruct (enum_ahead r1); [|destruct (record_ahead r1); [|destruct m; [|discriminate]]]].
    - match type of E with (match ?e with _ => _ end) = _ => destruct e as [[d r']|] eqn:Ed; [|discriminate E] end. injection E as <- <-.
      apply (p_fixed_sound _ _ _ _ _ Hp) in Ed as (pre2 & -> & Hd). exists (pre ++ pre2). split; [now rewrite <- app_assoc|]. constructor; [exact Hd|]. rewrite app_assoc. apply opens_first. eapply named_nonempty; eassumption.
    - match type of E with (match ?e with _ => _ end) = _ => destruct e as [[d r']|] eqn:Ed; [|discriminate E] end. injection E as <- <-.
      apply (p_enum_sound _ _ _ _ _ _ Hp) in Ed as (pre2 & -> & Hd). exists (pre ++ pre2). split; [now rewrite <- app_assoc|]. constructor; [exact Hd|]. rewrite app_assoc. apply opens_first. eapply named_nonempty; eassumption.
    - match type of E with (match ?e with _ => _ end) = _ => destruct e as [[d r']|] eqn:Ed; [|discriminate E] end. injection E as <- <-.
      apply (p_record_sound _ _ _ _ _ _ Hp) in Ed as (pre2 & -> & Hd). exists (pre ++ pre2). split; [now rewrite <- app_assoc|]. constructor; [exact Hd|]. rewrite app_assoc. apply opens_first. eapply named_nonempty; eassumption.
    - match type of E with (match ?e with _ => _ end) = _ => destruct e as [[d r']|] eqn:Ed; [|discriminate E] end. injection E as <- <-.
      apply (p_message_sound _ _ _ _ _ _ Hp) in Ed as (pre2 & -> & Hd). exists (pre ++ pre2). rewrite <- app_assoc. split; [reflexivity|]. constructor; [reflexivity|exact Hd].
  Qed.

  Lemma file_end_spec r : file_end r = true <-> at_end r.
  Proof.
    unfold at_end, of_type. destruct r as [|x r]; cbn.
    - split; auto.
    - rewrite same_type_eq. split; [intro H; right; eauto|]. intros [H|(y & r' & H & Hy)]; [discriminate|]. injection H as <- <-. exact Hy.
  Qed.

  Lemma p_file_sound n ts t : p_file file n ts = Some t -> file_rule true file ts t.
  Proof.
    unfold p_file. destruct (p_properties file n ts) as [[ps r1]|] eqn:Ep; [|discriminate]. destruct (ahead [T_Protocol] r1).
    - unfold p_protocol. rewrite Ep. apply p_properties_sound in Ep as (pre & -> & Hp). intro E.
      match type of E with (match ?e with _ => _ end) = _ => destruct e as [[t' r']|] eqn:Et; [|discriminate E] end.
      destruct (file_end r') eqn:Ee; [|discriminate]. injection E as <-. apply file_end_spec in Ee. rename Et into E.
      take. take. take. take_list (p_loop_sound (fun r => negb (ahead [T_RBrace] r)) _ _ n (p_item_sound true n)). take. injection E as <- <-.
      apply file_protocol; try assumption. apply starts_more.
    - unfold p_schema_file. intro E.
      match type of E with (match ?e with _ => _ end) = _ => destruct e as [[t' r']|] eqn:Et; [|discriminate E] end.
      destruct (file_end r') eqn:Ee; [|discriminate]. injection E as <-. apply file_end_spec in Ee. rename Et into E. clear Ep.
      assert (Sn : sound p_namespace namespace_rule).
      { intros ts' a' r0 E'. unfold p_namespace in E'. destruct (ahead [T_Namespace] ts').
        - take. take. take. injection E' as <- <-. eexists [_; _; _]. split; [reflexivity|]. constructor; assumption.
        - injection E' as <- <-. exists []. split; [reflexivity|constructor]. }
      assert (Sm : sound (p_main file n) (main_rule true file)).
      { intros ts' a' r0 E'. unfold p_main in E'. destruct (ahead [T_Schema] ts').
        - take. take_list (p_full_sound n). take. injection E' as <- <-. eexists (_ :: pre ++ [_]). cbn. rewrite <- app_assoc. split; [reflexivity|]. constructor; assumption.
        - injection E' as <- <-. exists []. split; [reflexivity|constructor]. }
      take_list Sn. take_list Sm. take_list (p_loop_sound (fun r => negb (file_end r)) _ _ n (p_item_sound false n)). injection E as <- <-.
      apply file_schema; assumption.
  Qed.
End WithSource.
