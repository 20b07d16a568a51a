(** Proofs about logical types and about the attributes of annotated types. *)
From Verif Require Import SpecReader BaseProofs NameProofs MeaningProofs SerializeProofs ReaderProofs TypeProofs PatternProofs DeclProofs FileProofs AnnotProofs.

Section Attributes.
  Context `{Unicode} `{Floats}.

  (** ** Numbers *)
  Lemma as_u32_number v n : json_value_as_u32 v = Some n -> is_number v n.
  Proof.
    destruct v as [| |[m|m|m e]| | |]; try discriminate; cbn.
    - destruct (_ <=? _)%N; [|discriminate]. intro E. injection E as <-. now left.
    - intro Hx. right. exists m, e. split; [reflexivity|]. unfold float_as_u32 in Hx. destruct (Z.leb_spec 0 e) as [He|He].
      + destruct (_ && _)%bool eqn:E; [|discriminate]. injection Hx as <-. apply andb_true_iff in E. rewrite !Z.leb_le in E.
        split; [|lia]. intros _. rewrite Z2N.id; lia.
      + destruct (_ && _)%bool eqn:E; [|discriminate]. injection Hx as <-. rewrite !andb_true_iff, Z.eqb_eq, !Z.leb_le in E.
        destruct E as [[E1 E2] E3]. split; [lia|]. intros _. rewrite Z2N.id by lia.
        pose proof (Z.div_mod m (2 ^ (- e))) as D. assert (0 < 2 ^ (- e))%Z by (apply Z.pow_pos_nonneg; lia). lia.
  Qed.
  Lemma i32_param_number o n : i32_param o = Some n -> exists v, o = Some v /\ is_number v n /\ (n <= 2147483647)%N.
  Proof.
    unfold i32_param. destruct o as [v|]; [|discriminate]. destruct (json_value_as_u32 v) as [m|] eqn:E; [|discriminate].
    destruct (N.leb_spec m (Z.to_N i32_max)) as [Hl|Hl]; [|discriminate]. intro Hx. injection Hx as <-. exists v. split; [reflexivity|].
    split; [now apply as_u32_number|exact Hl].
  Qed.

  (** ** Names of logical types *)
  Lemma parse_logical_name name p s lt : parse_logical_type name p s = Some lt -> name = logical_name lt.
  Proof.
    unfold parse_logical_type.
    repeat match goal with |- context [String.eqb name ?x] => destruct (String.eqb_spec name x) as [->|]; [intro Hx; try (injection Hx as <-; reflexivity)|] end.
    - destruct p; [|discriminate]. injection Hx as <-. reflexivity.
    - discriminate.
  Qed.
  Lemma parse_logical_decimal name p s a b : parse_logical_type name p s = Some (LDecimal a b) ->
    p = Some a /\ b = match s with Some x => x | None => 0%N end.
  Proof.
    unfold parse_logical_type.
    repeat match goal with |- context [String.eqb name ?x] => destruct (String.eqb_spec name x) as [->|]; [intro Hx; try discriminate|] end.
    - destruct p; [|discriminate]. injection Hx as -> <-. auto.
    - discriminate.
  Qed.

  (** ** Attributes of annotated types *)
  Lemma extend_nil (ps : props) k : NoDup (keys ps) -> assoc k (hm_extend [] ps) = assoc k ps.
  Proof. intro Hn. rewrite assoc_hm_extend, assoc_rev_NoDup by exact Hn. now destruct (assoc k ps). Qed.

  Definition plain_simple (s : schema) : Prop :=
    (exists p, s = SPrim p) \/ (exists lt, s = SLogical lt []) \/ (exists i, s = SArray i []) \/ (exists i, s = SMap i []).

  Lemma simple_annotated l ps s : Forall (acceptable OnType) l -> holds_annotations OnType l ps -> plain_simple s ->
    annotated_as l s (apply_properties_to_schema s ps).
  Proof.
    intros Hac (Hh & Hn & _) Hs.
    assert (Ha : forall k v, assoc k ps = Some v <-> annotated l k v).
    { intros k v. rewrite Hh. split; [tauto|]. intro Hv. split; [exact Hv|intros []]. }
    assert (Hno : forall k, assoc k ps = None -> ~ mentioned l k).
    { intros k Hk Hm. destruct (mentioned_annotated _ _ _ Hac Hm) as [v Hv]. apply Ha in Hv. congruence. }
    assert (Hyes : forall k v, assoc k ps = Some v -> mentioned l k).
    { intros k v Hk. apply Ha in Hk. eapply annotated_mentioned; eauto. }
    assert (G : forall (o : option json) k v, opt_or (assoc k ps) o = Some v <-> annotated l k v \/ (~ mentioned l k /\ o = Some v)).
    { intros o k v. destruct (assoc k ps) as [w|] eqn:E; cbn.
      - rewrite <- Ha, E. split; [auto|]. intros [Hx|[Hx _]]; [exact Hx|]. exfalso. apply Hx. eapply Hyes; eauto.
      - split; [intro Ho; right; split; [now apply Hno|exact Ho]|]. intros [Hx|[_ Hx]]; [|exact Hx]. apply Ha in Hx. congruence. }
    assert (G0 : forall k v, assoc k ps = Some v <-> annotated l k v \/ (~ mentioned l k /\ @None json = Some v)).
    { intros k v. rewrite Ha. split; [auto|]. intros [Hx|[_ Hx]]; [exact Hx|discriminate]. }
    unfold apply_properties_to_schema. destruct Hs as [(p & ->)|[(lt & ->)|[(i & ->)|(i & ->)]]]; cbn [with_merged_properties try_promote_logical_type].
    - destruct (assoc "logicalType" ps) as [[| | |name| |]|] eqn:El;
        try (apply aa_simple; [now apply (ss_simple _ _ p)|exact G0]).
      destruct (parse_logical_type name (i32_param (assoc "precision" ps)) (i32_param (assoc "scale" ps))) as [lt|] eqn:Ep;
        [|apply aa_simple; [now apply (ss_simple _ _ p)|exact G0]].
      destruct (prim_eqb (expected_base_type lt) p) eqn:Eb; [|apply aa_simple; [now apply (ss_simple _ _ p)|exact G0]].
      apply prim_eqb_eq in Eb. subst p. pose proof (parse_logical_name _ _ _ _ Ep) as En. subst name.
      assert (K : match lt with LDecimal _ _ => False | _ => True end ->
                  annotated_as l (SPrim (expected_base_type lt)) (SLogical lt (hm_remove "logicalType" ps))).
      { intro Hd. apply aa_simple; [now apply (ss_simple _ _ (expected_base_type lt)); [|destruct lt]|].
        intros k v. cbn [attribute]. rewrite <- (G0 k v).
        assert (Ea : assoc k (logical_attrs lt) = if String.eqb k "logicalType" then Some (JStr (logical_name lt)) else None).
        { destruct lt; try (cbn; now destruct (String.eqb k "logicalType")). }
        rewrite Ea, assoc_hm_remove. destruct (String.eqb_spec k "logicalType") as [->|n]; cbn; [now rewrite El|].
        destruct (assoc k ps); reflexivity. }
      destruct lt as [| | | | | | | |a b]; try exact (K I).
      clear K. destruct (parse_logical_decimal _ _ _ _ _ Ep) as [P1 P2]. apply i32_param_number in P1. destruct P1 as (v & Ev & Hv & Hb).
      apply aa_decimal.
      + now apply Ha.
      + exists v. split; [now apply Ha|exact Hv].
      + exact Hb.
      + destruct (i32_param (assoc "scale" ps)) as [x|] eqn:Es; [|now right]. left. subst b.
        apply i32_param_number in Es. destruct Es as (w & Ew & Hw & _). exists w. split; [now apply Ha|exact Hw].
      + destruct (i32_param (assoc "scale" ps)) as [x|] eqn:Es; subst b; [|lia].
        apply i32_param_number in Es. now destruct Es as (w & _ & _ & Hw).
      + intros k w Hk. cbn [attribute]. rewrite !assoc_hm_remove. cbn [logical_attrs logical_name assoc].
        destruct (String.eqb_spec k "scale") as [->|n1]; [exfalso; apply Hk; cbn; auto|].
        destruct (String.eqb_spec k "precision") as [->|n2]; [exfalso; apply Hk; cbn; auto|].
        destruct (String.eqb_spec k "logicalType") as [->|n3]; cbn.
        * rewrite <- Ha, El. reflexivity.
        * rewrite <- Ha. destruct (assoc k ps); reflexivity.
    - apply aa_simple; [now apply (ss_simple _ _ (base_of lt))|]. intros k v. cbn [attribute]. rewrite extend_nil by exact Hn. apply G.
    - apply aa_simple; [constructor|]. intros k v. cbn [attribute]. rewrite extend_nil by exact Hn. apply G0.
    - apply aa_simple; [constructor|]. intros k v. cbn [attribute]. rewrite extend_nil by exact Hn. apply G0.
  Qed.

  Lemma none_annotated l s : Forall (acceptable OnType) l -> holds_annotations OnType l [] -> annotated_as l s s.
  Proof.
    intros Hac (Hh & _). apply aa_none. intros k Hm. destruct (mentioned_annotated _ _ _ Hac Hm) as [v Hv].
    assert (Hx : assoc k (@nil (string * json)) = Some v) by (apply Hh; split; [exact Hv|intros []]). discriminate.
  Qed.

  Lemma walk_annotated pl l p ns s e : walk_full_type (FullType pl l p) ns = Ok (s, e) ->
    exists s0 e0, walk_full_type (FullType pl [] p) ns = Ok (s0, e0) /\ annotated_as l s0 s.
  Proof.
    intro Hx. pose proof Hx as Hw. rewrite walk_full_eq in Hx. winv Hx. winv Hx.
    assert (Hac : Forall (acceptable OnType) l) by (apply (accepted_iff OnType); eauto).
    apply (walk_schema_properties_inv OnType) in E. destruct E as (Hh & _).
    exists a0. match type of E0 with _ = Ok (_, ?x) => exists x end. split; [now rewrite walk_full_plain|].
    apply annotate_type_cases in Hx. destruct Hx as [(Ep & -> & _)|(Hne & Hr & -> & _)].
    { rewrite Ep in Hh. now apply none_annotated. }
    destruct p as [t|t|ts|b o].
    - cbn in E0. winv E0. winv E0. apply simple_annotated; auto. right; right; left; eauto.
    - cbn in E0. winv E0. winv E0. apply simple_annotated; auto. right; right; right; eauto.
    - rewrite walk_union_eq in E0. winv E0. apply check_union_ok in E0. destruct E0 as (-> & _ & _). cbn [apply_properties].
      unfold apply_properties_to_schema. cbn. destruct a1 as [|x [|y [|z r]]]; cbn; apply aa_union.
    - apply nullable_shape in E0. destruct E0 as (_ & base & Hs & Hb).
      assert (K : is_type_reference base = false -> annotated_as l base (apply_properties_to_schema base (sp_props a))).
      { intro Hrb. destruct Hb as [(k & kp & -> & Hk)|(i & sp & -> & ->)].
        - apply simple_annotated; auto. destruct (prim_type_leaf _ _ _ Hk) as [_ [(q & ->)|(lt & ->)]]; [left|right; left]; eauto.
        - destruct (reference_shape i sp ns) as (n & q & Er). rewrite Er in Hrb. discriminate. }
      destruct (base_not_special _ _ _ Hb) as (R1 & R2 & R3). destruct Hs as [[-> ->]|(-> & -> & Hn)].
      + rewrite R3. auto.
      + rewrite R1 in Hr. cbn [apply_properties]. apply aa_optional. auto.
  Qed.

  (** A reference takes no annotations. *)
  Lemma reference_not_annotated pl l i sp o ns s e : walk_full_type (FullType pl l (PtNullable (BReference i sp) o)) ns = Ok (s, e) -> l = [].
  Proof.
    intro Hx. rewrite walk_full_eq in Hx. winv Hx. winv Hx. apply (nullable_shape (BReference i sp) o ns) in E0. destruct E0 as (_ & base & Hs & Hb).
    destruct Hb as [(k & kp & Hc & _)|(i' & sp' & Hb & ->)]; [discriminate|]. injection Hb as <- <-.
    destruct (reference_shape i sp ns) as (n & q & Er). rewrite Er in Hs.
    assert (Hr : is_type_reference a0 = true) by (destruct Hs as [[_ ->]|(_ & -> & _)]; reflexivity).
    assert (Hac : Forall (acceptable OnType) l) by (apply (accepted_iff OnType); eauto).
    apply annotate_type_cases in Hx. destruct Hx as [(Ep & _ & _)|(_ & Hr' & _)]; [|congruence].
    apply (walk_schema_properties_inv OnType) in E. destruct E as ((Hh & _) & _). rewrite Ep in Hh.
    destruct l as [|x l]; [reflexivity|]. exfalso.
    destruct (mentioned_annotated OnType (x :: l) (identifier_text (an_name x)) Hac) as [v Hv]; [exists x; split; [now left|reflexivity]|].
    assert (Hc : assoc (identifier_text (an_name x)) (@nil (string * json)) = Some v) by (apply Hh; split; [exact Hv|intros []]). discriminate.
  Qed.

  (** Annotations on a union are dropped with a warning. *)
  Lemma union_dropped pl l ts ns s e : l <> [] -> walk_full_type (FullType pl l (PtUnion ts)) ns = Ok (s, e) ->
    exists ks, In (Warned (AnnotationsDropped ks pl)) e /\ forall k, In k ks <-> mentioned l k.
  Proof.
    intros Hl Hx. rewrite walk_full_eq in Hx. winv Hx. winv Hx.
    assert (Hac : Forall (acceptable OnType) l) by (apply (accepted_iff OnType); eauto).
    pose proof E as E'. apply (walk_schema_properties_inv OnType) in E'. destruct E' as ((Hh & _) & _).
    rewrite walk_union_eq in E0. winv E0. apply check_union_ok in E0. destruct E0 as (-> & -> & _).
    apply annotate_type_cases in Hx. destruct Hx as [(Ep & _ & _)|(Hne & _ & _ & ->)].
    - exfalso. rewrite Ep in Hh. destruct l as [|x l]; [congruence|].
      destruct (mentioned_annotated OnType (x :: l) (identifier_text (an_name x)) Hac) as [v Hv]; [exists x; split; [now left|reflexivity]|].
      assert (Hc : assoc (identifier_text (an_name x)) (@nil (string * json)) = Some v) by (apply Hh; split; [exact Hv|intros []]). discriminate.
    - exists (keys (sp_props a)). split.
      + apply in_or_app. right. apply in_or_app. right. now left.
      + intro k. split.
        * intro Hk. apply In_keys_assoc in Hk. destruct Hk as [v Hv]. apply Hh in Hv. destruct Hv as [Hv _]. eapply annotated_mentioned; eauto.
        * intro Hm. destruct (mentioned_annotated _ _ _ Hac Hm) as [v Hv]. eapply assoc_Some_In_keys. apply Hh. split; [exact Hv|intros []].
  Qed.

  (** ** C29 *)
  Lemma keyword_class k s : walk_primitive_type k = Ok (s, []) -> class_of s = BcPrimitive (keyword_base k).
  Proof.
    destruct k; cbn; intro Hx; try (winv Hx; reflexivity). unfold walk_decimal in Hx. winv Hx. destruct (_ =? _)%N; [discriminate|].
    winv Hx. destruct (_ <? _)%N; [discriminate|]. now winv Hx.
  Qed.
  Lemma annotated_class pl kp l k o ns s e : walk_full_type (FullType pl l (PtNullable (BPrimitive k kp) o)) ns = Ok (s, e) ->
    exists T, class_of T = BcPrimitive (keyword_base k) /\ s = if o then SUnion [SPrim PNull; T] true else T.
  Proof.
    assert (K : forall s e, walk_full_type (FullType pl l (PtNullable (BPrimitive k kp) false)) ns = Ok (s, e) -> class_of s = BcPrimitive (keyword_base k)).
    { clear s e. intros s e Hx. rewrite walk_full_eq in Hx. winv Hx. winv Hx. rewrite (annotate_class _ _ _ _ _ Hx).
      apply (nullable_shape (BPrimitive k kp) false ns) in E0. destruct E0 as (_ & base & [[_ ->]|(Hc & _)] & Hb); [|discriminate].
      destruct Hb as [(k' & kp' & Hk & Hw)|(i & sp & Hc & _)]; [|discriminate]. injection Hk as <- _. now apply keyword_class. }
    intro Hx. destruct o; [|exists s; eauto]. apply walk_optional in Hx. destruct Hx as (T & HT & ->). exists T. eauto.
  Qed.

  Lemma decimal_keyword p q s e : walk_primitive_type (KDecimal p q) = Ok (s, e) <->
    exists a b, parse_integer_as_u32 p = Some a /\ match q with Some t => parse_integer_as_u32 t = Some b | None => b = 0%N end /\
      (1 <= a)%N /\ (b <= a)%N /\ s = SLogical (LDecimal a b) [] /\ e = [].
  Proof.
    cbn. unfold walk_decimal. split.
    - intro Hx. winv Hx. winv E. destruct (N.eqb_spec a 0) as [|n]; [discriminate|]. winv Hx.
      destruct (N.ltb_spec a a0) as [|Hl]; [discriminate|]. winv Hx. exists a, a0. split; [assumption|].
      destruct q as [t|]; winv E; repeat split; try assumption; try lia; reflexivity.
    - intros (a & b & Ea & Eb & H1 & H2 & -> & ->). rewrite Ea. cbn. destruct (N.eqb_spec a 0) as [|n]; [lia|].
      destruct q as [t|]; [rewrite Eb|rewrite Eb in H2 |- *]; cbn; match goal with |- context [(?x <? ?y)%N] => destruct (N.ltb_spec x y) as [Hl|Hl] end; try lia; reflexivity.
  Qed.

  Lemma keyword_logical_type k : match keyword_logical k with
    | Some lt => walk_primitive_type k = Ok (SLogical lt [], [])
    | None => forall s e, walk_primitive_type k = Ok (s, e) -> s = SPrim (keyword_base k) \/ exists p q, k = KDecimal p q
    end.
  Proof. destruct k; cbn; try reflexivity; intros s e Hx; try (winv Hx; now left). right. eauto. Qed.

  (** Which annotations turn a primitive type into a logical one *)
  Lemma promoted_iff pl kp l k ns s e lt : keyword_logical k = None -> (forall p q, k <> KDecimal p q) ->
    (forall a b, lt <> LDecimal a b) ->
    walk_full_type (FullType pl l (PtNullable (BPrimitive k kp) false)) ns = Ok (s, e) ->
    (exists ps, s = SLogical lt ps) <-> exists name, annotated l "logicalType" (JStr name) /\ In (lt, keyword_base k, name) logical_table.
  Proof.
    intros Hk1 Hk2 Hlt Hx. rewrite walk_full_eq in Hx. winv Hx. winv Hx. apply (nullable_shape (BPrimitive k kp) false ns) in E0.
    destruct E0 as (_ & base & [[_ ->]|(Hc & _)] & Hb); [|discriminate]. destruct Hb as [(k' & kp' & Hk & Hw)|(i & sp & Hc & _)]; [|discriminate].
    injection Hk as <- _. pose proof (keyword_logical_type k) as Hkl. rewrite Hk1 in Hkl. destruct (Hkl _ _ Hw) as [->|(p & q & ->)]; [|exfalso; now apply (Hk2 p q)].
    apply (walk_schema_properties_inv OnType) in E. destruct E as ((Hh & Hn & _) & _).
    assert (Ha : forall n v, assoc n (sp_props a) = Some v <-> annotated l n v).
    { intros n v. rewrite Hh. split; [tauto|]. intro Hv. split; [exact Hv|intros []]. }
    apply annotate_type_cases in Hx. destruct Hx as [(Ep & -> & _)|(_ & _ & -> & _)].
    { split; [intros (ps & Hc); discriminate|]. intros (name & Hv & _). apply Ha in Hv. rewrite Ep in Hv. discriminate. }
    cbn [apply_properties]. unfold apply_properties_to_schema. cbn [with_merged_properties try_promote_logical_type]. split.
    - intros (ps & Hs). destruct (assoc "logicalType" (sp_props a)) as [[| | |name| |]|] eqn:El; try discriminate.
      destruct (parse_logical_type _ _ _) as [lt'|] eqn:Ep; [|discriminate]. destruct (prim_eqb _ _) eqn:Eb; [|discriminate].
      apply prim_eqb_eq in Eb. assert (lt' = lt) by (destruct lt'; congruence). subst lt'.
      pose proof (parse_logical_name _ _ _ _ Ep) as ->. exists (logical_name lt). split; [now apply Ha|]. rewrite <- Eb.
      destruct lt; cbn; auto 10. exfalso. eapply Hlt; reflexivity.
    - intros (name & Hv & Hi). apply Ha in Hv. rewrite Hv.
      assert (K : parse_logical_type name (i32_param (assoc "precision" (sp_props a))) (i32_param (assoc "scale" (sp_props a))) = Some lt /\ expected_base_type lt = keyword_base k).
      { cbn in Hi. destruct Hi as [Hi|[Hi|[Hi|[Hi|[Hi|[Hi|[Hi|[Hi|[]]]]]]]]]; injection Hi as <- <- <-; split; reflexivity. }
      destruct K as [K1 K2]. rewrite K1. destruct (prim_eqb (expected_base_type lt) (keyword_base k)) eqn:Eb; [eauto|].
      assert (prim_eqb (expected_base_type lt) (keyword_base k) = true) by (now apply prim_eqb_eq). congruence.
  Qed.
End Attributes.
