(** What the walker warns of. *)
From Verif Require Import SpecNames BaseProofs NameProofs RegistryProofs ReaderProofs TypeProofs DeclProofs FileProofs AnnotProofs AttrProofs SpecDefects SpecBlame.
From Coq Require Import Permutation.

Section Odd.
  Context `{Unicode} `{Floats}.

  (** The events say what [R] says, and nothing else. *)
  Definition remarked (evs : list event) (R : walk_warning -> Prop) : Prop :=
    (forall w, In w (warned_of evs) -> R w) /\ (forall w, R w -> exists w', same_warning w w' /\ In w' (warned_of evs)).
  Lemma warned_app a b : warned_of (a ++ b) = warned_of a ++ warned_of b.
  Proof. apply flat_map_app. Qed.
  Lemma remarked_iff evs R R' : (forall w, R w <-> R' w) -> remarked evs R -> remarked evs R'.
  Proof. intros E [A B]. split; intros w Hw; [apply E; auto|]. apply B, E, Hw. Qed.
  Lemma remarked_nil evs R : warned_of evs = [] -> (forall w, ~ R w) -> remarked evs R.
  Proof. intros E N. split; [now rewrite E|]. intros w Hw. destruct (N w Hw). Qed.
  Lemma remarked_app a b R R' : remarked a R -> remarked b R' -> remarked (a ++ b) (fun w => R w \/ R' w).
  Proof.
    intros [A B] [A' B']. rewrite <- (app_nil_r a) in *. split; rewrite ?warned_app; intro w.
    - intro Hw. rewrite !in_app_iff in Hw. cbn in Hw. destruct Hw as [[Hw|[]]|Hw]; [left; apply A; rewrite warned_app; apply in_or_app; auto|right; auto].
    - intros [Hw|Hw].
      + destruct (B w Hw) as (w' & S & Hi). exists w'. split; [exact S|]. rewrite warned_app in Hi. rewrite !in_app_iff in *. tauto.
      + destruct (B' w Hw) as (w' & S & Hi). exists w'. split; [exact S|]. rewrite !in_app_iff. tauto.
  Qed.
  Lemma remarked_left a b R : remarked a R -> warned_of b = [] -> remarked (a ++ b) R.
  Proof. intros A B. eapply remarked_iff; [|apply (remarked_app a b R (fun _ => False) A)]; [tauto|]. apply remarked_nil; auto. Qed.
  Lemma remarked_right a b R : warned_of a = [] -> remarked b R -> remarked (a ++ b) R.
  Proof. intros A B. eapply remarked_iff; [|apply (remarked_app a b (fun _ => False) R)]; [tauto| |exact B]. apply remarked_nil; auto. Qed.
  Lemma remarked_map {A B} (f : A -> walk B) (R : A -> walk_warning -> Prop) l ys evs : (forall x y ev, In x l -> f x = Ok (y, ev) -> remarked ev (R x)) ->
    wmap f l = Ok (ys, evs) -> remarked evs (fun w => exists x, In x l /\ R x w).
  Proof.
    revert ys evs. induction l as [|x l IH]; intros ys evs F W.
    - apply wret_ok in W as [_ ->]. apply remarked_nil; [reflexivity|]. intros w (x & [] & _).
    - rewrite wmap_cons in W. winv W. winv W. winv W. rewrite app_nil_r. eapply remarked_iff; [|apply remarked_app; [eapply F; [now left|exact E]|eapply IH; [|exact E0]; intros; eapply F; [right|]; eauto]].
      intro w. split; [intros [Hr|(y & Hy & Hr)]; eauto using in_eq, in_cons|]. intros (y & [->|Hy] & Hr); eauto.
  Qed.
  Lemma same_warning_refl w : same_warning w w.
  Proof. destruct w; cbn; auto. Qed.

  Lemma type_name_iff s : forallb is_valid_avro_name (split_dot s) = true <-> type_name s.
  Proof.
    rewrite forallb_forall. split.
    - intro F. exists (split_dot s). split; [apply split_dot_nonnil|]. split; [symmetry; apply join_split|]. apply Forall_forall. intros x Hx. apply valid_name_iff, F, Hx.
    - intros (segs & Hn & -> & F). rewrite split_join; [|exact Hn|eapply Forall_impl; [|exact F]; intros; now apply valid_name_no_dot]. rewrite Forall_forall in F. intros x Hx. apply valid_name_iff, F, Hx.
  Qed.
  Lemma alias_remarked p l al evs : wmap (walk_alias p) l = Ok (al, evs) -> remarked evs (fun w => exists s, In (JStr s) l /\ ~ type_name s /\ w = NonStandardAlias s p).
  Proof.
    intro W. eapply remarked_iff; [|eapply (remarked_map _ (fun x w => exists s, x = JStr s /\ ~ type_name s /\ w = NonStandardAlias s p)); [|exact W]].
    - intro w. split; [intros (x & Hx & s & -> & N & ->); eauto|]. intros (s & Hs & N & ->). eauto 6.
    - intros x y ev _ Hx. unfold walk_alias in Hx. destruct x as [| | |s| |]; try discriminate. destruct (forallb _ _) eqn:E.
      + winv Hx. apply remarked_nil; [reflexivity|]. intros w (s' & X & N & _). injection X as <-. apply N. now apply type_name_iff.
      + winv Hx. winv Hx. winv E0. cbn. assert (N : ~ type_name s) by (intro T; apply type_name_iff in T; congruence). split.
        * intros w [<-|[]]. eauto.
        * intros w (s' & X & _ & ->). injection X as <-. eexists. split; [apply same_warning_refl|now left].
  Qed.
  Lemma property_remarked p sp a sp' evs : walk_property (context_of p) sp a = Ok (sp', evs) -> remarked evs (odd_annotation p [a]).
  Proof.
    unfold walk_property. intro Hx. winv Hx. apply walk_json_iff in E as [Hv ->]. destruct sp as [ns al ord ps]. cbn [app].
    assert (Odd : forall w, odd_annotation p [a] w -> identifier_text (an_name a) = "aliases" /\ In "aliases" (special p) /\
      exists l s, a0 = JArr (map JStr l) /\ In s l /\ ~ type_name s /\ w = NonStandardAlias s (an_place a)).
    { intros w X. destruct X as [b l s [<-|[]] Hn Hs Hm Hi Nt]. split; [exact Hn|]. split; [exact Hs|]. exists l, s. split; [eapply json_means_det; eauto|auto]. }
    destruct (with_namespace (context_of p) && String.eqb (identifier_text (an_name a)) "namespace")%bool eqn:E1.
    { apply andb_true_iff in E1 as [_ E1]. apply String.eqb_eq in E1. destruct a0; try discriminate; winv Hx. apply remarked_nil; [reflexivity|]. intros w X. apply Odd in X as (X & _). congruence. }
    destruct (with_aliases (context_of p) && String.eqb (identifier_text (an_name a)) "aliases")%bool eqn:E2.
    { apply andb_true_iff in E2 as [E2 E3]. apply special_aliases in E2. apply String.eqb_eq in E3. destruct a0 as [| | | |l|]; try discriminate. winv Hx. winv Hx. rewrite app_nil_r. pose proof (walk_alias_ok _ _ _ _ E) as ->.
      eapply remarked_iff; [|eapply alias_remarked; exact E]. intro w. split.
      - intros (s & Hs & N & ->). apply in_map_iff in Hs as (s' & X & Hs). injection X as ->. eapply oa_alias; eauto; now left.
      - intro X. apply Odd in X as (_ & _ & l & s & X & Hs & N & ->). exists s. split; [injection X as ->; now apply in_map|auto]. }
    assert (None : forall w, ~ odd_annotation p [a] w).
    { intros w X. apply Odd in X as (X & Y & _). apply special_aliases in Y. rewrite X, Y in E2. discriminate. }
    apply remarked_nil; [|exact None]. clear E1 E2 None Odd. destruct (_ && _)%bool.
    { destruct a0; try discriminate. cbv zeta in Hx.
      generalize dependent (same_chars (to_uppercase s) (chars "ASCENDING")). intros b1 Hx.
      generalize dependent (same_chars (to_uppercase s) (chars "DESCENDING")). intros b2 Hx.
      generalize dependent (same_chars (to_uppercase s) (chars "IGNORE")). intros b3 Hx.
      destruct b1; [winv Hx; reflexivity|]. destruct b2; [winv Hx; reflexivity|]. destruct b3; [winv Hx; reflexivity|]. discriminate. }
    destruct (str_mem _ _); [discriminate|]. winv Hx. reflexivity.
  Qed.
  Lemma properties_remarked p l sp evs : walk_schema_properties l (context_of p) = Ok (sp, evs) -> remarked evs (odd_annotation p l).
  Proof.
    unfold walk_schema_properties. generalize (mkProperties None [] None []). revert sp evs. induction l as [|a l IH]; intros sp evs sp0 W; cbn in W.
    - winv W. apply remarked_nil; [reflexivity|]. intros w X. destruct X as [a al s []].
    - winv W. eapply remarked_iff; [|apply remarked_app; [eapply property_remarked; exact E|eapply IH; exact W]]. intro w. split.
      + intros [X|X]; destruct X as [b al s Hb]; eapply oa_alias; eauto; [destruct Hb as [->|[]]; now left|now right].
      + intro X. destruct X as [b al s Hb]. destruct Hb as [->|Hb]; [left|right]; eapply oa_alias; eauto; now left.
  Qed.
  Lemma plain_annotations p l sp evs : ~ In "aliases" (special p) -> walk_schema_properties l (context_of p) = Ok (sp, evs) -> warned_of evs = [].
  Proof.
    intros N W. apply properties_remarked in W as [W _]. destruct (warned_of evs) as [|w r]; [reflexivity|]. destruct (W w (or_introl eq_refl)) as [b al s _ _ X]. contradiction.
  Qed.

  Lemma annotation_remarked pl l props e p ns s e' s' evs : walk_schema_properties l BARE_PROPS = Ok (props, e) -> walk_plain_type p ns = Ok (s, e') -> annotate_type pl props s = Ok (s', evs) ->
    remarked evs (fun w => l <> [] /\ exists ts ks, p = PtUnion ts /\ NoDup ks /\ (forall k, In k ks <-> mentioned l k) /\ w = AnnotationsDropped ks pl).
  Proof.
    intros W P A. assert (Hac : Forall (acceptable OnType) l) by (apply (accepted_iff OnType); eauto). pose proof W as W'. apply (walk_schema_properties_inv OnType) in W' as ((Hh & Hnd & _) & _).
    assert (Ks : forall k, In k (keys (sp_props props)) <-> mentioned l k).
    { intro k. split.
      - intro Hk. apply In_keys_assoc in Hk as [v Hv]. apply Hh in Hv as [Hv _]. eapply annotated_mentioned; eauto.
      - intro Hm. destruct (mentioned_annotated _ _ _ Hac Hm) as [v Hv]. eapply assoc_Some_In_keys. apply Hh. split; [exact Hv|intros []]. }
    apply annotate_type_cases in A as [(Ep & _ & ->)|(Hne & _ & _ & ->)].
    - apply remarked_nil; [reflexivity|]. intros w (Hl & _). destruct l as [|x l]; [congruence|]. rewrite Ep in Ks. apply (Ks (identifier_text (an_name x))). exists x. split; [now left|reflexivity].
    - destruct p as [t|t|ts|b o].
      + cbn in P. winv P. winv P. apply remarked_nil; [reflexivity|]. intros w (_ & ts & ks & X & _). discriminate.
      + cbn in P. winv P. winv P. apply remarked_nil; [reflexivity|]. intros w (_ & ts & ks & X & _). discriminate.
      + rewrite walk_union_eq in P. winv P. apply check_union_ok in P as (-> & -> & _). cbn. split.
        * intros w [<-|[]]. split; [intros ->; cbn in W; injection W as <- _; apply Hne; reflexivity|]. exists ts, (keys (sp_props props)). repeat split; [exact Hnd|apply Ks|apply Ks].
        * intros w (_ & ts' & ks & X & Nk & Hk & ->). exists (AnnotationsDropped (keys (sp_props props)) pl). split; [|now left]. cbn. split; [|reflexivity].
          apply NoDup_Permutation; [exact Nk|exact Hnd|]. intro k. now rewrite Ks, Hk.
      + apply (nullable_shape b o ns) in P as (_ & base & Hs & Hb). apply remarked_nil; [|intros w (_ & ts & ks & X & _); discriminate].
        destruct Hs as [[-> ->]|(-> & -> & _)]; [|reflexivity]. destruct Hb as [(k & kp & _ & Hk)|(i & sp & _ & ->)].
        * destruct (prim_type_leaf _ _ _ Hk) as [_ [(q & ->)|(lt & ->)]]; reflexivity.
        * destruct (reference_shape i sp ns) as (n & q & ->). reflexivity.
  Qed.
  Lemma type_remarked :
    (forall t ns s evs, walk_full_type t ns = Ok (s, evs) -> remarked evs (odd_type t)) /\ (forall p ns s evs, walk_plain_type p ns = Ok (s, evs) -> remarked evs (odd_plain p)).
  Proof.
    apply types_ind.
    - intros pl l p IH ns s evs W. rewrite walk_full_eq in W. winv W. winv W. apply remarked_right; [eapply (plain_annotations OnType); [|exact E]; intros []|].
      eapply remarked_iff; [|apply remarked_app; [eapply IH; exact E0|eapply annotation_remarked; eauto]]. intro w. split.
      + intros [X|(Hl & ts & ks & -> & N & K & ->)]; [now constructor|now apply ot_union].
      + intro X. inversion X; subst; [right; eauto 8|now left].
    - intros t IH ns s evs W. cbn in W. winv W. winv W. rewrite app_nil_r. eapply remarked_iff; [|eapply IH; exact E]. intro w. split; [now constructor|]. intro X. now inversion X; subst.
    - intros t IH ns s evs W. cbn in W. winv W. winv W. rewrite app_nil_r. eapply remarked_iff; [|eapply IH; exact E]. intro w. split; [now constructor|]. intro X. now inversion X; subst.
    - intros ts IH ns s evs W. rewrite walk_union_eq in W. winv W. apply check_union_ok in W as (-> & -> & _). rewrite app_nil_r. rewrite Forall_forall in IH.
      eapply remarked_iff; [|eapply (remarked_map _ odd_type); [|exact E]; intros t y ev Ht Hw; exact (IH t Ht _ _ _ Hw)]. intro w. split; [intros (t & Ht & X); eapply op_branch; eauto|]. intro X. inversion X; subst. eauto.
    - intros b o ns s evs W. apply (nullable_shape b o ns) in W as (-> & _). apply remarked_nil; [reflexivity|]. intros w X. inversion X.
  Qed.

  Context (tokens : list token).
  Lemma doc_remarked start d evs : walk_doc tokens start = Ok (d, evs) -> warned_of evs = [].
  Proof. unfold walk_doc. destruct (extract_doc_comment tokens start) as [[i x]|]; intro W; [winv W; winv W; winv E; reflexivity|now winv W]. Qed.
  Lemma variable_remarked v ty dd f evs : walk_variable tokens v ty dd = Ok (f, evs) -> remarked evs (odd_annotation OnField (v_annotations v)).
  Proof.
    unfold walk_variable. intro W. winv W. winv W. winv W. apply remarked_right; [eapply doc_remarked; eauto|]. apply remarked_left; [eapply (properties_remarked OnField); eassumption|].
    match goal with X : (match v_default v with _ => _ end) = Ok (_, ?l) |- _ => assert (l = []) as -> by (destruct (v_default v); [winv X; winv X; match goal with Y : walk_json_value _ = _ |- _ => apply walk_json_iff in Y as [_ ->] end; reflexivity|now winv X]) end.
    cbn. destruct a1; [destruct (validate_default _ _); [discriminate|]|]; now winv W.
  Qed.
  Definition odd_field (f : field_decl) (w : walk_warning) : Prop := odd_type (fd_type f) w \/ exists v, In v (fd_variables f) /\ odd_annotation OnField (v_annotations v) w.
  Lemma field_remarked f ns fs evs : walk_field_declaration tokens f ns = Ok (fs, evs) -> remarked evs (odd_field f).
  Proof.
    unfold walk_field_declaration. intro W. winv W. winv W. apply remarked_right; [eapply doc_remarked; eauto|]. apply remarked_app; [eapply (proj1 type_remarked); eauto|].
    eapply (remarked_map _ (fun v => odd_annotation OnField (v_annotations v))); [|exact W]. intros v y ev _ Hv. eapply variable_remarked; exact Hv.
  Qed.
  Lemma fields_remarked l : forall seen ns fs evs, walk_fields tokens seen l ns = Ok (fs, evs) -> remarked evs (fun w => exists f, In f l /\ odd_field f w).
  Proof.
    induction l as [|f l IH]; intros seen ns fs evs W; cbn in W.
    - winv W. apply remarked_nil; [reflexivity|]. intros w (f & [] & _).
    - winv W. destruct (first_duplicate _ _); [discriminate|]. winv W. winv W. rewrite app_nil_r. eapply remarked_iff; [|apply remarked_app; [eapply field_remarked; exact E|eapply IH; exact E0]].
      intro w. split; [intros [X|(g & Hg & X)]; eauto using in_eq, in_cons|]. intros (g & [->|Hg] & X); eauto.
  Qed.
  Lemma named_remarked d ns s evs : walk_named tokens d ns = Ok (s, evs) -> remarked evs (odd_named d).
  Proof.
    destruct d as [r|e|x]; cbn [walk_named]; intro W.
    - unfold walk_record in W. winv W. winv W. destruct (is_invalid_type_name _); [discriminate|]. winv W. winv W. rewrite app_nil_r. apply remarked_right; [eapply doc_remarked; eauto|].
      eapply remarked_iff; [|apply remarked_app; [eapply (properties_remarked OnRecord); exact E0|eapply fields_remarked; exact E1]]. intro w. split.
      + intros [X|(f & Hf & [X|(v & Hv & X)])]; [now apply on_annotation|eapply on_type; eauto|eapply on_variable; eauto].
      + intro X. inversion X; subst; [now left|right; eexists; split; [eassumption|now left]|right; eexists; split; [eassumption|right; eauto]].
    - unfold walk_enum in W. winv W. winv W. destruct (is_invalid_type_name _); [discriminate|]. apply remarked_right; [eapply doc_remarked; eauto|]. apply remarked_left.
      + eapply remarked_iff; [|eapply (properties_remarked OnEnum); exact E0]. intro w. split; [intro X; now apply on_annotation|]. intro X. now inversion X; subst.
      + cbv zeta in W. destruct (first_duplicate _ _); [discriminate|]. destruct (e_default e); [destruct (str_mem _ _); [|discriminate]|]; now winv W.
    - unfold walk_fixed in W. winv W. winv W. destruct (is_invalid_type_name _); [discriminate|]. winv W. winv W. winv E1. cbn. apply remarked_right; [eapply doc_remarked; eauto|]. rewrite app_nil_r.
      eapply remarked_iff; [|eapply (properties_remarked OnFixed); exact E0]. intro w. split; [intro X; now apply on_annotation|]. intro X. now inversion X; subst.
  Qed.
  Definition odd_parameter (pa : parameter) (w : walk_warning) : Prop := odd_type (pa_type pa) w \/ odd_annotation OnField (v_annotations (pa_variable pa)) w.
  Lemma parameters_remarked l : forall seen ns fs evs, walk_parameters tokens seen l ns = Ok (fs, evs) -> remarked evs (fun w => exists pa, In pa l /\ odd_parameter pa w).
  Proof.
    induction l as [|p l IH]; intros seen ns fs evs W; cbn in W.
    - winv W. apply remarked_nil; [reflexivity|]. intros w (f & [] & _).
    - winv W. winv W. winv W. destruct (str_mem _ _); [discriminate|]. winv W. winv W. rewrite app_nil_r. apply remarked_right; [eapply doc_remarked; eauto|]. rewrite app_assoc.
      eapply remarked_iff; [|apply remarked_app; [apply remarked_app; [eapply (proj1 type_remarked); exact E0|eapply variable_remarked; exact E1]|eapply IH; exact E2]].
      intro w. split; [intros [X|(g & Hg & X)]; [exists p; split; [now left|exact X]|eauto using in_cons]|]. intros (g & [->|Hg] & X); eauto.
  Qed.
  Lemma message_remarked m ns nm evs : walk_message tokens m ns = Ok (nm, evs) -> remarked evs (odd_message m).
  Proof.
    unfold walk_message. intro W. winv W. winv W. winv W. destruct (_ && _)%bool; [discriminate|]. winv W. apply remarked_right; [eapply doc_remarked; eauto|]. apply remarked_right; [eapply (plain_annotations OnMessage); [|exact E0]; intros []|].
    destruct (_ && _)%bool; [discriminate|]. winv W. rewrite app_nil_r. eapply remarked_iff; [|apply remarked_app; [|eapply parameters_remarked; exact E2]].
    2: { instantiate (1 := fun w => exists p, md_result m = Some p /\ odd_plain p w). destruct (md_result m) as [p|]; cbn in E1.
         - eapply remarked_iff; [|eapply (proj2 type_remarked); exact E1]. intro w. split; [eauto|]. intros (q & X & Hq). injection X as <-. exact Hq.
         - winv E1. apply remarked_nil; [reflexivity|]. intros w (q & X & _). discriminate. }
    intro w. split.
    - intros [(p & Hp & X)|(pa & Hpa & [X|X])]; [eapply om_result; eauto|eapply om_type; eauto|eapply om_variable; eauto].
    - intro X. destruct X; [left; eauto|right; eexists; split; [eassumption|now left]|right; eexists; split; [eassumption|now right]].
  Qed.
  Lemma items_remarked l ns ds ms evs : walk_items tokens l ns = Ok ((ds, ms), evs) ->
    remarked evs (fun w => (exists d p, In (ItNamed d p) l /\ odd_named d w) \/ exists m, In (ItMessage m) l /\ odd_message m w).
  Proof.
    revert ds ms evs. induction l as [|it l IH]; intros ds ms evs W; cbn in W.
    - winv W. apply remarked_nil; [reflexivity|]. intros w [(d & p & [] & _)|(m & [] & _)].
    - destruct it as [k path p|d p|m].
      + winv W. winv W. destruct a as [ds' ms']. rewrite app_nil_r. eapply remarked_iff; [|eapply IH; exact E]. intro w. split.
        * intros [(d & q & Hd & X)|(m & Hm & X)]; [left|right]; eauto 6 using in_cons.
        * intros [(d & q & [Y|Hd] & X)|(m & [Y|Hm] & X)]; try discriminate; [left|right]; eauto 6.
      + winv W. winv W. winv W. destruct a0 as [ds' ms']. rewrite app_nil_r. eapply remarked_iff; [|apply remarked_app; [eapply named_remarked; exact E|eapply IH; exact E0]]. intro w. split.
        * intros [X|[(d' & q & Hd & X)|(m & Hm & X)]]; [left; eauto 6 using in_eq|left; eauto 6 using in_cons|right; eauto 6 using in_cons].
        * intros [(d' & q & [Y|Hd] & X)|(m & [Y|Hm] & X)]; try discriminate; [injection Y as <- <-; now left|right; left; eauto 6|right; right; eauto].
      + winv W. winv W. winv W. destruct a0 as [ds' ms']. rewrite app_nil_r. eapply remarked_iff; [|apply remarked_app; [eapply message_remarked; exact E|eapply IH; exact E0]]. intro w. split.
        * intros [X|[(d' & q & Hd & X)|(m' & Hm & X)]]; [right; eauto 6 using in_eq|left; eauto 6 using in_cons|right; eauto 6 using in_cons].
        * intros [(d' & q & [Y|Hd] & X)|(m' & [Y|Hm] & X)]; try discriminate; [right; left; eauto 6|injection Y as <-; now left|right; right; eauto].
  Qed.
  Lemma file_remarked t r evs : walk_idl_file tokens t = Ok (r, evs) -> remarked evs (odd t).
  Proof.
    destruct t as [start l x its|nsd main its]; cbn [walk_idl_file]; intro W.
    - winv W. winv W. destruct (is_invalid_type_name _); [discriminate|]. winv W. winv W. destruct a1 as [ds ms]. rewrite app_nil_r. apply remarked_right; [eapply doc_remarked; eauto|]. apply remarked_right; [eapply (plain_annotations OnProtocol); [|exact E0]; cbn; intuition discriminate|].
      eapply remarked_iff; [|eapply items_remarked; exact E1]. intro w. split.
      + intros [(d & p & Hd & X)|(m & Hm & X)]; [eapply od_named; eauto|eapply od_message; eauto].
      + intro X. inversion X; subst; cbn [tree_items] in *; eauto 6.
    - winv W. destruct a as [ds ms]. destruct main as [ft|].
      + winv W. winv W. rewrite app_nil_r. eapply remarked_iff; [|apply remarked_app; [eapply items_remarked; exact E|eapply (proj1 type_remarked); exact E0]]. intro w. split.
        * intros [[(d & p & Hd & X)|(m & Hm & X)]|X]; [eapply od_named; eauto|eapply od_message; eauto|now apply od_main].
        * intro X. inversion X; subst; cbn [tree_items] in *; eauto 7.
      + winv W. rewrite app_nil_r. eapply remarked_iff; [|eapply items_remarked; exact E]. intro w. split.
        * intros [(d & p & Hd & X)|(m & Hm & X)]; [eapply od_named; eauto|eapply od_message; eauto].
        * intro X. inversion X; subst; cbn [tree_items] in *; eauto 6.
  Qed.
End Odd.
