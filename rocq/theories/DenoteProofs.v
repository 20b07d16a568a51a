(** The walker computes what the specification of IDL says. *)
From Verif Require Import SpecFile BaseProofs NameProofs DefaultsProofs ReaderProofs TypeProofs PatternProofs DeclProofs FileProofs AnnotProofs AttrProofs.

Section Denotation.
  Context `{Unicode} `{Floats}.

  (** ** Types *)
  Lemma keyword_denotes k kp ns s e : walk_primitive_type k = Ok (s, e) -> denotes_plain ns (PtNullable (BPrimitive k kp) false) s.
  Proof.
    intro Hx. pose proof (keyword_logical_type k) as Hk. destruct (keyword_logical k) as [lt|] eqn:Ek.
    - assert (s = SLogical lt []) by congruence. subst. now constructor.
    - destruct (Hk _ _ Hx) as [->|(p & q & ->)].
      + destruct k as [| | | | | | | | | | | | |p q]; try (constructor; [exact Ek|discriminate]).
        apply decimal_keyword in Hx. destruct Hx as (a & b & _ & _ & _ & _ & Hc & _). discriminate.
      + apply decimal_keyword in Hx. destruct Hx as (a & b & Ha & Hb & H1 & H2 & -> & _). destruct q as [t|].
        * now apply dn_decimal_scale.
        * subst b. now apply dn_decimal.
  Qed.
  Lemma reference_denotes i sp ns : exists n q, refers ns i (n, q) /\ reference i sp ns = SRef n q [] sp.
  Proof.
    destruct (reference_shape i sp ns) as (n & q & E). destruct (reference_refers i sp ns) as (r & Er & Hr).
    rewrite E in Er. cbn in Er. injection Er as <-. eauto.
  Qed.
  Lemma nullable_denotes b o ns s e : walk_nullable_type b o ns = Ok (s, e) -> denotes_plain ns (PtNullable b o) s.
  Proof.
    intro Hx. apply nullable_shape in Hx. destruct Hx as (_ & base & Hs & Hb).
    assert (K : denotes_plain ns (PtNullable b false) base).
    { destruct Hb as [(k & kp & -> & Hk)|(i & sp & -> & ->)]; [eapply keyword_denotes; eauto|].
      destruct (reference_denotes i sp ns) as (n & q & Hr & ->). now constructor. }
    destruct Hs as [[-> ->]|(-> & -> & Hn)]; [exact K|]. now constructor.
  Qed.

  Lemma walk_denotes :
    (forall t ns s e, walk_full_type t ns = Ok (s, e) -> denotes ns t s) /\
    (forall p ns s e, walk_plain_type p ns = Ok (s, e) -> denotes_plain ns p s).
  Proof.
    apply types_ind.
    - intros pl l p IH ns s e Hx. destruct (walk_annotated _ _ _ _ _ _ Hx) as (s0 & e0 & Hp & Ha). rewrite walk_full_plain in Hp.
      assert (Hac : Forall (acceptable OnType) l).
      { rewrite walk_full_eq in Hx. winv Hx. apply (accepted_iff OnType). eauto. }
      apply (dn_annotated ns pl l p s0); [eauto|exact Hac| |exact Ha]. intros (i & sp & o & ->). eapply reference_not_annotated; eauto.
    - intros t IH ns s e Hx. cbn in Hx. winv Hx. winv Hx. constructor. eauto.
    - intros t IH ns s e Hx. cbn in Hx. winv Hx. winv Hx. constructor. eauto.
    - intros ts IH ns s e Hx. rewrite walk_union_eq in Hx. winv Hx. apply check_union_ok in Hx. destruct Hx as (-> & -> & Hl).
      constructor; [|exact Hl]. apply wmap_Forall2 in E. clear Hl. induction E as [|x y ts ys (e & Hx) E IH']; [constructor|].
      inversion IH; subst. constructor; eauto.
    - intros b o ns s e Hx. now apply nullable_denotes in Hx.
  Qed.

  (** ** Completeness: what denotes something is accepted *)
  Lemma key_of_inj c c' : (forall f, c = BcNamed f -> ~ In f union_words) -> (forall f, c' = BcNamed f -> ~ In f union_words) ->
    key_of c = key_of c' -> c = c'.
  Proof.
    intros H1 H2 E. destruct c as [p| | | |f], c' as [p'| | | |f']; cbn in E;
      try (destruct p); try (destruct p'); try reflexivity; try discriminate;
      try (exfalso; apply (H1 f eq_refl); rewrite E; cbn; tauto); try (exfalso; apply (H2 f' eq_refl); rewrite <- E; cbn; tauto).
    now subst.
  Qed.

  Lemma check_union_accepts pls ts : legal_union ts -> (forall t f, In t ts -> class_of t = BcNamed f -> ~ In f union_words) ->
    check_union pls ts = Ok (SUnion ts false, []).
  Proof.
    intros [Hn Hu] Hc. unfold check_union. destruct (existsb is_union ts) eqn:E.
    - exfalso. apply existsb_exists in E. destruct E as (t & Ht & Hi). apply Hu. apply in_map_iff. exists t. split; [|exact Ht].
      destruct t; try discriminate. reflexivity.
    - destruct (first_duplicate [] (map union_type_key ts)) eqn:Ed; [|reflexivity]. exfalso.
      assert (K : first_duplicate [] (map union_type_key ts) = None); [|congruence]. clear Ed. apply first_duplicate_none.
      split; [|intros x _ []]. rewrite (map_ext _ _ union_key), <- (map_map class_of key_of).
      clear Hu E. induction ts as [|t ts IH]; [constructor|]. cbn [map] in *. inversion Hn; subst. constructor.
      + intro Hi. apply in_map_iff in Hi. destruct Hi as (c & Ec & Hi). apply in_map_iff in Hi. destruct Hi as (u & <- & Hi).
        match goal with Hx : ~ In (class_of t) _ |- _ => apply Hx end. apply in_map_iff. exists u. split; [|exact Hi].
        apply key_of_inj; [| |exact Ec]; intros f Hf; [apply (Hc u f)|apply (Hc t f)]; auto; [now right|now left].
      + apply IH; [assumption|]. intros u f Hi. apply (Hc u f). now right.
  Qed.

  Lemma annotated_class_of l s s' : annotated_as l s s' -> class_of s' = class_of s.
  Proof.
    induction 1 as [s Hl|s s' Ha IH|ts|s s' Hs _|]; try reflexivity. inversion Hs; subst; cbn; congruence.
  Qed.
  Lemma primitive_accepts k kp ns s : denotes_plain ns (PtNullable (BPrimitive k kp) false) s -> walk_primitive_type k = Ok (s, []).
  Proof.
    intro Hd. inversion Hd as [k' lt kp' Hk E1 E2|k' kp' Hk Hn E1 E2|p a kp' Ha H1 E1 E2|p t a b kp' Ha Hb H1 H2 E1 E2| | | | |]; subst.
    - pose proof (keyword_logical_type k) as K. now rewrite Hk in K.
    - destruct k as [| | | | | | | | | | | | |p q]; try discriminate; try reflexivity. exfalso. now apply (Hn p q).
    - apply decimal_keyword. exists a, 0%N. repeat split; auto. lia.
    - apply decimal_keyword. exists a, b. repeat split; auto.
  Qed.
  Lemma refers_det ns i r r' : refers ns i r -> refers ns i r' -> r = r'.
  Proof.
    intros H1 H2. inversion H1 as [q n Hq E|Hq E]; inversion H2 as [q' n' Hq' E'|Hq' E']; subst; try reflexivity.
    - apply rsplit_qualified in Hq, Hq'. congruence.
    - apply rsplit_qualified in Hq. apply rsplit_None in Hq'. congruence.
    - apply rsplit_qualified in Hq'. apply rsplit_None in Hq. congruence.
  Qed.
  Lemma base_accepts b ns s : denotes_plain ns (PtNullable b false) s ->
    match b with BPrimitive k _ => walk_primitive_type k | BReference i sp => wret (reference i sp ns) end = Ok (s, []).
  Proof.
    intro Hd. destruct b as [k kp|i sp]; [now apply (primitive_accepts k kp ns)|].
    inversion Hd as [| | | |i' sp' n q Hr| | | |]; subst. destruct (reference_denotes i sp ns) as (n' & q' & Hr' & E). rewrite E.
    pose proof (refers_det _ _ _ _ Hr Hr') as Er. now injection Er as <- <-.
  Qed.
  Lemma nullable_accepts b o ns s : denotes_plain ns (PtNullable b o) s -> walk_nullable_type b o ns = Ok (s, []).
  Proof.
    intro Hd. unfold walk_nullable_type. destruct o.
    - inversion Hd as [| | | | |b' s0 Hd0 Hn| | |]; subst. rewrite (base_accepts _ _ _ Hd0). cbn.
      destruct s0 as [[]| | | | | | | | |]; try reflexivity. congruence.
    - rewrite (base_accepts _ _ _ Hd). reflexivity.
  Qed.

  Lemma walk_accepts :
    (forall t ns s, denotes ns t s -> clear_names ns (type_idents t) ->
       exists s' e, walk_full_type t ns = Ok (s', e) /\ class_of s' = class_of s) /\
    (forall p ns s, denotes_plain ns p s -> clear_names ns (plain_idents p) ->
       exists s' e, walk_plain_type p ns = Ok (s', e) /\ class_of s' = class_of s).
  Proof.
    apply types_ind.
    - intros pl l p IH ns s Hd Hc. inversion Hd as [pl' l' p' s0 s' Hp Hl Hr Ha]; subst. cbn in Hc.
      destruct (IH _ _ Hp Hc) as (s1 & e1 & Hw & Ec). rewrite walk_full_eq.
      destruct (proj2 (accepted_iff OnType l) Hl) as (sp & e0 & Hs). change (context_of OnType) with BARE_PROPS in Hs. rewrite Hs. cbn [wbind].
      rewrite Hw. cbn [wbind]. rewrite (annotated_class_of _ _ _ Ha). 
      assert (K : sp_props sp = [] \/ is_type_reference s1 = false).
      { destruct p as [t|t|ts|b o].
        - right. cbn in Hw. winv Hw. winv Hw. reflexivity.
        - right. cbn in Hw. winv Hw. winv Hw. reflexivity.
        - right. rewrite walk_union_eq in Hw. winv Hw. apply check_union_ok in Hw. destruct Hw as (-> & _ & _).
          destruct a as [|x [|y [|z r]]]; reflexivity.
        - destruct b as [k kp|i spn].
          + right. apply (nullable_shape (BPrimitive k kp) o ns) in Hw. destruct Hw as (_ & base & Hs' & Hb).
            destruct Hb as [(k' & kp' & _ & Hk)|(i & sp' & Hx & _)]; [|discriminate].
            destruct (prim_type_leaf _ _ _ Hk) as [_ [(q & ->)|(lt & ->)]]; destruct Hs' as [[_ ->]|(_ & -> & _)]; reflexivity.
          + left. rewrite (Hr (ex_intro _ i (ex_intro _ spn (ex_intro _ o eq_refl)))) in Hs. cbn in Hs. injection Hs as <- _. reflexivity. }
      assert (K2 : exists s' e', annotate_type pl sp s1 = Ok (s', e')).
      { unfold annotate_type. destruct K as [-> | ->]; [do 2 eexists; reflexivity|]. destruct (sp_props sp) as [|kv r]; [do 2 eexists; reflexivity|].
        destruct (is_non_nullable_union s1); do 2 eexists; reflexivity. }
      destruct K2 as (s' & e' & Hs'). rewrite Hs'. cbn. do 2 eexists. split; [reflexivity|]. rewrite <- Ec. eapply annotate_class; eauto.
    - intros t IH ns s Hd Hc. inversion Hd as [| | | | | |t' s0 Ht| |]; subst. destruct (IH _ _ Ht Hc) as (s' & e & Hw & _).
      change (walk_plain_type (PtArray t) ns) with (let* i := walk_full_type t ns in wret (SArray i [])). rewrite Hw. do 2 eexists. split; reflexivity.
    - intros t IH ns s Hd Hc. inversion Hd as [| | | | | | |t' s0 Ht|]; subst. destruct (IH _ _ Ht Hc) as (s' & e & Hw & _).
      change (walk_plain_type (PtMap t) ns) with (let* i := walk_full_type t ns in wret (SMap i [])). rewrite Hw. do 2 eexists. split; reflexivity.
    - intros ts IH ns s Hd Hc. inversion Hd as [| | | | | | | |ts' ss Hts Hl]; subst. rewrite walk_union_eq.
      assert (K : exists zs, Forall2 (fun t z => walk_full_type t ns = Ok z) ts zs /\ map class_of (map fst zs) = map class_of ss).
      { clear Hd Hl. cbn in Hc. revert IH Hc. induction Hts as [|t s ts ss Ht Hts IHts]; intros IH Hc; [exists []; split; [constructor|reflexivity]|].
        inversion IH as [|t' ts' IH1 IH2]; subst. destruct IHts as (zs & Hz & Ez); [exact IH2| |].
        { intros i n q Hi. apply Hc. cbn. apply in_or_app. now right. }
        destruct (IH1 _ _ Ht) as (s' & e & Hw & Ec); [intros i n q Hi; apply Hc; cbn; apply in_or_app; now left|].
        exists ((s', e) :: zs). split; [now constructor|]. cbn. congruence. }
      destruct K as (zs & Hz & Ez). rewrite (wmap_ok_rev _ _ _ Hz). cbn [wbind].
      rewrite check_union_accepts.
      + cbn. do 2 eexists. split; reflexivity.
      + unfold legal_union in *. now rewrite Ez.
      + intros s' f Hi Ef. apply in_map_iff in Hi. destruct Hi as ([s1 e1] & <- & Hi). cbn in Ef.
        destruct (Forall2_in_r _ _ _ _ Hz Hi) as (t & Ht & Hw). cbn in Hw.
        pose proof (proj1 walk_shape _ _ _ _ Hw) as Hsh. pose proof (proj1 walk_refs _ _ _ _ Hw) as Href.
        destruct s1 as [| | | | | | | | |n q ps spn]; try discriminate; try contradiction. cbn in Ef, Href. injection Ef as <-.
        inversion Href as [|i r li lr Hri Hrest]; subst. inversion Hrest; subst. apply (Hc i); [|exact Hri].
        cbn. apply in_flat_map. exists t. split; [exact Ht|].
        match goal with E : _ = type_idents t |- _ => rewrite <- E end. now left.
    - intros b o ns s Hd Hc. change (walk_plain_type (PtNullable b o) ns) with (walk_nullable_type b o ns).
      rewrite (nullable_accepts _ _ _ _ Hd). eauto.
  Qed.

  (** ** Declarations *)
  Variable tokens : list token.

  Lemma invalid_word n : is_invalid_type_name n = false -> ~ In n type_words.
  Proof.
    intros Hn Hi. cbn in Hi.
    repeat (destruct Hi as [<-|Hi]; [vm_compute in Hn; discriminate|]). exact Hi.
  Qed.

  Lemma json_null j t : json_means t j -> (t = JTNull /\ j = JNull) \/ (t <> JTNull /\ j <> JNull).
  Proof.
    intro Hj. destruct j; try (right; split; [intros ->; inversion Hj|discriminate]).
    left. split; [|reflexivity]. apply (walk_json_null t []). apply walk_json_iff. auto.
  Qed.

  Lemma variable_typed ns ft v ty e d s : walk_full_type ft ns = Ok (ty, e) -> default_means (v_default v) d ->
    s = fix_optional_schema ty d -> variable_type ns v ft s.
  Proof.
    intros Hw Hd ->. destruct ft as [pl l p].
    assert (Hp : (exists b, p = PtNullable b true) \/ (forall b, p <> PtNullable b true)).
    { destruct p as [| | |b []]; try (right; discriminate). left; eauto. }
    destruct Hp as [(b & ->)|Hp].
    - destruct (walk_optional _ _ _ _ _ _ Hw) as (T & HT & ->). apply (proj1 walk_denotes) in HT.
      destruct Hd as [[E ->]|(t & j & E & -> & Hj)].
      + cbn. apply vt_null_first; [exact HT|now left].
      + destruct (json_null j t Hj) as [[-> ->]|[Hn1 Hn2]].
        * cbn. apply vt_null_first; [exact HT|now right].
        * assert (Ef : fix_optional_schema (SUnion [SPrim PNull; T] true) (Some j) = SUnion [T; SPrim PNull] true) by (destruct j; try reflexivity; congruence).
          rewrite Ef. apply vt_null_last; [exact HT|]. intros [Hc|Hc]; rewrite E in Hc; congruence.
    - pose proof (walk_not_optional _ _ _ _ _ _ Hp Hw) as Hno. rewrite fix_not_optional by exact Hno.
      apply vt_other; [exact Hp|]. eapply (proj1 walk_denotes); eauto.
  Qed.

  Lemma variable_acceptable v ty dd f evs : walk_variable tokens v ty dd = Ok (f, evs) -> Forall (acceptable OnField) (v_annotations v).
  Proof. intro Hx. unfold walk_variable in Hx. winv Hx. winv Hx. apply (accepted_iff OnField). eauto. Qed.

  Lemma field_denotes ns ft start v f : field_from tokens ns ft start v f -> Forall (acceptable OnField) (v_annotations v) ->
    variable_denotes tokens ns ft start v f.
  Proof.
    intros (ty & evs & d & dd & Hw & Hn & Hs & Hd & Hdd & Hdoc & Hdm & Hv & Hh & Hal & Ho) Hac. constructor; try assumption.
    - eapply variable_typed; eauto.
    - exists d, dd. split; [exact Hd|]. split; [exact Hdd|]. rewrite Hdoc. now destruct d.
    - destruct Hdm as [[-> ->]|(t & j & -> & -> & Hj)]; now constructor.
    - intros j Hj. apply validate_default_none. now apply Hv.
  Qed.

  Lemma field_declaration_acceptable fd ns fs evs : walk_field_declaration tokens fd ns = Ok (fs, evs) ->
    Forall (fun v => Forall (acceptable OnField) (v_annotations v)) (fd_variables fd).
  Proof.
    intro Hx. unfold walk_field_declaration in Hx. winv Hx. winv Hx. apply wmap_ok in Hx. destruct Hx as (zs & Hz & _).
    apply Forall_forall. intros v Hv. destruct (Forall2_in_l _ _ _ _ Hz Hv) as ([f e] & _ & Hf). eapply variable_acceptable; eauto.
  Qed.
  Lemma fields_acceptable l : forall seen ns fs evs, walk_fields tokens seen l ns = Ok (fs, evs) ->
    Forall (fun dv => Forall (acceptable OnField) (v_annotations (snd dv))) (variables_of l).
  Proof.
    induction l as [|fd l IH]; intros seen ns fs evs Hx; cbn in Hx; [constructor|]. winv Hx.
    destruct (first_duplicate seen (map f_name a)); [discriminate|]. winv Hx. winv Hx.
    cbn. apply Forall_app. split; [|eauto]. apply Forall_map. cbn. eapply field_declaration_acceptable; eauto.
  Qed.
  Lemma parameters_acceptable l : forall seen ns fs evs, walk_parameters tokens seen l ns = Ok (fs, evs) ->
    Forall (fun p => Forall (acceptable OnField) (v_annotations (pa_variable p))) l.
  Proof.
    induction l as [|p l IH]; intros seen ns fs evs Hx; cbn in Hx; [constructor|]. winv Hx. winv Hx. winv Hx.
    destruct (str_mem (f_name a1) seen); [discriminate|]. winv Hx. winv Hx. constructor; [eapply variable_acceptable; eauto|eauto].
  Qed.
  Lemma Forall2_Forall_l {A B} (P : A -> Prop) (R Q : A -> B -> Prop) l m : Forall P l -> Forall2 R l m ->
    (forall x y, P x -> R x y -> Q x y) -> Forall2 Q l m.
  Proof. intros Hp Hr Hi. induction Hr; [constructor|]. inversion Hp; subst. constructor; auto. Qed.

  Lemma walk_named_denotes d ns s e : walk_named tokens d ns = Ok (s, e) -> named_denotes tokens ns d s.
  Proof.
    destruct d as [r|en|x]; cbn [walk_named]; intro Hx.
    - assert (Hac : Forall (acceptable OnRecord) (r_annotations r) /\
                    Forall (fun dv => Forall (acceptable OnField) (v_annotations (snd dv))) (variables_of (r_fields r))).
      { pose proof Hx as Hx'. unfold walk_record in Hx'. winv Hx'. winv Hx'. split; [apply (accepted_iff OnRecord); eauto|].
        destruct (is_invalid_type_name _); [discriminate|]. winv Hx'. eapply fields_acceptable; eauto. }
      apply walk_record_spec in Hx. destruct Hx as (n & q & doc & fs & al & ps & -> & Hn & Hi & Hd & Hh & Hal & Hf & Hnd & _).
      apply nd_record; [|eapply Forall2_Forall_l; [exact (proj2 Hac)|exact Hf|]|exact Hnd].
      + constructor; try assumption; [now apply invalid_word|exact (proj1 Hac)].
      + intros [fd v] f Ha Hff. now apply field_denotes.
    - assert (Hac : Forall (acceptable OnEnum) (e_annotations en)).
      { pose proof Hx as Hx'. unfold walk_enum in Hx'. winv Hx'. winv Hx'. apply (accepted_iff OnEnum); eauto. }
      apply walk_enum_spec in Hx. destruct Hx as (n & q & doc & sy & df & al & ps & -> & Hn & Hi & Hd & Hh & Hal & Hsy & Hnd & Hdf & Hin & _).
      subst sy df. apply nd_enum; [|exact Hnd|].
      + constructor; try assumption. now apply invalid_word.
      + intros d Ed. apply Hin. now rewrite Ed.
    - assert (Hac : Forall (acceptable OnFixed) (x_annotations x)).
      { pose proof Hx as Hx'. unfold walk_fixed in Hx'. winv Hx'. winv Hx'. apply (accepted_iff OnFixed); eauto. }
      apply walk_fixed_spec in Hx. destruct Hx as (n & q & doc & size & al & ps & -> & Hn & Hi & Hd & Hh & Hal & Hsz & _).
      apply nd_fixed; [|exact Hsz]. constructor; try assumption. now apply invalid_word.
  Qed.

  Lemma walk_message_denotes m ns nm e : walk_message tokens m ns = Ok (nm, e) -> message_denotes tokens ns m (snd nm).
  Proof.
    intro Hx.
    assert (Hac : Forall (acceptable OnMessage) (md_annotations m) /\
                  Forall (fun p => Forall (acceptable OnField) (v_annotations (pa_variable p))) (md_parameters m) /\
                  (forall p, md_result m = Some p -> is_reference p -> md_annotations m = [])).
    { unfold walk_message in Hx. winv Hx. winv Hx. winv Hx.
      assert (Hl : Forall (acceptable OnMessage) (md_annotations m)) by (apply (accepted_iff OnMessage); eauto).
      split; [exact Hl|]. destruct (_ && _)%bool eqn:Er; [discriminate|]. winv Hx.
      split; [eapply parameters_acceptable; eauto|]. intros p Hp (i & sp & o & ->).
      assert (Hr : is_type_reference a1 = true).
      { rewrite Hp in E1. apply (nullable_shape (BReference i sp) o ns) in E1. destruct E1 as (_ & base & Hs & Hb).
        destruct Hb as [(k & kp & Hc & _)|(i' & sp' & Hb & ->)]; [discriminate|]. injection Hb as <- <-.
        destruct (reference_shape i sp ns) as (n & q & Eq). rewrite Eq in Hs. destruct Hs as [[_ ->]|(_ & -> & _)]; reflexivity. }
      rewrite Hr, andb_true_r in Er. apply negb_false_iff in Er. destruct (sp_props a0) eqn:Ep; [|discriminate].
      apply (walk_schema_properties_inv OnMessage) in E0. destruct E0 as ((Hh & _) & _). rewrite Ep in Hh.
      destruct (md_annotations m) as [|x rest] eqn:Em; [reflexivity|]. exfalso.
      destruct (mentioned_annotated OnMessage (x :: rest) (identifier_text (an_name x)) Hl) as [v Hv]; [exists x; split; [now left|reflexivity]|].
      assert (Hc : assoc (identifier_text (an_name x)) (@nil (string * json)) = Some v) by (apply Hh; split; [exact Hv|intros []]). discriminate. }
    destruct Hac as (Ha1 & Ha2 & Ha3). apply walk_message_spec in Hx.
    destruct Hx as (_ & Hd & Hh & (e' & Hr) & Hp & Hnd & Ho & Hn & He & _). constructor; try assumption.
    - eapply Forall2_Forall_l; [exact Ha2|exact Hp|]. intros p f Hpa Hf. now apply field_denotes.
    - unfold walk_result_type in Hr. destruct (md_result m) as [p|].
      + constructor. eapply (proj2 walk_denotes); eauto.
      + winv Hr. match goal with E : m_response _ = _ |- _ => rewrite E end. constructor.
    - rewrite He. destruct (md_errors m) as [|x l]; constructor. generalize (x :: l) as es. induction es as [|y es IH]; constructor; [|exact IH].
      destruct (reference_denotes (fst y) (snd y) ns) as (n & q & Hrf & Eq). exists n, q. auto.
  Qed.

  Lemma item_read_denotes ns it d : item_read tokens ns it d -> item_denotes tokens ns it d.
  Proof. intro Hi. inversion Hi; subst; constructor. eapply walk_named_denotes; eauto. Qed.

  Lemma walk_file_denotes t file items evs : walk_idl_file tokens t = Ok ((file, items), evs) -> file_denotes tokens t file items.
  Proof.
    intro Hx. assert (Hac : forall start l ident its, t = TreeProtocol start l ident its -> Forall (acceptable OnProtocol) l).
    { intros start l ident its ->. unfold walk_idl_file in Hx. winv Hx. winv Hx. apply (accepted_iff OnProtocol). eauto. }
    destruct (walk_file_read tokens t file items evs Hx) as (ns & Hn & Hi & _ & _ & Hf).
    assert (Hi' : Forall2 (item_denotes tokens ns) (handed_on t) items).
    { eapply Forall2_imp; [|exact Hi]. intros it d. apply item_read_denotes. }
    destruct file as [p|s|l].
    - destruct Hf as (start & l & ident & its & -> & Hd & <- & Hw & Hdoc & Hh & Ht & Hnd & Hms & Hall).
      apply fi_protocol; try assumption.
      + now apply invalid_word.
      + eapply Hac; reflexivity.
      + intros name msg Hm. destruct (Hms _ Hm) as (m & e & Hl & Hw'). exists m. split; [exact Hl|].
        apply (walk_message_denotes _ _ _ _ Hw').
      + intros name m (before & after & Em & <- & _). apply Hall. rewrite Em. apply in_or_app. right. now left.
      + intros m Hm. destruct (Hall _ Hm) as (_ & nm & e & Hw'). exists (snd nm). eapply walk_message_denotes; eauto.
    - destruct Hf as (nsd & ft & is & e & -> & Hw). eapply fi_schema; eauto. eapply (proj1 walk_denotes); eauto.
    - destruct Hf as (-> & nsd & is & ->). eapply fi_named; eauto.
  Qed.

  Lemma reads_denotes `{Parser} label src t file items ws : reads label src tokens t file items ws -> file_denotes tokens t file items.
  Proof. intro Hr. apply reads_walk in Hr. destruct Hr as (evs & lw & Hw & _). eapply walk_file_denotes; eauto. Qed.
End Denotation.
