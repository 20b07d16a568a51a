(** Proofs about declarations: fields, named types, messages, files. *)
From Verif Require Import SpecReader BaseProofs NameProofs ReaderProofs TypeProofs PatternProofs.

Section Walker.
  Context `{Unicode} `{Floats}.

  (** ** Optional types *)
  Lemma walk_full_eq pl l p ns : walk_full_type (FullType pl l p) ns =
    let* props := walk_schema_properties l BARE_PROPS in let* s := walk_plain_type p ns in annotate_type pl props s.
  Proof. reflexivity. Qed.
  Lemma walk_full_plain pl p ns : walk_full_type (FullType pl [] p) ns = walk_plain_type p ns.
  Proof.
    rewrite walk_full_eq. change (walk_schema_properties [] BARE_PROPS) with (@wret schema_properties (mkProperties None [] None [])).
    destruct (walk_plain_type p ns) as [[s evs]|e]; [|reflexivity]. cbn. now rewrite app_nil_r.
  Qed.

  Lemma base_not_special b base ns :
    ((exists k pl, b = BPrimitive k pl /\ walk_primitive_type k = Ok (base, [])) \/ (exists i sp, b = BReference i sp /\ base = reference i sp ns)) ->
    is_type_reference (SUnion [SPrim PNull; base] true) = is_type_reference base /\
    is_non_nullable_union base = false /\ forall ps, apply_properties base ps = apply_properties_to_schema base ps.
  Proof.
    intros [(k & pl & -> & Hx)|(i & sp & -> & ->)].
    - destruct (prim_type_leaf _ _ _ Hx) as [_ [(p & ->)|(lt & ->)]]; auto.
    - destruct (reference_shape i sp ns) as (n & q & ->). auto.
  Qed.

  Lemma walk_optional pl l b ns s evs : walk_full_type (FullType pl l (PtNullable b true)) ns = Ok (s, evs) ->
    exists T, walk_full_type (FullType pl l (PtNullable b false)) ns = Ok (T, evs) /\ s = SUnion [SPrim PNull; T] true.
  Proof.
    intro Hx. cbn in Hx. winv Hx. winv Hx. apply nullable_shape in E0. destruct E0 as (-> & base & Hs & Hb).
    destruct Hs as [[Hs _]|(_ & -> & Hne)]; [discriminate|].
    assert (E1 : walk_nullable_type b false ns = Ok (base, [])).
    { unfold walk_nullable_type. destruct Hb as [(k & pl' & -> & Hk)|(i & sp & -> & ->)]; [rewrite Hk|]; reflexivity. }
    destruct (base_not_special _ _ _ Hb) as (R1 & R2 & R3). cbn. rewrite E, E1. cbn.
    apply annotate_type_cases in Hx. unfold annotate_type. destruct Hx as [(-> & -> & ->)|(Hp & Hr & -> & ->)].
    - exists base. split; reflexivity.
    - rewrite R1 in Hr. cbn [apply_properties]. destruct (sp_props a) as [|kv ps] eqn:Ep; [congruence|].
      rewrite Hr, R2. cbn. rewrite R3. exists (apply_properties_to_schema base (kv :: ps)). split; reflexivity.
  Qed.

  (** No other type is an optional type. *)
  Definition is_optional (s : schema) : Prop := exists a b, s = SUnion [a; b] true.
  Lemma promote_optional s : is_optional (try_promote_logical_type s) <-> is_optional s.
  Proof.
    destruct (promote_cases s) as [->|(k & ps & lt & -> & _ & ps' & ->)]; [reflexivity|].
    split; intros (a & b & Hx); discriminate.
  Qed.
  Lemma apply_not_optional s ps : ~ is_optional s -> ~ is_optional (apply_properties s ps).
  Proof.
    intros Hn. assert (K : forall s, ~ is_optional s -> ~ is_optional (apply_properties_to_schema s ps)).
    { intros t Ht. unfold apply_properties_to_schema. rewrite promote_optional. intros (a & b & E). destruct t; try discriminate.
      cbn in E. apply Ht. exists a, b. exact E. }
    unfold apply_properties. destruct s; try now apply K. destruct types as [|a [|b [|]]], is_nullable_type; try now apply K.
    exfalso. apply Hn. now exists a, b.
  Qed.

  Lemma walk_not_optional pl l p ns s evs : (forall b, p <> PtNullable b true) ->
    walk_full_type (FullType pl l p) ns = Ok (s, evs) -> ~ is_optional s.
  Proof.
    intros Hp Hx. cbn in Hx. winv Hx. winv Hx.
    assert (K : ~ is_optional a0).
    { destruct p as [t|t|ts|b o]; cbn in E0.
      - winv E0. winv E0. intros (x & y & Hc); discriminate.
      - winv E0. winv E0. intros (x & y & Hc); discriminate.
      - change (walk_plain_type (PtUnion ts) ns = Ok (a0, l2)) in E0. rewrite walk_union_eq in E0. winv E0.
        apply check_union_ok in E0. destruct E0 as (-> & _). intros (x & y & Hc); discriminate.
      - apply nullable_shape in E0. destruct E0 as (_ & base & [[-> ->]|(-> & _)] & Hb); [|exfalso; eapply Hp; reflexivity].
        destruct Hb as [(k & pl' & -> & Hk)|(i & sp & -> & ->)].
        + destruct (prim_type_leaf _ _ _ Hk) as [_ [(q & ->)|(lt & ->)]]; intros (x & y & Hc); discriminate.
        + destruct (reference_shape i sp ns) as (n & q & ->). intros (x & y & Hc); discriminate. }
    apply annotate_type_cases in Hx. destruct Hx as [(_ & -> & _)|(_ & _ & -> & _)]; [exact K|now apply apply_not_optional].
  Qed.

  Lemma fix_not_optional s d : ~ is_optional s -> fix_optional_schema s d = s.
  Proof.
    intro Hn. destruct s; try reflexivity. destruct types as [|a [|b [|]]], is_nullable_type; try reflexivity.
    exfalso. apply Hn. now exists a, b.
  Qed.

  Lemma fix_optional_unions s d : unions_legal s -> unions_legal (fix_optional_schema s d).
  Proof.
    intro Hu. destruct s; try exact Hu. destruct types as [|a [|b [|]]], is_nullable_type; try exact Hu.
    cbn. assert (K : unions_legal (SUnion [b; a] true)).
    { rewrite unions_union in *. destruct Hu as [[Hn Hi] Hf]. inversion Hf as [|? ? Fa Fb]; subst. inversion Fb; subst. split.
      - split.
        + cbn in *. inversion Hn as [|? ? N1 N2]; subst. constructor; [|repeat constructor; intros []].
          intros [E|[]]. apply N1. rewrite E. now left.
        + cbn in *. tauto.
      - constructor; [assumption|]. constructor; [assumption|constructor]. }
    destruct d as [[]|]; assumption.
  Qed.
  Lemma fix_optional_refs s d : schema_refs (fix_optional_schema s d) = schema_refs s \/
    exists a b, s = SUnion [a; b] true /\ schema_refs (fix_optional_schema s d) = schema_refs b ++ schema_refs a.
  Proof.
    destruct s; auto. destruct types as [|a [|b [|]]], is_nullable_type; auto. cbn [fix_optional_schema].
    destruct d as [[]|]; auto; right; exists a, b; cbn; rewrite app_nil_r; auto.
  Qed.

  (** ** Comments *)
  Variable tokens : list token.

  Definition consumes (evs : list event) (starts : list nat) : Prop :=
    forall i, In i (consumed_of evs) <-> exists s, In s starts /\ immediately_precedes tokens i s.
  Lemma consumes_nil evs : consumed_of evs = [] -> consumes evs [].
  Proof. intros E i. rewrite E. split; [intros []|intros (s & [] & _)]. Qed.
  Lemma consumes_app e1 e2 s1 s2 : consumes e1 s1 -> consumes e2 s2 -> consumes (e1 ++ e2) (s1 ++ s2).
  Proof.
    intros H1 H2 i. rewrite consumed_app, in_app_iff, (H1 i), (H2 i). split.
    - intros [(s & Hs & Hp)|(s & Hs & Hp)]; exists s; (split; [apply in_or_app; auto|exact Hp]).
    - intros (s & Hs & Hp). apply in_app_or in Hs. destruct Hs as [Hs|Hs]; [left|right]; eauto.
  Qed.
  Lemma consumes_quiet e1 e2 s : consumed_of e1 = [] -> consumes e2 s -> consumes (e1 ++ e2) s.
  Proof. intros E H2 i. rewrite consumed_app, E. apply H2. Qed.
  Lemma consumes_quiet_r e1 e2 s : consumed_of e2 = [] -> consumes e1 s -> consumes (e1 ++ e2) s.
  Proof. intros E H2 i. rewrite consumed_app, E, app_nil_r. apply H2. Qed.

  Lemma walk_doc_spec start d evs : walk_doc tokens start = Ok (d, evs) ->
    doc_at tokens start d /\ consumes evs [start].
  Proof.
    intros Hx. unfold walk_doc in Hx. destruct (extract_doc_comment tokens start) as [[j doc]|] eqn:E.
    - winv Hx. winv E0. winv Hx. destruct (extract_text _ _ _ _ E) as (t & Et & ->).
      assert (Hp : immediately_precedes tokens j start) by (apply (extract_iff tokens start j); eauto).
      split; [econstructor; eauto|]. intro i. cbn. split.
      + intros [<-|[]]. eauto.
      + intros (s & [<-|[]] & Hi). left. eapply precedes_unique; eauto.
    - winv Hx. assert (Hn : forall j, ~ immediately_precedes tokens j start).
      { intros j Hj. apply (extract_iff tokens start j) in Hj. destruct Hj as [d Hd]. congruence. }
      split; [now constructor|]. intro i. cbn. split; [intros []|]. intros (s & [<-|[]] & Hi). exact (Hn _ Hi).
  Qed.

  (** ** Fields *)
  Definition default_means (t : option json_tree) (d : option json) : Prop :=
    (t = None /\ d = None) \/ exists t' j, t = Some t' /\ d = Some j /\ json_means t' j.

  Lemma walk_variable_spec v ty dd f evs :
    walk_variable tokens v ty dd = Ok (f, evs) ->
    exists d, f_name f = identifier_text (v_ident v) /\
      f_schema f = fix_optional_schema ty (f_default f) /\
      doc_at tokens (v_start v) d /\ f_doc f = opt_or d dd /\
      default_means (v_default v) (f_default f) /\
      (forall j, f_default f = Some j -> validate_default j (f_schema f) = None) /\
      holds_annotations OnField (v_annotations v) (f_props f) /\
      aliases_annotation (v_annotations v) (f_aliases f) /\ order_annotation (v_annotations v) (f_order f) /\
      consumes evs (variable_starts v).
  Proof.
    intros Hx. unfold walk_variable in Hx. winv Hx. winv Hx. winv Hx.
    destruct (walk_doc_spec _ _ _ E) as [Hd Hc]. pose proof (walk_properties_quiet _ _ _ _ E0) as Q0.
    apply (walk_schema_properties_inv OnField) in E0. destruct E0 as (Hh & _ & _ & Ha & Ho).
    match type of E1 with _ = Ok (_, ?x) => rename x into le end.
    assert (K : default_means (v_default v) a1 /\ consumed_of le = []).
    { destruct (v_default v) as [t|].
      - winv E1. winv E1. apply walk_json_iff in E0. destruct E0 as [Hj ->]. split; [right; eauto|reflexivity].
      - winv E1. split; [now left|reflexivity]. }
    destruct K as [Kd Q1]. exists a.
    assert (Q : forall fd l', fd = mkField (identifier_text (v_ident v)) (fix_optional_schema ty a1) (opt_or a dd) a1
                     (sp_order a0) (sp_aliases a0) (sp_props a0) ->
                (forall j, a1 = Some j -> validate_default j (fix_optional_schema ty a1) = None) ->
                wret fd = Ok (f, l') -> l' = [] /\ f = fd /\
                (forall j, a1 = Some j -> validate_default j (fix_optional_schema ty a1) = None)).
    { intros fd l' Hfd Hv Hw. winv Hw. auto. }
    assert (R : l3 = [] /\ f = mkField (identifier_text (v_ident v)) (fix_optional_schema ty a1) (opt_or a dd) a1
                     (sp_order a0) (sp_aliases a0) (sp_props a0) /\
                (forall j, a1 = Some j -> validate_default j (fix_optional_schema ty a1) = None)).
    { destruct a1 as [j|].
      - destruct (validate_default j (fix_optional_schema ty (Some j))) eqn:Ev; [discriminate|].
        eapply Q; [reflexivity| |exact Hx]. intros j' Hj. injection Hj as <-. exact Ev.
      - eapply Q; [reflexivity| |exact Hx]. discriminate. }
    destruct R as (-> & -> & Hv). cbn. split; [reflexivity|]. split; [reflexivity|]. split; [exact Hd|]. split; [reflexivity|].
    split; [exact Kd|]. split; [exact Hv|]. split; [exact Hh|]. split; [apply Ha; cbn; auto|]. split; [apply Ho; cbn; auto|].
    apply consumes_quiet_r; [|exact Hc]. rewrite !consumed_app, Q0, Q1. reflexivity.
  Qed.

  Definition field_from (ns : option string) (ft : full_type) (start : nat) (v : variable) (f : field) : Prop :=
    exists ty evs d dd, walk_full_type ft ns = Ok (ty, evs) /\
      f_name f = identifier_text (v_ident v) /\
      f_schema f = fix_optional_schema ty (f_default f) /\
      doc_at tokens (v_start v) d /\ doc_at tokens start dd /\ f_doc f = opt_or d dd /\
      default_means (v_default v) (f_default f) /\
      (forall j, f_default f = Some j -> validate_default j (f_schema f) = None) /\
      holds_annotations OnField (v_annotations v) (f_props f) /\
      aliases_annotation (v_annotations v) (f_aliases f) /\ order_annotation (v_annotations v) (f_order f).

  Lemma walk_field_declaration_spec fd ns fs evs :     walk_field_declaration tokens fd ns = Ok (fs, evs) ->
    Forall2 (field_from ns (fd_type fd) (fd_start fd)) (fd_variables fd) fs /\ consumes evs (field_starts fd).
  Proof.
    intros Hx. unfold walk_field_declaration in Hx. winv Hx. winv Hx.
    destruct (walk_doc_spec _ _ _ E) as [Hd Hc]. pose proof (proj1 walk_type_quiet _ _ _ _ E0) as Q.
    apply wmap_ok in Hx. destruct Hx as (zs & H2 & -> & ->).
    assert (K : Forall2 (field_from ns (fd_type fd) (fd_start fd)) (fd_variables fd) (map fst zs) /\
                consumes (flat_map snd zs) (flat_map variable_starts (fd_variables fd))).
    { clear -H2 Hd E0. induction H2 as [|v [f e] vs zs Hx H2 IH]; [split; [constructor|now apply consumes_nil]|].
      destruct IH as [IH1 IH2].
      destruct (walk_variable_spec _ _ _ _ _ Hx) as (d & R). decompose [and] R. split.
      - cbn. constructor; [|exact IH1]. exists a0, l1, d, a. repeat (split; [assumption|]). assumption.
      - cbn. apply (consumes_app e _ [v_start v]); assumption. }
    destruct K as [K1 K2]. split; [exact K1|]. unfold field_starts. change (fd_start fd :: ?x) with ([fd_start fd] ++ x).
    apply consumes_app; [exact Hc|]. now apply consumes_quiet.
  Qed.

  Lemma walk_fields_spec l : forall seen ns fs evs,     walk_fields tokens seen l ns = Ok (fs, evs) ->
    Forall2 (fun dv f => field_from ns (fd_type (fst dv)) (fd_start (fst dv)) (snd dv) f) (variables_of l) fs /\
    consumes evs (flat_map field_starts l) /\ NoDup (map f_name fs) /\ (forall f, In f fs -> ~ In (f_name f) seen).
  Proof.
    induction l as [|fd l IH]; intros seen ns fs evs Hx; cbn in Hx.
    - winv Hx. split; [constructor|]. split; [now apply consumes_nil|]. split; [constructor|intros f []].
    - winv Hx. destruct (first_duplicate seen (map f_name a)) as [d|] eqn:Ed; [discriminate|]. winv Hx. winv Hx.
      destruct (walk_field_declaration_spec _ _ _ _ E) as [K1 K2]. destruct (IH _ _ _ _ E0) as (I1 & I2 & I3 & I4).
      apply first_duplicate_none in Ed. destruct Ed as [Nd Ns]. split; [|split; [|split]].
      + cbn [variables_of flat_map]. apply Forall2_app; [|exact I1]. clear -K1. induction K1; cbn; constructor; auto.
      + cbn [flat_map]. rewrite app_nil_r. now apply consumes_app.
      + rewrite map_app. clear -Nd I3 I4. induction a as [|f a IHa]; [exact I3|]. cbn in *. inversion Nd; subst. constructor.
        * rewrite in_app_iff. intros [Hi|Hi]; [contradiction|]. apply in_map_iff in Hi. destruct Hi as (g & Hg & Hi).
          apply (I4 g Hi). left. auto.
        * apply IHa; [assumption|]. intros g Hg Hc. apply (I4 g Hg). now right.
      + intros f Hf. apply in_app_or in Hf. destruct Hf as [Hf|Hf].
        * apply Ns. now apply in_map.
        * intro Hc. apply (I4 f Hf). apply in_or_app. now right.
  Qed.

  (** ** Names *)
  Lemma compute_declares p ident l enclosing sp evs : In "namespace" (special p) ->
    walk_schema_properties l (context_of p) = Ok (sp, evs) ->
    declares ident l enclosing (extract_name (identifier_text ident))
      (opt_or (compute_namespace (identifier_text ident) (sp_namespace sp)) enclosing).
  Proof.
    intros Hs Hx. apply (walk_schema_properties_inv p) in Hx. destruct Hx as (_ & Hn & _). specialize (Hn Hs).
    unfold extract_name, compute_namespace, split_full_name. destruct (rsplit_once_dot (identifier_text ident)) as [[q n]|] eqn:E; cbn.
    - constructor. now apply rsplit_qualified.
    - apply rsplit_None in E. destruct Hn as [(s & -> & Ha)|[-> Hm]]; cbn; [now apply dc_annotated|now apply dc_enclosing].
  Qed.

  (** ** Named types *)
  Lemma walk_record_spec r ns s evs : walk_record tokens r ns = Ok (s, evs) ->
    exists n q doc fs al ps, s = SRecord n q doc fs (r_error r) al ps /\
      declares (r_ident r) (r_annotations r) ns n q /\ is_invalid_type_name n = false /\
      doc_at tokens (r_start r) doc /\ holds_annotations OnRecord (r_annotations r) ps /\ aliases_annotation (r_annotations r) al /\
      Forall2 (fun dv f => field_from q (fd_type (fst dv)) (fd_start (fst dv)) (snd dv) f) (variables_of (r_fields r)) fs /\
      NoDup (map f_name fs) /\ consumes evs (named_starts (NRecord r)).
  Proof.
    intros Hx. unfold walk_record in Hx.
    winv Hx. winv Hx. destruct (walk_doc_spec _ _ _ E) as [Hd Hc]. pose proof (walk_properties_quiet _ _ _ _ E0) as Q.
    pose proof (compute_declares OnRecord (r_ident r) _ ns _ _ (or_introl eq_refl) E0) as Hn.
    apply (walk_schema_properties_inv OnRecord) in E0. destruct E0 as (Hh & _ & _ & Ha & _).
    set (n := extract_name (identifier_text (r_ident r))) in *.
    set (q := opt_or (compute_namespace (identifier_text (r_ident r)) (sp_namespace a0)) ns) in *.
    destruct (is_invalid_type_name n) eqn:Ei; [discriminate|]. winv Hx. winv Hx.
    assert (Eq : match q with Some _ => q | None => ns end = q).
    { subst q. destruct (compute_namespace _ _); [reflexivity|]. cbn. destruct ns; reflexivity. }
    rewrite Eq in E0. destruct (walk_fields_spec _ _ _ _ _ E0) as (K1 & K2 & K3 & _).
    exists n, q, a, a1, (sp_aliases a0), (sp_props a0). repeat (split; [first [reflexivity|assumption|apply Ha; cbn; auto]|]).
    cbn [named_starts]. change (r_start r :: ?x) with ([r_start r] ++ x). apply consumes_app; [exact Hc|]. rewrite app_nil_r.
    now apply consumes_quiet.
  Qed.

  Lemma walk_enum_spec e ns s evs : walk_enum tokens e ns = Ok (s, evs) ->
    exists n q doc sy df al ps, s = SEnum n q doc sy df al ps /\
      declares (e_ident e) (e_annotations e) ns n q /\ is_invalid_type_name n = false /\
      doc_at tokens (e_start e) doc /\ holds_annotations OnEnum (e_annotations e) ps /\ aliases_annotation (e_annotations e) al /\
      sy = symbols_of e /\ NoDup sy /\ df = option_map (fun x : located => identifier_text x) (e_default e) /\
      (forall d, df = Some d -> In d sy) /\ consumes evs (named_starts (NEnum e)).
  Proof.
    intros Hx. unfold walk_enum in Hx.
    winv Hx. winv Hx. destruct (walk_doc_spec _ _ _ E) as [Hd Hc]. pose proof (walk_properties_quiet _ _ _ _ E0) as Q.
    pose proof (compute_declares OnEnum (e_ident e) _ ns _ _ (or_introl eq_refl) E0) as Hn.
    apply (walk_schema_properties_inv OnEnum) in E0. destruct E0 as (Hh & _ & _ & Ha & _).
    set (n := extract_name (identifier_text (e_ident e))) in *.
    set (q := opt_or (compute_namespace (identifier_text (e_ident e)) (sp_namespace a0)) ns) in *.
    destruct (is_invalid_type_name n) eqn:Ei; [discriminate|].
    fold (symbols_of e) in Hx. destruct (first_duplicate [] (symbols_of e)) eqn:Ed; [discriminate|].
    apply first_duplicate_none in Ed. destruct Ed as [Nd _]. cbv zeta in Hx.
    assert (K : exists df, s = SEnum n q a (symbols_of e) df (sp_aliases a0) (sp_props a0) /\ l2 = [] /\
                 df = option_map (fun x : located => identifier_text x) (e_default e) /\ (forall d, df = Some d -> In d (symbols_of e))).
    { destruct (e_default e) as [d|].
      - destruct (str_mem (identifier_text d) _) eqn:Em; [|discriminate]. winv Hx. apply str_mem_In in Em.
        eexists. split; [reflexivity|]. split; [reflexivity|]. split; [reflexivity|]. intros d' Hd'. injection Hd' as <-. exact Em.
      - winv Hx. eexists. split; [reflexivity|]. split; [reflexivity|]. split; [reflexivity|]. discriminate. }
    destruct K as (df & -> & -> & Kd & Ki).
    exists n, q, a, (symbols_of e), df, (sp_aliases a0), (sp_props a0).
    repeat (split; [first [reflexivity|assumption|apply Ha; cbn; auto]|]).
    rewrite app_nil_r. apply consumes_quiet_r; [exact Q|exact Hc].
  Qed.

  Lemma walk_fixed_spec x ns s evs : walk_fixed tokens x ns = Ok (s, evs) ->
    exists n q doc size al ps, s = SFixed n q doc size al ps /\
      declares (x_ident x) (x_annotations x) ns n q /\ is_invalid_type_name n = false /\
      doc_at tokens (x_start x) doc /\ holds_annotations OnFixed (x_annotations x) ps /\ aliases_annotation (x_annotations x) al /\
      parse_integer_as_u32 (x_size x) = Some size /\ consumes evs (named_starts (NFixed x)).
  Proof.
    intros Hx. unfold walk_fixed in Hx.
    winv Hx. winv Hx. destruct (walk_doc_spec _ _ _ E) as [Hd Hc]. pose proof (walk_properties_quiet _ _ _ _ E0) as Q.
    pose proof (compute_declares OnFixed (x_ident x) _ ns _ _ (or_introl eq_refl) E0) as Hn.
    apply (walk_schema_properties_inv OnFixed) in E0. destruct E0 as (Hh & _ & _ & Ha & _).
    set (n := extract_name (identifier_text (x_ident x))) in *.
    set (q := opt_or (compute_namespace (identifier_text (x_ident x)) (sp_namespace a0)) ns) in *.
    destruct (is_invalid_type_name n) eqn:Ei; [discriminate|]. winv Hx. winv E0. cbn in Hx. winv Hx.
    exists n, q, a, a1, (sp_aliases a0), (sp_props a0). repeat (split; [first [reflexivity|assumption|apply Ha; cbn; auto]|]).
    cbn. rewrite app_nil_r. apply consumes_quiet_r; [exact Q|exact Hc].
  Qed.

  Lemma walk_named_consumes d ns s evs : walk_named tokens d ns = Ok (s, evs) -> consumes evs (named_starts d).
  Proof.
    destruct d as [r|e|x]; cbn [walk_named]; intros Hx.
    - destruct (walk_record_spec _ _ _ _ Hx) as (n & q & doc & fs & al & ps & R). decompose [and] R. assumption.
    - destruct (walk_enum_spec _ _ _ _ Hx) as (n & q & doc & sy & df & al & ps & R). decompose [and] R. assumption.
    - destruct (walk_fixed_spec _ _ _ _ Hx) as (n & q & doc & size & al & ps & R). decompose [and] R. assumption.
  Qed.

  (** ** Messages *)
  Lemma walk_parameters_spec l : forall seen ns fs evs,     walk_parameters tokens seen l ns = Ok (fs, evs) ->
    Forall2 (fun p f => field_from ns (pa_type p) (pa_start p) (pa_variable p) f) l fs /\
    consumes evs (flat_map parameter_starts l) /\ NoDup (map f_name fs) /\ (forall f, In f fs -> ~ In (f_name f) seen).
  Proof.
    induction l as [|p l IH]; intros seen ns fs evs Hx; cbn in Hx.
    - winv Hx. split; [constructor|]. split; [now apply consumes_nil|]. split; [constructor|intros f []].
    - winv Hx. winv Hx. winv Hx. destruct (str_mem (f_name a1) seen) eqn:Em; [discriminate|]. apply str_mem_not_In in Em. winv Hx. winv Hx.
      destruct (walk_doc_spec _ _ _ E) as [Hd Hc]. pose proof (proj1 walk_type_quiet _ _ _ _ E0) as Q.
      destruct (walk_variable_spec _ _ _ _ _ E1) as (d & R). decompose [and] R. clear R.
      destruct (IH _ _ _ _ E2) as (I1 & I2 & I3 & I4). split; [|split; [|split]].
      + constructor; [|exact I1]. exists a0, l2, d, a. repeat (split; [assumption|]). assumption.
      + cbn [flat_map]. rewrite app_nil_r. unfold parameter_starts at 1. rewrite <- app_comm_cons.
        change (pa_start p :: ?x) with ([pa_start p] ++ x). apply consumes_app; [exact Hc|]. apply consumes_quiet; [exact Q|].
        apply consumes_app; assumption.
      + cbn. constructor; [|exact I3]. intro Hi. apply in_map_iff in Hi. destruct Hi as (g & Hg & Hi). apply (I4 g Hi). left. auto.
      + intros f [<-|Hf]; [exact Em|]. intro Hc'. apply (I4 f Hf). now right.
  Qed.

  Lemma walk_message_spec m ns nm evs : walk_message tokens m ns = Ok (nm, evs) ->
    fst nm = identifier_text (md_name m) /\
    doc_at tokens (md_start m) (m_doc (snd nm)) /\ holds_annotations OnMessage (md_annotations m) (m_props (snd nm)) /\
    (exists e, walk_result_type (md_result m) ns = Ok (m_response (snd nm), e)) /\
    Forall2 (fun p f => field_from ns (pa_type p) (pa_start p) (pa_variable p) f) (md_parameters m) (m_request (snd nm)) /\
    NoDup (map f_name (m_request (snd nm))) /\
    m_one_way (snd nm) = md_oneway m /\ (md_oneway m = true -> m_response (snd nm) = SPrim PNull) /\
    (m_errors (snd nm) = match md_errors m with [] => None | es => Some (map (fun e => reference (fst e) (snd e) ns) es) end) /\
    consumes evs (item_starts (ItMessage m)).
  Proof.
    intros Hx. unfold walk_message in Hx.
    winv Hx. winv Hx. winv Hx. destruct (walk_doc_spec _ _ _ E) as [Hd Hc]. pose proof (walk_properties_quiet _ _ _ _ E0) as Q.
    apply (walk_schema_properties_inv OnMessage) in E0. destruct E0 as (Hh & _).
    match type of E1 with _ = Ok (_, ?x) => rename x into le end.
    assert (Q1 : consumed_of le = []).
    { unfold walk_result_type in E1. destruct (md_result m); [exact (proj2 walk_type_quiet _ _ _ _ E1)|now winv E1]. }
    destruct (_ && _); [discriminate|]. winv Hx. destruct (walk_parameters_spec _ _ _ _ _ E0) as (K1 & K2 & K3 & _).
    destruct (md_oneway m && negb (is_null_schema a1)) eqn:Eo; [discriminate|]. winv Hx. cbn.
    split; [reflexivity|]. split; [exact Hd|]. split; [exact Hh|]. split; [eauto|]. split; [exact K1|]. split; [exact K3|]. split; [reflexivity|].
    split; [|split].
    - intros Ho. rewrite Ho in Eo. cbn in Eo. destruct a1 as [[]| | | | | | | | |]; try discriminate. reflexivity.
    - reflexivity.
    - change (md_start m :: ?x) with ([md_start m] ++ x). apply consumes_app; [exact Hc|]. rewrite app_nil_r.
      apply consumes_quiet; [exact Q|]. now apply consumes_quiet.
  Qed.

  (** ** Files *)
  Inductive item_gives (ns : option string) : item -> list decl_item -> list (string * message) -> Prop :=
  | ig_import k path p : item_gives ns (ItImport k path p) [DImport k (get_string_from_literal path) p] []
  | ig_named d s e p : walk_named tokens d ns = Ok (s, e) -> item_gives ns (ItNamed d p) [DType s p (field_places d)] []
  | ig_message m nm e : walk_message tokens m ns = Ok (nm, e) -> item_gives ns (ItMessage m) [] [nm].

  Lemma walk_items_spec l : forall ns ds ms evs, walk_items tokens l ns = Ok ((ds, ms), evs) ->
    (exists parts, Forall2 (fun it part => item_gives ns it (fst part) (snd part)) l parts /\
       ds = flat_map fst parts /\ ms = flat_map snd parts) /\
    consumes evs (flat_map item_starts l).
  Proof.
    induction l as [|it l IH]; intros ns ds ms evs Hx; cbn in Hx.
    - winv Hx. inversion H1; subst. split; [exists []; repeat split; constructor|now apply consumes_nil].
    - destruct it as [k path p|d p|m].
      + winv Hx. winv Hx. inversion H1; subst. destruct a as [ds' ms']. destruct (IH _ _ _ _ E) as [(parts & I1 & -> & ->) I2].
        split; [|cbn; rewrite app_nil_r; exact I2].
        exists (([DImport k (get_string_from_literal path) p], []) :: parts). split; [constructor; [constructor|exact I1]|split; reflexivity].
      + winv Hx. winv Hx. winv Hx. inversion H1; subst. destruct a0 as [ds' ms']. destruct (IH _ _ _ _ E0) as [(parts & I1 & -> & ->) I2].
        split.
        * exists (([DType a p (field_places d)], []) :: parts). split; [constructor; [econstructor; exact E|exact I1]|split; reflexivity].
        * rewrite app_nil_r. cbn [flat_map]. apply consumes_app; [|exact I2]. eapply walk_named_consumes; eauto.
      + winv Hx. winv Hx. winv Hx. inversion H1; subst. destruct a0 as [ds' ms']. destruct (IH _ _ _ _ E0) as [(parts & I1 & -> & ->) I2].
        split.
        * exists (([], [a]) :: parts). split; [constructor; [econstructor; exact E|exact I1]|split; reflexivity].
        * rewrite app_nil_r. cbn [flat_map]. apply consumes_app; [|exact I2].
          pose proof (walk_message_spec _ _ _ _ E) as R. decompose [and] R. assumption.
  Qed.

  Lemma walk_idl_file_consumes t r evs : walk_idl_file tokens t = Ok (r, evs) -> consumes evs (tree_starts t).
  Proof.
    intros Hx. destruct t as [start l ident items|ns main items]; cbn in Hx.
    - winv Hx. winv Hx. destruct (walk_doc_spec _ _ _ E) as [_ Hc].
      pose proof (walk_properties_quiet _ _ _ _ E0) as Q. destruct (is_invalid_type_name _); [discriminate|]. winv Hx. winv Hx.
      destruct a1 as [ds ms]. apply walk_items_spec in E1. destruct E1 as [_ K]. cbn [tree_starts].
      change (start :: ?x) with ([start] ++ x). apply consumes_app; [exact Hc|]. rewrite app_nil_r. now apply consumes_quiet.
    - winv Hx. destruct a as [ds ms]. apply walk_items_spec in E. destruct E as [_ K]. destruct main as [ft|].
      + winv Hx. winv Hx. apply consumes_quiet_r; [|exact K]. rewrite app_nil_r. exact (proj1 walk_type_quiet _ _ _ _ E).
      + winv Hx. now rewrite app_nil_r.
  Qed.
End Walker.
