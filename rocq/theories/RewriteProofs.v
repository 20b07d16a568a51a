(** Layout does not matter for what the compiler makes of a file. *)
From Verif Require Import Canon SpecRewrite SpecCompile BaseProofs SerializeProofs OrderProofs MoveProofs ForgetProofs ReadingProofs FileProofs CutProofs LexerProofs.
From Verif Require Import IdlParser Compile Defaults Cli.
From Verif Require RefsProofs SpecRefs.
From Coq Require Import Lia Permutation.

(** ** JSON *)
Lemma unplaced_collect s : forall dns lk, collect_named_types (unplaced s) dns (unplaced_registry lk) = unplaced_registry (collect_named_types s dns lk).
Proof.
  induction s as [p|nm ns d fs e al ps IH|nm ns d sy df al ps|nm ns d sz al ps|i ps IH|i ps IH
                 |ts b IH|k ps|l ps|nm ns ps sp] using schema_ind'; intros dns lk; cbn [unplaced collect_named_types]; try reflexivity; try apply IH.
  - rewrite unplaced_fields.
    change ((make_full_name nm (opt_or ns dns), SRecord nm ns d (map unplaced_field fs) e al ps) :: unplaced_registry lk)
      with (unplaced_registry ((make_full_name nm (opt_or ns dns), SRecord nm ns d fs e al ps) :: lk)).
    generalize ((make_full_name nm (opt_or ns dns), SRecord nm ns d fs e al ps) :: lk). induction IH as [|f fs Hf _ IHl]; intro acc; [reflexivity|].
    cbn [map fold_left]. change (f_schema (unplaced_field f)) with (unplaced (f_schema f)). rewrite Hf. apply IHl.
  - revert lk. induction IH as [|t ts Ht _ IHl]; intro lk; [reflexivity|]. cbn [map fold_left]. rewrite Ht. apply IHl.
Qed.
Lemma unplaced_lookup l dns : build_lookup (map unplaced l) dns = unplaced_registry (build_lookup l dns).
Proof.
  unfold build_lookup. enough (G : forall acc, fold_left (fun acc s => collect_named_types s dns acc) (map unplaced l) (unplaced_registry acc)
    = unplaced_registry (fold_left (fun acc s => collect_named_types s dns acc) l acc)) by exact (G []).
  induction l as [|s l IH]; intro acc; [reflexivity|]. cbn [map fold_left]. rewrite unplaced_collect. apply IH.
Qed.
Lemma unplaced_assoc k r : assoc k (unplaced_registry r) = option_map unplaced (assoc k r).
Proof. apply assoc_map. Qed.
Lemma unplaced_fuel lk : lookup_fuel (unplaced_registry lk) = lookup_fuel lk.
Proof. unfold lookup_fuel, unplaced_registry. now rewrite map_length. Qed.
Lemma unplaced_json s known enc lk : schema_to_json (unplaced s) known enc (unplaced_registry lk) = schema_to_json s known enc lk.
Proof. unfold schema_to_json. rewrite unplaced_fuel. apply ser_unplaced. intro k. apply unplaced_assoc. Qed.

Definition unplaced_protocol (p : protocol) : protocol :=
  mkProtocol (p_name p) (p_namespace p) (p_doc p) (p_props p) (map unplaced (p_types p)) (unplaced_messages (p_messages p)).
Lemma unplaced_ser_message lk n m enc known : ser_message (unplaced_registry lk) n (unplaced_message m) enc known = ser_message lk n m enc known.
Proof.
  assert (S : forall s enc known, ser (unplaced_registry lk) n (unplaced s) enc known = ser lk n s enc known) by (intros; apply ser_unplaced; intro; apply unplaced_assoc).
  unfold ser_message. cbn [unplaced_message m_request m_response m_errors m_doc m_props m_one_way].
  rewrite map_st_map.
  assert (F : forall f k, ser_field (unplaced_registry lk) n (unplaced_field f) enc k = ser_field lk n f enc k) by (intros f k; unfold ser_field; cbn [unplaced_field f_schema f_name f_doc f_default f_order f_aliases f_props]; rewrite S; reflexivity).
  rewrite (map_st_ext_in _ (fun f k => ser_field lk n f enc k)) by (intros; apply F). destruct (map_st _ (m_request m) known) as [[req k1]|]; [|reflexivity].
  rewrite S. destruct (ser lk n (m_response m) enc k1) as [[resp k2]|]; [|reflexivity]. destruct (m_errors m) as [es|]; [|reflexivity]. cbn [option_map].
  rewrite map_st_map, (map_st_ext_in _ (fun e k => ser lk n e enc k)) by (intros; apply S). reflexivity.
Qed.
Lemma unplaced_protocol_json p : protocol_to_json (unplaced_protocol p) = protocol_to_json p.
Proof.
  unfold protocol_to_json, types_to_json, messages_to_json. cbn [unplaced_protocol p_types p_namespace p_messages]. rewrite unplaced_lookup, unplaced_fuel.
  rewrite map_st_map, (map_st_ext_in _ (fun s k => schema_to_json s k (p_namespace p) (build_lookup (p_types p) (p_namespace p)))) by (intros; apply unplaced_json).
  destruct (map_st _ (p_types p) []) as [[js known]|]; [|reflexivity]. unfold unplaced_messages. rewrite map_st_map. cbn [fst snd].
  rewrite (map_st_ext_in _ (fun nm k => match ser_message (build_lookup (p_types p) (p_namespace p)) (lookup_fuel (build_lookup (p_types p) (p_namespace p))) (snd nm) (p_namespace p) k with None => None | Some (j, k1) => Some ((fst nm, j), k1) end)); [reflexivity|].
  intros nm k _. now rewrite unplaced_ser_message.
Qed.

(** ** Defaults *)
Definition unplaced_visit {A} (f : A -> A) (x : option (option A * list string)) : option (option A * list string) :=
  match x with None => None | Some (o, vis) => Some (option_map f o, vis) end.
Lemma unplaced_map_visit {A} (u : A -> A) (f f' : A -> list string -> option (option A * list string)) l :
  (forall x, In x l -> forall vis, f' (u x) vis = unplaced_visit u (f x vis)) ->
  forall vis, map_visit f' (map u l) vis = match map_visit f l vis with None => None | Some (o, vis) => Some (option_map (map u) o, vis) end.
Proof.
  induction l as [|x l IH]; intros E vis; [reflexivity|]. cbn [map map_visit]. rewrite (E x (or_introl eq_refl)). destruct (f x vis) as [[[y|] v1]|]; cbn [unplaced_visit option_map]; try reflexivity.
  rewrite IH by (intros; apply E; right; assumption). destruct (map_visit f l v1) as [[[ys|] v2]|]; reflexivity.
Qed.
Lemma unplaced_resolve res res' n : (forall k, res' k = option_map unplaced (res k)) ->
  forall s vis, resolve_inner n res' (unplaced s) vis = unplaced_visit unplaced (resolve_inner n res s vis).
Proof.
  intro R. induction n as [|n IH]; intros s vis; [reflexivity|]. destruct s; cbn [unplaced resolve_inner]; try reflexivity.
  - rewrite unplaced_fields. rewrite (unplaced_map_visit unplaced_field (fun f vis => match resolve_inner n res (f_schema f) vis with None => None | Some (None, vis) => Some (None, vis) | Some (Some t, vis) => Some (Some (with_schema f t), vis) end)).
    + destruct (map_visit _ fields _) as [[[fs|] v]|]; reflexivity.
    + intros f _ v. change (f_schema (unplaced_field f)) with (unplaced (f_schema f)). rewrite IH. destruct (resolve_inner n res (f_schema f) v) as [[[t|] v']|]; reflexivity.
  - rewrite IH. destruct (resolve_inner n res _ vis) as [[[t|] v']|]; reflexivity.
  - rewrite IH. destruct (resolve_inner n res _ vis) as [[[t|] v']|]; reflexivity.
  - rewrite (unplaced_map_visit unplaced (resolve_inner n res)) by (intros; apply IH). destruct (map_visit _ _ _) as [[[ts|] v]|]; reflexivity.
  - destruct (str_mem _ _); [reflexivity|]. rewrite R. destruct (res _); [apply IH|reflexivity].
Qed.
Lemma unplaced_default_errors res res' n fs : (forall k, res' k = option_map unplaced (res k)) ->
  field_default_errors n res' (map unplaced_field fs) = field_default_errors n res fs.
Proof.
  intro R. induction fs as [|f fs IH]; [reflexivity|]. cbn [map field_default_errors]. rewrite IH. cbn [unplaced_field f_default f_schema f_name]. destruct (f_default f) as [dv|]; [|reflexivity].
  unfold resolve_for_validation. rewrite (unplaced_resolve res) by exact R. destruct (resolve_inner n res (f_schema f) []) as [[[t|] v]|]; cbn [unplaced_visit option_map]; [|reflexivity|reflexivity].
  now rewrite unplaced_validate.
Qed.
Lemma unplaced_record_defaults res res' n s : (forall k, res' k = option_map unplaced (res k)) ->
  validate_record_field_defaults n (unplaced s) res' = validate_record_field_defaults n s res.
Proof. intro R. destruct s; try reflexivity. cbn [unplaced validate_record_field_defaults]. rewrite unplaced_fields. now apply unplaced_default_errors. Qed.
Lemma unplaced_height s : schema_height (unplaced s) = schema_height s.
Proof.
  induction s as [p|nm ns d fs e al ps IH|nm ns d sy df al ps|nm ns d sz al ps|i ps IH|i ps IH
                 |ts b IH|k ps|l ps|nm ns ps sp] using schema_ind'; cbn [unplaced schema_height]; try reflexivity; try (now rewrite IH).
  - rewrite unplaced_fields. f_equal. induction IH as [|f fs Hf _ IHl]; [reflexivity|]. cbn [map fold_right]. rewrite IHl. change (f_schema (unplaced_field f)) with (unplaced (f_schema f)). now rewrite Hf.
  - f_equal. induction IH as [|f fs Hf _ IHl]; [reflexivity|]. cbn [map fold_right]. now rewrite IHl, Hf.
Qed.
Lemma unplaced_resolve_fuel r s : resolve_fuel (unplaced_registry r) (unplaced s) = resolve_fuel r s.
Proof.
  unfold resolve_fuel. rewrite unplaced_height. unfold unplaced_registry at 1. rewrite map_length. do 4 f_equal.
  induction r as [|kv r IH]; [reflexivity|]. cbn [unplaced_registry map fold_right snd]. f_equal; [apply unplaced_height|exact IH].
Qed.

(** ** Registries *)
Section World.
  Context `{Unicode} `{Floats} `{LexerMessages} `{JsonParser}.
  Context (FS : FileSystem) (read' : string -> option string).
  Existing Instance text_parser.

  Lemma unplaced_register r s : register (unplaced_registry r) (unplaced s)
    = match register r s with Ok r' => Ok (unplaced_registry r') | Err e => Err e end.
  Proof.
    unfold register. rewrite unplaced_full_name. destruct (full_name s) as [full|]; [|reflexivity].
    destruct s; try reflexivity; cbn [unplaced]; destruct (validate_schema_name _ _); try reflexivity; rewrite unplaced_assoc; destruct (assoc full r); cbn [option_map]; try reflexivity;
      unfold unplaced_registry; rewrite map_app; reflexivity.
  Qed.
  Lemma same_register r r' s s' : unplaced_registry r = unplaced_registry r' -> unplaced s = unplaced s' ->
    match register r s, register r' s' with
    | Ok q, Ok q' => unplaced_registry q = unplaced_registry q'
    | Err e, Err e' => e = e'
    | _, _ => False
    end.
  Proof.
    intros E Es. pose proof (unplaced_register r s) as A. pose proof (unplaced_register r' s') as B. rewrite E, Es, B in A.
    destruct (register r s), (register r' s'); try discriminate; injection A as A; auto.
  Qed.
  Lemma same_ignoring r r' s : unplaced_registry r = unplaced_registry r' -> unplaced_registry (register_ignoring r s) = unplaced_registry (register_ignoring r' s).
  Proof.
    intro E. unfold register_ignoring. pose proof (same_register r r' s s E eq_refl) as A. destruct (register r s), (register r' s); tauto.
  Qed.
  Lemma same_flatten r r' s : unplaced_registry r = unplaced_registry r' -> unplaced_registry (flatten_and_register r s) = unplaced_registry (flatten_and_register r' s).
  Proof.
    unfold flatten_and_register. generalize (fst (flatten s)). intro l. revert r r'. induction l as [|x l IH]; intros r r' E; [exact E|]. cbn [fold_left]. apply IH. now apply same_ignoring.
  Qed.
  Lemma same_import_types l dns : forall r r', unplaced_registry r = unplaced_registry r' ->
    unplaced_registry (fst (import_types l dns r)) = unplaced_registry (fst (import_types l dns r')) /\ snd (import_types l dns r) = snd (import_types l dns r').
  Proof.
    induction l as [|j l IH]; intros r r' E; cbn [import_types]; [auto|]. destruct (json_to_schema j dns) as [s|e]; [|auto]. apply IH. now apply same_flatten.
  Qed.
  Lemma same_import_protocol j r r' : unplaced_registry r = unplaced_registry r' ->
    unplaced_registry (fst (import_protocol j r)) = unplaced_registry (fst (import_protocol j r')) /\ snd (import_protocol j r) = snd (import_protocol j r').
  Proof.
    intro E. unfold import_protocol.
    match goal with |- context [import_types ?l ?d r] => pose proof (same_import_types l d r r' E) as [A B]; destruct (import_types l d r) as [r1 e1], (import_types l d r') as [r2 e2] end.
    cbn [fst snd] in A, B. subst e2. destruct e1; [auto|]. destruct (value_get _ _) as [[]|]; auto. destruct (import_messages _ _); auto.
  Qed.
  Lemma same_import_schema j r r' : unplaced_registry r = unplaced_registry r' ->
    unplaced_registry (fst (import_schema j r)) = unplaced_registry (fst (import_schema j r')) /\ snd (import_schema j r) = snd (import_schema j r').
  Proof. intro E. unfold import_schema. destruct (json_to_schema j None); cbn [fst snd]; [|auto]. split; [now apply same_flatten|reflexivity]. Qed.

  (** ** Contexts *)
  Record same_context (c c' : context) : Prop := {
    same_registry : unplaced_registry (cx_registry c) = unplaced_registry (cx_registry c');
    same_imported : cx_imported c = cx_imported c';
    same_messages : unplaced_messages (cx_messages c) = unplaced_messages (cx_messages c');
    same_cx_warnings : same_warnings (cx_warnings c) (cx_warnings c');
    same_json_imports : map fst (cx_json_imports c) = map fst (cx_json_imports c');
    same_loads : cx_loads c = cx_loads c'
  }.
  Definition same_failure (e e' : option compile_error) : Prop :=
    match e, e' with None, None => True | Some e, Some e' => same_error e e' | _, _ => False end.
  Definition same_outcome (x x' : outcome) : Prop := same_context (fst x) (fst x') /\ same_failure (snd x) (snd x').

  Lemma same_process_type s s' sp sp' fs fs' c c' : unplaced s = unplaced s' -> same_context c c' -> same_outcome (process_type s sp fs c) (process_type s' sp' fs' c').
  Proof.
    intros Es C. unfold process_type. pose proof (same_register _ _ s s' (same_registry _ _ C) Es) as A.
    destruct (register (cx_registry c) s) as [q|e], (register (cx_registry c') s') as [q'|e']; try contradiction; [|subst; split; [exact C|reflexivity]].
    assert (D : validate_record_field_defaults (resolve_fuel q s) s (reg_lookup q) = validate_record_field_defaults (resolve_fuel q' s') s' (reg_lookup q')).
    { rewrite <- (unplaced_resolve_fuel q s), <- (unplaced_resolve_fuel q' s'), A, Es.
      rewrite <- (unplaced_record_defaults (reg_lookup q) (reg_lookup (unplaced_registry q)) _ s) by (intro; apply unplaced_assoc).
      rewrite <- (unplaced_record_defaults (reg_lookup q') (reg_lookup (unplaced_registry q')) _ s') by (intro; apply unplaced_assoc). now rewrite A, Es. }
    rewrite D. assert (F : full_name s = full_name s') by (rewrite <- (unplaced_full_name s), <- (unplaced_full_name s'), Es; reflexivity). rewrite F.
    assert (C' : same_context (set_registry q c) (set_registry q' c')) by (destruct C; constructor; assumption).
    clear D. destruct (validate_record_field_defaults _ _ _) as [[|e es]|]; (split; [exact C'|]); cbn; try exact I; try reflexivity. split; [reflexivity|]. f_equal. rewrite !map_map. reflexivity.
  Qed.

  (** ** Reading *)
  Definition same_reading_of (x x' : result (idl_file * list decl_item * list warning) read_error) : Prop :=
    match x, x' with
    | Ok (f, i, w), Ok (f', i', w') => unplaced_file f = unplaced_file f' /\ map unplaced_item i = map unplaced_item i' /\ lasting w = lasting w'
    | Err SyntaxError, Err SyntaxError => True
    | Err (WalkError e _), Err (WalkError e' _) => e = e'
    | _, _ => False
    end.
  Lemma lexer_filtered l m : lasting (map LexerWarning l ++ m) = lasting m.
  Proof. unfold lasting. induction l as [|x l IH]; [reflexivity|exact IH]. Qed.
  Lemma erased_consumed evs : consumed_of (map erase_event evs) = consumed_of evs.
  Proof. induction evs as [|[i|w] evs IH]; cbn; [reflexivity|now f_equal|exact IH]. Qed.
  Lemma erased_warned evs : lasting (map WalkWarning (warned_of evs)) = map WalkWarning (warned_of (map erase_event evs)).
  Proof. unfold lasting. induction evs as [|[i|w] evs IH]; cbn; [reflexivity|exact IH|]. f_equal; [now destruct w|exact IH]. Qed.
  Lemma lasting_app l m : lasting (l ++ m) = lasting l ++ lasting m.
  Proof. unfold lasting. now rewrite filter_app, map_app. Qed.
  Lemma same_error_at p e e' : same_reading_of (Err e) (Err e') -> same_error (CannotParse p e) (CannotParse p e').
  Proof. destruct e, e'; cbn; try contradiction; auto. Qed.
  Lemma kin_parse fm file file' t t' : faithful fm -> Forall2 (kin_piece fm) (kept (cut (chars (until_sub t)))) (kept (cut (chars (until_sub t')))) ->
    same_reading_of (parse_idl file t) (parse_idl file' t').
  Proof.
    intros Fm S. unfold parse_idl. cbn [antlr_parse text_parser].
    destruct (parse_text file (until_sub t)) as [p|] eqn:E.
    - destruct (parse_text_kin fm file file' _ _ p S E) as (p' & E' & Et & F). rewrite E'.
      pose proof (canon_file_walk fm Fm (pr_tokens p) (pr_tokens p) (fun i => eq_refl) (pr_tree p)) as A. pose proof (canon_file_walk fm Fm (pr_tokens p') (pr_tokens p) (fun i => extract_same _ _ i Et) (pr_tree p')) as B. rewrite F, A in B.
      destruct (walk_idl_file (pr_tokens p) (pr_tree p)) as [[[f i] evs]|[e pl]], (walk_idl_file (pr_tokens p') (pr_tree p')) as [[[f' i'] evs']|[e' pl']]; try discriminate; cbn in B.
      + injection B as B1 B2 B3. cbn [same_reading_of]. rewrite !lexer_filtered, !lasting_app, !erased_warned, <- (erased_consumed evs), <- (erased_consumed evs'), B3, (orphaned_same _ _ _ Et). auto.
      + injection B as ->. reflexivity.
    - rewrite (parse_text_kin_none fm file file' _ _ S E). reflexivity.
  Qed.

  (** From here on, texts are the same in any sense in which they are read as the same *)
  Context (same_text : string -> string -> Prop) (same_parse : forall file file' t t', same_text t t' -> same_reading_of (parse_idl file t) (parse_idl file' t')).

  (** ** Imports *)
  Lemma same_warnings_app a a' b b' : same_warnings a a' -> same_warnings b b' -> same_warnings (a ++ b) (a' ++ b').
  Proof. unfold same_warnings. intros A B. now rewrite !filter_app, !map_app, A, B. Qed.
  Lemma same_warnings_map n l l' : lasting l = lasting l' -> same_warnings (map (mkReport n) l) (map (mkReport n) l').
  Proof.
    unfold same_warnings. assert (G : forall l, map (fun r => (rp_file r, without_place (rp_warning r))) (filter (fun r => not_lexical (rp_warning r)) (map (mkReport n) l)) = map (pair n) (lasting l)).
    { clear. unfold lasting. intro l. induction l as [|w l IH]; cbn; [reflexivity|]. destruct (not_lexical w); cbn; [f_equal|]; exact IH. }
    rewrite !G. now intros ->.
  Qed.
  Lemma same_file_messages f f' : unplaced_file f = unplaced_file f' -> unplaced_messages (messages_of_file f) = unplaced_messages (messages_of_file f').
  Proof. destruct f, f'; cbn; try discriminate; auto. intro E. injection E. auto. Qed.

  Hypothesis layout : only_changed same_text (@fs_read FS) read'.
  Notation FS' := (rewritten FS read').
  Notation nested_same n n' := (forall dir items items' c c', map unplaced_item items = map unplaced_item items' -> same_context c c' -> same_outcome (n dir items c) (n' dir items' c')).

  Lemma same_load n n' k path p sp sp' c c' : nested_same n n' -> same_context c c' ->
    same_outcome (@load_import _ _ _ FS _ n k path p sp c) (@load_import _ _ _ FS' _ n' k path p sp' c').
  Proof.
    intros N C. unfold load_import. cbn [fs_read rewritten]. pose proof (layout p) as L. destruct (@fs_read FS p) as [t|], (read' p) as [t'|]; try contradiction.
    - destruct L as [T J]. destruct k.
      + pose proof (same_parse p p t t' T) as R. destruct (parse_idl p t) as [[[f i] w]|e], (parse_idl p t') as [[[f' i'] w']|e']; [|contradiction|destruct e; contradiction|split; [exact C|exact (same_error_at _ _ _ R)]].
        destruct R as (Rf & Ri & Rw). change (@fs_parent FS' p) with (@fs_parent FS p). apply N; [exact Ri|]. destruct C. constructor; cbn; try assumption.
        * rewrite !unplaced_extend, same_messages0, (same_file_messages f f' Rf). reflexivity.
        * apply same_warnings_app; [assumption|]. unfold wrap_warnings. cbn [fs_file_name rewritten]. now apply same_warnings_map.
      + rewrite <- J. destruct (parse_json t) as [j|]; [|split; [exact C|reflexivity]]. destruct (same_import_protocol j _ _ (same_registry _ _ C)) as [A B].
        destruct (import_protocol j (cx_registry c)) as [r1 o1], (import_protocol j (cx_registry c')) as [r2 o2]. cbn [fst snd] in A, B. subst o2.
        destruct C. destruct o1 as [ms|e]; (split; [|reflexivity]); constructor; cbn; try assumption; try (rewrite !map_app; cbn); try congruence.
        rewrite !unplaced_extend. now rewrite same_messages0.
      + rewrite <- J. destruct (parse_json t) as [j|]; [|split; [exact C|reflexivity]]. destruct (same_import_schema j _ _ (same_registry _ _ C)) as [A B].
        destruct (import_schema j (cx_registry c)) as [r1 o1], (import_schema j (cx_registry c')) as [r2 o2]. cbn [fst snd] in A, B. subst o2.
        destruct C. destruct o1 as [ms|e]; (split; [|reflexivity]); constructor; cbn; try assumption; try (rewrite !map_app; cbn); try congruence.
    - destruct k; (split; [exact C|reflexivity]).
  Qed.
  Lemma same_search file dirs : @search FS' file dirs = @search FS file dirs.
  Proof. induction dirs as [|d dirs IH]; [reflexivity|]. cbn. now rewrite IH. Qed.
  Lemma same_resolve_import dirs file dir : @resolve_import FS' dirs file dir = @resolve_import FS dirs file dir.
  Proof. unfold resolve_import. now rewrite same_search. Qed.
  Lemma same_single n n' dirs k path sp sp' dir c c' : nested_same n n' -> same_context c c' ->
    same_outcome (@resolve_single_import _ _ _ FS _ n dirs k path sp dir c) (@resolve_single_import _ _ _ FS' _ n' dirs k path sp' dir c').
  Proof.
    intros N C. unfold resolve_single_import. rewrite same_resolve_import. destruct (resolve_import dirs path dir) as [p|e] eqn:Er; [|split; [exact C|]].
    2:{ unfold resolve_import in Er. destruct (search path (dir :: dirs)) as [[p|]|]; try discriminate; injection Er as <-; reflexivity. }
    rewrite <- (same_imported _ _ C). destruct (str_mem p (cx_imported c)); [split; [exact C|reflexivity]|]. apply same_load; [exact N|]. destruct C. constructor; cbn; congruence || assumption.
  Qed.
  Lemma same_items n n' dirs dir : nested_same n n' -> forall items items' c c', map unplaced_item items = map unplaced_item items' -> same_context c c' ->
    same_outcome (@process_items _ _ _ FS _ n dirs dir items c) (@process_items _ _ _ FS' _ n' dirs dir items' c').
  Proof.
    intros N items. induction items as [|it items IH]; intros [|it' items'] c c' E C; try discriminate; [split; [exact C|reflexivity]|]. cbn [map] in E. injection E as Ei E. cbn [process_items].
    assert (S : same_outcome (match it with DImport k path sp => @resolve_single_import _ _ _ FS _ n dirs k path sp dir c | DType s sp fs => process_type s sp fs c end)
                  (match it' with DImport k path sp => @resolve_single_import _ _ _ FS' _ n' dirs k path sp dir c' | DType s sp fs => process_type s sp fs c' end)).
    { destruct it as [k path sp|s sp fs], it' as [k' path' sp'|s' sp' fs']; try discriminate Ei; injection Ei as Ei; subst; [now apply same_single|now apply same_process_type]. }
    destruct S as [S1 S2]. destruct (match it with DImport _ _ _ => _ | DType _ _ _ => _ end) as [c1 [e1|]], (match it' with DImport _ _ _ => _ | DType _ _ _ => _ end) as [c2 [e2|]]; cbn [fst snd] in S1, S2; try contradiction.
    - split; [exact S1|exact S2].
    - apply IH; assumption.
  Qed.
  Lemma same_decl_items fuel dirs dir : forall items items' c c', map unplaced_item items = map unplaced_item items' -> same_context c c' ->
    same_outcome (@process_decl_items _ _ _ FS _ fuel dirs dir items c) (@process_decl_items _ _ _ FS' _ fuel dirs dir items' c').
  Proof.
    revert dir. induction fuel as [|n IH]; intros dir items items' c c' E C; cbn [process_decl_items]; (apply same_items; [|exact E|exact C]).
    - intros d i i' x x' _ X. split; [exact X|reflexivity].
    - intros d i i' x x' Ei X. now apply IH.
  Qed.

  (** ** Compilation *)
  Record same_output (o o' : compile_output) : Prop := {
    so_file : unplaced_file (co_file o) = unplaced_file (co_file o');
    so_registry : unplaced_registry (co_registry o) = unplaced_registry (co_registry o');
    so_co_warnings : same_warnings (co_warnings o) (co_warnings o');
    so_loads : co_loads o = co_loads o'
  }.
  Definition same_compiled (x x' : result compile_output compile_error) : Prop :=
    match x, x' with Ok o, Ok o' => same_output o o' | Err e, Err e' => same_error e e' | _, _ => False end.
  Lemma same_finish f f' c c' : unplaced_file f = unplaced_file f' -> same_context c c' -> unplaced_file (finish_file f c) = unplaced_file (finish_file f' c').
  Proof.
    intros E C. destruct f as [p|s|l], f' as [p'|s'|l']; try discriminate E; try exact E. cbn [unplaced_file] in E. injection E as E1 E2 E3 E4 E5 E6.
    cbn [finish_file unplaced_file p_name p_namespace p_doc p_props p_types p_messages]. f_equal. f_equal; try assumption.
    - unfold reg_schemas. rewrite !map_map. pose proof (f_equal (map snd) (same_registry _ _ C)) as R. unfold unplaced_registry in R. rewrite !map_map in R. exact R.
    - rewrite !unplaced_extend, E6. now rewrite (same_messages _ _ C).
  Qed.
  Lemma unplaced_same_main f f' : unplaced_file f = unplaced_file f' -> same_main f f'.
  Proof.
    destruct f as [p|s|l], f' as [p'|s'|l']; try discriminate; cbn [unplaced_file]; intro E.
    - injection E as E1 E2 E3 E4 E5 E6. constructor; try assumption. unfold same_types. rewrite E5. reflexivity.
    - injection E as E. now constructor.
    - injection E as E. constructor. unfold same_types. rewrite E. reflexivity.
  Qed.
  Lemma same_undefined f f' r r' n : unplaced_file f = unplaced_file f' -> unplaced_registry r = unplaced_registry r' ->
    SpecRefs.undefined_in (ref_file f) r n -> SpecRefs.undefined_in (ref_file f') r' n.
  Proof.
    intros E R [M U]. split.
    - apply (mentioned_moved f f' r r'); [now apply unplaced_same_main|rewrite R; reflexivity|exact M].
    - intro Hi. apply U. change (map fst r) with (keys r). rewrite <- unplaced_registry_keys, R, unplaced_registry_keys. exact Hi.
  Qed.
  Lemma same_check f f' r r' name i i' : unplaced_file f = unplaced_file f' -> unplaced_registry r = unplaced_registry r' ->
    match Refs.validate_all_references (ref_file f) r name i, Refs.validate_all_references (ref_file f') r' name i' with
    | None, None => True
    | Some d, Some d' => same_error (Undefined d) (Undefined d')
    | _, _ => False
    end.
  Proof.
    intros E R. pose proof (RefsProofs.check_report (ref_file f) r name i) as A. pose proof (RefsProofs.check_report (ref_file f') r' name i') as B.
    assert (G : forall n, SpecRefs.undefined_in (ref_file f) r n <-> SpecRefs.undefined_in (ref_file f') r' n) by (intro n; split; apply same_undefined; auto).
    destruct (Refs.validate_all_references (ref_file f) r name i) as [d|], (Refs.validate_all_references (ref_file f') r' name i') as [d'|].
    - destruct A as (l & N & I & _ & P), B as (l' & N' & I' & _ & P'). cbn. exists l, l'. split; [|auto]. apply NoDup_Permutation; [exact N|exact N'|]. intro x. now rewrite I, I', G.
    - destruct A as ([|x l] & N & I & Z & P); [contradiction|]. apply (B x), G, I. now left.
    - destruct B as ([|x l] & N & I & Z & P); [contradiction|]. apply (A x), G, I. now left.
    - exact Logic.I.
  Qed.

  Lemma same_compile dirs t t' name dir ip : same_text t t' ->
    same_compiled (fst (@compile _ _ _ FS _ dirs t name dir ip)) (fst (@compile _ _ _ FS' _ dirs t' name dir ip))
    /\ same_warnings (snd (@compile _ _ _ FS _ dirs t name dir ip)) (snd (@compile _ _ _ FS' _ dirs t' name dir ip)).
  Proof.
    intro T. unfold compile, parse_and_resolve. pose proof (same_parse name name t t' T) as R.
    destruct (parse_idl name t) as [[[f i] w]|e], (parse_idl name t') as [[[f' i'] w']|e']; [|contradiction|destruct e; contradiction|].
    - destruct R as (Rf & Ri & Rw). change (@fs_files FS') with (@fs_files FS).
      assert (C : same_context (mark_input ip (add_warnings (map (mkReport None) w) new_context)) (mark_input ip (add_warnings (map (mkReport None) w') new_context))).
      { destruct ip; constructor; cbn; try reflexivity; now apply same_warnings_map. }
      destruct (same_decl_items (length fs_files) dirs dir i i' _ _ Ri C) as [S1 S2].
      destruct (@process_decl_items _ _ _ FS _ _ _ _ i _) as [c1 [e1|]], (@process_decl_items _ _ _ FS' _ _ _ _ i' _) as [c2 [e2|]]; cbn [fst snd] in S1, S2; try contradiction; cbn [fst snd].
      + split; [exact S2|apply S1].
      + pose proof (same_check (finish_file f c1) (finish_file f' c2) _ _ name (cx_json_imports c1) (cx_json_imports c2) (same_finish _ _ _ _ Rf S1) (same_registry _ _ S1)) as K.
        destruct (Refs.validate_all_references (ref_file (finish_file f c1)) _ _ _) as [d|], (Refs.validate_all_references (ref_file (finish_file f' c2)) _ _ _) as [d'|]; try contradiction; cbn [fst snd].
        * split; [exact K|apply S1].
        * split; [|reflexivity]. constructor; cbn; [now apply same_finish|apply S1..].
    - cbn [fst snd same_compiled]. split; [exact (same_error_at _ _ _ R)|reflexivity].
  Qed.
  Definition builder_compiled (x x' : builder * result compile_output compile_error) : Prop := same_builder (fst x) (fst x') /\ same_compiled (snd x) (snd x').
  Lemma same_compile_file path b b' : same_builder b b' -> builder_compiled (@compile_file _ _ _ FS _ path b) (@compile_file _ _ _ FS' _ path b').
  Proof.
    intros [B1 B2]. unfold compile_file. cbn [fs_read rewritten]. pose proof (layout path) as L. destruct (@fs_read FS path) as [t|], (read' path) as [t'|]; try contradiction.
    - destruct L as [T _]. change (@fs_canonical FS') with (@fs_canonical FS). change (@fs_parent FS') with (@fs_parent FS). rewrite <- B1.
      destruct (same_compile (b_import_dirs b) t t' path (match fs_canonical (fs_parent path) with Some d => d | None => fs_parent path end) (fs_canonical path) T) as [C W].
      destruct (@compile _ _ _ FS _ _ t _ _ _) as [r w], (@compile _ _ _ FS' _ _ t' _ _ _) as [r' w']. cbn [fst snd] in *. split; [split; [reflexivity|exact W]|exact C].
    - split; [split; assumption|reflexivity].
  Qed.
  Lemma same_compile_str t t' name b b' : same_text t t' -> same_builder b b' -> builder_compiled (@compile_str _ _ _ FS _ t name b) (@compile_str _ _ _ FS' _ t' name b').
  Proof.
    intros T [B1 B2]. unfold compile_str. cbn [fs_cwd rewritten]. destruct (@fs_cwd FS) as [cwd|]; [|split; [split; assumption|reflexivity]]. rewrite <- B1.
    destruct (same_compile (b_import_dirs b) t t' name cwd None T) as [C W].
    destruct (@compile _ _ _ FS _ _ t _ _ _) as [r w], (@compile _ _ _ FS' _ _ t' _ _ _) as [r' w']. cbn [fst snd] in *. split; [split; [reflexivity|exact W]|exact C].
  Qed.

  (** ** The builders *)
  Lemma same_schemas_list o o' : same_output o o' -> map unplaced (reg_schemas (co_registry o)) = map unplaced (reg_schemas (co_registry o')).
  Proof. intros [_ R _ _]. unfold reg_schemas. rewrite !map_map. pose proof (f_equal (map snd) R) as E. unfold unplaced_registry in E. rewrite !map_map in E. exact E. Qed.
  Lemma same_convert_impl o o' b b' : same_output o o' -> same_builder b b' -> same_result same_json (convert_impl o b) (convert_impl o' b').
  Proof.
    intros O [B1 B2]. pose proof (same_schemas_list _ _ O) as L. destruct O as [F R W _]. unfold convert_impl.
    destruct (co_file o) as [p|s|l], (co_file o') as [p'|s'|l']; try discriminate F.
    - assert (E : protocol_to_json p = protocol_to_json p').
      { rewrite <- (unplaced_protocol_json p), <- (unplaced_protocol_json p'). cbn [unplaced_file] in F. injection F as F. unfold unplaced_protocol. congruence. }
      rewrite E. destruct (protocol_to_json p') as [j|]; (split; [split; assumption|]); cbn [snd]; [split; [reflexivity|exact W]|reflexivity].
    - assert (E : schema_to_json s [] None (build_lookup (reg_schemas (co_registry o)) None) = schema_to_json s' [] None (build_lookup (reg_schemas (co_registry o')) None)).
      { rewrite <- (unplaced_json s), <- (unplaced_json s'), <- !unplaced_lookup, L. cbn [unplaced_file] in F. injection F as ->. reflexivity. }
      rewrite E. destruct (schema_to_json s' _ _ _) as [[j k]|]; (split; [split; assumption|]); cbn [snd]; [split; [reflexivity|exact W]|reflexivity].
    - split; [split; [exact B1|exact W]|]. reflexivity.
  Qed.
  Theorem convert_layout path b b' : same_builder b b' -> same_result same_json (@convert _ _ _ FS _ path b) (@convert _ _ _ FS' _ path b').
  Proof.
    intro B. unfold convert. destruct (same_compile_file path b b' B) as [C1 C2].
    destruct (@compile_file _ _ _ FS _ path b) as [b1 [o|e]], (@compile_file _ _ _ FS' _ path b') as [b2 [o'|e']]; cbn in C1, C2; try contradiction; [now apply same_convert_impl|].
    split; [exact C1|exact C2].
  Qed.
  Theorem convert_str_layout t t' name b b' : same_text t t' -> same_builder b b' -> same_result same_json (@convert_str _ _ _ FS _ t name b) (@convert_str _ _ _ FS' _ t' name b').
  Proof.
    intros T B. unfold convert_str. destruct (same_compile_str t t' name b b' T B) as [C1 C2].
    destruct (@compile_str _ _ _ FS _ t name b) as [b1 [o|e]], (@compile_str _ _ _ FS' _ t' name b') as [b2 [o'|e']]; cbn in C1, C2; try contradiction; [now apply same_convert_impl|].
    split; [exact C1|exact C2].
  Qed.
  Lemma unplaced_name s : schema_name (unplaced s) = schema_name s.
  Proof. now destruct s. Qed.
  Lemma unplaced_extract lk l : extract_schemas (unplaced_registry lk) (map unplaced l) = extract_schemas lk l.
  Proof.
    induction l as [|s l IH]; [reflexivity|]. cbn [map extract_schemas]. rewrite unplaced_name, unplaced_json, IH. reflexivity.
  Qed.
  Lemma same_extract_impl o o' : same_output o o' ->
    match extract_impl o, extract_impl o' with Ok x, Ok x' => same_schemas x x' | Err e, Err e' => same_error e e' | _, _ => False end.
  Proof.
    intro O. pose proof (same_schemas_list _ _ O) as L. destruct O as [_ _ W _]. unfold extract_impl.
    rewrite <- (unplaced_extract _ (reg_schemas (co_registry o))), <- (unplaced_extract _ (reg_schemas (co_registry o'))), <- !unplaced_lookup, L.
    destruct (extract_schemas _ _); [split; [reflexivity|exact W]|reflexivity].
  Qed.
  Lemma extract_file_layout path b b' : same_builder b b' -> same_result same_schemas (@extract_file _ _ _ FS _ path b) (@extract_file _ _ _ FS' _ path b').
  Proof.
    intro B. unfold extract_file. destruct (same_compile_file path b b' B) as [C1 C2].
    destruct (@compile_file _ _ _ FS _ path b) as [b1 [o|e]], (@compile_file _ _ _ FS' _ path b') as [b2 [o'|e']]; cbn in C1, C2; try contradiction; (split; [exact C1|]); [now apply same_extract_impl|exact C2].
  Qed.
  Theorem extract_str_layout t t' name b b' : same_text t t' -> same_builder b b' -> same_result same_schemas (@extract_str _ _ _ FS _ t name b) (@extract_str _ _ _ FS' _ t' name b').
  Proof.
    intros T B. unfold extract_str. destruct (same_compile_str t t' name b b' T B) as [C1 C2].
    destruct (@compile_str _ _ _ FS _ t name b) as [b1 [o|e]], (@compile_str _ _ _ FS' _ t' name b') as [b2 [o'|e']]; cbn in C1, C2; try contradiction; (split; [exact C1|]); [now apply same_extract_impl|exact C2].
  Qed.
  Lemma extract_all_layout paths : forall acc acc' b b', same_schemas acc acc' -> same_builder b b' ->
    same_result same_schemas (@extract_all _ _ _ FS _ paths acc b) (@extract_all _ _ _ FS' _ paths acc' b').
  Proof.
    induction paths as [|p paths IH]; intros acc acc' b b' A B; cbn [extract_all]; [split; [exact B|exact A]|].
    destruct (extract_file_layout p b b' B) as [E1 E2].
    destruct (@extract_file _ _ _ FS _ p b) as [b1 [o|e]], (@extract_file _ _ _ FS' _ p b') as [b2 [o'|e']]; cbn [fst snd] in E1, E2; try contradiction.
    - apply IH; [|exact E1]. destruct A as [A1 A2], E2 as [E2 E3]. split; cbn; [now rewrite A1, E2|now apply same_warnings_app].
    - split; assumption.
  Qed.
  Theorem extract_layout path b b' : same_builder b b' -> same_result same_schemas (@extract _ _ _ FS _ path b) (@extract _ _ _ FS' _ path b').
  Proof.
    intro B. unfold extract. change (@fs_is_dir FS') with (@fs_is_dir FS). destruct (fs_is_dir path); [|now apply extract_file_layout].
    change (@avdl_paths FS') with (@avdl_paths FS). apply extract_all_layout; [split; reflexivity|exact B].
  Qed.

  (** ** The program *)
  Context (C : Console) (stdin' : option string).
  Hypothesis stdin_layout : same_input same_text (@stdin_text C) stdin'.
  Notation C' := (retyped C stdin').

  Lemma same_write output text ws ws' : same_warnings ws ws' -> same_run (@write_output C output text ws) (@write_output C' output text ws').
  Proof.
    intro W. unfold write_output. change (@can_write C') with (@can_write C). destruct output as [path|]; [|repeat split; exact W]. destruct (String.eqb path "-"); [repeat split; exact W|].
    destruct (can_write path); repeat split; exact W.
  Qed.
  Lemma same_write_schemas dir l : @write_schemas C' dir l = @write_schemas C dir l.
  Proof. induction l as [|s l IH]; [reflexivity|]. cbn [write_schemas]. rewrite IH. reflexivity. Qed.
  Lemma builder_refl b : same_builder b b.
  Proof. split; reflexivity. Qed.
  Lemma run_idl_layout input output dirs : same_run (@run_idl _ _ _ FS _ C input output dirs) (@run_idl _ _ _ FS' _ C' input output dirs).
  Proof.
    unfold run_idl.
    assert (F : forall x x', same_result same_json x x' ->
      same_run (let (b', r) := x in match r with Ok o => @write_output C output (pretty (io_json o)) (io_warnings o) | Err e => mkRun (Some (CompileError e)) (snd (drain_warnings b')) "" [] end)
               (let (b', r) := x' in match r with Ok o => @write_output C' output (@pretty C' (io_json o)) (io_warnings o) | Err e => mkRun (Some (CompileError e)) (snd (drain_warnings b')) "" [] end)).
    { intros [b r] [b' r'] [B R]. cbn [fst snd] in B, R. destruct r as [o|e], r' as [o'|e']; try contradiction.
      - destruct R as [J W]. change (@pretty C') with (@pretty C). rewrite <- J. now apply same_write.
      - repeat split; [apply B|exact R]. }
    assert (S : forall name, same_run (match @stdin_text C with None => failing CannotReadStdin | Some source => let (b', r) := @convert_str _ _ _ FS _ source name (with_dirs dirs) in match r with Ok o => @write_output C output (pretty (io_json o)) (io_warnings o) | Err e => mkRun (Some (CompileError e)) (snd (drain_warnings b')) "" [] end end)
      (match @stdin_text C' with None => failing CannotReadStdin | Some source => let (b', r) := @convert_str _ _ _ FS' _ source name (with_dirs dirs) in match r with Ok o => @write_output C' output (@pretty C' (io_json o)) (io_warnings o) | Err e => mkRun (Some (CompileError e)) (snd (drain_warnings b')) "" [] end end)).
    { intro name. cbn [stdin_text retyped]. red in stdin_layout. destruct (@stdin_text C) as [t|], stdin' as [t'|]; try contradiction; [|repeat split]. apply F, convert_str_layout; [exact stdin_layout|apply builder_refl]. }
    destruct input as [path|]; [|apply S]. destruct (String.eqb path "-"); [apply S|]. apply F, convert_layout, builder_refl.
  Qed.
  Lemma run_schemata_layout input outdir dirs : same_run (@run_idl2schemata _ _ _ FS _ C input outdir dirs) (@run_idl2schemata _ _ _ FS' _ C' input outdir dirs).
  Proof.
    unfold run_idl2schemata. destruct (extract_layout input (with_dirs dirs) (with_dirs dirs) (builder_refl _)) as [B R].
    destruct (@extract _ _ _ FS _ input _) as [b [o|e]], (@extract _ _ _ FS' _ input _) as [b' [o'|e']]; cbn [fst snd] in B, R; try contradiction.
    - destruct R as [J W]. change (@fs_exists FS') with (@fs_exists FS). change (@fs_is_dir FS') with (@fs_is_dir FS). change (@can_create C') with (@can_create C).
      destruct (_ && _); [repeat split; exact W|]. destruct (can_create _); [|repeat split; exact W]. rewrite same_write_schemas, <- J. destruct (write_schemas _ _) as [e ws] eqn:E.
      repeat split; [exact W|]. cbn. assert (N : forall x, e <> Some (CompileError x)).
      { clear -E. revert e ws E. induction (so_schemas o) as [|s l IH]; cbn [write_schemas]; intros e ws E x; [injection E as <- <-; discriminate|].
        destruct (can_write _); [|injection E as <- <-; discriminate]. destruct (write_schemas _ l) as [e1 w1]. injection E as <- <-. now apply (IH e1 w1). }
      destruct e as [[]|]; try reflexivity. exfalso. exact (N _ eq_refl).
    - repeat split; [apply B|exact R].
  Qed.
  Theorem main_layout args : same_run (@main _ _ _ FS _ C args) (@main _ _ _ FS' _ C' args).
  Proof.
    assert (Q : forall r, (forall e, run_error r <> Some (CompileError e)) -> same_run r r).
    { intros r N. repeat split. destruct (run_error r) as [[]|]; try reflexivity. exfalso. exact (N _ eq_refl). }
    unfold main. destruct (lex_next LsNone args) as [[[[n|c|name]|] [st rest]]|e]; try (apply Q; discriminate).
    - apply Q. destruct (_ || _); discriminate.
    - apply Q. destruct (_ || _); discriminate.
    - destruct (String.eqb name "idl").
      + destruct (parse_all st rest) as [ps dirs| | |]; try (apply Q; discriminate). apply run_idl_layout.
      + destruct (String.eqb name "idl2schemata"); [|apply Q; discriminate]. destruct (parse_all st rest) as [[|i ps] dirs| | |]; try (apply Q; discriminate). apply run_schemata_layout.
  Qed.
End World.

(** ** Layout *)
Lemma same_tokens_kept t t' : same_tokens t t' -> kept (cut (chars (until_sub t))) = kept (cut (chars (until_sub t'))).
Proof.
  intros (v & v' & l & l' & V & V' & T & T' & K). rewrite (visible_until _ _ V), (visible_until _ _ V'). apply cut_iff in T, T'. now rewrite T, T'.
Qed.
Lemma layout_parse `{Unicode} `{Floats} `{LexerMessages} file file' t t' : same_tokens t t' -> same_reading_of (@parse_idl _ _ text_parser file t) (@parse_idl _ _ text_parser file' t').
Proof.
  intro S. apply same_tokens_kept in S. apply (kin_parse as_written); [now split|]. rewrite S. apply kin_pieces_refl.
Qed.
