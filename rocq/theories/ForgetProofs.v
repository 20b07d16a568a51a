(** The walker does not look at the places in a tree: it only copies them into
    the references.  Nor does it look at words but for what they stand for. *)
From Verif Require Import Canon SpecCompile BaseProofs SerializeProofs OrderProofs MoveProofs ReaderProofs.
From Verif Require Import Reader Defaults.
From Coq Require Import Lia.

(** A walk with its result changed and its places forgotten *)
Definition erase_walk (w : walk_warning) : walk_warning :=
  match w with NonStandardAlias a _ => NonStandardAlias a nowhere | AnnotationsDropped ks _ => AnnotationsDropped ks nowhere end.
Definition erase_event (e : event) : event := match e with Consumed i => Consumed i | Warned w => Warned (erase_walk w) end.
Definition wlift {A B} (f : A -> B) (m : walk A) : walk B :=
  match m with Ok (a, l) => Ok (f a, map erase_event l) | Err (e, _) => Err (e, nowhere) end.
Lemma lift_bind {A B C D} (f : A -> B) (g : C -> D) (m : walk A) (m' : walk B) k k' :
  m' = wlift f m -> (forall a, k' (f a) = wlift g (k a)) -> wbind m' k' = wlift g (wbind m k).
Proof.
  intros -> E. destruct m as [[a l]|[e p]]; cbn; [|reflexivity]. rewrite E. destruct (k a) as [[b l']|[e p]]; cbn; [|reflexivity]. now rewrite map_app.
Qed.
Notation same := (fun a => a).
Lemma wmap_wlift {A B C} (g : B -> C) (f : A -> walk B) (f' : A -> walk C) l : (forall x, In x l -> f' x = wlift g (f x)) -> wmap f' l = wlift (map g) (wmap f l).
Proof.
  induction l as [|x l IH]; intro E; cbn; [reflexivity|]. change (wmap f' (x :: l)) with (wbind (f' x) (fun y => wbind (wmap f' l) (fun ys => wret (y :: ys)))).
  change (wmap f (x :: l)) with (wbind (f x) (fun y => wbind (wmap f l) (fun ys => wret (y :: ys)))).
  apply (lift_bind g); [apply E; now left|]. intro a. apply (lift_bind (map g)); [apply IH; intros; apply E; now right|]. reflexivity.
Qed.
Lemma map_same {A} (l : list A) : map same l = l.
Proof. apply map_id. Qed.
Lemma wlift_same {A B} (f g : A -> B) m : (forall a, f a = g a) -> wlift f m = wlift g m.
Proof. intro E. destruct m as [[a l]|[e p]]; cbn; [now rewrite E|reflexivity]. Qed.
Lemma wmap_same {A B} (f f' : A -> walk B) l : (forall x, In x l -> f' x = wlift same (f x)) -> wmap f' l = wlift same (wmap f l).
Proof. intro E. rewrite (wmap_wlift same f f' l E). apply wlift_same, map_same. Qed.
Lemma nth_nowhere {A} (l : list A) n : nth n (map (fun _ => nowhere) l) no_place = nowhere.
Proof. revert n. induction l as [|x l IH]; intros [|n]; try reflexivity. apply IH. Qed.
Lemma wopt_lift {A} p e (o : option A) : wopt nowhere e o = wlift same (wopt p e o).
Proof. now destruct o. Qed.

Lemma wmap_map {A B C} (h : A -> B) (f : B -> walk C) l : wmap f (map h l) = wmap (fun x => f (h x)) l.
Proof. induction l as [|x l IH]; cbn [map]; [reflexivity|]. cbn. now rewrite IH. Qed.

(** ** Schemas *)
Lemma unplaced_key s : union_type_key (unplaced s) = union_type_key s.
Proof. now destruct s. Qed.
Lemma unplaced_union s : is_union (unplaced s) = is_union s.
Proof. now destruct s. Qed.
Lemma unplaced_reference s : is_type_reference (unplaced s) = is_type_reference s.
Proof.
  destruct s as [ | | | | | |ts b| | | ]; try reflexivity. cbn. destruct b; [|reflexivity]. induction ts as [|t ts IH]; cbn; [reflexivity|]. rewrite IH. now destruct t.
Qed.
Lemma unplaced_non_nullable s : is_non_nullable_union (unplaced s) = is_non_nullable_union s.
Proof. destruct s; try reflexivity. cbn. now rewrite map_length. Qed.
Lemma unplaced_null s : is_null_schema (unplaced s) = is_null_schema s.
Proof. now destruct s. Qed.
Lemma unplaced_promote s : try_promote_logical_type (unplaced s) = unplaced (try_promote_logical_type s).
Proof.
  destruct s; try reflexivity. cbn. destruct (assoc _ _) as [[]|]; try reflexivity. destruct (parse_logical_type _ _ _) as [lt|]; [|reflexivity]. destruct (prim_eqb _ _); reflexivity.
Qed.
Lemma unplaced_merged s ps : with_merged_properties (unplaced s) ps = unplaced (with_merged_properties s ps).
Proof. now destruct s. Qed.
Lemma unplaced_apply_one s ps : apply_properties_to_schema (unplaced s) ps = unplaced (apply_properties_to_schema s ps).
Proof. unfold apply_properties_to_schema. now rewrite unplaced_merged, unplaced_promote. Qed.
Lemma unplaced_apply s ps : apply_properties (unplaced s) ps = unplaced (apply_properties s ps).
Proof.
  destruct s as [ | | | | | |ts b| | | ]; try exact (unplaced_apply_one _ ps).
  destruct ts as [|a [|c [|d ts]]]; destruct b; try reflexivity.
  cbn [unplaced map apply_properties]. rewrite !unplaced_apply_one. destruct a as [[]| | | | | | | | | ]; reflexivity.
Qed.
Lemma unplaced_optional s d : fix_optional_schema (unplaced s) d = unplaced (fix_optional_schema s d).
Proof.
  destruct s as [ | | | | | |ts b| | | ]; try reflexivity. destruct ts as [|a [|c [|e ts]]]; destruct b; try reflexivity. cbn. destruct d as [[]|]; reflexivity.
Qed.

(** ** Defaults *)
Lemma unplaced_valid s : forall v, is_valid_default v (unplaced s) = is_valid_default v s.
Proof.
  induction s as [p|nm ns d fs e al ps IH|nm ns d sy df al ps|nm ns d sz al ps|i ps IH|i ps IH
                 |ts b IH|k ps|l ps|nm ns ps sp] using schema_ind'; intro v; cbn [unplaced is_valid_default]; try reflexivity.
  - destruct v; try reflexivity. rewrite unplaced_fields, forallb_map. induction IH as [|f fs Hf _ IHl]; [reflexivity|]. cbn [forallb]. f_equal; [|exact IHl]. cbn. destruct (jget _ _); [apply Hf|reflexivity].
  - destruct v; try reflexivity. apply forallb_ext. intro. apply IH.
  - destruct v; try reflexivity. apply forallb_ext. intro. apply IH.
  - destruct ts as [|t ts]; [reflexivity|]. cbn [map]. change (unplaced t :: map unplaced ts) with (map unplaced (t :: ts)). induction IH as [|x l Hx _ IHl]; cbn; [reflexivity|]. now rewrite Hx, IHl.
Qed.
Lemma unplaced_description s : type_description (unplaced s) = type_description s.
Proof. now destruct s. Qed.
Lemma unplaced_range s v : range_message v (unplaced s) = range_message v s.
Proof. destruct v; try reflexivity. cbn. destruct (is_json_integer n); [|reflexivity]. now destruct s. Qed.
Lemma unplaced_missing fs o : missing_required (map unplaced_field fs) o = missing_required fs o.
Proof.
  unfold missing_required. induction fs as [|f fs IH]; cbn; [reflexivity|]. destruct (f_default f); [exact IH|]. destruct (jget _ _); [exact IH|]. cbn. now rewrite IH.
Qed.
Lemma unplaced_validate s : forall v, validate_default v (unplaced s) = validate_default v s.
Proof.
  induction s as [p|nm ns d fs e al ps IH|nm ns d sy df al ps|nm ns d sz al ps|i ps IH|i ps IH
                 |ts b IH|k ps|l ps|nm ns ps sp] using schema_ind'; intro v; try reflexivity;
    match goal with |- validate_default ?v (unplaced ?s) = _ => pose proof (unplaced_valid s v) as V; pose proof (unplaced_range s v) as R; pose proof (unplaced_description s) as D end;
    cbn [unplaced] in *; rewrite ?unplaced_fields in *; cbn [validate_default]; rewrite V, R, D; clear V R D; try reflexivity.
  destruct (is_valid_default _ _); [reflexivity|]. destruct (range_message _ _); [reflexivity|]. destruct v; try reflexivity.
  rewrite unplaced_missing. destruct (missing_required _ _); [|reflexivity].
  match goal with |- match ?a with _ => _ end = match ?b with _ => _ end => enough (a = b) as ->; [reflexivity|] end.
  induction IH as [|f fs Hf _ IHl]; [reflexivity|]. cbn [map f_name f_schema unplaced_field]. destruct (jget (f_name f) o); [|exact IHl]. rewrite Hf. destruct (validate_default _ _); [reflexivity|exact IHl].
Qed.

(** ** The walk *)
Definition unplaced_item (it : decl_item) : decl_item :=
  match it with DImport k p _ => DImport k p nowhere | DType s _ fs => DType (unplaced s) nowhere (map (fun x => (fst x, nowhere)) fs) end.
Definition unplaced_file (f : idl_file) : idl_file :=
  match f with
  | IProtocol p => IProtocol (mkProtocol (p_name p) (p_namespace p) (p_doc p) (p_props p) (map unplaced (p_types p)) (unplaced_messages (p_messages p)))
  | ISchema s => ISchema (unplaced s)
  | INamed l => INamed (map unplaced l)
  end.

Section Walker.
  Context `{Unicode} `{Floats}.

  (** Forms of words that stand for the same *)
  Record faithful (c : forms) : Prop := {
    faithful_name s : identifier_text (form_name c s) = identifier_text s;
    faithful_string s : get_string_from_literal (form_string c s) = get_string_from_literal s;
    faithful_integer s : parse_integer_literal (form_integer c s) = parse_integer_literal s;
    faithful_size s : parse_integer_as_u32 (form_integer c s) = parse_integer_as_u32 s;
    faithful_float s : parse_floating_point_literal (form_float c s) = parse_floating_point_literal s
  }.
  Context (c : forms) (F : faithful c).
  Lemma canon_places d : field_places (canon_named c d) = map (fun x => (fst x, nowhere)) (field_places d).
  Proof.
    destruct d as [r|e|f]; [|reflexivity|reflexivity]. cbn [canon_named field_places r_fields]. induction (r_fields r) as [|f l IH]; [reflexivity|].
    cbn [map flat_map]. rewrite map_app, <- IH. f_equal. cbn [canon_field fd_variables]. rewrite !map_map. apply map_ext. intro v. cbn. now rewrite (faithful_name c F).
  Qed.

  Lemma canon_json_walk t : walk_json_value (canon_json c t) = wlift same (walk_json_value t).
  Proof.
    induction t as [| | |raw|raw|raw|l IH|o IH] using json_tree_ind'; cbn [canon_json walk_json_value]; try reflexivity.
    - now rewrite (faithful_string c F).
    - cbn [canon_word w_text w_place]. rewrite (faithful_integer c F). apply wopt_lift.
    - cbn [canon_word w_text w_place]. rewrite (faithful_float c F). apply wopt_lift.
    - apply (lift_bind same); [|reflexivity]. rewrite wmap_map. apply wmap_same. rewrite Forall_forall in IH. exact IH.
    - apply (lift_bind same); [|reflexivity]. rewrite wmap_map. apply wmap_same. rewrite Forall_forall in IH. intros x Hx. cbn [fst snd]. rewrite (faithful_string c F). apply (lift_bind same); [exact (IH x Hx)|reflexivity].
  Qed.
  Lemma alias_lift p v : walk_alias nowhere v = wlift same (walk_alias p v).
  Proof. destruct v; try reflexivity. cbn. destruct (forallb _ _); reflexivity. Qed.
  Lemma canon_property_walk ctx acc a : walk_property ctx acc (canon_annotation c a) = wlift same (walk_property ctx acc a).
  Proof.
    unfold walk_property. cbn [canon_annotation an_name an_value an_place]. apply (lift_bind same); [apply canon_json_walk|]. intro v. destruct acc as [ns al ord ps]. rewrite (faithful_name c F).
    destruct (_ && _)%bool; [destruct v; reflexivity|]. destruct (_ && _)%bool.
    - destruct v as [| | | |l|]; try reflexivity. apply (lift_bind same); [|reflexivity]. apply wmap_same. intros. apply alias_lift.
    - destruct (_ && _)%bool; [|destruct (str_mem _ _); reflexivity]. destruct v as [| | |s| |]; try reflexivity. cbv zeta.
      generalize (same_chars (to_uppercase s) (chars "ASCENDING")), (same_chars (to_uppercase s) (chars "DESCENDING")), (same_chars (to_uppercase s) (chars "IGNORE")). intros [] [] []; reflexivity.
  Qed.
  Lemma canon_properties_walk l ctx : walk_schema_properties (map (canon_annotation c) l) ctx = wlift same (walk_schema_properties l ctx).
  Proof.
    unfold walk_schema_properties. generalize (mkProperties None [] None []) as acc. induction l as [|a l IH]; intro acc; [reflexivity|]. cbn [map walk_properties_from].
    apply (lift_bind same); [apply canon_property_walk|]. exact IH.
  Qed.
  Lemma canon_reference ident sp ns : reference (form_name c ident) None ns = unplaced (reference ident sp ns).
  Proof. unfold reference. rewrite (faithful_name c F). destruct (rsplit_once_dot _) as [[]|]; reflexivity. Qed.
  Lemma canon_decimal p s : walk_decimal (canon_word (form_integer c) p) (option_map (canon_word (form_integer c)) s) = wlift unplaced (walk_decimal p s).
  Proof.
    unfold walk_decimal. cbn [canon_word w_place w_text]. rewrite (faithful_size c F). apply (lift_bind same); [apply wopt_lift|]. intro a. destruct (_ =? _)%N; [reflexivity|].
    apply (lift_bind same); [destruct s as [s|]; cbn [option_map canon_word w_place w_text]; [rewrite (faithful_size c F); apply wopt_lift|reflexivity]|]. intro sc. destruct (_ <? _)%N; [destruct s|]; reflexivity.
  Qed.
  Lemma canon_prim k : walk_primitive_type (canon_keyword c k) = wlift unplaced (walk_primitive_type k).
  Proof. destruct k; try reflexivity. apply canon_decimal. Qed.
  Lemma canon_nullable b q ns : walk_nullable_type (canon_base c b) q ns = wlift unplaced (walk_nullable_type b q ns).
  Proof.
    unfold walk_nullable_type. destruct b as [k kp|ident sp]; cbn [canon_base].
    - apply (lift_bind unplaced); [apply canon_prim|]. intro a. destruct q; [|reflexivity]. destruct a as [[]| | | | | | | | | ]; reflexivity.
    - rewrite (canon_reference ident sp ns). cbn. unfold reference. destruct (rsplit_once_dot _) as [[]|]; destruct q; reflexivity.
  Qed.
  Lemma canon_check (ts : list full_type) l : check_union (map full_place (map (canon_full c) ts)) (map unplaced l) = wlift unplaced (check_union (map full_place ts) l).
  Proof.
    replace (map full_place (map (canon_full c) ts)) with (map (fun _ : full_type => nowhere) ts) by (rewrite map_map; apply map_ext; now intros []).
    unfold check_union. rewrite !nth_nowhere. replace (existsb is_union (map unplaced l)) with (existsb is_union l) by (induction l as [|x l IH]; cbn; [reflexivity|]; now rewrite unplaced_union, IH).
    destruct (existsb _ _); [reflexivity|]. rewrite map_map, (map_ext _ union_type_key) by apply unplaced_key. destruct (first_duplicate _ _); reflexivity.
  Qed.
  Lemma canon_annotate p props s : annotate_type nowhere props (unplaced s) = wlift unplaced (annotate_type p props s).
  Proof.
    unfold annotate_type. destruct (sp_props props) as [|kv ps]; [reflexivity|]. rewrite unplaced_reference. destruct (is_type_reference s); [reflexivity|].
    rewrite unplaced_non_nullable, unplaced_apply. apply (lift_bind same); [destruct (is_non_nullable_union s); reflexivity|]. reflexivity.
  Qed.

  Fixpoint canon_full_walk (t : full_type) (ns : option string) {struct t} : walk_full_type (canon_full c t) ns = wlift unplaced (walk_full_type t ns)
  with canon_plain_walk (t : plain_type) (ns : option string) {struct t} : walk_plain_type (canon_plain c t) ns = wlift unplaced (walk_plain_type t ns).
  Proof.
    - destruct t as [pl a p]. cbn [canon_full walk_full_type]. apply (lift_bind same); [apply canon_properties_walk|]. intro props. apply (lift_bind unplaced); [apply canon_plain_walk|]. intro s. apply canon_annotate.
    - destruct t as [t|t|l|b q]; cbn [canon_plain walk_plain_type].
      + apply (lift_bind unplaced); [apply canon_full_walk|reflexivity].
      + apply (lift_bind unplaced); [apply canon_full_walk|reflexivity].
      + apply (lift_bind (map unplaced)); [|intro ts; apply canon_check].
        induction l as [|x l IH]; [reflexivity|]. cbn [map]. apply (lift_bind unplaced); [apply canon_full_walk|]. intro y. apply (lift_bind (map unplaced)); [exact IH|reflexivity].
      + apply canon_nullable.
  Qed.

  Section Declarations.
    Variables tokens tokens' : list token.
    Hypothesis same_docs : forall i, extract_doc_comment tokens' i = extract_doc_comment tokens i.

    Lemma doc_lift i : walk_doc tokens' i = wlift same (walk_doc tokens i).
    Proof. unfold walk_doc. rewrite same_docs. destruct (extract_doc_comment tokens i) as [[]|]; reflexivity. Qed.
    Lemma canon_variable_walk v t doc : walk_variable tokens' (canon_variable c v) (unplaced t) doc = wlift unplaced_field (walk_variable tokens v t doc).
    Proof.
      unfold walk_variable. cbn [canon_variable v_start v_ident v_annotations v_default v_place canon_word w_text]. rewrite (faithful_name c F). apply (lift_bind same); [apply doc_lift|]. intro d.
      apply (lift_bind same); [apply canon_properties_walk|]. intro props. apply (lift_bind same).
      { destruct (v_default v) as [j|]; [|reflexivity]. cbn [option_map]. apply (lift_bind same); [apply canon_json_walk|reflexivity]. }
      intro dv. rewrite unplaced_optional. destruct dv as [j|]; [|reflexivity]. rewrite unplaced_validate. destruct (validate_default _ _); reflexivity.
    Qed.
    Lemma canon_field_walk f ns : walk_field_declaration tokens' (canon_field c f) ns = wlift (map unplaced_field) (walk_field_declaration tokens f ns).
    Proof.
      unfold walk_field_declaration. apply (lift_bind same); [apply doc_lift|]. intro doc. cbn [fd_type canon_field fd_variables]. apply (lift_bind unplaced); [apply canon_full_walk|]. intro t.
      rewrite wmap_map. apply wmap_wlift. intros v _. exact (canon_variable_walk v t doc).
    Qed.
    Lemma unplaced_names fs : map f_name (map unplaced_field fs) = map f_name fs.
    Proof. rewrite map_map. reflexivity. Qed.
    Lemma canon_fields_walk l ns : forall seen, walk_fields tokens' seen (map (canon_field c) l) ns = wlift (map unplaced_field) (walk_fields tokens seen l ns).
    Proof.
      induction l as [|f l IH]; intro seen; [reflexivity|]. cbn [map walk_fields]. apply (lift_bind (map unplaced_field)); [apply canon_field_walk|]. intro fs. rewrite unplaced_names.
      destruct (first_duplicate _ _).
      - cbv zeta. cbn [canon_field fd_variables]. rewrite map_map. cbn [canon_variable v_ident canon_word w_place]. rewrite nth_nowhere. reflexivity.
      - apply (lift_bind (map unplaced_field)); [apply IH|]. intro rest. cbn. now rewrite map_app.
    Qed.
    Lemma canon_named_walk d ns : walk_named tokens' (canon_named c d) ns = wlift unplaced (walk_named tokens d ns).
    Proof.
      destruct d as [r|e|x]; cbn [canon_named walk_named].
      - unfold walk_record. cbn [r_start r_annotations r_ident r_fields r_error canon_word w_text w_place]. rewrite ?(faithful_name c F), ?(faithful_size c F). apply (lift_bind same); [apply doc_lift|]. intro doc. apply (lift_bind same); [apply canon_properties_walk|]. intro props.
        cbv zeta. destruct (is_invalid_type_name _); [reflexivity|]. apply (lift_bind (map unplaced_field)); [apply canon_fields_walk|]. intro fs. reflexivity.
      - unfold walk_enum. cbn [e_start e_annotations e_ident e_symbols e_default canon_word w_text w_place]. rewrite ?(faithful_name c F), ?(faithful_size c F). apply (lift_bind same); [apply doc_lift|]. intro doc. apply (lift_bind same); [apply canon_properties_walk|]. intro props.
        cbv zeta. destruct (is_invalid_type_name _); [reflexivity|]. rewrite !map_map. cbn [canon_word w_text w_place]. rewrite nth_nowhere. rewrite (map_ext _ (fun x : located => identifier_text x)) by (intro; apply (faithful_name c F)).
        destruct (first_duplicate _ _); [reflexivity|]. destruct (e_default e); [|reflexivity]. cbn [option_map canon_word w_text w_place]. rewrite (faithful_name c F). destruct (str_mem _ _); reflexivity.
      - unfold walk_fixed. cbn [x_start x_annotations x_ident x_size canon_word w_text w_place]. rewrite ?(faithful_name c F), ?(faithful_size c F). apply (lift_bind same); [apply doc_lift|]. intro doc. apply (lift_bind same); [apply canon_properties_walk|]. intro props.
        cbv zeta. destruct (is_invalid_type_name _); [reflexivity|]. apply (lift_bind same); [apply wopt_lift|]. intro n. cbn [wlift wret]. rewrite <- unplaced_promote. reflexivity.
    Qed.
    Lemma canon_parameters_walk l ns : forall seen, walk_parameters tokens' seen (map (canon_parameter c) l) ns = wlift (map unplaced_field) (walk_parameters tokens seen l ns).
    Proof.
      induction l as [|p l IH]; intro seen; [reflexivity|]. cbn [map walk_parameters pa_start pa_type pa_variable canon_parameter]. apply (lift_bind same); [apply doc_lift|]. intro doc.
      apply (lift_bind unplaced); [apply canon_full_walk|]. intro t. apply (lift_bind unplaced_field); [apply canon_variable_walk|]. intro f. cbn [f_name unplaced_field].
      destruct (str_mem _ _); [destruct (pa_type p); reflexivity|]. apply (lift_bind (map unplaced_field)); [apply IH|reflexivity].
    Qed.
    Lemma canon_message_walk m ns : walk_message tokens' (canon_message c m) ns = wlift (fun nm => (fst nm, unplaced_message (snd nm))) (walk_message tokens m ns).
    Proof.
      unfold walk_message. cbn [canon_message md_start md_place md_annotations md_result md_name md_parameters md_oneway md_errors]. rewrite (faithful_name c F). apply (lift_bind same); [apply doc_lift|]. intro doc. apply (lift_bind same); [apply canon_properties_walk|]. intro props.
      apply (lift_bind unplaced); [destruct (md_result m); cbn [walk_result_type option_map]; [apply canon_plain_walk|reflexivity]|].
      intro resp. rewrite unplaced_reference. destruct (_ && _); [reflexivity|]. apply (lift_bind (map unplaced_field)); [apply canon_parameters_walk|]. intro req.
      rewrite unplaced_null. destruct (_ && _); [reflexivity|]. cbn [wlift wret fst snd]. unfold unplaced_message. cbn [m_doc m_props m_request m_response m_errors m_one_way].
      destruct (md_errors m) as [|e es]; [reflexivity|]. cbn [map option_map]. rewrite !map_map. unfold canon_error. cbn [fst snd]. rewrite (canon_reference _ (snd e)).
      rewrite (map_ext (fun x => reference (form_name c (fst x)) None ns) (fun x => unplaced (reference (fst x) (snd x) ns))) by (intro x; apply canon_reference). reflexivity.
    Qed.
    Definition unplaced_body (b : list decl_item * list (string * message)) : list decl_item * list (string * message) :=
      (map unplaced_item (fst b), unplaced_messages (snd b)).
    Lemma canon_items_walk l ns : walk_items tokens' (map (canon_item c) l) ns = wlift unplaced_body (walk_items tokens l ns).
    Proof.
      induction l as [|it l IH]; [reflexivity|]. destruct it as [k p sp|d sp|m]; cbn [map canon_item walk_items].
      - rewrite (faithful_string c F). apply (lift_bind unplaced_body); [exact IH|reflexivity].
      - apply (lift_bind unplaced); [apply canon_named_walk|]. intro s. rewrite canon_places. apply (lift_bind unplaced_body); [exact IH|reflexivity].
      - eapply lift_bind; [apply canon_message_walk|]. intro s. apply (lift_bind unplaced_body); [exact IH|reflexivity].
    Qed.
    Lemma unplaced_type_items l : type_items (map unplaced_item l) = map unplaced (type_items l).
    Proof. induction l as [|[k p sp|s sp fs] l IH]; cbn; [reflexivity|exact IH|]. f_equal. exact IH. Qed.
    Lemma unplaced_inserted l : forall acc, fold_left (fun m nm => hm_insert (fst nm) (snd nm) m) (unplaced_messages l) (unplaced_messages acc)
      = unplaced_messages (fold_left (fun m nm => hm_insert (fst nm) (snd nm) m) l acc).
    Proof. induction l as [|[n m] l IH]; intro acc; [reflexivity|]. cbn [unplaced_messages map fold_left fst snd]. rewrite <- unplaced_insert. apply IH. Qed.

    Definition unplaced_read (x : idl_file * list decl_item) : idl_file * list decl_item := (unplaced_file (fst x), map unplaced_item (snd x)).
    Lemma canon_file_walk t : walk_idl_file tokens' (canon_tree c t) = wlift unplaced_read (walk_idl_file tokens t).
    Proof.
      destruct t as [i a x l|ns main l]; cbn [canon_tree walk_idl_file].
      - apply (lift_bind same); [apply doc_lift|]. intro doc. apply (lift_bind same); [apply canon_properties_walk|]. intro props. cbn [canon_word w_text w_place]. rewrite (faithful_name c F). cbv zeta. destruct (is_invalid_type_name _); [reflexivity|].
        apply (lift_bind unplaced_body); [apply canon_items_walk|]. intro body. unfold unplaced_body. cbn [fst snd wlift wret]. unfold unplaced_read. cbn [fst snd unplaced_file p_name p_namespace p_doc p_props p_types p_messages map].
        rewrite <- unplaced_inserted. reflexivity.
      - replace (option_map identifier_text (option_map (form_name c) ns)) with (option_map identifier_text ns) by (destruct ns; cbn; [now rewrite (faithful_name c F)|reflexivity]).
        apply (lift_bind unplaced_body); [apply canon_items_walk|]. intro body. destruct main as [ft|]; cbn [option_map].
        + apply (lift_bind unplaced); [apply canon_full_walk|reflexivity].
        + cbn. unfold unplaced_read. cbn. now rewrite unplaced_type_items.
    Qed.
  End Declarations.
End Walker.
