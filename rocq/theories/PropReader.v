(** C22-C29, C34, C42, C43, C48, C49: what is read from Avro IDL.

    [reads label src tokens t file items ws] says that the compiler accepts the text
    [src], whose tokens and parse tree are [tokens] and [t] (lexing and parsing
    are the oracle [Parser]), and reads [file], [items] and warnings [ws] from it. *)
From Verif Require Import SpecFile Serialize DefaultsProofs ReaderProofs TypeProofs PatternProofs DeclProofs FileProofs AnnotProofs AttrProofs DenoteProofs ObjectProofs ReadProofs SampleFile.

(** ** C22: unions *)

Theorem C22_unions_legal :
  forall `(Unicode) `(Floats) `(Parser) label src tokens t file items ws s ts b,
  reads label src tokens t file items ws -> gives file items s -> occurs (SUnion ts b) s -> legal_union ts.
Proof.
  intros U F P label src tokens t file items ws s ts b Hr Hg Ho. apply reads_walk in Hr. destruct Hr as (evs & lw & Hw & _).
  exact (file_unions tokens _ _ _ _ _ Hw Hg _ _ Ho).
Qed.
Print Assumptions C22_unions_legal.

(** The check does not go too far: every type that means something is accepted,
    unless it refers to a type called like a primitive type, [array], [map] or
    [union], without a namespace. *)
Theorem C22_legal_types_accepted :
  forall `(Unicode) `(Floats) ns t s,
  denotes ns t s -> clear_names ns (type_idents t) -> exists s' e, walk_full_type t ns = Ok (s', e).
Proof.
  intros U F ns t s Hd Hc. destruct (proj1 walk_accepts _ _ _ Hd Hc) as (s' & e & Hw & _). eauto.
Qed.
Print Assumptions C22_legal_types_accepted.

(** Such a reference, written in backticks, clashes with the primitive type. *)
Theorem C22_primitive_named_type_refuted :
  exists (U : Unicode) (F : Floats) ns t s, denotes ns t s /\ forall r, walk_full_type t ns <> Ok r.
Proof.
  exists ascii_chars, few_floats, None, (plain (PtUnion [plain (prim_of KInt); plain (named "`int`")])),
    (SUnion [SPrim PInt; SRef "int" None [] None] false).
  split; [|intro r; vm_compute; discriminate].
  assert (A : forall s, @annotated_as few_floats [] s s) by (intro s; apply aa_none; intros k (a & [] & _)).
  eapply dn_annotated; [|constructor|reflexivity|apply A]. constructor.
  - constructor; [|constructor; [|constructor]].
    + eapply dn_annotated; [apply dn_primitive; [reflexivity|discriminate]|constructor|reflexivity|apply A].
    + eapply dn_annotated; [apply dn_reference; apply (rf_plain None "`int`"); reflexivity|constructor|reflexivity|apply A].
  - split; cbn; [|intros [E|[E|[]]]; discriminate]. repeat constructor; cbn; [intros [E|[]]; discriminate|intros []].
Qed.
Print Assumptions C22_primitive_named_type_refuted.

Example C22_sample :
  gives (IProtocol read_protocol) read_items read_user
  /\ occurs (SUnion [SPrim PNull; SRef "Kind" ns_demo [] None; SArray (SRef "Thing" (Some "other") [] None) []] false) read_user
  /\ @walk_full_type ascii_chars few_floats (plain (PtUnion [plain (prim_of KInt); plain (prim_of KDate)])) None
     = Err (DuplicateInUnion "int", no_place).
Proof.
  split; [|split; [|reflexivity]].
  - eapply gv_item. right. left. reflexivity.
  - unfold read_user. eapply oc_field; [right; right; right; right; left; reflexivity|apply oc_self].
Qed.

(** ** C23: optional fields *)

(** Every field of every declared record has the type its declaration says, see
    [variable_type]. *)
Theorem C23_fields :
  forall `(Unicode) `(Floats) `(Parser) label src tokens t file items ws,
  reads label src tokens t file items ws ->
  Forall2 (fun d s => forall r, d = NRecord r ->
             exists n q doc fs al ps, s = SRecord n q doc fs (r_error r) al ps /\
               Forall2 (fun dv f => variable_type q (snd dv) (fd_type (fst dv)) (f_schema f)) (variables_of (r_fields r)) fs)
    (tree_types t) (declared_types items).
Proof.
  intros U F P label src tokens t file items ws Hr. apply reads_denotes, file_types in Hr. destruct Hr as (ns & _ & Hf).
  eapply Forall2_imp; [|exact Hf]. intros d s Hd r ->. inversion Hd as [r' n q doc al ps fs Hh Hv Hn| |]; subst.
  do 6 eexists. split; [reflexivity|]. eapply Forall2_imp; [|exact Hv]. intros dv f Hx. apply Hx.
Qed.
Print Assumptions C23_fields.

Theorem C23_parameters :
  forall `(Unicode) `(Floats) `(Parser) label src tokens t p items ws name msg,
  reads label src tokens t (IProtocol p) items ws -> In (name, msg) (p_messages p) ->
  exists m, last_message t name m /\
    Forall2 (fun pa f => variable_type (p_namespace p) (pa_variable pa) (pa_type pa) (f_schema f)) (md_parameters m) (m_request msg).
Proof.
  intros U F P label src tokens t p items ws name msg Hr Hi. apply reads_denotes, file_messages in Hr. destruct Hr as [_ Hm].
  destruct (Hm _ _ Hi) as (m & Hl & Hd). exists m. split; [exact Hl|].
  eapply Forall2_imp; [|exact (me_request _ _ _ _ Hd)]. intros pa f Hx. apply Hx.
Qed.
Print Assumptions C23_parameters.

Example C23_sample :
  let U := ascii_chars in let F := few_floats in
  variable_type ns_demo (mkVariable 15 "height" [] (Some (JTInteger "5")) (spot 15)) (plain (PtNullable (BPrimitive KInt no_place) true))
    (SUnion [SPrim PInt; SPrim PNull] true)
  /\ variable_type ns_demo (mkVariable 29 "n" [] None (spot 29)) (plain (PtNullable (BPrimitive KInt no_place) true))
    (SUnion [SPrim PNull; SPrim PInt] true).
Proof.
  cbv zeta. assert (A : forall s, @annotated_as few_floats [] s s) by (intro s; apply aa_none; intros k (a & [] & _)).
  assert (D : @denotes few_floats ns_demo (FullType no_place [] (PtNullable (BPrimitive KInt no_place) false)) (SPrim PInt)).
  { eapply dn_annotated; [apply dn_primitive; [reflexivity|discriminate]|constructor|reflexivity|apply A]. }
  split; [apply vt_null_last; [exact D|intros [E|E]; discriminate]|apply vt_null_first; [exact D|now left]].
Qed.

(** ** C24: names and namespaces *)

Theorem C24_declarations :
  forall `(Unicode) `(Floats) `(Parser) label src tokens t file items ws,
  reads label src tokens t file items ws ->
  exists ns, tree_namespace t ns /\
    Forall2 (fun d s => exists n q, defines s n q /\ declares (named_ident d) (named_annotations d) ns n q)
      (tree_types t) (declared_types items).
Proof.
  intros U F P label src tokens t file items ws Hr. apply reads_denotes, file_types in Hr. destruct Hr as (ns & Hn & Hf).
  exists ns. split; [exact Hn|]. eapply Forall2_imp; [|exact Hf]. intros d s Hd.
  inversion Hd as [r n q doc al ps fs Hh|e n q doc al ps Hh|x n q doc al ps size Hh]; subst; exists n, q; (split; [constructor|apply Hh]).
Qed.
Print Assumptions C24_declarations.

Theorem C24_protocol :
  forall `(Unicode) `(Floats) `(Parser) label src tokens start l ident its p items ws,
  reads label src tokens (TreeProtocol start l ident its) (IProtocol p) items ws ->
  declares ident l None (p_name p) (p_namespace p).
Proof. intros U F P label src tokens start l ident its p items ws Hr. apply reads_denotes in Hr. inversion Hr; subst. assumption. Qed.
Print Assumptions C24_protocol.

(** References in a record are read in the record's own namespace, those of
    messages and of the main schema in that of the file. *)
Theorem C24_references :
  forall `(Unicode) `(Floats) `(Parser) label src tokens t file items ws,
  reads label src tokens t file items ws ->
  Forall2 (fun d s => exists n q, defines s n q /\ Forall2 (refers q) (named_idents d) (schema_refs s))
    (tree_types t) (declared_types items)
  /\ (forall nsd ft its s ns, t = TreeSchema nsd (Some ft) its -> file = ISchema s -> tree_namespace t ns ->
        Forall2 (refers ns) (type_idents ft) (schema_refs s))
  /\ (forall p name msg, file = IProtocol p -> In (name, msg) (p_messages p) ->
        exists m, last_message t name m /\ Forall2 (refers (p_namespace p)) (message_idents m) (message_schema_refs msg)).
Proof.
  intros U F P label src tokens t file items ws Hr. apply reads_denotes in Hr. split; [|split].
  - apply file_types in Hr. destruct Hr as (ns & _ & Hf). eapply Forall2_imp; [|exact Hf]. intros d s Hd.
    inversion Hd as [r n q doc al ps fs Hh Hv Hn|e n q doc al ps Hh|x n q doc al ps size Hh]; subst; exists n, q; (split; [constructor|]); cbn.
    + eapply Forall2_flat_map; [|exact Hv]. intros dv f Hx. cbn. apply (variable_refs q (snd dv)). apply Hx.
    + constructor.
    + constructor.
  - intros nsd ft its s ns -> -> Hn. inversion Hr; subst. match goal with Hd : denotes ?x _ _ |- _ => assert (ns = x) by (eapply tree_namespace_det; eauto); subst end.
    now apply (proj1 denotes_refs).
  - intros p name msg -> Hi. apply file_messages in Hr. destruct Hr as [_ Hm]. destruct (Hm _ _ Hi) as (m & Hl & Hd). exists m. split; [exact Hl|].
    eapply message_refs; eauto.
Qed.
Print Assumptions C24_references.

Example C24_sample :
  let F := few_floats in
  tree_namespace sample_tree ns_demo
  /\ declares "MD5" (x_annotations sample_md5) ns_demo "MD5" (Some "crypto")
  /\ refers ns_demo "Kind" ("Kind", ns_demo) /\ refers ns_demo "other.Thing" ("Thing", Some "other").
Proof.
  cbv zeta. split; [|split; [|split]].
  - eapply tn_protocol. apply dc_annotated; [reflexivity|]. exists [], (on "namespace" (JTString (lit "org.demo"))), [on "version" (JTInteger "3")].
    split; [reflexivity|]. split; [reflexivity|]. split; [constructor|]. intros b [<-|[]]. discriminate.
  - apply dc_annotated; [reflexivity|]. exists [], (on "namespace" (JTString (lit "crypto"))), [].
    split; [reflexivity|]. split; [reflexivity|]. split; [constructor|]. intros b [].
  - apply rf_plain. reflexivity.
  - apply rf_dotted. split; reflexivity.
Qed.

(** ** C25: annotations *)

(** Whatever is accepted carries acceptable annotations only, in particular no
    forbidden one, and its properties are its annotations. *)
Theorem C25_types :
  forall `(Unicode) `(Floats) `(Parser) label src tokens t file items ws,
  reads label src tokens t file items ws ->
  Forall2 (fun d s => Forall (acceptable (named_place d)) (named_annotations d) /\
                      holds_annotations (named_place d) (named_annotations d) (props_of s))
    (tree_types t) (declared_types items).
Proof.
  intros U F P label src tokens t file items ws Hr. apply reads_denotes, file_types in Hr. destruct Hr as (ns & _ & Hf).
  eapply Forall2_imp; [|exact Hf]. intros d s Hd.
  inversion Hd as [r n q doc al ps fs Hh|e n q doc al ps Hh|x n q doc al ps size Hh]; subst; split; apply Hh.
Qed.
Print Assumptions C25_types.

Theorem C25_fields :
  forall `(Unicode) `(Floats) `(Parser) label src tokens t file items ws,
  reads label src tokens t file items ws ->
  Forall2 (fun d s => forall r, d = NRecord r ->
             exists n q doc fs al ps, s = SRecord n q doc fs (r_error r) al ps /\
               Forall2 (fun dv f => let l := v_annotations (snd dv) in
                          Forall (acceptable OnField) l /\ holds_annotations OnField l (f_props f) /\
                          aliases_annotation l (f_aliases f) /\ order_annotation l (f_order f))
                 (variables_of (r_fields r)) fs)
    (tree_types t) (declared_types items).
Proof.
  intros U F P label src tokens t file items ws Hr. apply reads_denotes, file_types in Hr. destruct Hr as (ns & _ & Hf).
  eapply Forall2_imp; [|exact Hf]. intros d s Hd r ->. inversion Hd as [r' n q doc al ps fs Hh Hv Hn| |]; subst.
  do 6 eexists. split; [reflexivity|]. eapply Forall2_imp; [|exact Hv]. intros dv f Hx. cbv zeta. split; [apply Hx|]. split; [apply Hx|]. split; apply Hx.
Qed.
Print Assumptions C25_fields.

Theorem C25_protocol :
  forall `(Unicode) `(Floats) `(Parser) label src tokens start l ident its p items ws,
  reads label src tokens (TreeProtocol start l ident its) (IProtocol p) items ws ->
  Forall (acceptable OnProtocol) l /\ holds_annotations OnProtocol l (p_props p) /\
  forall name msg, In (name, msg) (p_messages p) ->
    exists m, last_message (TreeProtocol start l ident its) name m /\
      Forall (acceptable OnMessage) (md_annotations m) /\ holds_annotations OnMessage (md_annotations m) (m_props msg) /\
      Forall2 (fun pa f => let l := v_annotations (pa_variable pa) in
                 Forall (acceptable OnField) l /\ holds_annotations OnField l (f_props f) /\
                 aliases_annotation l (f_aliases f) /\ order_annotation l (f_order f))
        (md_parameters m) (m_request msg).
Proof.
  intros U F P label src tokens start l ident its p items ws Hr. apply reads_denotes in Hr.
  split; [inversion Hr; assumption|]. split; [inversion Hr; assumption|].
  intros name msg Hi. apply file_messages in Hr. destruct Hr as [_ Hm]. destruct (Hm _ _ Hi) as (m & Hl & Hd). exists m. split; [exact Hl|].
  split; [apply Hd|]. split; [apply Hd|]. eapply Forall2_imp; [|exact (me_request _ _ _ _ Hd)]. intros pa f Hx. cbv zeta. split; [apply Hx|]. split; [apply Hx|]. split; apply Hx.
Qed.
Print Assumptions C25_protocol.

(** Acceptable annotations are never the reason for a rejection. *)
Theorem C25_accepts_exactly :
  forall `(Unicode) `(Floats) p l,
  (exists sp e, walk_schema_properties l (context_of p) = Ok (sp, e)) <-> Forall (acceptable p) l.
Proof. intros U F. exact accepted_iff. Qed.
Print Assumptions C25_accepts_exactly.

(** Annotations of types inside types *)
Theorem C25_inner_types :
  forall `(Unicode) `(Floats) pl l p ns s e,
  walk_full_type (FullType pl l p) ns = Ok (s, e) -> Forall (acceptable OnType) l /\ (is_reference p -> l = []).
Proof. intros U F pl l p ns s e Hw. apply (proj1 walk_denotes) in Hw. inversion Hw; subst. split; assumption. Qed.
Print Assumptions C25_inner_types.

Example C25_sample :
  let U := ascii_chars in let F := few_floats in
  walk_schema_properties [on "a" JTNull; on "namespace" (JTString (lit "n")); on "a" (JTInteger "1")] (context_of OnRecord)
    = Ok (mkProperties (Some "n") [] None [("a", JNum (NPos 1))], [])
  /\ walk_schema_properties [on "size" (JTInteger "1")] (context_of OnRecord) = Err (ReservedProperty "size", no_place)
  /\ walk_schema_properties [on "order" (JTString (lit "sideways"))] (context_of OnField) = Err (BadOrder, no_place).
Proof. vm_compute. repeat split. Qed.

(** ** C26: enums *)

Theorem C26_enums :
  forall `(Unicode) `(Floats) `(Parser) label src tokens t file items ws n q doc sy df al ps,
  reads label src tokens t file items ws -> In (SEnum n q doc sy df al ps) (declared_types items) ->
  NoDup sy /\ (forall d, df = Some d -> In d sy) /\
  exists e, In (NEnum e) (tree_types t) /\ sy = map (fun w : located => identifier_text w) (e_symbols e) /\ df = option_map (fun w : located => identifier_text w) (e_default e).
Proof.
  intros U F P label src tokens t file items ws n q doc sy df al ps Hr Hi. apply reads_denotes, file_types in Hr. destruct Hr as (ns & _ & Hf).
  destruct (Forall2_in_r _ _ _ _ Hf Hi) as (d & Hd & Hn). inversion Hn; subst. split; [assumption|]. split; [|eauto].
  intros d Hd'. destruct (e_default e) as [x|]; [|discriminate]. injection Hd' as <-. auto.
Qed.
Print Assumptions C26_enums.

Example C26_sample :
  let U := ascii_chars in let F := few_floats in
  In read_kind (declared_types read_items)
  /\ walk_enum [] (mkEnumDecl 0 [] "E" [here "A"; here "B"; here "`A`"] None) None = Err (DuplicateSymbol "A", no_place)
  /\ walk_enum [] (mkEnumDecl 0 [] "E" [here "A"; here "B"] (Some (here "C"))) None = Err (UnknownEnumDefault "C", no_place).
Proof. split; [cbn; tauto|]. vm_compute. repeat split. Qed.

(** ** C27: fields and parameters *)

Theorem C27_fields :
  forall `(Unicode) `(Floats) `(Parser) label src tokens t file items ws n q doc fs er al ps,
  reads label src tokens t file items ws -> In (SRecord n q doc fs er al ps) (declared_types items) ->
  NoDup (map f_name fs) /\
  exists r, In (NRecord r) (tree_types t) /\
    map f_name fs = map (fun dv => identifier_text (v_ident (snd dv))) (variables_of (r_fields r)).
Proof.
  intros U F P label src tokens t file items ws n q doc fs er al ps Hr Hi. apply reads_denotes, file_types in Hr. destruct Hr as (ns & _ & Hf).
  destruct (Forall2_in_r _ _ _ _ Hf Hi) as (d & Hd & Hn). inversion Hn as [r n' q' doc' al' ps' fs' Hh Hv Hnd| |]; subst. split; [assumption|].
  exists r. split; [exact Hd|]. clear -Hv. induction Hv as [|x f l fs Hx Hv IH]; [reflexivity|]. cbn. f_equal; [apply Hx|exact IH].
Qed.
Print Assumptions C27_fields.

Theorem C27_parameters :
  forall `(Unicode) `(Floats) `(Parser) label src tokens t p items ws name msg,
  reads label src tokens t (IProtocol p) items ws -> In (name, msg) (p_messages p) ->
  NoDup (map f_name (m_request msg)) /\
  exists m, last_message t name m /\
    map f_name (m_request msg) = map (fun pa => identifier_text (v_ident (pa_variable pa))) (md_parameters m).
Proof.
  intros U F P label src tokens t p items ws name msg Hr Hi. apply reads_denotes, file_messages in Hr. destruct Hr as [_ Hm].
  destruct (Hm _ _ Hi) as (m & Hl & Hd). split; [apply Hd|]. exists m. split; [exact Hl|]. pose proof (me_request _ _ _ _ Hd) as Hv.
  clear -Hv. induction Hv as [|x f l fs Hx Hv IH]; [reflexivity|]. cbn. f_equal; [apply Hx|exact IH].
Qed.
Print Assumptions C27_parameters.

Example C27_sample :
  let U := ascii_chars in let F := few_floats in
  let v := fun s : string => mkVariable 0 s [] None (spot 0) in
  let fd := fun l => mkFieldDecl 0 (plain (prim_of KInt)) (map v l) in
  walk_record [] (mkRecordDecl 0 [] "R" false [fd ["a"; "b"]; fd ["c"; "`b`"]]) None = Err (DuplicateField "b", no_place)
  /\ walk_message [] (mkMessageDecl 0 no_place [] None "m" [mkParameter 0 (plain (prim_of KInt)) (v "a"); mkParameter 0 (plain (prim_of KInt)) (v "a")] false []) None
     = Err (DuplicateParameter "a", no_place).
Proof. vm_compute. repeat split. Qed.

(** ** C28: one-way messages *)

Theorem C28_one_way :
  forall `(Unicode) `(Floats) `(Parser) label src tokens t p items ws name msg,
  reads label src tokens t (IProtocol p) items ws -> In (name, msg) (p_messages p) ->
  exists m, last_message t name m /\ m_one_way msg = md_oneway m /\ (m_one_way msg = true -> m_response msg = SPrim PNull).
Proof.
  intros U F P label src tokens t p items ws name msg Hr Hi. apply reads_denotes, file_messages in Hr. destruct Hr as [_ Hm].
  destruct (Hm _ _ Hi) as (m & Hl & Hd). exists m. split; [exact Hl|]. split; [apply Hd|].
  rewrite (me_one_way _ _ _ _ Hd). apply Hd.
Qed.
Print Assumptions C28_one_way.

Example C28_sample :
  let U := ascii_chars in let F := few_floats in
  In ("ping", read_ping) (p_messages read_protocol)
  /\ walk_message [] (mkMessageDecl 0 no_place [] (Some (prim_of KInt)) "m" [] true []) None = Err (OnewayResponse "m", no_place)
  /\ walk_message [] (mkMessageDecl 0 no_place [] (Some (PtUnion [plain (prim_of KNull)])) "m" [] true []) None = Err (OnewayResponse "m", no_place).
Proof. split; [now left|]. vm_compute. repeat split. Qed.

(** ** C29: logical types *)

(** Whatever annotations stand at a keyword, the type read is based on the
    primitive type the keyword stands for. *)
Theorem C29_base_type_kept :
  forall `(Unicode) `(Floats) pl kp l k o ns s e,
  walk_full_type (FullType pl l (PtNullable (BPrimitive k kp) o)) ns = Ok (s, e) ->
  exists T, class_of T = BcPrimitive (keyword_base k) /\ s = if o then SUnion [SPrim PNull; T] true else T.
Proof. intros U F. exact annotated_class. Qed.
Print Assumptions C29_base_type_kept.

(** and so it is written *)
Theorem C29_base_type_written :
  forall lk lt ps enc known j k, props_avoid ["type"] ps ->
  schema_to_json (SLogical lt ps) known enc lk = Some (j, k) ->
  exists o, j = JObj o /\ assoc "type" o = Some (JStr (prim_str (base_of lt))).
Proof.
  intros lk lt ps enc known j k Ha Hs. unfold schema_to_json in Hs. rewrite SerializeProofs.ser_logical in Hs. apply some_pair_eq in Hs. destruct Hs as [<- _].
  unfold logical_obj. eexists. split; [reflexivity|]. apply (extend_with _ _ (proj1 Ha)). right. split; [intro Hi; apply (proj2 Ha _ Hi); now left|].
  rewrite base_of_expected. destruct lt; reflexivity.
Qed.
Print Assumptions C29_base_type_written.

(** @logicalType makes a logical type of a primitive type exactly for the known
    names on the right base type. *)
Theorem C29_promotion :
  forall `(Unicode) `(Floats) pl kp l k ns s e lt,
  keyword_logical k = None -> (forall p q, k <> KDecimal p q) -> (forall a b, lt <> LDecimal a b) ->
  walk_full_type (FullType pl l (PtNullable (BPrimitive k kp) false)) ns = Ok (s, e) ->
  (exists ps, s = SLogical lt ps) <->
  exists name, annotated l "logicalType" (JStr name) /\ In (lt, keyword_base k, name) logical_table.
Proof. intros U F. exact promoted_iff. Qed.
Print Assumptions C29_promotion.

(** The keyword [decimal] takes exactly the legal parameters. *)
Theorem C29_decimal_keyword :
  forall `(Unicode) `(Floats) p q s e,
  walk_primitive_type (KDecimal p q) = Ok (s, e) <->
  exists precision scale, parse_integer_as_u32 p = Some precision /\
    match q with Some t => parse_integer_as_u32 t = Some scale | None => scale = 0%N end /\
    (1 <= precision)%N /\ (scale <= precision)%N /\ s = SLogical (LDecimal precision scale) [] /\ e = [].
Proof. intros U F. exact decimal_keyword. Qed.
Print Assumptions C29_decimal_keyword.

(** The annotation @logicalType("decimal") does not: precision 0 and a scale
    beyond the precision pass. *)
Theorem C29_decimal_annotation_refuted :
  exists (U : Unicode) (F : Floats) l l' ps ps' e e',
    walk_full_type (FullType no_place l (prim_of KBytes)) None = Ok (SLogical (LDecimal 0 0) ps, e) /\
    walk_full_type (FullType no_place l' (prim_of KBytes)) None = Ok (SLogical (LDecimal 2 7) ps', e').
Proof.
  exists ascii_chars, few_floats, [on "logicalType" (JTString (lit "decimal")); on "precision" (JTInteger "0")],
    [on "logicalType" (JTString (lit "decimal")); on "precision" (JTInteger "2"); on "scale" (JTInteger "7")], [], [], [], [].
  vm_compute. split; reflexivity.
Qed.
Print Assumptions C29_decimal_annotation_refuted.

Example C29_sample :
  let U := ascii_chars in let F := few_floats in
  let at_ := fun n k => walk_full_type (FullType no_place [on "logicalType" (JTString (lit n))] (prim_of k)) None in
  at_ "timestamp-micros" KLong = Ok (SLogical LTimestampMicros [], [])
  /\ at_ "timestamp-micros" KInt = Ok (SAnnot PInt [("logicalType", JStr "timestamp-micros")], [])
  /\ at_ "no-such" KInt = Ok (SAnnot PInt [("logicalType", JStr "no-such")], [])
  /\ walk_primitive_type (KDecimal "0" None) = Err (BadPrecision, no_place)
  /\ walk_primitive_type (KDecimal "9" (Some (here "9"))) = Ok (SLogical (LDecimal 9 9) [], []).
Proof. vm_compute. repeat split. Qed.

(** ** C34: doc comments *)

(** A doc comment is reported exactly if it does not immediately precede any of
    the declarations of the file. *)
Theorem C34_reported_iff_unattached :
  forall `(Unicode) `(Floats) `(Parser) label src tokens t file items ws,
  reads label src tokens t file items ws ->
  forall i, In (OrphanedDoc i) ws <->
    is_doc_token tokens i /\ forall s, In s (tree_starts t) -> ~ immediately_precedes tokens i s.
Proof. intros U F P. exact file_docs. Qed.
Print Assumptions C34_reported_iff_unattached.

(** and every declaration has the comment just before it, a variable without
    one that of its field declaration. *)
Theorem C34_docs_of_types :
  forall `(Unicode) `(Floats) `(Parser) label src tokens t file items ws,
  reads label src tokens t file items ws ->
  Forall2 (fun d s => match s with
                      | SRecord _ _ doc _ _ _ _ | SEnum _ _ doc _ _ _ _ | SFixed _ _ doc _ _ _ => doc_at tokens (named_start d) doc
                      | _ => False
                      end /\
                      forall r, d = NRecord r -> exists n q doc fs al ps, s = SRecord n q doc fs (r_error r) al ps /\
                        Forall2 (fun dv f => variable_doc tokens (v_start (snd dv)) (fd_start (fst dv)) (f_doc f)) (variables_of (r_fields r)) fs)
    (tree_types t) (declared_types items).
Proof.
  intros U F P label src tokens t file items ws Hr. apply reads_denotes, file_types in Hr. destruct Hr as (ns & _ & Hf).
  eapply Forall2_imp; [|exact Hf]. intros d s Hd.
  inversion Hd as [r n q doc al ps fs Hh Hv|e n q doc al ps Hh|x n q doc al ps size Hh]; subst; (split; [apply Hh|]); intros r' Er; try discriminate.
  injection Er as <-. do 6 eexists. split; [reflexivity|]. eapply Forall2_imp; [|exact Hv]. intros dv f Hx. apply Hx.
Qed.
Print Assumptions C34_docs_of_types.

Theorem C34_docs_of_protocol :
  forall `(Unicode) `(Floats) `(Parser) label src tokens start l ident its p items ws,
  reads label src tokens (TreeProtocol start l ident its) (IProtocol p) items ws ->
  doc_at tokens start (p_doc p) /\
  forall name msg, In (name, msg) (p_messages p) ->
    exists m, last_message (TreeProtocol start l ident its) name m /\ doc_at tokens (md_start m) (m_doc msg) /\
      Forall2 (fun pa f => variable_doc tokens (v_start (pa_variable pa)) (pa_start pa) (f_doc f)) (md_parameters m) (m_request msg).
Proof.
  intros U F P label src tokens start l ident its p items ws Hr. apply reads_denotes in Hr. split; [inversion Hr; assumption|].
  intros name msg Hi. apply file_messages in Hr. destruct Hr as [_ Hm]. destruct (Hm _ _ Hi) as (m & Hl & Hd). exists m. split; [exact Hl|].
  split; [apply Hd|]. eapply Forall2_imp; [|exact (me_request _ _ _ _ Hd)]. intros pa f Hx. apply Hx.
Qed.
Print Assumptions C34_docs_of_protocol.

(** One comment never goes to two declarations that start with different
    (visible) tokens. *)
Theorem C34_one_owner :
  forall tokens j i i' t,
  immediately_precedes tokens j i -> immediately_precedes tokens j i' -> (i < i')%nat ->
  nth_error tokens i = Some t -> tk_kind t <> TOther.
Proof. exact precedes_one_owner. Qed.
Print Assumptions C34_one_owner.

Example C34_sample :
  read_warnings = [OrphanedDoc 4; OrphanedDoc 33] /\ immediately_precedes sample_tokens 7 (r_start sample_user).
Proof.
  split; [reflexivity|]. split; [cbn; lia|]. split; [exists (doc "/** A user */"); split; reflexivity|].
  intros k tk Hk Et. cbn in Hk. assert (k = 8) as -> by lia. injection Et as <-. now left.
Qed.

(** ** C42: custom properties in the output *)

(** No property of anything read from a file has the name of a key that the
    output needs for something else. *)
Theorem C42_no_structural_key :
  forall `(Unicode) `(Floats) `(Parser) label src tokens t file items ws,
  reads label src tokens t file items ws ->
  (forall s u, gives file items s -> occurs u s -> props_avoid (structural u) (props_of u)) /\
  (forall n q doc fs er al ps f, In (SRecord n q doc fs er al ps) (declared_types items) -> In f fs -> props_avoid field_keys (f_props f)) /\
  (forall p, file = IProtocol p -> props_avoid protocol_keys (p_props p)) /\
  (forall p name msg, file = IProtocol p -> In (name, msg) (p_messages p) ->
     props_avoid message_keys (m_props msg) /\ forall f, In f (m_request msg) -> props_avoid field_keys (f_props f)).
Proof.
  intros U F P label src tokens t file items ws Hr. split; [|split; [|split]].
  - intros s u Hg Ho. apply reads_walk in Hr. destruct Hr as (evs & lw & Hw & _). exact (file_avoid tokens _ _ _ _ _ _ Hw Hg Ho).
  - intros n q doc fs er al ps f Hi Hf'. apply reads_denotes, file_types in Hr. destruct Hr as (ns & _ & Hf).
    destruct (Forall2_in_r _ _ _ _ Hf Hi) as (d & _ & Hn). inversion Hn as [r n' q' doc' al' ps' fs' Hh Hv| |]; subst.
    destruct (Forall2_in_r _ _ _ _ Hv Hf') as (dv & _ & Hd). exact (variable_avoid _ _ _ _ _ _ Hd).
  - intros p ->. apply reads_denotes in Hr. inversion Hr; subst. apply (holds_avoid OnProtocol l); [assumption|]. intros k Hk. cbn in *. tauto.
  - intros p name msg -> Hi. apply reads_denotes, file_messages in Hr. destruct Hr as [_ Hm]. destruct (Hm _ _ Hi) as (m & _ & Hd).
    split; [exact (message_avoid _ _ _ _ Hd)|]. intros f Hf. destruct (Forall2_in_r _ _ _ _ (me_request _ _ _ _ Hd) Hf) as (pa & _ & Hx).
    exact (variable_avoid _ _ _ _ _ _ Hx).
Qed.
Print Assumptions C42_no_structural_key.

(** The object written for a type, a field, a message or a protocol is the one
    without the properties, with every property added under its own key. *)
Theorem C42_types_written :
  forall u known enc lk o k', (forall n ns ps sp, u <> SRef n ns ps sp) -> props_avoid (structural u) (props_of u) ->
  schema_to_json u known enc lk = Some (JObj o, k') ->
  exists o0, schema_to_json (without_props u) known enc lk = Some (JObj o0, k') /\ with_props o0 (props_of u) o.
Proof. intros u known enc lk o k'. apply ser_with. Qed.
Print Assumptions C42_types_written.

Theorem C42_fields_written :
  forall (f : field) j, props_avoid field_keys (f_props f) ->
  exists o0 o, field_obj (bare_field f) j = JObj o0 /\ field_obj f j = JObj o /\ with_props o0 (f_props f) o.
Proof. intros f j [Hn _]. now apply field_with. Qed.
Print Assumptions C42_fields_written.

Theorem C42_messages_written :
  forall lk n m enc known o k', props_avoid message_keys (m_props m) ->
  ser_message lk n m enc known = Some (JObj o, k') ->
  exists o0, ser_message lk n (bare_message m) enc known = Some (JObj o0, k') /\ with_props o0 (m_props m) o.
Proof. exact message_with. Qed.
Print Assumptions C42_messages_written.

Theorem C42_protocols_written :
  forall p j, props_avoid protocol_keys (p_props p) -> protocol_to_json p = Some j ->
  exists o0 o, protocol_to_json (bare_protocol p) = Some (JObj o0) /\ j = JObj o /\ with_props o0 (p_props p) o.
Proof. exact protocol_with. Qed.
Print Assumptions C42_protocols_written.

(** But a property can replace what makes a type logical: @logicalType on
    [date], @precision on [decimal(4)]. *)
Theorem C42_logical_attributes_refuted :
  exists (U : Unicode) (F : Floats) l l' s s' e e' o o' k k',
    walk_full_type (FullType no_place l (prim_of KDate)) None = Ok (s, e) /\
    schema_to_json s [] None [] = Some (JObj o, k) /\ assoc "logicalType" o = Some (JStr "x") /\
    walk_full_type (FullType no_place l' (prim_of (KDecimal "4" None))) None = Ok (s', e') /\
    schema_to_json s' [] None [] = Some (JObj o', k') /\ assoc "precision" o' = Some (JNum (NPos 9)).
Proof.
  exists ascii_chars, few_floats, [on "logicalType" (JTString (lit "x"))], [on "precision" (JTInteger "9")].
  do 8 eexists. do 5 (split; [vm_compute; reflexivity|]). vm_compute; reflexivity.
Qed.
Print Assumptions C42_logical_attributes_refuted.

Example C42_sample :
  let f := mkField "f" (SLogical LDate [("unit", JStr "m")]) None None None [] [("k", JNull)] in
  props_avoid field_keys (f_props f) /\ props_avoid (structural (f_schema f)) (props_of (f_schema f))
  /\ schema_to_json (f_schema f) [] None [] = Some (JObj [("logicalType", JStr "date"); ("type", JStr "int"); ("unit", JStr "m")], []).
Proof.
  cbv zeta. split; [|split; [|reflexivity]]; (split; [repeat constructor; intros []|]); intros k [<-|[]]; cbn; intuition discriminate.
Qed.

(** ** C43: annotating a type *)

(** An annotated type is the type without the annotations, but for the
    attributes the annotations give; see [annotated_as]. *)
Theorem C43_only_attributes_change :
  forall `(Unicode) `(Floats) pl l p ns s e,
  walk_full_type (FullType pl l p) ns = Ok (s, e) ->
  exists s0 e0, walk_full_type (FullType pl [] p) ns = Ok (s0, e0) /\ annotated_as l s0 s.
Proof. intros U F. exact walk_annotated. Qed.
Print Assumptions C43_only_attributes_change.

(** A union has no attributes: its annotations are dropped with a warning. *)
Theorem C43_union_annotations_reported :
  forall `(Unicode) `(Floats) pl l ts ns s e, l <> [] ->
  walk_full_type (FullType pl l (PtUnion ts)) ns = Ok (s, e) ->
  exists ks, In (Warned (AnnotationsDropped ks pl)) e /\ forall k, In k ks <-> mentioned l k.
Proof. intros U F. exact union_dropped. Qed.
Print Assumptions C43_union_annotations_reported.

(** A reference cannot be annotated. *)
Theorem C43_references_not_annotated :
  forall `(Unicode) `(Floats) pl l i sp o ns s e,
  walk_full_type (FullType pl l (PtNullable (BReference i sp) o)) ns = Ok (s, e) -> l = [].
Proof. intros U F. exact reference_not_annotated. Qed.
Print Assumptions C43_references_not_annotated.

(** One attribute does get lost: a @scale that is no number, beside
    @logicalType("decimal") and a @precision. *)
Theorem C43_scale_lost_refuted :
  exists (U : Unicode) (F : Floats) l s e, annotated l "scale" (JStr "two") /\
    walk_full_type (FullType no_place l (prim_of KBytes)) None = Ok (s, e) /\ attribute s "scale" = Some (JNum (NPos 0)) /\ e = [].
Proof.
  exists ascii_chars, few_floats,
    [on "logicalType" (JTString (lit "decimal")); on "precision" (JTInteger "4"); on "scale" (JTString (lit "two"))].
  do 2 eexists. split; [|vm_compute; repeat split].
  exists [on "logicalType" (JTString (lit "decimal")); on "precision" (JTInteger "4")], (on "scale" (JTString (lit "two"))), [].
  split; [reflexivity|]. split; [reflexivity|]. split; [|intros b []]. apply (jm_string (lit "two")).
Qed.
Print Assumptions C43_scale_lost_refuted.

Example C43_sample :
  let U := ascii_chars in let F := few_floats in
  walk_full_type (FullType no_place [on "unit" (JTString (lit "m")); on "logicalType" (JTString (lit "mine"))] (PtNullable (BPrimitive KDate no_place) true)) None
  = Ok (SUnion [SPrim PNull; SLogical LDate [("unit", JStr "m"); ("logicalType", JStr "mine")]] true, [])
  /\ walk_full_type (FullType no_place [on "u" JTNull] (PtUnion [plain (prim_of KInt)])) None
  = Ok (SUnion [SPrim PInt] false, [Warned (AnnotationsDropped ["u"] no_place)]).
Proof. vm_compute. repeat split. Qed.

(** ** C48: the whole file *)

(** What is read from a file is what its declarations mean: every import and
    every type once, in the order of the source, every message, of equal names
    the last, each with exactly the name, type, default, doc comment and
    annotations the declaration gives. *)
Theorem C48_file_meaning :
  forall `(Unicode) `(Floats) `(Parser) label src tokens t file items ws,
  reads label src tokens t file items ws -> file_denotes tokens t file items.
Proof. intros U F P label src tokens t file items ws. apply reads_denotes. Qed.
Print Assumptions C48_file_meaning.

(** Every text accepted is read in this way: from the tree the parser gives for
    what comes before the first SUB character. *)
Theorem C48_accepted :
  forall `(Unicode) `(Floats) `(Parser) label src file items ws,
  parse_idl label src = Ok (file, items, ws) -> exists tokens t, reads label src tokens t file items ws.
Proof. intros U F P. exact accepted_reads. Qed.
Print Assumptions C48_accepted.
Theorem C48_after_end_ignored :
  forall `(Unicode) `(Floats) `(Parser) label visible c hidden,
  Forall (fun x => ~ ends_source x) (list_ascii_of_string visible) -> ends_source c ->
  parse_idl label (visible ++ String c hidden) = parse_idl label visible.
Proof. intros U F P. exact after_end_ignored. Qed.
Print Assumptions C48_after_end_ignored.

Example C48_sample :
  @reads ascii_chars few_floats sample_parser "" "" sample_tokens sample_tree (IProtocol read_protocol) read_items read_warnings.
Proof. exact sample_reads. Qed.

(** ** C49: JSON in IDL *)

(** A JSON value in IDL is read as what it denotes; what denotes nothing (a
    number out of range) is rejected. *)
Theorem C49_json_values :
  forall `(Unicode) `(Floats) t j e, walk_json_value t = Ok (j, e) <-> json_means t j /\ e = [].
Proof. intros U F. exact walk_json_iff. Qed.
Print Assumptions C49_json_values.

Theorem C49_json_values_unique :
  forall `(Floats) t j j', json_means t j -> json_means t j' -> j = j'.
Proof. intros F t j j'. exact (json_means_det t j j'). Qed.
Print Assumptions C49_json_values_unique.

Example C49_sample :
  let U := ascii_chars in let F := few_floats in
  walk_json_value (JTObject [(lit "b", JTInteger "0x10"); (lit "a", JTArray [JTNull; JTFloat "2.5"]); (lit "b", JTFloat "-Infinity")])
  = Ok (JObj [("a", JArr [JNull; JNum (NFloat 5 (-1))]); ("b", JStr "-Infinity")], []).
Proof. vm_compute. reflexivity. Qed.
