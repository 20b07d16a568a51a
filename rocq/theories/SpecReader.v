(** Vocabulary for the properties of the walker: what declarations say, stated
    over the parse tree and the produced schemas, without the walker. *)
From Coq Require Export Sorted.
From Verif Require Export Reader SpecMeaning SpecNames SpecComment.

(** ** Parts of schemas *)

(** [u] occurs in [s] (or is [s]). *)
Inductive occurs : schema -> schema -> Prop :=
| oc_self s : occurs s s
| oc_field u n ns d fs e al ps f : In f fs -> occurs u (f_schema f) -> occurs u (SRecord n ns d fs e al ps)
| oc_array u i ps : occurs u i -> occurs u (SArray i ps)
| oc_map u i ps : occurs u i -> occurs u (SMap i ps)
| oc_union u ts b t : In t ts -> occurs u t -> occurs u (SUnion ts b).

(** Everything a file gives: declared types, the main schema, and the types of
    messages. *)
Inductive gives (file : idl_file) (items : list decl_item) : schema -> Prop :=
| gv_item s p fs : In (DType s p fs) items -> gives file items s
| gv_schema s : file = ISchema s -> gives file items s
| gv_named l s : file = INamed l -> In s l -> gives file items s
| gv_message p nm s : file = IProtocol p -> In nm (p_messages p) -> message_type (snd nm) s -> gives file items s.

(** ** Unions *)

(** What makes two branches of a union indistinguishable: for unnamed types the
    Avro type, for named types the full name. *)
Inductive branch_class := BcPrimitive (p : prim) | BcArray | BcMap | BcUnion | BcNamed (full : string).
Definition base_of (lt : logical) : prim :=
  match lt with
  | LDate | LTimeMillis => PInt
  | LTimeMicros | LTimestampMillis | LTimestampMicros | LLocalTimestampMillis | LLocalTimestampMicros => PLong
  | LUuid => PString
  | LDecimal _ _ => PBytes
  end.
Definition class_of (s : schema) : branch_class :=
  match s with
  | SPrim p | SAnnot p _ => BcPrimitive p
  | SLogical lt _ => BcPrimitive (base_of lt)
  | SArray _ _ => BcArray
  | SMap _ _ => BcMap
  | SUnion _ _ => BcUnion
  | SRecord n ns _ _ _ _ _ | SEnum n ns _ _ _ _ _ | SFixed n ns _ _ _ _ | SRef n ns _ _ => BcNamed (fullname n ns)
  end.
Definition legal_union (ts : list schema) : Prop :=
  NoDup (map class_of ts) /\ ~ In BcUnion (map class_of ts).

(** ** Annotations *)

(** JSON denoted by a tree; of equal keys in an object the last one counts, and
    members are kept in the order of their keys. *)
Definition by_key (members : list (string * json)) : Prop :=
  StronglySorted (fun a b => String.compare (fst a) (fst b) = Lt) members.
Inductive json_means `{Floats} : json_tree -> json -> Prop :=
| jm_null : json_means JTNull JNull
| jm_true : json_means JTTrue (JBool true)
| jm_false : json_means JTFalse (JBool false)
| jm_string raw : json_means (JTString raw) (JStr (get_string_from_literal raw))
| jm_integer (raw : located) j : parse_integer_literal raw = Some j -> json_means (JTInteger raw) j
| jm_nan (raw : located) : parse_float_text raw = Some FNan -> json_means (JTFloat raw) (JStr "NaN")
| jm_infinity (raw : located) : parse_float_text raw = Some (FInfinite false) -> json_means (JTFloat raw) (JStr "Infinity")
| jm_minus_infinity (raw : located) : parse_float_text raw = Some (FInfinite true) -> json_means (JTFloat raw) (JStr "-Infinity")
| jm_float (raw : located) m e : parse_float_text raw = Some (FFinite m e) -> json_means (JTFloat raw) (JNum (NFloat m e))
| jm_array l js : Forall2 json_means l js -> json_means (JTArray l) (JArr js)
| jm_object o pairs members :
    Forall2 (fun kt kj => fst kj = get_string_from_literal (fst kt) /\ json_means (snd kt) (snd kj)) o pairs ->
    by_key members ->
    (forall k, assoc k members = assoc k (rev pairs)) ->
    json_means (JTObject o) (JObj members).

(** The last annotation called [name] has the value [v]. *)
Definition annotated `{Floats} (l : list annotation) (name : string) (v : json) : Prop :=
  exists before a after, l = before ++ a :: after /\ identifier_text (an_name a) = name /\
    json_means (an_value a) v /\ forall b, In b after -> identifier_text (an_name b) <> name.
Definition mentioned (l : list annotation) (name : string) : Prop :=
  exists a, In a l /\ identifier_text (an_name a) = name.

(** Where an annotation can stand, the names it then may not have, and those
    that have a meaning of their own. *)
Inductive place := OnProtocol | OnRecord | OnEnum | OnFixed | OnField | OnType | OnMessage.
Definition forbidden (p : place) : list string :=
  match p with
  | OnProtocol => ["protocol"; "doc"; "messages"; "types"; "errors"]
  | OnRecord | OnFixed => ["doc"; "fields"; "items"; "name"; "size"; "symbols"; "values"; "type"]
  | OnEnum => ["doc"; "fields"; "items"; "name"; "size"; "symbols"; "values"; "type"; "default"]
  | OnField => ["default"; "doc"; "name"; "type"]
  | OnType => ["doc"; "fields"; "items"; "name"; "namespace"; "size"; "symbols"; "values"; "type"; "aliases"]
  | OnMessage => ["doc"; "response"; "request"; "errors"; "one-way"]
  end.
Definition special (p : place) : list string :=
  match p with
  | OnProtocol => ["namespace"]
  | OnRecord | OnFixed | OnEnum => ["namespace"; "aliases"]
  | OnField => ["aliases"; "order"]
  | OnType | OnMessage => []
  end.

(** [ps] holds the annotations of [l] that have no meaning of their own, each
    with its last value, and nothing else. *)
Definition holds_annotations `{Floats} (p : place) (l : list annotation) (ps : props) : Prop :=
  (forall k v, assoc k ps = Some v <-> annotated l k v /\ ~ In k (special p)) /\ NoDup (keys ps) /\
  forall k, mentioned l k -> ~ In k (forbidden p).

(** @namespace, @aliases and @order, if they stand in [l]: the last one, which
    must have a value of the right kind. *)
Definition order_words : list (field_order * list N) :=
  [(Ascending, chars "ASCENDING"); (Descending, chars "DESCENDING"); (Ignore, chars "IGNORE")].
(** [c] is the letter [u] in either case; U+0131 and U+017F are other lower case
    forms of I and S. *)
Definition same_letter (u c : N) : Prop :=
  c = u \/ c = (u + 32)%N \/ (u = 73%N /\ c = 305%N) \/ (u = 83%N /\ c = 383%N).
Definition order_word (o : field_order) (s : string) : Prop :=
  exists w, In (o, w) order_words /\ Forall2 same_letter w (chars s).

Definition namespace_annotation `{Floats} (l : list annotation) (ns : option string) : Prop :=
  (exists s, ns = Some s /\ annotated l "namespace" (JStr s)) \/ ns = None /\ ~ mentioned l "namespace".
Definition aliases_annotation `{Floats} (l : list annotation) (al : list string) : Prop :=
  annotated l "aliases" (JArr (map JStr al)) \/ al = [] /\ ~ mentioned l "aliases".
Definition order_annotation `{Floats} (l : list annotation) (o : option field_order) : Prop :=
  (exists x s, o = Some x /\ annotated l "order" (JStr s) /\ order_word x s) \/ o = None /\ ~ mentioned l "order".

(** ** Names *)

(** [ident] is [q.n] with [n] after the last dot. *)
Definition qualified (ident q n : string) : Prop := ident = (q ++ "." ++ n)%string /\ contains_dot n = false.

(** The name and namespace a declaration gets. *)
Inductive declares `{Floats} (ident : string) (l : list annotation) (enclosing : option string)
  : string -> option string -> Prop :=
| dc_dotted q n : qualified (identifier_text ident) q n -> declares ident l enclosing n (Some q)
| dc_annotated s : contains_dot (identifier_text ident) = false ->
    annotated l "namespace" (JStr s) -> declares ident l enclosing (identifier_text ident) (Some s)
| dc_enclosing : contains_dot (identifier_text ident) = false -> ~ mentioned l "namespace" ->
    declares ident l enclosing (identifier_text ident) enclosing.

(** What an identifier used as a type refers to. *)
Inductive refers (ns : option string) (ident : string) : string * option string -> Prop :=
| rf_dotted q n : qualified (identifier_text ident) q n -> refers ns ident (n, Some q)
| rf_plain : contains_dot (identifier_text ident) = false -> refers ns ident (identifier_text ident, ns).

(** Identifiers used in a type, and references in a schema, both from left to right. *)
Fixpoint type_idents (t : full_type) : list string :=
  match t with FullType _ _ p => plain_idents p end
with plain_idents (p : plain_type) : list string :=
  match p with
  | PtArray t | PtMap t => type_idents t
  | PtUnion ts => flat_map type_idents ts
  | PtNullable (BReference i _) _ => [i]
  | PtNullable (BPrimitive _ _) _ => []
  end.
Fixpoint schema_refs (s : schema) : list (string * option string) :=
  match s with
  | SRef n ns _ _ => [(n, ns)]
  | SArray i _ | SMap i _ => schema_refs i
  | SUnion ts _ => flat_map schema_refs ts
  | SRecord _ _ _ fs _ _ _ => flat_map (fun f => schema_refs (f_schema f)) fs
  | _ => []
  end.

(** ** Doc comments *)

(** First tokens of everything that can have a doc comment. *)
Definition variable_starts (v : variable) : list nat := [v_start v].
Definition field_starts (f : field_decl) : list nat := fd_start f :: flat_map variable_starts (fd_variables f).
Definition named_starts (d : named_decl) : list nat :=
  match d with
  | NRecord r => r_start r :: flat_map field_starts (r_fields r)
  | NEnum e => [e_start e]
  | NFixed x => [x_start x]
  end.
Definition parameter_starts (p : parameter) : list nat := pa_start p :: variable_starts (pa_variable p).
Definition item_starts (it : item) : list nat :=
  match it with
  | ItImport _ _ _ => []
  | ItNamed d _ => named_starts d
  | ItMessage m => md_start m :: flat_map parameter_starts (md_parameters m)
  end.
Definition tree_starts (t : idl_tree) : list nat :=
  match t with
  | TreeProtocol start _ _ items => start :: flat_map item_starts items
  | TreeSchema _ _ items => flat_map item_starts items
  end.

(** The doc of a declaration starting at token [i]: the cleaned text of the
    comment just before it. *)
Inductive doc_at (tokens : list token) (i : nat) : option string -> Prop :=
| da_none : (forall j, ~ immediately_precedes tokens j i) -> doc_at tokens i None
| da_some j t : immediately_precedes tokens j i -> nth_error tokens j = Some t ->
    doc_at tokens i (option_map of_chars (clean_doc (chars (tk_text t)))).

(** ** Logical types *)

(** The Avro logical types the compiler knows, their base and name *)
Definition logical_table : list (logical * prim * string) :=
  [(LDate, PInt, "date"); (LTimeMillis, PInt, "time-millis"); (LTimeMicros, PLong, "time-micros");
   (LTimestampMillis, PLong, "timestamp-millis"); (LTimestampMicros, PLong, "timestamp-micros");
   (LLocalTimestampMillis, PLong, "local-timestamp-millis"); (LLocalTimestampMicros, PLong, "local-timestamp-micros");
   (LUuid, PString, "uuid")].

(** ** Annotated types *)

(** The value of an attribute of an unnamed type, as it is written out:
    properties go over the attributes of the logical type. *)
Definition attribute (s : schema) (k : string) : option json :=
  match s with
  | SAnnot _ ps | SArray _ ps | SMap _ ps => assoc k ps
  | SLogical lt ps => opt_or (assoc k ps) (assoc k (logical_attrs lt))
  | _ => None
  end.

(** The same type but for attributes: same base type, same items, same values. *)
Inductive same_structure : schema -> schema -> Prop :=
| ss_simple s t p : class_of s = BcPrimitive p -> class_of t = BcPrimitive p -> same_structure s t
| ss_array i ps ps' : same_structure (SArray i ps) (SArray i ps')
| ss_map i ps ps' : same_structure (SMap i ps) (SMap i ps').

(** ** Declarations of a file *)
Definition named_annotations (d : named_decl) : list annotation :=
  match d with NRecord r => r_annotations r | NEnum e => e_annotations e | NFixed x => x_annotations x end.
Definition named_ident (d : named_decl) : located :=
  match d with NRecord r => r_ident r | NEnum e => e_ident e | NFixed x => x_ident x end.
Definition named_start (d : named_decl) : nat :=
  match d with NRecord r => r_start r | NEnum e => e_start e | NFixed x => x_start x end.
Definition named_place (d : named_decl) : place :=
  match d with NRecord _ => OnRecord | NEnum _ => OnEnum | NFixed _ => OnFixed end.

(** The symbols of an enum *)
Definition symbols_of (e : enum_decl) : list string := map (fun x : located => identifier_text x) (e_symbols e).

(** All variables of a record with their declarations, in order *)
Definition variables_of (l : list field_decl) : list (field_decl * variable) :=
  flat_map (fun fd => map (fun v => (fd, v)) (fd_variables fd)) l.

Definition tree_items (t : idl_tree) : list item :=
  match t with TreeProtocol _ _ _ items | TreeSchema _ _ items => items end.
Definition tree_types (t : idl_tree) : list named_decl :=
  flat_map (fun it => match it with ItNamed d _ => [d] | _ => [] end) (tree_items t).
Definition tree_messages (t : idl_tree) : list message_decl :=
  flat_map (fun it => match it with ItMessage m => [m] | _ => [] end) (tree_items t).
Definition declared_types (items : list decl_item) : list schema :=
  flat_map (fun it => match it with DType s _ _ => [s] | DImport _ _ _ => [] end) items.

(** The namespace a file puts its declarations in. *)
Inductive tree_namespace `{Floats} : idl_tree -> option string -> Prop :=
| tn_protocol start l (ident : located) items n ns :
    declares ident l None n ns -> tree_namespace (TreeProtocol start l ident items) ns
| tn_schema main items : tree_namespace (TreeSchema None main items) None
| tn_schema_in ident main items :
    tree_namespace (TreeSchema (Some ident) main items) (Some (identifier_text ident)).

(** [m] is the last declaration of a message called [name]. *)
Definition last_message (t : idl_tree) (name : string) (m : message_decl) : Prop :=
  exists before after, tree_messages t = before ++ m :: after /\ identifier_text (md_name m) = name /\
    forall m', In m' after -> identifier_text (md_name m') <> name.

(** [visible] is the source up to the first SUB character (26), which ends it. *)
Definition ends_source (c : ascii) : Prop := c = ascii_of_nat 26.
Definition visible_part (src visible : string) : Prop :=
  Forall (fun c => ~ ends_source c) (list_ascii_of_string visible)
  /\ (src = visible \/ exists c hidden, ends_source c /\ src = (visible ++ String c hidden)%string).

(** The compiler accepts the source text, called [label], whose tokens and tree these are. *)
Definition reads `{Unicode} `{Floats} `{Parser} (label src : string) (tokens : list token) (t : idl_tree)
    (file : idl_file) (items : list decl_item) (ws : list warning) : Prop :=
  exists visible lw, visible_part src visible /\ antlr_parse label visible = Some (mkParsed tokens t lw) /\ parse_idl label src = Ok (file, items, ws).

(** Identifiers used as types in declarations *)
Definition named_idents (d : named_decl) : list string :=
  match d with
  | NRecord r => flat_map (fun dv => type_idents (fd_type (fst dv))) (variables_of (r_fields r))
  | _ => []
  end.
Definition message_idents (m : message_decl) : list string :=
  flat_map (fun p => type_idents (pa_type p)) (md_parameters m)
  ++ match md_result m with Some p => plain_idents p | None => [] end
  ++ map fst (md_errors m).
Definition message_schema_refs (m : message) : list (string * option string) :=
  flat_map (fun f => schema_refs (f_schema f)) (m_request m) ++ schema_refs (m_response m)
  ++ match m_errors m with Some es => flat_map schema_refs es | None => [] end.

(** The default is null or there is none. *)
Definition null_default (v : variable) : Prop := v_default v = None \/ v_default v = Some JTNull.

(** ** Properties *)
Definition props_of (s : schema) : props :=
  match s with
  | SRecord _ _ _ _ _ _ ps | SEnum _ _ _ _ _ _ ps | SFixed _ _ _ _ _ ps
  | SArray _ ps | SMap _ ps | SAnnot _ ps | SLogical _ ps | SRef _ _ ps _ => ps
  | SPrim _ | SUnion _ _ => []
  end.

(** ** What can be annotated, and how *)

(** An annotation that may stand at [p]. *)
Inductive acceptable `{Floats} (p : place) (a : annotation) : Prop :=
| ac_custom v : ~ In (identifier_text (an_name a)) (special p) -> ~ In (identifier_text (an_name a)) (forbidden p) ->
    json_means (an_value a) v -> acceptable p a
| ac_namespace s : identifier_text (an_name a) = "namespace" -> In "namespace" (special p) ->
    json_means (an_value a) (JStr s) -> acceptable p a
| ac_aliases al : identifier_text (an_name a) = "aliases" -> In "aliases" (special p) ->
    json_means (an_value a) (JArr (map JStr al)) -> acceptable p a
| ac_order o s : identifier_text (an_name a) = "order" -> In "order" (special p) ->
    json_means (an_value a) (JStr s) -> order_word o s -> acceptable p a.

(** The number [n], written as an integer or as a floating point number. *)
Definition is_number (v : json) (n : N) : Prop :=
  v = JNum (NPos n) \/
  exists m e, v = JNum (NFloat m e) /\ (0 <= e -> m * 2 ^ e = Z.of_N n)%Z /\ (e < 0 -> m = Z.of_N n * 2 ^ (- e))%Z.

(** [s] becomes [s'] by annotations [l].  A value for each key: the
    annotation's if there is one, else what it was. *)
Inductive annotated_as `{Floats} (l : list annotation) : schema -> schema -> Prop :=
| aa_none s : (forall k, ~ mentioned l k) -> annotated_as l s s
| aa_optional s s' : annotated_as l s s' ->
    annotated_as l (SUnion [SPrim PNull; s] true) (SUnion [SPrim PNull; s'] true)
| aa_union ts : annotated_as l (SUnion ts false) (SUnion ts false)
| aa_simple s s' : same_structure s s' ->
    (forall k v, attribute s' k = Some v <-> annotated l k v \/ (~ mentioned l k /\ attribute s k = Some v)) ->
    annotated_as l s s'
| aa_decimal p q ps : annotated l "logicalType" (JStr "decimal") ->
    (exists v, annotated l "precision" v /\ is_number v p) -> (p <= 2147483647)%N ->
    ((exists v, annotated l "scale" v /\ is_number v q) \/ q = 0%N) -> (q <= 2147483647)%N ->
    (forall k v, ~ In k ["precision"; "scale"] ->
       attribute (SLogical (LDecimal p q) ps) k = Some v <-> annotated l k v) ->
    annotated_as l (SPrim PBytes) (SLogical (LDecimal p q) ps).

(** The types the keywords stand for *)
Definition keyword_base (k : prim_keyword) : prim :=
  match k with
  | KBoolean => PBoolean | KInt => PInt | KLong => PLong | KFloat => PFloat | KDouble => PDouble
  | KBytes => PBytes | KString => PString | KNull => PNull
  | KDate | KTimeMs => PInt
  | KTimestampMs | KLocalTimestampMs => PLong
  | KUuid => PString
  | KDecimal _ _ => PBytes
  end.
Definition keyword_logical (k : prim_keyword) : option logical :=
  match k with
  | KDate => Some LDate | KTimeMs => Some LTimeMillis | KTimestampMs => Some LTimestampMillis
  | KLocalTimestampMs => Some LLocalTimestampMillis | KUuid => Some LUuid
  | _ => None
  end.

(** Keys of the object a type is written as that say what the type is *)
Definition structural (s : schema) : list string :=
  match s with
  | SRecord _ _ _ _ _ _ _ => ["type"; "name"; "namespace"; "doc"; "fields"; "aliases"]
  | SEnum _ _ _ _ _ _ _ => ["type"; "name"; "namespace"; "doc"; "symbols"; "default"; "aliases"]
  | SFixed _ _ _ _ _ _ => ["type"; "name"; "namespace"; "doc"; "size"; "aliases"]
  | SArray _ _ => ["type"; "items"]
  | SMap _ _ => ["type"; "values"]
  | SAnnot _ _ | SLogical _ _ => ["type"]
  | SPrim _ | SUnion _ _ | SRef _ _ _ _ => []
  end.
(** The type without its properties *)
Definition without_props (s : schema) : schema :=
  match s with
  | SRecord n ns d fs e al _ => SRecord n ns d fs e al []
  | SEnum n ns d sy df al _ => SEnum n ns d sy df al []
  | SFixed n ns d sz al _ => SFixed n ns d sz al []
  | SArray i _ => SArray i []
  | SMap i _ => SMap i []
  | SAnnot k _ => SAnnot k []
  | SLogical lt _ => SLogical lt []
  | SRef n ns _ sp => SRef n ns [] sp
  | SPrim _ | SUnion _ _ => s
  end.
