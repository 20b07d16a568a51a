(** What can be wrong with a file that follows the grammar: each reason for which
    it can be refused, where in the tree and at which place in the file it stands,
    and nothing about how the walker looks for it. *)
From Verif Require Export SpecFile.

(** [x] stands in the list a second time, at the place [p]. *)
Definition twice (x : string) (p : span) (l : list (string * span)) : Prop :=
  exists a p0 b c, l = a ++ (x, p0) :: b ++ (x, p) :: c.
Definition spelt (w : located) : string * span := (identifier_text w, w_place w).

(** The last part of a dotted name *)
Definition simple_name (ident n : string) : Prop :=
  (exists q, qualified (identifier_text ident) q n) \/ contains_dot (identifier_text ident) = false /\ n = identifier_text ident.

(** What a branch of a union is called when branches are compared *)
Definition branch_name (c : branch_class) : string :=
  match c with
  | BcPrimitive p => prim_str p
  | BcArray => "array" | BcMap => "map" | BcUnion => "union"
  | BcNamed full => full
  end.

Section Defects.
  Context `{Floats}.

  (** Numbers out of range *)
  Inductive bad_json : json_tree -> walk_error -> span -> Prop :=
  | bj_integer raw : (forall j, ~ json_means (JTInteger raw) j) -> bad_json (JTInteger raw) BadInteger (w_place raw)
  | bj_float raw : (forall j, ~ json_means (JTFloat raw) j) -> bad_json (JTFloat raw) BadFloat (w_place raw)
  | bj_element l t e at_ : In t l -> bad_json t e at_ -> bad_json (JTArray l) e at_
  | bj_member o k t e at_ : In (k, t) o -> bad_json t e at_ -> bad_json (JTObject o) e at_.

  (** Annotations with a value of the wrong kind, and those that may not stand here *)
  Inductive bad_annotation (p : place) (a : annotation) : walk_error -> span -> Prop :=
  | ba_value e at_ : bad_json (an_value a) e at_ -> bad_annotation p a e at_
  | ba_namespace v : identifier_text (an_name a) = "namespace" -> In "namespace" (special p) ->
      json_means (an_value a) v -> (forall s, v <> JStr s) -> bad_annotation p a BadNamespace (an_place a)
  | ba_aliases v : identifier_text (an_name a) = "aliases" -> In "aliases" (special p) ->
      json_means (an_value a) v -> (forall al, v <> JArr (map JStr al)) -> bad_annotation p a BadAliases (an_place a)
  | ba_order v : identifier_text (an_name a) = "order" -> In "order" (special p) ->
      json_means (an_value a) v -> (forall o s, v = JStr s -> ~ order_word o s) -> bad_annotation p a BadOrder (an_place a)
  | ba_reserved : In (identifier_text (an_name a)) (forbidden p) ->
      bad_annotation p a (ReservedProperty (identifier_text (an_name a))) (an_place a).
  Definition bad_annotations (p : place) (l : list annotation) (e : walk_error) (at_ : span) : Prop :=
    exists a, In a l /\ bad_annotation p a e at_.

  (** [union { ... }] and [T?] *)
  Definition union_type (t : full_type) : Prop := exists sp l, (exists ts, t = FullType sp l (PtUnion ts)) \/ exists b, t = FullType sp l (PtNullable b true).

  Inductive bad_type (ns : option string) : full_type -> walk_error -> span -> Prop :=
  | bt_annotation sp l p e at_ : bad_annotations OnType l e at_ -> bad_type ns (FullType sp l p) e at_
  | bt_plain sp l p e at_ : bad_plain ns p e at_ -> bad_type ns (FullType sp l p) e at_
  | bt_reference sp l p : l <> [] -> is_reference p -> bad_type ns (FullType sp l p) AnnotatedReference sp
  with bad_plain (ns : option string) : plain_type -> walk_error -> span -> Prop :=
  | bp_array t e at_ : bad_type ns t e at_ -> bad_plain ns (PtArray t) e at_
  | bp_map t e at_ : bad_type ns t e at_ -> bad_plain ns (PtMap t) e at_
  | bp_branch ts t e at_ : In t ts -> bad_type ns t e at_ -> bad_plain ns (PtUnion ts) e at_
  | bp_nested ts t : In t ts -> union_type t -> bad_plain ns (PtUnion ts) NestedUnion (full_place t)
  | bp_duplicate a t b t' c s s' k : denotes ns t s -> denotes ns t' s' -> branch_name (class_of s) = k -> branch_name (class_of s') = k ->
      bad_plain ns (PtUnion (a ++ t :: b ++ t' :: c)) (DuplicateInUnion k) (full_place t')
  | bp_null at_ : bad_plain ns (PtNullable (BPrimitive KNull at_) true) NullableNull at_
  | bp_precision (p : located) s o sp : (forall n, parse_integer_as_u32 p = Some n -> n = 0%N) ->
      bad_plain ns (PtNullable (BPrimitive (KDecimal p s) sp) o) BadPrecision (w_place p)
  | bp_scale (p s : located) o sp :
      parse_integer_as_u32 s = None \/ (exists n m, parse_integer_as_u32 p = Some n /\ parse_integer_as_u32 s = Some m /\ (n < m)%N) ->
      bad_plain ns (PtNullable (BPrimitive (KDecimal p (Some s)) sp) o) BadScale (w_place s).

  (** A field or parameter of type [t] *)
  Inductive bad_variable (ns : option string) (t : full_type) (v : variable) : walk_error -> span -> Prop :=
  | bv_annotation e at_ : bad_annotations OnField (v_annotations v) e at_ -> bad_variable ns t v e at_
  | bv_json d e at_ : v_default v = Some d -> bad_json d e at_ -> bad_variable ns t v e at_
  | bv_default d j s : v_default v = Some d -> json_means d j -> variable_type ns v t s -> is_valid_default j s = false ->
      bad_variable ns t v (InvalidDefault (identifier_text (v_ident v))) (v_place v).
  Inductive bad_field (ns : option string) (f : field_decl) : walk_error -> span -> Prop :=
  | bf_type e at_ : bad_type ns (fd_type f) e at_ -> bad_field ns f e at_
  | bf_variable v e at_ : In v (fd_variables f) -> bad_variable ns (fd_type f) v e at_ -> bad_field ns f e at_.

  Inductive bad_named (ns : option string) : named_decl -> walk_error -> span -> Prop :=
  | bn_annotation d e at_ : bad_annotations (named_place d) (named_annotations d) e at_ -> bad_named ns d e at_
  | bn_name d n : simple_name (named_ident d) n -> In n type_words -> bad_named ns d (IllegalName n) (w_place (named_ident d))
  | bn_field r n q f e at_ : declares (r_ident r) (r_annotations r) ns n q -> In f (r_fields r) -> bad_field q f e at_ -> bad_named ns (NRecord r) e at_
  | bn_fields r x at_ : twice x at_ (map (fun dv => spelt (v_ident (snd dv))) (variables_of (r_fields r))) ->
      bad_named ns (NRecord r) (DuplicateField x) at_
  | bn_symbols e x at_ : twice x at_ (map spelt (e_symbols e)) -> bad_named ns (NEnum e) (DuplicateSymbol x) at_
  | bn_default e x : e_default e = Some x -> ~ In (identifier_text x) (symbols_of e) ->
      bad_named ns (NEnum e) (UnknownEnumDefault (identifier_text x)) (w_place x)
  | bn_size x : parse_integer_as_u32 (x_size x) = None -> bad_named ns (NFixed x) BadFixedSize (w_place (x_size x)).

  Inductive bad_message (ns : option string) (m : message_decl) : walk_error -> span -> Prop :=
  | bm_annotation e at_ : bad_annotations OnMessage (md_annotations m) e at_ -> bad_message ns m e at_
  | bm_result p e at_ : md_result m = Some p -> bad_plain ns p e at_ -> bad_message ns m e at_
  | bm_reference p : md_result m = Some p -> is_reference p -> md_annotations m <> [] -> bad_message ns m AnnotatedReference (md_place m)
  | bm_type pa e at_ : In pa (md_parameters m) -> bad_type ns (pa_type pa) e at_ -> bad_message ns m e at_
  | bm_parameter pa e at_ : In pa (md_parameters m) -> bad_variable ns (pa_type pa) (pa_variable pa) e at_ -> bad_message ns m e at_
  | bm_parameters x at_ : twice x at_ (map (fun pa => (identifier_text (v_ident (pa_variable pa)), full_place (pa_type pa))) (md_parameters m)) ->
      bad_message ns m (DuplicateParameter x) at_
  | bm_oneway p : md_oneway m = true -> md_result m = Some p -> (forall sp, p <> PtNullable (BPrimitive KNull sp) false) ->
      bad_message ns m (OnewayResponse (identifier_text (md_name m))) (md_place m).

  (** A file *)
  Inductive defect : idl_tree -> walk_error -> span -> Prop :=
  | df_annotation start l x its e at_ : bad_annotations OnProtocol l e at_ -> defect (TreeProtocol start l x its) e at_
  | df_name start l (x : located) its n : simple_name x n -> In n type_words -> defect (TreeProtocol start l x its) (IllegalName n) (w_place x)
  | df_named t ns d p e at_ : tree_namespace t ns -> In (ItNamed d p) (tree_items t) -> bad_named ns d e at_ -> defect t e at_
  | df_message t ns m e at_ : tree_namespace t ns -> In (ItMessage m) (tree_items t) -> bad_message ns m e at_ -> defect t e at_
  | df_main nsd ft its ns e at_ : tree_namespace (TreeSchema nsd (Some ft) its) ns -> bad_type ns ft e at_ -> defect (TreeSchema nsd (Some ft) its) e at_.
End Defects.
