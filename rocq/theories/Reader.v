(** Model of the tree walker of src/reader.rs: from the parse tree to schemas,
    messages and declaration items. *)
From Verif Require Export Syntax Registry Literals Doc Defaults.

(** Errors of the walker; message texts are dropped. *)
Inductive walk_error :=
| ReservedProperty (name : string)
| BadNamespace | BadAliases | BadOrder
| IllegalName (name : string)
| DuplicateField (f : string)
| DuplicateSymbol (s : string)
| UnknownEnumDefault (s : string)
| BadFixedSize | BadInteger | BadFloat
| BadPrecision | BadScale
| NestedUnion | DuplicateInUnion (key : string)
| NullableNull
| AnnotatedReference
| InvalidDefault (f : string)
| DuplicateParameter (p : string)
| OnewayResponse (m : string).

(** Side effects of the walk on [SourceInfo]: consumed doc comments and
    warnings.  They are lost when the walk fails (src/reader.rs:2165-2166), so
    only successful walks carry them. *)
Inductive walk_warning :=
| NonStandardAlias (alias : string) (place : span)
| AnnotationsDropped (keys : list string) (place : span).
Inductive event :=
| Consumed (token_index : nat)
| Warned (w : walk_warning).

(** An error comes with the place it points at. *)
Definition walk (A : Type) : Type := result (A * list event) (walk_error * span).
Definition wret {A} (a : A) : walk A := Ok (a, []).
Definition werr {A} (p : span) (e : walk_error) : walk A := Err (e, p).
Definition wbind {A B} (m : walk A) (f : A -> walk B) : walk B :=
  match m with
  | Err e => Err e
  | Ok (a, l) => match f a with
                 | Err e => Err e
                 | Ok (b, l') => Ok (b, l ++ l')
                 end
  end.
Definition emit (evs : list event) : walk unit := Ok (tt, evs).
Definition wopt {A} (p : span) (e : walk_error) (o : option A) : walk A :=
  match o with Some a => wret a | None => werr p e end.
Notation "'let*' x ':=' m 'in' f" := (wbind m (fun x => f))
  (at level 200, x name, m at level 100, f at level 200).
Notation "m ';;;' f" := (wbind m (fun _ => f)) (at level 199, right associativity).

(** [for x in l { v.push(f(x)?) }] *)
Definition wmap {A B} (f : A -> walk B) : list A -> walk (list B) :=
  fix go l := match l with
              | [] => wret []
              | x :: r => let* y := f x in let* ys := go r in wret (y :: ys)
              end.

(** ** JSON *)

(** [f64] values of decimal and hexadecimal floating point texts, left open here:
    FloatText.v has those of the code. *)
Inductive f64_value := FNan | FInfinite (negative : bool) | FFinite (m e : Z).
Class Floats := { finite_float : string -> option f64_value }.

Section WithOracles.
  Context `{Unicode} `{Floats}.

  (** src/reader.rs:4056-4071 [parse_float_text]; from line 4073 on see
      FloatText.v *)
  Definition parse_float_text (text : string) : option f64_value :=
    if String.eqb text "NaN" || String.eqb text "+NaN" || String.eqb text "-NaN" then Some FNan
    else if String.eqb text "Infinity" || String.eqb text "+Infinity" then Some (FInfinite false)
    else if String.eqb text "-Infinity" then Some (FInfinite true)
    else finite_float text.

  (** src/reader.rs:4032-4048 [parse_floating_point_literal] *)
  Definition parse_floating_point_literal (text : string) : option json :=
    match parse_float_text text with
    | None => None
    | Some FNan => Some (JStr "NaN")
    | Some (FInfinite false) => Some (JStr "Infinity")
    | Some (FInfinite true) => Some (JStr "-Infinity")
    | Some (FFinite m e) => Some (JNum (NFloat m e))
    end.

  (** src/reader.rs:3708-3795 [walk_json_value], [walk_json_literal],
      [walk_json_object], [walk_json_array] *)
  Fixpoint walk_json_value (t : json_tree) : walk json :=
    match t with
    | JTNull => wret JNull
    | JTTrue => wret (JBool true)
    | JTFalse => wret (JBool false)
    | JTString raw => wret (JStr (get_string_from_literal raw))
    | JTInteger raw => wopt (w_place raw) BadInteger (parse_integer_literal raw)
    | JTFloat raw => wopt (w_place raw) BadFloat (parse_floating_point_literal raw)
    | JTArray l => let* vs := wmap walk_json_value l in wret (JArr vs)
    | JTObject o =>
        let* kvs := wmap (fun kv => let* v := walk_json_value (snd kv) in
                                    wret (get_string_from_literal (fst kv), v)) o in
        wret (JObj (fold_left (fun m kv => bt_insert (fst kv) (snd kv) m) kvs []))
    end.

  (** ** Annotations *)

  (** src/reader.rs:2376-2387 [PropertyContext] *)
  Record property_context := mkContext {
    with_namespace : bool;
    with_aliases : bool;
    with_order : bool;
    reserved : list string
  }.

  (** src/reader.rs:2401-2449 *)
  Definition SCHEMA_RESERVED :=
    ["doc"; "fields"; "items"; "name"; "namespace"; "size"; "symbols"; "values"; "type"; "aliases"].
  Definition ENUM_RESERVED :=
    ["doc"; "fields"; "items"; "name"; "namespace"; "size"; "symbols"; "values"; "type"; "aliases"; "default"].
  Definition FIELD_RESERVED := ["default"; "doc"; "name"; "order"; "type"; "aliases"].
  Definition PROTOCOL_RESERVED := ["namespace"; "protocol"; "doc"; "messages"; "types"; "errors"].
  Definition MESSAGE_RESERVED := ["doc"; "response"; "request"; "errors"; "one-way"].

  (** src/reader.rs:2453-2504 *)
  Definition PROTOCOL_PROPS := mkContext true false false PROTOCOL_RESERVED.
  Definition NAMED_TYPE_PROPS := mkContext true true false SCHEMA_RESERVED.
  Definition ENUM_PROPS := mkContext true true false ENUM_RESERVED.
  Definition VARIABLE_PROPS := mkContext false true true FIELD_RESERVED.
  Definition BARE_PROPS := mkContext false false false SCHEMA_RESERVED.
  Definition MESSAGE_PROPS := mkContext false false false MESSAGE_RESERVED.

  (** src/reader.rs:2345-2370 [SchemaProperties] *)
  Record schema_properties := mkProperties {
    sp_namespace : option string;
    sp_aliases : list string;
    sp_order : option field_order;
    sp_props : props
  }.

  (** [str::to_uppercase], as far as it can produce the three words it is
      compared with: ASCII letters, and the two other characters whose upper
      case is an ASCII letter of these words, U+0131 and U+017F. *)
  Definition upper_char (c : N) : N :=
    if ((97 <=? c) && (c <=? 122))%N then (c - 32)%N
    else if (c =? 305)%N then 73%N
    else if (c =? 383)%N then 83%N
    else c.
  Definition to_uppercase (s : string) : list N := map upper_char (chars s).
  Definition same_chars (a b : list N) : bool := if list_eq_dec N.eq_dec a b then true else false.

  (** src/reader.rs:2547-2581, the strings of @aliases *)
  Definition walk_alias (p : span) (v : json) : walk string :=
    match v with
    | JStr s =>
        if forallb is_valid_avro_name (split_dot s) then wret s
        else emit [Warned (NonStandardAlias s p)] ;;; wret s
    | _ => werr p BadAliases
    end.

  (** src/reader.rs:2519-2618, the body of the loop *)
  Definition walk_property (pctx : property_context) (acc : schema_properties) (a : annotation)
      : walk schema_properties :=
    let name := identifier_text (an_name a) in
    let* value := walk_json_value (an_value a) in
    let 'mkProperties ns al ord ps := acc in
    if with_namespace pctx && String.eqb name "namespace" then
      match value with
      | JStr s => wret (mkProperties (Some s) al ord ps)
      | _ => werr (an_place a) BadNamespace
      end
    else if with_aliases pctx && String.eqb name "aliases" then
      match value with
      | JArr l => let* al' := wmap (walk_alias (an_place a)) l in wret (mkProperties ns al' ord ps)
      | _ => werr (an_place a) BadAliases
      end
    else if with_order pctx && String.eqb name "order" then
      match value with
      | JStr s =>
          let u := to_uppercase s in
          if same_chars u (chars "ASCENDING") then wret (mkProperties ns al (Some Ascending) ps)
          else if same_chars u (chars "DESCENDING") then wret (mkProperties ns al (Some Descending) ps)
          else if same_chars u (chars "IGNORE") then wret (mkProperties ns al (Some Ignore) ps)
          else werr (an_place a) BadOrder
      | _ => werr (an_place a) BadOrder
      end
    else if str_mem name (reserved pctx) then werr (an_place a) (ReservedProperty name)
    else wret (mkProperties ns al ord (hm_insert name value ps)).

  (** src/reader.rs:2510-2622 [walk_schema_properties] *)
  Fixpoint walk_properties_from (pctx : property_context) (acc : schema_properties) (l : list annotation)
      : walk schema_properties :=
    match l with
    | [] => wret acc
    | a :: r => let* acc' := walk_property pctx acc a in walk_properties_from pctx acc' r
    end.
  Definition walk_schema_properties (l : list annotation) (pctx : property_context) : walk schema_properties :=
    walk_properties_from pctx (mkProperties None [] None []) l.

  (** ** Logical types and properties on types *)

  (** src/reader.rs:4446-4464 [json_value_as_u32] *)
  Definition float_as_u32 (m e : Z) : option N :=
    if (0 <=? e)%Z then
      let v := (m * 2 ^ e)%Z in
      if ((0 <=? v) && (v <=? Z.of_N u32_max))%Z then Some (Z.to_N v) else None
    else
      let d := (2 ^ (- e))%Z in
      if ((m mod d =? 0) && (0 <=? m / d) && (m / d <=? Z.of_N u32_max))%Z then Some (Z.to_N (m / d)) else None.
  Definition json_value_as_u32 (v : json) : option N :=
    match v with
    | JNum (NPos n) => if (n <=? u32_max)%N then Some n else None
    | JNum (NNeg _) => None
    | JNum (NFloat m e) => float_as_u32 m e
    | _ => None
    end.

  (** src/reader.rs:4364-4371, [.filter(|&v| v <= i32::MAX as u32)] *)
  Definition i32_param (o : option json) : option N :=
    match o with
    | Some v => match json_value_as_u32 v with
                | Some n => if (n <=? Z.to_N i32_max)%N then Some n else None
                | None => None
                end
    | None => None
    end.

  (** src/reader.rs:4349-4441 [try_promote_logical_type].  The validation of
      logical types on [fixed] has no effect on the result. *)
  Definition try_promote_logical_type (s : schema) : schema :=
    match s with
    | SAnnot kind ps =>
        match assoc "logicalType" ps with
        | Some (JStr logical_name) =>
            match parse_logical_type logical_name (i32_param (assoc "precision" ps))
                    (i32_param (assoc "scale" ps)) with
            | None => SAnnot kind ps
            | Some lt =>
                if prim_eqb (expected_base_type lt) kind then
                  let ps := hm_remove "logicalType" ps in
                  let ps := match lt with
                            | LDecimal _ _ => hm_remove "scale" (hm_remove "precision" ps)
                            | _ => ps
                            end in
                  SLogical lt ps
                else SAnnot kind ps
            end
        | _ => SAnnot kind ps
        end
    | other => other
    end.

  (** src/reader.rs:4327-4332 [apply_properties_to_schema] *)
  Definition apply_properties_to_schema (s : schema) (ps : props) : schema :=
    try_promote_logical_type (with_merged_properties s ps).

  (** src/reader.rs:4296-4321 [apply_properties] *)
  Definition apply_properties (s : schema) (ps : props) : schema :=
    match s with
    | SUnion [a; b] true =>
        match a with
        | SPrim PNull => SUnion [a; apply_properties_to_schema b ps] true
        | _ => SUnion [apply_properties_to_schema a ps; b] true
        end
    | other => apply_properties_to_schema other ps
    end.

  (** src/reader.rs:4234-4247 [is_type_reference] *)
  Definition is_type_reference (s : schema) : bool :=
    match s with
    | SRef _ _ _ _ => true
    | SUnion ts true => existsb (fun t => match t with SRef _ _ _ _ => true | _ => false end) ts
    | _ => false
    end.

  (** src/reader.rs:4252-4261 [is_non_nullable_union] *)
  Definition is_non_nullable_union (s : schema) : bool :=
    match s with
    | SUnion ts b => negb (b && Nat.eqb (List.length ts) 2)
    | _ => false
    end.

  (** src/reader.rs:4266-4291 [fix_optional_schema] *)
  Definition fix_optional_schema (s : schema) (default_value : option json) : schema :=
    match s with
    | SUnion [a; b] true =>
        match default_value with
        | None | Some JNull => s
        | Some _ => SUnion [b; a] true
        end
    | _ => s
    end.

  (** ** Names *)

  (** src/reader.rs:4208-4211 [extract_name] *)
  Definition extract_name (identifier : string) : string := fst (split_full_name identifier).

  (** src/reader.rs:4220-4229 [compute_namespace] *)
  Definition compute_namespace (identifier : string) (explicit : option string) : option string :=
    match snd (split_full_name identifier) with
    | Some ns => Some ns
    | None => explicit
    end.

  (** src/reader.rs:1912-1924 [is_invalid_type_name] *)
  Definition INVALID_LOGICAL_TYPE_NAMES := ["date"; "time_ms"; "timestamp_ms"; "local_timestamp_ms"; "uuid"].
  Definition is_invalid_type_name (name : string) : bool :=
    match prim_of_str name with
    | Some _ => true
    | None => str_mem name INVALID_LOGICAL_TYPE_NAMES
    end.

  (** ** Types *)

  (** src/reader.rs:3405-3446, the decimal case of [walk_primitive_type] *)
  Definition walk_decimal (precision : located) (scale : option located) : walk schema :=
    let* p := wopt (w_place precision) BadPrecision (parse_integer_as_u32 precision) in
    if (p =? 0)%N then werr (w_place precision) BadPrecision
    else
      let* s := match scale with
                | Some t => wopt (w_place t) BadScale (parse_integer_as_u32 t)
                | None => wret 0%N
                end in
      (* 3436-3441: without a scale the code would panic, but then it is 0 *)
      if (p <? s)%N then werr (match scale with Some t => w_place t | None => no_place end) BadScale
      else wret (SLogical (LDecimal p s) []).

  (** src/reader.rs:3360-3464 [walk_primitive_type] *)
  Definition walk_primitive_type (k : prim_keyword) : walk schema :=
    match k with
    | KBoolean => wret (SPrim PBoolean)
    | KInt => wret (SPrim PInt)
    | KLong => wret (SPrim PLong)
    | KFloat => wret (SPrim PFloat)
    | KDouble => wret (SPrim PDouble)
    | KBytes => wret (SPrim PBytes)
    | KString => wret (SPrim PString)
    | KNull => wret (SPrim PNull)
    | KDate => wret (SLogical LDate [])
    | KTimeMs => wret (SLogical LTimeMillis [])
    | KTimestampMs => wret (SLogical LTimestampMillis [])
    | KLocalTimestampMs => wret (SLogical LLocalTimestampMillis [])
    | KUuid => wret (SLogical LUuid [])
    | KDecimal p s => walk_decimal p s
    end.

  (** src/reader.rs:3314-3333 and 3629-3645: an identifier used as a type *)
  Definition reference (ident : string) (sp : option span) (ns : option string) : schema :=
    let type_name := identifier_text ident in
    match rsplit_once_dot type_name with
    | Some (q, name) => SRef name (Some q) [] sp
    | None => SRef type_name ns [] sp
    end.

  (** The place of a nullableType node *)
  Definition base_place (b : base_type) : span :=
    match b with
    | BPrimitive _ p => p
    | BReference _ (Some p) => p
    | BReference _ None => no_place
    end.

  (** src/reader.rs:3306-3357 [walk_nullable_type] *)
  Definition walk_nullable_type (b : base_type) (optional : bool) (ns : option string) : walk schema :=
    let* base := match b with
                 | BPrimitive k _ => walk_primitive_type k
                 | BReference ident sp => wret (reference ident sp ns)
                 end in
    if optional then
      match base with
      | SPrim PNull => werr (base_place b) NullableNull
      | _ => wret (SUnion [SPrim PNull; base] true)
      end
    else wret base.

  Definition is_union (s : schema) : bool := match s with SUnion _ _ => true | _ => false end.

  (** src/reader.rs:3529-3540, the duplicate check of [walk_union_type] *)
  Fixpoint first_duplicate (seen : list string) (keys : list string) : option string :=
    match keys with
    | [] => None
    | k :: r => if str_mem k seen then Some k else first_duplicate (k :: seen) r
    end.

  (** How often the loop that finds it has gone round *)
  Fixpoint duplicate_index (seen : list string) (keys : list string) : nat :=
    match keys with
    | [] => 0
    | k :: r => if str_mem k seen then 0 else S (duplicate_index (k :: seen) r)
    end.
  (** src/reader.rs:3514-3516, the index of the first union *)
  Fixpoint union_index (types : list schema) : nat :=
    match types with
    | [] => 0
    | t :: r => if is_union t then 0 else S (union_index r)
    end.

  (** src/reader.rs:3501-3547 [walk_union_type], after the branches are walked;
      [places] are those of the branches *)
  Definition check_union (places : list span) (types : list schema) : walk schema :=
    if existsb is_union types then werr (nth (union_index types) places no_place) NestedUnion
    else match first_duplicate [] (map union_type_key types) with
         | Some k => werr (nth (duplicate_index [] (map union_type_key types)) places no_place) (DuplicateInUnion k)
         | None => wret (SUnion types false)
         end.

  (** src/reader.rs:3238-3280, the part of [walk_full_type] after the type is
      walked *)
  Definition annotate_type (p : span) (props : schema_properties) (s : schema) : walk schema :=
    match sp_props props with
    | [] => wret s
    | ps =>
        if is_type_reference s then werr p AnnotatedReference
        else
          (if is_non_nullable_union s then emit [Warned (AnnotationsDropped (keys ps) p)] else wret tt) ;;;
          wret (apply_properties s ps)
    end.

  (** src/reader.rs:3231-3280 [walk_full_type], 3283-3302 [walk_plain_type],
      3467-3498 [walk_array_type], [walk_map_type] *)
  Fixpoint walk_full_type (t : full_type) (ns : option string) {struct t} : walk schema :=
    match t with
    | FullType place annotations p =>
        let* props := walk_schema_properties annotations BARE_PROPS in
        let* s := walk_plain_type p ns in
        annotate_type place props s
    end
  with walk_plain_type (p : plain_type) (ns : option string) {struct p} : walk schema :=
    match p with
    | PtArray t => let* items := walk_full_type t ns in wret (SArray items [])
    | PtMap t => let* values := walk_full_type t ns in wret (SMap values [])
    | PtUnion ts =>
        let* types := (fix go (l : list full_type) : walk (list schema) :=
                         match l with
                         | [] => wret []
                         | x :: r => let* y := walk_full_type x ns in let* ys := go r in wret (y :: ys)
                         end) ts in
        check_union (map full_place ts) types
    | PtNullable b optional => walk_nullable_type b optional ns
    end.

  (** ** Declarations *)
  Section WithTokens.
    Variable tokens : list token.

    (** src/reader.rs:4472-4487 [extract_doc_from_context] *)
    Definition walk_doc (start : nat) : walk (option string) :=
      match extract_doc_comment tokens start with
      | None => wret None
      | Some (i, doc) => emit [Consumed i] ;;; wret doc
      end.

    (** src/reader.rs:2995-3073 [walk_variable] *)
    Definition walk_variable (v : variable) (field_type : schema) (default_doc : option string) : walk field :=
      let* var_doc := walk_doc (v_start v) in
      let doc := opt_or var_doc default_doc in
      let field_name := identifier_text (v_ident v) in
      let* props := walk_schema_properties (v_annotations v) VARIABLE_PROPS in
      let* default_value := match v_default v with
                            | Some t => let* j := walk_json_value t in wret (Some j)
                            | None => wret None
                            end in
      let final_type := fix_optional_schema field_type default_value in
      match default_value with
      | Some d =>
          match validate_default d final_type with
          | Some _ => werr (v_place v) (InvalidDefault field_name)
          | None => wret (mkField field_name final_type doc default_value (sp_order props) (sp_aliases props) (sp_props props))
          end
      | None => wret (mkField field_name final_type doc default_value (sp_order props) (sp_aliases props) (sp_props props))
      end.

    (** src/reader.rs:2956-2989 [walk_field_declaration] *)
    Definition walk_field_declaration (f : field_decl) (ns : option string) : walk (list field) :=
      let* default_doc := walk_doc (fd_start f) in
      let* field_type := walk_full_type (fd_type f) ns in
      wmap (fun v => walk_variable v field_type default_doc) (fd_variables f).

    (** src/reader.rs:2876-2933, the loop over field declarations; [seen] holds
        the field names so far.  The duplicate check runs after each
        declaration. *)
    Fixpoint walk_fields (seen : list string) (l : list field_decl) (ns : option string) : walk (list field) :=
      match l with
      | [] => wret []
      | f :: r =>
          let* fs := walk_field_declaration f ns in
          match first_duplicate seen (map f_name fs) with
          | Some d =>
              let places := map (fun v => w_place (v_ident v)) (fd_variables f) in
              werr (nth (duplicate_index seen (map f_name fs)) places no_place) (DuplicateField d)
          | None => let* rest := walk_fields (map f_name fs ++ seen) r ns in wret (fs ++ rest)
          end
      end.

    (** src/reader.rs:2824-2945 [walk_record] *)
    Definition walk_record (r : record_decl) (enclosing : option string) : walk schema :=
      let* doc := walk_doc (r_start r) in
      let* props := walk_schema_properties (r_annotations r) NAMED_TYPE_PROPS in
      let raw_identifier := identifier_text (r_ident r) in
      let record_namespace := opt_or (compute_namespace raw_identifier (sp_namespace props)) enclosing in
      let record_name := extract_name raw_identifier in
      if is_invalid_type_name record_name then werr (w_place (r_ident r)) (IllegalName record_name)
      else
        let inner := match record_namespace with Some _ => record_namespace | None => enclosing end in
        let* fields := walk_fields [] (r_fields r) inner in
        wret (SRecord record_name record_namespace doc fields (r_error r) (sp_aliases props) (sp_props props)).

    (** src/reader.rs:3079-3157 [walk_enum] *)
    Definition walk_enum (e : enum_decl) (enclosing : option string) : walk schema :=
      let* doc := walk_doc (e_start e) in
      let* props := walk_schema_properties (e_annotations e) ENUM_PROPS in
      let raw_identifier := identifier_text (e_ident e) in
      let enum_namespace := opt_or (compute_namespace raw_identifier (sp_namespace props)) enclosing in
      let enum_name := extract_name raw_identifier in
      if is_invalid_type_name enum_name then werr (w_place (e_ident e)) (IllegalName enum_name)
      else
        let symbols := map (fun x : located => identifier_text x) (e_symbols e) in
        match first_duplicate [] symbols with
        | Some s => werr (nth (duplicate_index [] symbols) (map w_place (e_symbols e)) no_place) (DuplicateSymbol s)
        | None =>
            let enum default := SEnum enum_name enum_namespace doc symbols default (sp_aliases props) (sp_props props) in
            match e_default e with
            | None => wret (enum None)
            | Some d =>
                let sym := identifier_text d in
                if str_mem sym symbols then wret (enum (Some sym)) else werr (w_place d) (UnknownEnumDefault sym)
            end
        end.

    (** src/reader.rs:3163-3223 [walk_fixed] *)
    Definition walk_fixed (x : fixed_decl) (enclosing : option string) : walk schema :=
      let* doc := walk_doc (x_start x) in
      let* props := walk_schema_properties (x_annotations x) NAMED_TYPE_PROPS in
      let raw_identifier := identifier_text (x_ident x) in
      let fixed_namespace := opt_or (compute_namespace raw_identifier (sp_namespace props)) enclosing in
      let fixed_name := extract_name raw_identifier in
      if is_invalid_type_name fixed_name then werr (w_place (x_ident x)) (IllegalName fixed_name)
      else
        let* size := wopt (w_place (x_size x)) BadFixedSize (parse_integer_as_u32 (x_size x)) in
        wret (try_promote_logical_type
                (SFixed fixed_name fixed_namespace doc size (sp_aliases props) (sp_props props))).

    (** src/reader.rs:2787-2814 [walk_named_schema_no_register] *)
    Definition walk_named (d : named_decl) (ns : option string) : walk schema :=
      match d with
      | NRecord r => walk_record r ns
      | NEnum e => walk_enum e ns
      | NFixed x => walk_fixed x ns
      end.

    (** src/reader.rs:3582-3612, the loop over parameters *)
    Fixpoint walk_parameters (seen : list string) (l : list parameter) (ns : option string) : walk (list field) :=
      match l with
      | [] => wret []
      | p :: r =>
          let* param_doc := walk_doc (pa_start p) in
          let* param_type := walk_full_type (pa_type p) ns in
          let* f := walk_variable (pa_variable p) param_type param_doc in
          if str_mem (f_name f) seen then werr (full_place (pa_type p)) (DuplicateParameter (f_name f))
          else let* rest := walk_parameters (f_name f :: seen) r ns in wret (f :: rest)
      end.

    (** src/reader.rs:3686-3702 [walk_result_type] *)
    Definition walk_result_type (t : option plain_type) (ns : option string) : walk schema :=
      match t with
      | None => wret (SPrim PNull)
      | Some p => walk_plain_type p ns
      end.

    (** src/reader.rs:3553-3683 [walk_message] *)
    Definition is_null_schema (s : schema) : bool := match s with SPrim PNull => true | _ => false end.
    Definition walk_message (m : message_decl) (ns : option string) : walk (string * message) :=
      let* doc := walk_doc (md_start m) in
      let* props := walk_schema_properties (md_annotations m) MESSAGE_PROPS in
      let* response := walk_result_type (md_result m) ns in
      if negb (match sp_props props with [] => true | _ => false end) && is_type_reference response
      then werr (md_place m) AnnotatedReference
      else
        let message_name := identifier_text (md_name m) in
        let* request := walk_parameters [] (md_parameters m) ns in
        if md_oneway m && negb (is_null_schema response) then werr (md_place m) (OnewayResponse message_name)
        else
          let errors := match md_errors m with
                        | [] => None
                        | es => Some (map (fun e => reference (fst e) (snd e) ns) es)
                        end in
          wret (message_name, mkMessage doc (sp_props props) request response errors (md_oneway m)).

    (** ** Files *)

    (** src/reader.rs:1966-1987 [DeclItem].  The code has no span for a token
        without a position; no token of a file without syntax errors is one. *)
    Inductive decl_item :=
    | DImport (k : import_kind) (path : string) (place : span)
    | DType (s : schema) (place : span) (fields : list (string * span)).

    (** src/reader.rs:2915-2925, the spans of the fields' defaults; field names
        are unique *)
    Definition field_places (d : named_decl) : list (string * span) :=
      match d with
      | NRecord r => flat_map (fun f => map (fun v => (identifier_text (v_ident v), v_place v)) (fd_variables f)) (r_fields r)
      | _ => []
      end.

    (** src/reader.rs:1932-1941 [IdlFile] *)
    Inductive idl_file :=
    | IProtocol (p : protocol)
    | ISchema (s : schema)
    | INamed (l : list schema).

    (** src/reader.rs:2743-2767 and 2661-2679, the loop over the body,
        with 4529-4551 [collect_single_import].  Messages
        go into a [HashMap]: a later one replaces an earlier one of the same
        name.  In schema mode there are none. *)
    Fixpoint walk_items (l : list item) (ns : option string) : walk (list decl_item * list (string * message)) :=
      match l with
      | [] => wret ([], [])
      | it :: r =>
          match it with
          | ItImport k path p =>
              let* rest := walk_items r ns in
              wret (DImport k (get_string_from_literal path) p :: fst rest, snd rest)
          | ItNamed d p =>
              let* s := walk_named d ns in
              let* rest := walk_items r ns in
              wret (DType s p (field_places d) :: fst rest, snd rest)
          | ItMessage m =>
              let* nm := walk_message m ns in
              let* rest := walk_items r ns in
              wret (fst rest, nm :: snd rest)
          end
      end.

    Definition type_items (l : list decl_item) : list schema :=
      flat_map (fun it => match it with DType s _ _ => [s] | DImport _ _ _ => [] end) l.

    (** src/reader.rs:2703-2781 [walk_protocol] and 2634-2695 [walk_idl_file] *)
    Definition walk_idl_file (t : idl_tree) : walk (idl_file * list decl_item) :=
      match t with
      | TreeProtocol start annotations ident items =>
          let* doc := walk_doc start in
          let* props := walk_schema_properties annotations PROTOCOL_PROPS in
          let raw_identifier := identifier_text ident in
          let namespace := compute_namespace raw_identifier (sp_namespace props) in
          let protocol_name := extract_name raw_identifier in
          if is_invalid_type_name protocol_name then werr (w_place ident) (IllegalName protocol_name)
          else
            let* body := walk_items items namespace in
            let messages := fold_left (fun m nm => hm_insert (fst nm) (snd nm) m) (snd body) [] in
            wret (IProtocol (mkProtocol protocol_name namespace doc (sp_props props) [] messages), fst body)
      | TreeSchema ns main items =>
          let namespace := option_map identifier_text ns in
          let* body := walk_items items namespace in
          match main with
          | Some ft =>
              let* s := walk_full_type ft namespace in
              wret (ISchema s, fst body)
          | None => wret (INamed (type_items (fst body)), fst body)
          end
      end.
  End WithTokens.

  (** ** Parsing *)

  (** Lexing and parsing (the ANTLR runtime and the generated tables), left
      open: the tokens with hidden ones, the tree, and the messages of lexer
      errors, or nothing if there was a syntax error.  The first argument is the
      name of the source, for the places in the tree. *)
  Record parsed := mkParsed {
    pr_tokens : list token;
    pr_tree : idl_tree;
    pr_lexer_warnings : list string
  }.
  Class Parser := { antlr_parse : string -> string -> option parsed }.

  Inductive warning :=
  | LexerWarning (message : string)
  | OrphanedDoc (token_index : nat)
  | WalkWarning (w : walk_warning).

  Inductive read_error :=
  | SyntaxError
  | WalkError (e : walk_error) (place : span).

  (** src/reader.rs:2020-2024: [input.find('\u{001a}')]; U+001A is one byte *)
  Fixpoint until_sub (s : string) : string :=
    match s with
    | EmptyString => EmptyString
    | String c r => if Ascii.eqb c (ascii_of_nat 26) then EmptyString else String c (until_sub r)
    end.

  Definition consumed_of (evs : list event) : list nat :=
    flat_map (fun e => match e with Consumed i => [i] | Warned _ => [] end) evs.
  Definition warned_of (evs : list event) : list walk_warning :=
    flat_map (fun e => match e with Warned w => [w] | Consumed _ => [] end) evs.

  (** src/reader.rs:2011-2195 [parse_idl_named] *)
  Definition parse_idl `{Parser} (source_name input : string)
      : result (idl_file * list decl_item * list warning) read_error :=
    match antlr_parse source_name (until_sub input) with
    | None => Err SyntaxError
    | Some p =>
        match walk_idl_file (pr_tokens p) (pr_tree p) with
        | Err (e, place) => Err (WalkError e place)
        | Ok (file, items, evs) =>
            Ok (file, items,
                map LexerWarning (pr_lexer_warnings p)
                ++ map OrphanedDoc (orphaned_doc_comments (pr_tokens p) (consumed_of evs))
                ++ map WalkWarning (warned_of evs))
        end
    end.
End WithOracles.
