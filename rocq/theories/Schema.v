(** Model of src/model/schema.rs (data types, names, logical types, property
    merging) and src/model/protocol.rs. *)
From Verif Require Export Base Json.

(** ** Names *)

(** src/model/schema.rs:15-17 [PRIMITIVE_TYPE_NAMES] *)
Definition primitive_type_names : list string :=
  ["null"; "boolean"; "int"; "long"; "float"; "double"; "bytes"; "string"].

(** src/model/schema.rs:23-28 [make_full_name] *)
Definition make_full_name (name : string) (namespace : option string) : string :=
  match namespace with
  | Some ns => if negb (str_is_empty ns) then (ns ++ "." ++ name)%string else name
  | None => name
  end.

(** src/model/schema.rs:38-43 [split_full_name] *)
Definition split_full_name (full_name : string) : string * option string :=
  match rsplit_once_dot full_name with
  | Some (namespace, name) => (name, Some namespace)
  | None => (full_name, None)
  end.

(** ** Primitive and logical types *)

(** src/model/schema.rs:47-51 [FieldOrder] *)
Inductive field_order := Ascending | Descending | Ignore.

(** src/model/schema.rs:56-65 [PrimitiveType] *)
Inductive prim := PNull | PBoolean | PInt | PLong | PFloat | PDouble | PBytes | PString.

Definition prim_eqb (a b : prim) : bool :=
  match a, b with
  | PNull, PNull | PBoolean, PBoolean | PInt, PInt | PLong, PLong
  | PFloat, PFloat | PDouble, PDouble | PBytes, PBytes | PString, PString => true
  | _, _ => false
  end.

(** src/model/schema.rs:69-80 [PrimitiveType::as_str] *)
Definition prim_str (p : prim) : string :=
  match p with
  | PNull => "null" | PBoolean => "boolean" | PInt => "int" | PLong => "long"
  | PFloat => "float" | PDouble => "double" | PBytes => "bytes" | PString => "string"
  end.

(** src/model/schema.rs:111-129 [PrimitiveType::from_str]; [None] is [Err] *)
Definition prim_of_str (s : string) : option prim :=
  if String.eqb s "null" then Some PNull
  else if String.eqb s "boolean" then Some PBoolean
  else if String.eqb s "int" then Some PInt
  else if String.eqb s "long" then Some PLong
  else if String.eqb s "float" then Some PFloat
  else if String.eqb s "double" then Some PDouble
  else if String.eqb s "bytes" then Some PBytes
  else if String.eqb s "string" then Some PString
  else None.

(** src/model/schema.rs:139-162 [LogicalType] *)
Inductive logical :=
| LDate | LTimeMillis | LTimeMicros | LTimestampMillis | LTimestampMicros
| LLocalTimestampMillis | LLocalTimestampMicros | LUuid
| LDecimal (precision scale : N).

(** src/model/schema.rs:172-184 [LogicalType::name] *)
Definition logical_name (l : logical) : string :=
  match l with
  | LDate => "date" | LTimeMillis => "time-millis" | LTimeMicros => "time-micros"
  | LTimestampMillis => "timestamp-millis" | LTimestampMicros => "timestamp-micros"
  | LLocalTimestampMillis => "local-timestamp-millis"
  | LLocalTimestampMicros => "local-timestamp-micros"
  | LUuid => "uuid"
  | LDecimal _ _ => "decimal"
  end.

(** src/model/schema.rs:191-202 [LogicalType::expected_base_type] *)
Definition expected_base_type (l : logical) : prim :=
  match l with
  | LDate | LTimeMillis => PInt
  | LTimeMicros | LTimestampMillis | LTimestampMicros
  | LLocalTimestampMillis | LLocalTimestampMicros => PLong
  | LUuid => PString
  | LDecimal _ _ => PBytes
  end.

(** src/model/schema.rs:216-239 [parse_logical_type] *)
Definition parse_logical_type (name : string) (precision scale : option N) : option logical :=
  if String.eqb name "date" then Some LDate
  else if String.eqb name "time-millis" then Some LTimeMillis
  else if String.eqb name "time-micros" then Some LTimeMicros
  else if String.eqb name "timestamp-millis" then Some LTimestampMillis
  else if String.eqb name "timestamp-micros" then Some LTimestampMicros
  else if String.eqb name "local-timestamp-millis" then Some LLocalTimestampMillis
  else if String.eqb name "local-timestamp-micros" then Some LLocalTimestampMicros
  else if String.eqb name "uuid" then Some LUuid
  else if String.eqb name "decimal" then
    match precision with
    | None => None
    | Some p => Some (LDecimal p (match scale with Some s => s | None => 0%N end))
    end
  else None.

(** ** Schemas *)

(** src/error.rs [SpanWithSource]: only the file name and byte offset, which
    are what diagnostics are sorted by; length and source text are dropped. *)
Record span := mkSpan { sp_file : string; sp_offset : N }.

Definition props := list (string * json).

(** src/model/schema.rs:383-391 [Field], over the schema type *)
Record field_ (A : Type) := mkField {
  f_name : string;
  f_schema : A;
  f_doc : option string;
  f_default : option json;
  f_order : option field_order;
  f_aliases : list string;
  f_props : props
}.
Arguments mkField {A}.
Arguments f_name {A}. Arguments f_schema {A}. Arguments f_doc {A}.
Arguments f_default {A}. Arguments f_order {A}. Arguments f_aliases {A}.
Arguments f_props {A}.

(** src/model/schema.rs:286-379 [AvroSchema].  The eight primitive variants
    are one constructor indexed by [prim]. *)
Inductive schema :=
| SPrim (p : prim)
| SRecord (name : string) (ns : option string) (doc : option string)
          (fields : list (field_ schema)) (is_error : bool)
          (aliases : list string) (ps : props)
| SEnum (name : string) (ns : option string) (doc : option string)
        (symbols : list string) (default : option string)
        (aliases : list string) (ps : props)
| SFixed (name : string) (ns : option string) (doc : option string) (size : N)
         (aliases : list string) (ps : props)
| SArray (items : schema) (ps : props)
| SMap (values : schema) (ps : props)
| SUnion (types : list schema) (is_nullable_type : bool)
| SAnnot (kind : prim) (ps : props)
| SLogical (lt : logical) (ps : props)
| SRef (name : string) (ns : option string) (ps : props) (sp : option span).

Notation field := (field_ schema).

(** src/model/protocol.rs [Message], [Protocol].  [messages] is a [HashMap]. *)
Record message := mkMessage {
  m_doc : option string;
  m_props : props;
  m_request : list field;
  m_response : schema;
  m_errors : option (list schema);
  m_one_way : bool
}.

Record protocol := mkProtocol {
  p_name : string;
  p_namespace : option string;
  p_doc : option string;
  p_props : props;
  p_types : list schema;
  p_messages : list (string * message)
}.

(** Induction over nested schemas. *)
Section SchemaInd.
  Variable P : schema -> Prop.
  Hypothesis Hprim : forall p, P (SPrim p).
  Hypothesis Hrec : forall n ns d fs e al ps,
      Forall (fun f => P (f_schema f)) fs -> P (SRecord n ns d fs e al ps).
  Hypothesis Henum : forall n ns d sy df al ps, P (SEnum n ns d sy df al ps).
  Hypothesis Hfix : forall n ns d sz al ps, P (SFixed n ns d sz al ps).
  Hypothesis Harr : forall i ps, P i -> P (SArray i ps).
  Hypothesis Hmap : forall i ps, P i -> P (SMap i ps).
  Hypothesis Hun : forall ts b, Forall P ts -> P (SUnion ts b).
  Hypothesis Hann : forall k ps, P (SAnnot k ps).
  Hypothesis Hlog : forall l ps, P (SLogical l ps).
  Hypothesis Href : forall n ns ps sp, P (SRef n ns ps sp).
  Fixpoint schema_ind' (s : schema) : P s :=
    match s with
    | SPrim p => Hprim p
    | SRecord n ns d fs e al ps =>
        Hrec n ns d fs e al ps
          ((fix go (l : list field) : Forall (fun f => P (f_schema f)) l :=
              match l with
              | [] => Forall_nil _
              | f :: xs => Forall_cons _ (schema_ind' (f_schema f)) (go xs)
              end) fs)
    | SEnum n ns d sy df al ps => Henum n ns d sy df al ps
    | SFixed n ns d sz al ps => Hfix n ns d sz al ps
    | SArray i ps => Harr i ps (schema_ind' i)
    | SMap i ps => Hmap i ps (schema_ind' i)
    | SUnion ts b =>
        Hun ts b
          ((fix go (l : list schema) : Forall P l :=
              match l with
              | [] => Forall_nil _
              | x :: xs => Forall_cons _ (schema_ind' x) (go xs)
              end) ts)
    | SAnnot k ps => Hann k ps
    | SLogical l ps => Hlog l ps
    | SRef n ns ps sp => Href n ns ps sp
    end.
End SchemaInd.

(** src/model/schema.rs:397-409 [to_primitive_type] *)
Definition to_primitive_type (s : schema) : option prim :=
  match s with SPrim p => Some p | _ => None end.

(** src/model/schema.rs:431-447 [AvroSchema::full_name] *)
Definition full_name (s : schema) : option string :=
  match s with
  | SRecord n ns _ _ _ _ _ | SEnum n ns _ _ _ _ _ | SFixed n ns _ _ _ _ | SRef n ns _ _ =>
      Some (make_full_name n ns)
  | _ => None
  end.

(** src/model/schema.rs:450-457 [AvroSchema::name] *)
Definition schema_name (s : schema) : option string :=
  match s with
  | SRecord n _ _ _ _ _ _ | SEnum n _ _ _ _ _ _ | SFixed n _ _ _ _ _ => Some n
  | _ => None
  end.

(** src/model/schema.rs:469-503 [AvroSchema::union_type_key] *)
Definition union_type_key (s : schema) : string :=
  match s with
  | SPrim p => prim_str p
  | SRecord n ns _ _ _ _ _ | SEnum n ns _ _ _ _ _ | SFixed n ns _ _ _ _ | SRef n ns _ _ =>
      make_full_name n ns
  | SArray _ _ => "array"
  | SMap _ _ => "map"
  | SUnion _ _ => "union"
  | SAnnot k _ => prim_str k
  | SLogical l _ => prim_str (expected_base_type l)
  end.

(** src/model/schema.rs:506-536 [AvroSchema::type_description] *)
Definition type_description (s : schema) : string :=
  match s with
  | SPrim p => prim_str p
  | SRecord n _ _ _ _ _ _ => ("record " ++ n)%string
  | SEnum n _ _ _ _ _ _ => ("enum " ++ n)%string
  | SFixed n _ _ _ _ _ => ("fixed " ++ n)%string
  | SArray _ _ => "array"
  | SMap _ _ => "map"
  | SUnion _ _ => "union"
  | SAnnot k _ => prim_str k
  | SLogical l _ =>
      match l with
      | LDate => "date" | LTimeMillis => "time_ms" | LTimeMicros => "time_us"
      | LTimestampMillis => "timestamp_ms" | LTimestampMicros => "timestamp_us"
      | LLocalTimestampMillis => "local_timestamp_ms"
      | LLocalTimestampMicros => "local_timestamp_us"
      | LUuid => "uuid" | LDecimal _ _ => "decimal"
      end
  | SRef n _ _ _ => n
  end.

(** src/model/schema.rs:548-670 [AvroSchema::with_merged_properties] *)
Definition with_merged_properties (s : schema) (new : props) : schema :=
  match s with
  | SPrim k => SAnnot k new
  | SRecord n ns d fs e al ps => SRecord n ns d fs e al (hm_extend ps new)
  | SEnum n ns d sy df al ps => SEnum n ns d sy df al (hm_extend ps new)
  | SFixed n ns d sz al ps => SFixed n ns d sz al (hm_extend ps new)
  | SArray i ps => SArray i (hm_extend ps new)
  | SMap i ps => SMap i (hm_extend ps new)
  | SLogical l ps => SLogical l (hm_extend ps new)
  | SAnnot k ps => SAnnot k (hm_extend ps new)
  | SRef n ns ps sp => SRef n ns (hm_extend ps new) sp
  | SUnion ts b => SUnion ts b
  end.
