(** What the reason given for a rejected default value must say. *)
From Verif Require Export SpecDefaults Defaults.

(** The kinds of JSON values. *)
Inductive kind_of : json -> string -> Prop :=
| ko_null : kind_of JNull "null"
| ko_bool b : kind_of (JBool b) "boolean"
| ko_num n : kind_of (JNum n) "number"
| ko_str s : kind_of (JStr s) "string"
| ko_arr l : kind_of (JArr l) "array"
| ko_obj o : kind_of (JObj o) "object".

(** How a type is called. *)
Definition prim_words : list (prim * string) :=
  [(PNull, "null"); (PBoolean, "boolean"); (PInt, "int"); (PLong, "long"); (PFloat, "float"); (PDouble, "double");
   (PBytes, "bytes"); (PString, "string")].
Inductive called : schema -> string -> Prop :=
| ca_prim p w : In (p, w) prim_words -> called (SPrim p) w
| ca_annot p w ps : In (p, w) prim_words -> called (SAnnot p ps) w
| ca_record n ns d fs e al ps : called (SRecord n ns d fs e al ps) ("record " ++ n)
| ca_enum n ns d sy df al ps : called (SEnum n ns d sy df al ps) ("enum " ++ n)
| ca_fixed n ns d sz al ps : called (SFixed n ns d sz al ps) ("fixed " ++ n)
| ca_array i ps : called (SArray i ps) "array"
| ca_map i ps : called (SMap i ps) "map"
| ca_union ts b : called (SUnion ts b) "union"
| ca_date ps : called (SLogical LDate ps) "date"
| ca_time_ms ps : called (SLogical LTimeMillis ps) "time_ms"
| ca_time_us ps : called (SLogical LTimeMicros ps) "time_us"
| ca_ts_ms ps : called (SLogical LTimestampMillis ps) "timestamp_ms"
| ca_ts_us ps : called (SLogical LTimestampMicros ps) "timestamp_us"
| ca_lts_ms ps : called (SLogical LLocalTimestampMillis ps) "local_timestamp_ms"
| ca_lts_us ps : called (SLogical LLocalTimestampMicros ps) "local_timestamp_us"
| ca_uuid ps : called (SLogical LUuid ps) "uuid"
| ca_decimal p sc ps : called (SLogical (LDecimal p sc) ps) "decimal".

(** The elements of a list that satisfy [P], in their order. *)
Inductive picked {A} (P : A -> Prop) : list A -> list A -> Prop :=
| pi_nil : picked P [] []
| pi_take x l l' : P x -> picked P l l' -> picked P (x :: l) (x :: l')
| pi_leave x l l' : ~ P x -> picked P l l' -> picked P (x :: l) l'.

Definition lacks (o : list (string * json)) (f : field) : Prop := f_default f = None /\ ~ In (f_name f) (keys o).

(** The words between which the names of missing fields stand. *)
Inductive listed : list string -> string -> Prop :=
| li_one x : listed [x] x
| li_more x l t : listed l t -> listed (x :: l) (x ++ ", " ++ t).

Section Explains.
  (** When a value is accepted for a type. *)
  Variable fits : json -> schema -> Prop.

  (** [reason] says why [v] is no value of the type [s]. *)
  Inductive explains : json -> schema -> string -> Prop :=
  | ex_int v z :
      is_integer v z -> (z < -2147483648 \/ 2147483647 < z)%Z ->
      explains v (SPrim PInt) ("value " ++ show_Z z ++ " out of range for int (must be between -2147483648 and 2147483647)")
  | ex_long v z :
      is_integer v z -> (z < -9223372036854775808 \/ 9223372036854775807 < z)%Z ->
      explains v (SPrim PLong)
        ("value " ++ show_Z z ++ " out of range for long (must be between -9223372036854775808 and 9223372036854775807)")
  | ex_missing_one n ns d fs e al ps o f :
      picked (lacks o) fs [f] ->
      explains (JObj o) (SRecord n ns d fs e al ps) ("missing required field in record `" ++ n ++ "`: " ++ f_name f)
  | ex_missing_more n ns d fs e al ps o f g l t :
      picked (lacks o) fs (f :: g :: l) -> listed (map f_name (f :: g :: l)) t ->
      explains (JObj o) (SRecord n ns d fs e al ps) ("missing required fields in record `" ++ n ++ "`: " ++ t)
  | ex_field n ns d fs e al ps o before f after v reason :
      picked (lacks o) fs [] -> fs = before ++ f :: after ->
      (forall g w, In g before -> assoc (f_name g) o = Some w -> fits w (f_schema g)) ->
      assoc (f_name f) o = Some v -> explains v (f_schema f) reason ->
      explains (JObj o) (SRecord n ns d fs e al ps) ("invalid value for field `" ++ f_name f ++ "`: " ++ reason)
  | ex_kind v s t k :
      ~ fits v s ->
      (s = SPrim PInt \/ s = SPrim PLong -> forall z, ~ is_integer v z) ->
      (forall n ns d fs e al ps o, s = SRecord n ns d fs e al ps -> v <> JObj o) ->
      called s t -> kind_of v k ->
      explains v s ("expected " ++ t ++ ", got " ++ k).
End Explains.
