(** Which JSON values may be the default of which type: an independent reading
    of the Avro specification, "Complex Types / Records / default". *)
From Verif Require Export SpecImport.

(** JSON values as a parser delivers them: numbers in range, distinct keys. *)
Inductive wf_json : json -> Prop :=
| wf_null : wf_json JNull
| wf_bool b : wf_json (JBool b)
| wf_pos n : (n <= 18446744073709551615)%N -> wf_json (JNum (NPos n))
| wf_neg z : (-9223372036854775808 <= z < 0)%Z -> wf_json (JNum (NNeg z))
| wf_float m e : wf_json (JNum (NFloat m e))
| wf_str s : wf_json (JStr s)
| wf_arr l : (forall v, In v l -> wf_json v) -> wf_json (JArr l)
| wf_obj o : NoDup (map fst o) -> (forall k v, In (k, v) o -> wf_json v) -> wf_json (JObj o).

(** [j] is the JSON integer [z]; [1.0] is not one. *)
Inductive is_integer : json -> Z -> Prop :=
| int_pos n : is_integer (JNum (NPos n)) (Z.of_N n)
| int_neg z : is_integer (JNum (NNeg z)) z.

Inductive prim_allows : prim -> json -> Prop :=
| pa_null : prim_allows PNull JNull
| pa_bool b : prim_allows PBoolean (JBool b)
| pa_int j z : is_integer j z -> (-2147483648 <= z < 2147483648)%Z -> prim_allows PInt j
| pa_long j z : is_integer j z -> (-9223372036854775808 <= z < 9223372036854775808)%Z ->
    prim_allows PLong j
| pa_float p n : p = PFloat \/ p = PDouble -> prim_allows p (JNum n)
| pa_special p s : p = PFloat \/ p = PDouble -> In s ["NaN"; "Infinity"; "-Infinity"] ->
    prim_allows p (JStr s)
| pa_string s : prim_allows PString (JStr s)
| pa_bytes s : prim_allows PBytes (JStr s).

(** The physical type under a logical type. *)
Inductive physical : logical -> prim -> Prop :=
| ph_date : physical LDate PInt
| ph_time_ms : physical LTimeMillis PInt
| ph_time_us : physical LTimeMicros PLong
| ph_ts_ms : physical LTimestampMillis PLong
| ph_ts_us : physical LTimestampMicros PLong
| ph_lts_ms : physical LLocalTimestampMillis PLong
| ph_lts_us : physical LLocalTimestampMicros PLong
| ph_uuid : physical LUuid PString
| ph_decimal p s : physical (LDecimal p s) PBytes.

(** [strict = false]: the shape of the value is right (what Java's
    [Schema.isValidDefault] tests).  [strict = true] also asks for what the
    prose of the specification says about enums (one of the symbols), bytes
    and fixed (code points below 256, [size] of them) and unions (the first
    branch).  A reference stands for what [env] says about its full name. *)
Section Allows.
  Variable strict : bool.
  Variable env : string -> option schema.

  Definition byte_string (s : string) : Prop := Forall (fun c => (c < 256)%N) (chars s).

  Inductive allows : schema -> json -> Prop :=
  | al_prim p j :
      prim_allows p j ->
      (strict = true -> p = PBytes -> forall s, j = JStr s -> byte_string s) ->
      allows (SPrim p) j
  | al_record n ns d fs e al ps o :
      (forall f v, In f fs -> In (f_name f, v) o -> allows (f_schema f) v) ->
      (forall f, In f fs -> ~ In (f_name f) (map fst o) -> f_default f <> None) ->
      allows (SRecord n ns d fs e al ps) (JObj o)
  | al_enum n ns d sy df al ps s :
      (strict = true -> In s sy) ->
      allows (SEnum n ns d sy df al ps) (JStr s)
  | al_fixed n ns d sz al ps s :
      (strict = true -> byte_string s /\ N.of_nat (length (chars s)) = sz) ->
      allows (SFixed n ns d sz al ps) (JStr s)
  | al_array i ps l :
      (forall v, In v l -> allows i v) -> allows (SArray i ps) (JArr l)
  | al_map i ps o :
      (forall k v, In (k, v) o -> allows i v) -> allows (SMap i ps) (JObj o)
  | al_union ts b t j :
      In t ts -> (strict = true -> head ts = Some t) -> allows t j -> allows (SUnion ts b) j
  | al_annot k ps j :
      prim_allows k j ->
      (strict = true -> k = PBytes -> forall s, j = JStr s -> byte_string s) ->
      allows (SAnnot k ps) j
  | al_logical l ps k j :
      physical l k -> prim_allows k j ->
      (strict = true -> k = PBytes -> forall s, j = JStr s -> byte_string s) ->
      allows (SLogical l ps) j
  | al_ref n ns ps sp t j :
      env (make_full_name n ns) = Some t -> allows t j -> allows (SRef n ns ps sp) j.
End Allows.

(** No reference anywhere in [s]. *)
Fixpoint ref_free (s : schema) : bool :=
  match s with
  | SRef _ _ _ _ => false
  | SRecord _ _ _ fs _ _ _ => forallb (fun f => ref_free (f_schema f)) fs
  | SArray i _ | SMap i _ => ref_free i
  | SUnion ts _ => forallb ref_free ts
  | _ => true
  end.

(** Every reference in [s] names one of the records around it ([encl] are the
    records around [s] itself). *)
Inductive only_back_references : list string -> schema -> Prop :=
| ob_ref encl n ns ps sp :
    In (make_full_name n ns) encl -> only_back_references encl (SRef n ns ps sp)
| ob_record encl n ns d fs e al ps :
    (forall f, In f fs -> only_back_references (make_full_name n ns :: encl) (f_schema f)) ->
    only_back_references encl (SRecord n ns d fs e al ps)
| ob_array encl i ps : only_back_references encl i -> only_back_references encl (SArray i ps)
| ob_map encl i ps : only_back_references encl i -> only_back_references encl (SMap i ps)
| ob_union encl ts b :
    (forall t, In t ts -> only_back_references encl t) -> only_back_references encl (SUnion ts b)
| ob_prim encl p : only_back_references encl (SPrim p)
| ob_enum encl n ns d sy df al ps : only_back_references encl (SEnum n ns d sy df al ps)
| ob_fixed encl n ns d sz al ps : only_back_references encl (SFixed n ns d sz al ps)
| ob_annot encl k ps : only_back_references encl (SAnnot k ps)
| ob_logical encl l ps : only_back_references encl (SLogical l ps).

(** [full] is mentioned by [s], or by a type that [s] mentions, and so on. *)
Inductive mentions (env : string -> option schema) : schema -> string -> Prop :=
| me_ref n ns ps sp : mentions env (SRef n ns ps sp) (make_full_name n ns)
| me_follow n ns ps sp t full :
    env (make_full_name n ns) = Some t -> mentions env t full -> mentions env (SRef n ns ps sp) full
| me_record n ns d fs e al ps f full :
    In f fs -> mentions env (f_schema f) full -> mentions env (SRecord n ns d fs e al ps) full
| me_array i ps full : mentions env i full -> mentions env (SArray i ps) full
| me_map i ps full : mentions env i full -> mentions env (SMap i ps) full
| me_union ts b t full : In t ts -> mentions env t full -> mentions env (SUnion ts b) full.

(** A registry as the compiler builds it: every entry is a definition without
    inner definitions, filed under its own full name. *)
Definition flat_registry (r : registry) : Prop :=
  forall k s, assoc k r = Some s -> flat_definition s = true /\ full_name s = Some k.

(** ** Decimals on [fixed] *)

(** A two's-complement integer of [size] bytes holds every integer of
    [precision] digits: [10^precision - 1 <= 2^(8 size - 1) - 1]. *)
Definition digits_fit (precision size : N) : Prop :=
  (0 < size)%N /\ (10 ^ precision - 1 <= 2 ^ (8 * size - 1) - 1)%N.
