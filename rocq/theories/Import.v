(** Model of src/import.rs: reading schemas and protocols from JSON, and
    flattening them into the registry.  Reading the file and parsing the JSON
    text (with comments) is outside the model: functions start from a [json].
    Error values carry a message without the context wrapping of the Rust code. *)
From Verif Require Export Registry.

Inductive import_error := IErr (msg : string) | IFuel.
Notation ires A := (result A import_error).

(** src/import.rs:866-875 [extract_string_array] *)
Definition extract_string_array (v : option json) : list string :=
  match v with
  | Some (JArr l) => flat_map (fun x => match as_str x with Some s => [s] | None => [] end) l
  | _ => []
  end.

(** src/import.rs:879-889 [collect_extra_properties] *)
Definition collect_extra_properties (o : list (string * json)) (known : list string) : props :=
  filter (fun kv => negb (str_mem (fst kv) known)) o.

(** [obj.get(k).and_then(|v| v.as_str())] *)
Definition get_str (k : string) (o : list (string * json)) : option string :=
  match jget k o with Some j => as_str j | None => None end.
Definition get_u64 (k : string) (o : list (string * json)) : option N :=
  match jget k o with Some j => as_u64 j | None => None end.

(** src/import.rs:411-434 [string_to_schema] *)
Definition string_to_schema (s : string) (dns : option string) : schema :=
  match prim_of_str s with
  | Some p => SPrim p
  | None =>
      match rsplit_once_dot s with
      | Some (ns, name) => SRef name (Some ns) [] None
      | None => SRef s dns [] None
      end
  end.

(** The name part shared by src/import.rs:479-502, 545-559 and 592-606:
    [(name, namespace)] of a named type; [None] when 'name' is missing. *)
Definition parse_name (o : list (string * json)) (dns : option string)
  : option (string * option string) :=
  match get_str "name" o with
  | None => None
  | Some raw =>
      let '(name, inferred) := split_full_name raw in
      Some (name, opt_or (get_str "namespace" o) (opt_or inferred dns))
  end.

(** [u32::try_from] on a [u64] *)
Definition u32_of_u64 (n : N) : option N := if (n <=? u32_max)%N then Some n else None.

(** src/import.rs:537-585 [parse_enum] *)
Definition parse_enum (o : list (string * json)) (dns : option string) : ires schema :=
  match parse_name o dns with
  | None => Err (IErr "enum missing 'name'")
  | Some (name, ns) =>
      Ok (SEnum name ns (get_str "doc" o) (extract_string_array (jget "symbols" o))
                (get_str "default" o) (extract_string_array (jget "aliases" o))
                (collect_extra_properties o
                   ["type"; "name"; "namespace"; "doc"; "symbols"; "default"; "aliases"]))
  end.

(** src/import.rs:587-626 [parse_fixed] *)
Definition parse_fixed (o : list (string * json)) (dns : option string) : ires schema :=
  match parse_name o dns with
  | None => Err (IErr "fixed missing 'name'")
  | Some (name, ns) =>
      match get_u64 "size" o with
      | None => Err (IErr "fixed missing 'size'")
      | Some size64 =>
          match u32_of_u64 size64 with
          | None => Err (IErr "fixed size exceeds maximum")
          | Some size =>
              Ok (SFixed name ns (get_str "doc" o) size (extract_string_array (jget "aliases" o))
                         (collect_extra_properties o
                            ["type"; "name"; "namespace"; "doc"; "size"; "aliases"]))
          end
      end
  end.

(** src/import.rs:676-726 [parse_annotated_primitive] *)
Definition parse_annotated_primitive (o : list (string * json)) (prim : prim) : ires schema :=
  match get_str "logicalType" o with
  | Some lname =>
      let precision := match get_u64 "precision" o with Some v => u32_of_u64 v | None => None end in
      let scale := match get_u64 "scale" o with Some v => u32_of_u64 v | None => None end in
      match parse_logical_type lname precision scale with
      | Some lt =>
          match lt with
          | LDecimal p _ =>
              if (p <? 1)%N then Err (IErr "decimal precision must be >= 1")
              else Ok (SLogical lt (collect_extra_properties o
                                      ["type"; "logicalType"; "precision"; "scale"]))
          | _ => Ok (SLogical lt (collect_extra_properties o
                                    ["type"; "logicalType"; "precision"; "scale"]))
          end
      | None => Ok (SAnnot prim (collect_extra_properties o ["type"]))
      end
  | None =>
      match collect_extra_properties o ["type"] with
      | [] => Ok (SPrim prim)
      | ps => Ok (SAnnot prim ps)
      end
  end.

(** src/import.rs:770-778, the [order] of a field *)
Definition parse_order (o : option string) : option field_order :=
  match o with
  | Some s =>
      if String.eqb s "ascending" then Some Ascending
      else if String.eqb s "descending" then Some Descending
      else if String.eqb s "ignore" then Some Ignore
      else None
  | None => None
  end.

(** src/import.rs:386-408 [json_to_schema], 437-460 [object_to_schema],
    479-535 [parse_record], 632-662 [parse_array]/[parse_map] and 748-796
    [json_to_field] as one recursion.  [n] is fuel: the recursion goes through
    [Map::get]; [jdepth] of the value is always enough (ImportProofs.v). *)
Fixpoint json_to_schema_n (n : nat) (j : json) (dns : option string) : ires schema :=
  match n with
  | O => Err IFuel
  | S n' =>
      let to_field (fj : json) (fns : option string) : ires field :=
        match fj with
        | JObj o =>
            match get_str "name" o with
            | None => Err (IErr "field missing 'name'")
            | Some name =>
                match jget "type" o with
                | None => Err (IErr "field missing 'type'")
                | Some tj =>
                    match json_to_schema_n n' tj fns with
                    | Err e => Err e
                    | Ok s =>
                        Ok (mkField name s (get_str "doc" o) (jget "default" o)
                                    (parse_order (get_str "order" o))
                                    (extract_string_array (jget "aliases" o))
                                    (collect_extra_properties o
                                       ["name"; "type"; "doc"; "default"; "order"; "aliases"]))
                    end
                end
            end
        | _ => Err (IErr "field must be an object")
        end in
      match j with
      | JStr s => Ok (string_to_schema s dns)
      | JArr l =>
          match map_res (fun t => json_to_schema_n n' t dns) l with
          | Err e => Err e
          | Ok ts => Ok (SUnion ts false)
          end
      | JObj o =>
          match get_str "type" o with
          | None => Err (IErr "schema object missing 'type' field")
          | Some ty =>
              if String.eqb ty "record" || String.eqb ty "error" then
                match parse_name o dns with
                | None => Err (IErr "record missing 'name'")
                | Some (name, ns) =>
                    match (match jget "fields" o with
                           | Some (JArr fj) => map_res (fun f => to_field f (opt_or ns dns)) fj
                           | _ => Ok []
                           end) with
                    | Err e => Err e
                    | Ok fields =>
                        Ok (SRecord name ns (get_str "doc" o) fields (String.eqb ty "error")
                                    (extract_string_array (jget "aliases" o))
                                    (collect_extra_properties o
                                       ["type"; "name"; "namespace"; "doc"; "fields"; "aliases"]))
                    end
                end
              else if String.eqb ty "enum" then parse_enum o dns
              else if String.eqb ty "fixed" then parse_fixed o dns
              else if String.eqb ty "array" then
                match jget "items" o with
                | None => Err (IErr "array missing 'items'")
                | Some ij =>
                    match json_to_schema_n n' ij dns with
                    | Err e => Err e
                    | Ok s => Ok (SArray s (collect_extra_properties o ["type"; "items"]))
                    end
                end
              else if String.eqb ty "map" then
                match jget "values" o with
                | None => Err (IErr "map missing 'values'")
                | Some ij =>
                    match json_to_schema_n n' ij dns with
                    | Err e => Err e
                    | Ok s => Ok (SMap s (collect_extra_properties o ["type"; "values"]))
                    end
                end
              else
                match prim_of_str ty with
                | Some p => parse_annotated_primitive o p
                | None => Err (IErr "unknown schema type")
                end
          end
      | _ => Err (IErr "invalid schema JSON")
      end
  end.

Definition json_to_schema (j : json) (dns : option string) : ires schema :=
  json_to_schema_n (jdepth j) j dns.

(** src/import.rs:748-796 [json_to_field] as called for message parameters *)
Definition json_to_field (fj : json) (fns : option string) : ires field :=
  match fj with
  | JObj o =>
      match get_str "name" o with
      | None => Err (IErr "field missing 'name'")
      | Some name =>
          match jget "type" o with
          | None => Err (IErr "field missing 'type'")
          | Some tj =>
              match json_to_schema tj fns with
              | Err e => Err e
              | Ok s =>
                  Ok (mkField name s (get_str "doc" o) (jget "default" o)
                              (parse_order (get_str "order" o))
                              (extract_string_array (jget "aliases" o))
                              (collect_extra_properties o
                                 ["name"; "type"; "doc"; "default"; "order"; "aliases"]))
              end
          end
      end
  | _ => Err (IErr "field must be an object")
  end.

(** src/import.rs:798-858 [json_to_message] *)
Definition json_to_message (j : json) (dns : option string) : ires message :=
  match j with
  | JObj o =>
      let one_way := match jget "one-way" o with Some (JBool b) => b | _ => false end in
      match (match jget "request" o with
             | Some (JArr l) => map_res (fun p => json_to_field p dns) l
             | _ => Ok []
             end) with
      | Err e => Err e
      | Ok request =>
          match (match jget "response" o with
                 | Some r => json_to_schema r dns
                 | None => Ok (SPrim PNull)
                 end) with
          | Err e => Err e
          | Ok response =>
              match (match jget "errors" o with
                     | Some (JArr l) =>
                         match map_res (fun e => json_to_schema e dns) l with
                         | Err e => Err e
                         | Ok es => Ok (Some es)
                         end
                     | _ => Ok None
                     end) with
              | Err e => Err e
              | Ok errors =>
                  Ok (mkMessage (get_str "doc" o)
                                (collect_extra_properties o
                                   ["doc"; "request"; "response"; "errors"; "one-way"])
                                request response errors one_way)
              end
          end
      end
  | _ => Err (IErr "message must be an object")
  end.

(** src/import.rs:159-276 [flatten_schema_inner]: the collected named types,
    in push order, and the rewritten schema. *)
Fixpoint flatten (s : schema) : list schema * schema :=
  match s with
  | SRecord n ns d fs e al ps =>
      let parts := map (fun f => (flatten (f_schema f), f)) fs in
      let collected := flat_map (fun p => fst (fst p)) parts in
      let fs' := map (fun p : (list schema * schema) * field =>
                        let f := snd p in
                        mkField (f_name f) (snd (fst p)) (f_doc f) (f_default f)
                                (f_order f) (f_aliases f) (f_props f)) parts in
      (collected ++ [SRecord n ns d fs' e al ps], SRef n ns [] None)
  | SEnum n ns _ _ _ _ _ | SFixed n ns _ _ _ _ => ([s], SRef n ns [] None)
  | SArray i ps => let '(c, i') := flatten i in (c, SArray i' ps)
  | SMap i ps => let '(c, i') := flatten i in (c, SMap i' ps)
  | SUnion ts b =>
      let parts := map flatten ts in
      (flat_map fst parts, SUnion (map snd parts) b)
  | _ => ([], s)
  end.

Section WithUnicode.
  Context `{Unicode}.

  (** src/import.rs:286-291 [flatten_and_register] *)
  Definition flatten_and_register (r : registry) (s : schema) : registry :=
    fold_left register_ignoring (fst (flatten s)) r.

  (** src/import.rs:317-329, the loop over the protocol's types.  An error
      aborts; what was registered before stays in the registry. *)
  Fixpoint import_types (types : list json) (dns : option string) (r : registry)
    : registry * option import_error :=
    match types with
    | [] => (r, None)
    | t :: ts =>
        match json_to_schema t dns with
        | Err e => (r, Some e)
        | Ok s => import_types ts dns (flatten_and_register r s)
        end
    end.

  (** src/import.rs:331-342, the loop over the messages *)
  Definition import_messages (msgs : list (string * json)) (dns : option string)
    : ires (list (string * message)) :=
    map_res (fun kv => match json_to_message (snd kv) dns with
                       | Err e => Err e
                       | Ok m => Ok (fst kv, m)
                       end) msgs.

  (** [Value::get] on any value *)
  Definition value_get (k : string) (j : json) : option json :=
    match j with JObj o => jget k o | _ => None end.

  (** src/import.rs:303-345 [import_protocol], after reading and parsing *)
  Definition import_protocol (j : json) (r : registry)
    : registry * ires (list (string * message)) :=
    let dns := match value_get "namespace" j with Some v => as_str v | None => None end in
    let types := match value_get "types" j with Some (JArr l) => l | _ => [] end in
    match import_types types dns r with
    | (r1, Some e) => (r1, Err e)
    | (r1, None) =>
        match value_get "messages" j with
        | Some (JObj msgs) =>
            match import_messages msgs dns with
            | Err e => (r1, Err e)
            | Ok ms => (r1, Ok ms)
            end
        | _ => (r1, Ok [])
        end
    end.

  (** src/import.rs:358-369 [import_schema], after reading and parsing *)
  Definition import_schema (j : json) (r : registry) : registry * ires unit :=
    match json_to_schema j None with
    | Err e => (r, Err e)
    | Ok s => (flatten_and_register r s, Ok tt)
    end.
End WithUnicode.
