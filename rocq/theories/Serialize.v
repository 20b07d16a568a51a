(** Model of src/model/json.rs: conversion of protocols and schemas to JSON. *)
From Verif Require Export Schema.

(** src/model/json.rs:40 [COMPLEX_TYPE_NAMES] *)
Definition complex_type_names : list string :=
  ["record"; "enum"; "array"; "map"; "union"; "fixed"].

(** src/model/json.rs:45-47 [is_schema_type_name] *)
Definition is_schema_type_name (name : string) : bool :=
  str_mem name primitive_type_names || str_mem name complex_type_names.

(** src/model/json.rs:51 [SchemaLookup], a [HashMap] that is only ever read by
    key. *)
Definition lookup_table := list (string * schema).

(** src/model/json.rs:125-170 [collect_named_types].  Inserting is consing:
    [assoc] finds the latest binding, as [HashMap::insert] overwrites. *)
Fixpoint collect_named_types (s : schema) (dns : option string) (lk : lookup_table)
  : lookup_table :=
  match s with
  | SRecord n ns _ fs _ _ _ =>
      let ens := opt_or ns dns in
      fold_left (fun acc f => collect_named_types (f_schema f) ens acc) fs
                ((make_full_name n ens, s) :: lk)
  | SEnum n ns _ _ _ _ _ | SFixed n ns _ _ _ _ =>
      (make_full_name n (opt_or ns dns), s) :: lk
  | SArray i _ | SMap i _ => collect_named_types i dns lk
  | SUnion ts _ => fold_left (fun acc t => collect_named_types t dns acc) ts lk
  | _ => lk
  end.

(** src/model/json.rs:116-122 [build_lookup] *)
Definition build_lookup (types : list schema) (dns : option string) : lookup_table :=
  fold_left (fun acc s => collect_named_types s dns acc) types [].

(** src/model/json.rs:576-592 [schema_ref_name] *)
Definition schema_ref_name (name : string) (ns enc : option string) : string :=
  if ostr_eqb ns enc then
    if is_schema_type_name name then make_full_name name ns else name
  else make_full_name name ns.

(** src/model/json.rs:600-607 [alias_ref_name] *)
Definition alias_ref_name (alias : string) (schema_ns : option string) : string :=
  match split_full_name alias with
  | (simple, Some alias_ns) => schema_ref_name simple (Some alias_ns) schema_ns
  | (simple, None) => simple
  end.

Definition obj := list (string * json).

(** [obj.insert(key, ..)] guarded by an [if let Some(..)] *)
Definition opt_insert (k : string) (v : option json) (o : obj) : obj :=
  match v with Some x => bt_insert k x o | None => o end.

(** the [if namespace != enclosing_namespace && let Some(ns) = .. && !(..)]
    condition, src/model/json.rs:215-220 *)
Definition emitted_namespace (ns enc : option string) : option string :=
  if ostr_eqb ns enc then None
  else match ns with
       | None => None
       | Some n =>
           if str_is_empty n && match enc with None => true | Some _ => false end
           then None else Some n
       end.

(** src/model/json.rs:192-227 [named_type_preamble].  [inl] is [Err(bare)],
    [inr] is [Ok(obj)] together with the extended set of known names. *)
Definition named_type_preamble (type_str name : string) (ns doc : option string)
  (known : list string) (enc : option string) : json + (obj * list string) :=
  let full := make_full_name name ns in
  if str_mem full known then inl (JStr (schema_ref_name name ns enc))
  else
    let o := bt_insert "type" (JStr type_str) [] in
    let o := bt_insert "name" (JStr name) o in
    let o := opt_insert "namespace" (option_map JStr (emitted_namespace ns enc)) o in
    let o := opt_insert "doc" (option_map JStr doc) o in
    inr (o, full :: known).

(** src/model/json.rs:231-248 [finish_named_type] *)
Definition finish_named_type (o : obj) (ps : props) (aliases : list string)
  (ns : option string) : obj :=
  let o := bt_extend o ps in
  match aliases with
  | [] => o
  | _ => bt_insert "aliases" (JArr (map (fun a => JStr (alias_ref_name a ns)) aliases)) o
  end.

(** src/model/json.rs:487-527 [field_to_json], given the JSON of the field's
    schema *)
Definition order_json (o : option field_order) : option json :=
  match o with
  | Some Descending => Some (JStr "descending")
  | Some Ignore => Some (JStr "ignore")
  | Some Ascending | None => None
  end.

Definition field_obj {A} (f : field_ A) (schema_json : json) : json :=
  let o := bt_insert "name" (JStr (f_name f)) [] in
  let o := bt_insert "type" schema_json o in
  let o := opt_insert "doc" (option_map JStr (f_doc f)) o in
  let o := opt_insert "default" (f_default f) o in
  let o := opt_insert "order" (order_json (f_order f)) o in
  let o := match f_aliases f with
           | [] => o
           | al => bt_insert "aliases" (JArr (map JStr al)) o
           end in
  JObj (bt_extend o (f_props f)).

(** src/model/json.rs:423-444, the [Logical] arm *)
Definition logical_obj (lt : logical) (ps : props) : json :=
  let o := bt_insert "type" (JStr (prim_str (expected_base_type lt))) [] in
  let o := bt_insert "logicalType" (JStr (logical_name lt)) o in
  let o := match lt with
           | LDecimal p s =>
               bt_insert "scale" (JNum (NPos s)) (bt_insert "precision" (JNum (NPos p)) o)
           | _ => o
           end in
  JObj (bt_extend o ps).

(** src/model/json.rs:317-345 and 351-373: the objects of enums and fixed
    types after the preamble *)
Definition enum_obj (o : obj) (symbols : list string) (default : option string)
  (ps : props) (aliases : list string) (ns : option string) : json :=
  let o := bt_insert "symbols" (JArr (map JStr symbols)) o in
  let o := opt_insert "default" (option_map JStr default) o in
  JObj (finish_named_type o ps aliases ns).

Definition fixed_obj (o : obj) (size : N) (ps : props) (aliases : list string)
  (ns : option string) : json :=
  JObj (finish_named_type (bt_insert "size" (JNum (NPos size)) o) ps aliases ns).

Section WithLookup.
  Variable lk : lookup_table.

  (** src/model/json.rs:255-481 [schema_to_json].  [n] bounds how deep
      references are inlined inside one another (the Rust recursion has no
      such bound); running out gives [None].  [known] is the [&mut HashSet]. *)
  Fixpoint ser (n : nat) : schema -> option string -> list string ->
                           option (json * list string) :=
    fix go (s : schema) (enc : option string) (known : list string) {struct s}
      : option (json * list string) :=
      match s with
      | SPrim p => Some (JStr (prim_str p), known)
      | SAnnot k ps => Some (JObj (bt_extend (bt_insert "type" (JStr (prim_str k)) []) ps), known)
      | SRecord name ns doc fields is_error aliases ps =>
          match named_type_preamble (if is_error then "error" else "record")
                                    name ns doc known enc with
          | inl bare => Some (bare, known)
          | inr (o, known1) =>
              match map_st (fun (f : field) k =>
                              match go (f_schema f) (opt_or ns enc) k with
                              | None => None
                              | Some (j, k1) => Some (field_obj f j, k1)
                              end) fields known1 with
              | None => None
              | Some (fields_json, known2) =>
                  let o := bt_insert "fields" (JArr fields_json) o in
                  Some (JObj (finish_named_type o ps aliases ns), known2)
              end
          end
      | SEnum name ns doc symbols default aliases ps =>
          match named_type_preamble "enum" name ns doc known enc with
          | inl bare => Some (bare, known)
          | inr (o, known1) => Some (enum_obj o symbols default ps aliases ns, known1)
          end
      | SFixed name ns doc size aliases ps =>
          match named_type_preamble "fixed" name ns doc known enc with
          | inl bare => Some (bare, known)
          | inr (o, known1) => Some (fixed_obj o size ps aliases ns, known1)
          end
      | SArray items ps =>
          match go items enc known with
          | None => None
          | Some (j, known1) =>
              let o := bt_insert "type" (JStr "array") [] in
              let o := bt_insert "items" j o in
              Some (JObj (bt_extend o ps), known1)
          end
      | SMap values ps =>
          match go values enc known with
          | None => None
          | Some (j, known1) =>
              let o := bt_insert "type" (JStr "map") [] in
              let o := bt_insert "values" j o in
              Some (JObj (bt_extend o ps), known1)
          end
      | SUnion types _ =>
          match map_st (fun t k => go t enc k) types known with
          | None => None
          | Some (js, known1) => Some (JArr js, known1)
          end
      | SLogical lt ps => Some (logical_obj lt ps, known)
      | SRef name ns _ _ =>
          let full := make_full_name name ns in
          if str_mem full known then Some (JStr (schema_ref_name name ns enc), known)
          else
            match assoc full lk with
            | Some resolved =>
                match n with
                | O => None
                | S n' => ser n' resolved enc known
                end
            | None => Some (JStr (schema_ref_name name ns enc), known)
            end
      end.

  (** [field_to_json] *)
  Definition ser_field (n : nat) (f : field) (enc : option string) (known : list string)
    : option (json * list string) :=
    match ser n (f_schema f) enc known with
    | None => None
    | Some (j, k1) => Some (field_obj f j, k1)
    end.

  (** src/model/json.rs:533-567 [message_to_json] *)
  Definition ser_message (n : nat) (m : message) (enc : option string) (known : list string)
    : option (json * list string) :=
    let o := opt_insert "doc" (option_map JStr (m_doc m)) [] in
    let o := bt_extend o (m_props m) in
    match map_st (fun f k => ser_field n f enc k) (m_request m) known with
    | None => None
    | Some (request, known1) =>
        let o := bt_insert "request" (JArr request) o in
        match ser n (m_response m) enc known1 with
        | None => None
        | Some (response, known2) =>
            let o := bt_insert "response" response o in
            match (match m_errors m with
                   | None => Some (o, known2)
                   | Some errors =>
                       match map_st (fun e k => ser n e enc k) errors known2 with
                       | None => None
                       | Some (errors_json, known3) =>
                           Some (bt_insert "errors" (JArr errors_json) o, known3)
                       end
                   end) with
            | None => None
            | Some (o, known4) =>
                let o := if m_one_way m then bt_insert "one-way" (JBool true) o else o in
                Some (JObj o, known4)
            end
        end
    end.
End WithLookup.

(** Fuel that always suffices for a given lookup table (theorem
    [ser_total] in SerializeProofs.v). *)
Definition lookup_fuel (lk : lookup_table) : nat := S (length lk).

(** [schema_to_json] as callers see it *)
Definition schema_to_json (s : schema) (known : list string) (enc : option string)
  (lk : lookup_table) : option (json * list string) :=
  ser lk (lookup_fuel lk) s enc known.

Definition is_string (j : json) : bool := match j with JStr _ => true | _ => false end.

(** src/model/json.rs:54-105 [protocol_to_json]; the message loop runs over the
    [HashMap] in the order of the list [p_messages]. *)
Definition types_to_json (p : protocol) : option (list json * list string) :=
  let lk := build_lookup (p_types p) (p_namespace p) in
  match map_st (fun s k => schema_to_json s k (p_namespace p) lk) (p_types p) [] with
  | None => None
  | Some (js, known) => Some (filter (fun v => negb (is_string v)) js, known)
  end.

Definition messages_to_json (p : protocol) (known : list string)
  : option (list (string * json) * list string) :=
  let lk := build_lookup (p_types p) (p_namespace p) in
  match map_st (fun nm k =>
                  match ser_message lk (lookup_fuel lk) (snd nm) (p_namespace p) k with
                  | None => None
                  | Some (j, k1) => Some ((fst nm, j), k1)
                  end) (p_messages p) known with
  | None => None
  | Some (entries, known1) => Some (bt_extend [] entries, known1)
  end.

Definition protocol_header (p : protocol) : obj :=
  let o := bt_insert "protocol" (JStr (p_name p)) [] in
  let o := match p_namespace p with
           | Some ns => if negb (str_is_empty ns) then bt_insert "namespace" (JStr ns) o else o
           | None => o
           end in
  let o := opt_insert "doc" (option_map JStr (p_doc p)) o in
  bt_extend o (p_props p).

Definition protocol_to_json (p : protocol) : option json :=
  match types_to_json p with
  | None => None
  | Some (types, known) =>
      match messages_to_json p known with
      | None => None
      | Some (messages, _) =>
          let o := protocol_header p in
          let o := bt_insert "types" (JArr types) o in
          let o := bt_insert "messages" (JObj messages) o in
          Some (JObj o)
      end
  end.
