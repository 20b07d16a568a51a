(** Independent specification: how a reader that follows the Avro
    specification (sections "Names", "Schema Declaration", "Protocol
    Declaration") understands a JSON schema document.

    It knows nothing about the compiler.  It walks a document in document
    order, keeps the list of full names defined so far, applies the scoping
    rules, and *fails* when a name is used that has not been defined yet or
    when a name is defined twice. *)
From Verif Require Export Base Json.

Definition spec_primitives : list string :=
  ["null"; "boolean"; "int"; "long"; "float"; "double"; "bytes"; "string"].

(** A namespace is a string; the null namespace is the empty string. *)
Definition qualify (ns name : string) : string :=
  if str_is_empty ns then name else (ns ++ "." ++ name)%string.

(** "A fullname is specified ... if the name contains dots", otherwise the
    name lives in the given namespace. *)
Definition resolve_name (enclosing s : string) : string :=
  if contains_dot s then s else qualify enclosing s.

(** What a schema means: a type, with named types reduced to their full name.
    [attrs] are the members of the JSON object that are not structure. *)
Inductive aty :=
| TPrim (name : string) (attrs : list (string * json))
| TNamed (full : string)
| TArray (items : aty) (attrs : list (string * json))
| TMap (values : aty) (attrs : list (string * json))
| TUnion (branches : list aty).

Record afield := mkAField {
  af_name : string;
  af_type : aty;
  af_attrs : list (string * json)
}.

(** What a definition means.  Aliases are full names. *)
Inductive adef :=
| DRecord (is_error : bool) (fields : list afield) (aliases : list string)
          (attrs : list (string * json))
| DEnum (symbols : list string) (aliases : list string) (attrs : list (string * json))
| DFixed (size : N) (aliases : list string) (attrs : list (string * json)).

Definition sget (k : string) (o : list (string * json)) : option string :=
  match assoc k o with Some (JStr s) => Some s | _ => None end.

Definition attrs_except (structural : list string) (o : list (string * json)) :=
  filter (fun kv => negb (str_mem (fst kv) structural)) o.

(** Full name and namespace of a definition: a dotted name is a full name;
    otherwise the [namespace] attribute, otherwise the enclosing namespace. *)
Definition def_name (o : list (string * json)) (enc : string) : option (string * string) :=
  match sget "name" o with
  | None => None
  | Some n =>
      match rsplit_once_dot n with
      | Some (ns, _) => Some (n, ns)
      | None =>
          let ns := match sget "namespace" o with Some s => s | None => enc end in
          Some (qualify ns n, ns)
      end
  end.

Fixpoint all_strings (l : list json) : option (list string) :=
  match l with
  | [] => Some []
  | JStr s :: r => match all_strings r with Some ss => Some (s :: ss) | None => None end
  | _ :: _ => None
  end.

(** Aliases are names relative to the namespace of the type they rename. *)
Definition def_aliases (o : list (string * json)) (ns : string) : option (list string) :=
  match assoc "aliases" o with
  | None => Some []
  | Some (JArr l) => match all_strings l with
                     | Some ss => Some (map (resolve_name ns) ss)
                     | None => None
                     end
  | Some _ => None
  end.

(** Reader state: names defined so far (latest first) and the definitions
    completed so far, in order. *)
Definition rstate := (list string * list (string * adef))%type.

Definition record_structure := ["type"; "name"; "namespace"; "fields"; "aliases"].
Definition enum_structure := ["type"; "name"; "namespace"; "symbols"; "aliases"].
Definition fixed_structure := ["type"; "name"; "namespace"; "size"; "aliases"].

(** [n] bounds the nesting depth; [None] also covers running out of it, so a
    result [Some _] is a genuine reading. *)
Fixpoint read (n : nat) (j : json) (enc : string) (st : rstate) {struct n}
  : option (aty * rstate) :=
  match n with
  | O => None
  | S n' =>
      match j with
      | JStr s =>
          if str_mem s spec_primitives then Some (TPrim s [], st)
          else
            let full := resolve_name enc s in
            if str_mem full (fst st) then Some (TNamed full, st) else None
      | JArr l =>
          match map_st (fun x st => read n' x enc st) l st with
          | Some (ts, st1) => Some (TUnion ts, st1)
          | None => None
          end
      | JObj o =>
          match sget "type" o with
          | None => None
          | Some ty =>
              if str_mem ty ["record"; "error"] then
                match def_name o enc, assoc "fields" o with
                | Some (full, ns), Some (JArr fjs) =>
                    if str_mem full (fst st) then None
                    else
                      match map_st (fun fj st =>
                              match fj with
                              | JObj fo =>
                                  match sget "name" fo, assoc "type" fo with
                                  | Some fname, Some tj =>
                                      match read n' tj ns st with
                                      | Some (t, st1) =>
                                          Some (mkAField fname t
                                                  (attrs_except ["name"; "type"] fo), st1)
                                      | None => None
                                      end
                                  | _, _ => None
                                  end
                              | _ => None
                              end) fjs (full :: fst st, snd st) with
                      | None => None
                      | Some (fields, st1) =>
                          match def_aliases o ns with
                          | None => None
                          | Some al =>
                              Some (TNamed full,
                                    (fst st1,
                                     snd st1 ++ [(full, DRecord (String.eqb ty "error") fields al
                                                          (attrs_except record_structure o))]))
                          end
                      end
                | _, _ => None
                end
              else if String.eqb ty "enum" then
                match def_name o enc, assoc "symbols" o with
                | Some (full, ns), Some (JArr sl) =>
                    if str_mem full (fst st) then None
                    else match all_strings sl, def_aliases o ns with
                         | Some symbols, Some al =>
                             Some (TNamed full,
                                   (full :: fst st,
                                    snd st ++ [(full, DEnum symbols al
                                                        (attrs_except enum_structure o))]))
                         | _, _ => None
                         end
                | _, _ => None
                end
              else if String.eqb ty "fixed" then
                match def_name o enc, assoc "size" o with
                | Some (full, ns), Some (JNum (NPos size)) =>
                    if str_mem full (fst st) then None
                    else match def_aliases o ns with
                         | Some al =>
                             Some (TNamed full,
                                   (full :: fst st,
                                    snd st ++ [(full, DFixed size al
                                                        (attrs_except fixed_structure o))]))
                         | None => None
                         end
                | _, _ => None
                end
              else if String.eqb ty "array" then
                match assoc "items" o with
                | Some ij => match read n' ij enc st with
                             | Some (t, st1) =>
                                 Some (TArray t (attrs_except ["type"; "items"] o), st1)
                             | None => None
                             end
                | None => None
                end
              else if String.eqb ty "map" then
                match assoc "values" o with
                | Some ij => match read n' ij enc st with
                             | Some (t, st1) =>
                                 Some (TMap t (attrs_except ["type"; "values"] o), st1)
                             | None => None
                             end
                | None => None
                end
              else if str_mem ty spec_primitives then
                Some (TPrim ty (attrs_except ["type"] o), st)
              else None
          end
      | _ => None
      end
  end.

(** A field object read on its own (record fields and message parameters). *)
Definition read_field (n : nat) (fj : json) (ns : string) (st : rstate)
  : option (afield * rstate) :=
  match fj with
  | JObj fo =>
      match sget "name" fo, assoc "type" fo with
      | Some fname, Some tj =>
          match read n tj ns st with
          | Some (t, st1) => Some (mkAField fname t (attrs_except ["name"; "type"] fo), st1)
          | None => None
          end
      | _, _ => None
      end
  | _ => None
  end.

(** ** Protocol documents *)

Record amessage := mkAMessage {
  am_request : list afield;
  am_response : aty;
  am_errors : option (list aty);
  am_one_way : bool;
  am_attrs : list (string * json)
}.

Definition read_message (n : nat) (j : json) (ns : string) (st : rstate)
  : option (amessage * rstate) :=
  match j with
  | JObj o =>
      match assoc "request" o, assoc "response" o with
      | Some (JArr rq), Some rs =>
          match map_st (fun fj st => read_field n fj ns st) rq st with
          | None => None
          | Some (fields, st1) =>
              match read n rs ns st1 with
              | None => None
              | Some (rt, st2) =>
                  match (match assoc "errors" o with
                         | None => Some (None, st2)
                         | Some (JArr es) =>
                             match map_st (fun ej st => read n ej ns st) es st2 with
                             | Some (ets, st3) => Some (Some ets, st3)
                             | None => None
                             end
                         | Some _ => None
                         end) with
                  | None => None
                  | Some (ets, st3) =>
                      Some (mkAMessage fields rt ets
                              (match assoc "one-way" o with Some (JBool b) => b | _ => false end)
                              (attrs_except ["request"; "response"; "errors"; "one-way"] o), st3)
                  end
              end
          end
      | _, _ => None
      end
  | _ => None
  end.

Record aprotocol := mkAProtocol {
  ap_name : string;
  ap_namespace : string;
  ap_defs : list (string * adef);        (* in document order of completion *)
  ap_messages : list (string * amessage);
  ap_attrs : list (string * json)
}.

(** Types first, then messages in key order. *)
Definition read_protocol (n : nat) (j : json) : option aprotocol :=
  match j with
  | JObj o =>
      let ns := match sget "namespace" o with Some s => s | None => "" end in
      match sget "protocol" o, assoc "types" o, assoc "messages" o with
      | Some name, Some (JArr tjs), Some (JObj mjs) =>
          match map_st (fun tj st => read n tj ns st) tjs ([], []) with
          | None => None
          | Some (_, st1) =>
              match map_st (fun nm st =>
                              match read_message n (snd nm) ns st with
                              | Some (m, st') => Some ((fst nm, m), st')
                              | None => None
                              end) mjs st1 with
              | None => None
              | Some (ms, st2) =>
                  Some (mkAProtocol name ns (snd st2) ms
                          (attrs_except ["protocol"; "namespace"; "types"; "messages"] o))
              end
          end
      | _, _, _ => None
      end
  | _ => None
  end.

(** A stand-alone schema document: nothing is defined beforehand and there is
    no enclosing namespace. *)
Definition read_document (n : nat) (j : json) : option (aty * list (string * adef)) :=
  match read n j "" ([], []) with
  | Some (t, st) => Some (t, snd st)
  | None => None
  end.
