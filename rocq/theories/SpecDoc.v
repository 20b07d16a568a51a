(** Independent specification: which names a JSON document defines.

    [defined] lists the full name of every definition found anywhere in a
    schema document, in document order, applying only the Avro naming rules;
    it neither checks nor remembers anything. *)
From Verif Require Export SpecAvro.

Definition is_definition (o : list (string * json)) : bool :=
  match sget "type" o with
  | Some ty => str_mem ty ["record"; "error"; "enum"; "fixed"]
  | None => false
  end.

(** [n] bounds the nesting depth. *)
Fixpoint defined (n : nat) (enc : string) (j : json) {struct n} : list string :=
  match n with
  | O => []
  | S n' =>
      match j with
      | JArr l => flat_map (defined n' enc) l
      | JObj o =>
          match sget "type" o with
          | None => []
          | Some ty =>
              if is_definition o then
                match def_name o enc with
                | None => []
                | Some (full, ns) =>
                    full ::
                    if str_mem ty ["record"; "error"] then
                      match assoc "fields" o with
                      | Some (JArr fjs) =>
                          flat_map (fun fj => match fj with
                                              | JObj fo => match assoc "type" fo with
                                                           | Some tj => defined n' ns tj
                                                           | None => []
                                                           end
                                              | _ => []
                                              end) fjs
                      | _ => []
                      end
                    else []
                end
              else if String.eqb ty "array" then
                match assoc "items" o with Some ij => defined n' enc ij | None => [] end
              else if String.eqb ty "map" then
                match assoc "values" o with Some ij => defined n' enc ij | None => [] end
              else []
          end
      | _ => []
      end
  end.

Definition defined_field (n : nat) (enc : string) (fj : json) : list string :=
  match fj with
  | JObj fo => match assoc "type" fo with Some tj => defined n enc tj | None => [] end
  | _ => []
  end.

Definition jarr (j : option json) : list json := match j with Some (JArr l) => l | _ => [] end.
Definition jopt (j : option json) : list json := match j with Some x => [x] | None => [] end.

(** Names defined in the [types] array of a protocol document. *)
Definition protocol_ns (o : list (string * json)) : string :=
  match sget "namespace" o with Some s => s | None => "" end.

Definition types_defined (n : nat) (j : json) : list string :=
  match j with
  | JObj o => flat_map (defined n (protocol_ns o)) (jarr (assoc "types" o))
  | _ => []
  end.

(** Names defined inside the messages of a protocol document. *)
Definition messages_defined (n : nat) (j : json) : list string :=
  match j with
  | JObj o =>
      match assoc "messages" o with
      | Some (JObj ms) =>
          flat_map (fun nm => match snd nm with
                              | JObj m =>
                                  flat_map (defined_field n (protocol_ns o)) (jarr (assoc "request" m))
                                  ++ flat_map (defined n (protocol_ns o)) (jopt (assoc "response" m))
                                  ++ flat_map (defined n (protocol_ns o)) (jarr (assoc "errors" m))
                              | _ => []
                              end) ms
      | _ => []
      end
  | _ => []
  end.

(** Full names of the top-level entries of the [types] array, in order. *)
Definition entry_name (ns : string) (j : json) : option string :=
  match j with
  | JObj o => option_map fst (def_name o ns)
  | _ => None
  end.

Definition entry_names (j : json) : list (option string) :=
  match j with
  | JObj o => map (entry_name (protocol_ns o)) (jarr (assoc "types" o))
  | _ => []
  end.

(** [l] is [m] with some elements left out. *)
Inductive sublist {A} : list A -> list A -> Prop :=
| sub_nil : sublist [] []
| sub_skip x l m : sublist l m -> sublist l (x :: m)
| sub_keep x l m : sublist l m -> sublist (x :: l) (x :: m).
