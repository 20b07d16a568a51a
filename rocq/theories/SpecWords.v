(** Where a JSON document names types. *)
From Verif Require Export SpecAvro SpecMeaning.

(** The words of Avro for the kinds of types that are not primitive. *)
Definition kind_words : list string := ["record"; "enum"; "array"; "map"; "union"; "fixed"].

(** The schema [j] has the string [x] in a place where a type stands. *)
Inductive names_in : json -> string -> Prop :=
| ni_string x : names_in (JStr x) x
| ni_union l j x : In j l -> names_in j x -> names_in (JArr l) x
| ni_items o j x : assoc "type" o = Some (JStr "array") -> assoc "items" o = Some j -> names_in j x -> names_in (JObj o) x
| ni_values o j x : assoc "type" o = Some (JStr "map") -> assoc "values" o = Some j -> names_in j x -> names_in (JObj o) x
| ni_field o k fs fo j x : assoc "type" o = Some (JStr k) -> In k ["record"; "error"] ->
    assoc "fields" o = Some (JArr fs) -> In (JObj fo) fs -> assoc "type" fo = Some j -> names_in j x ->
    names_in (JObj o) x.

(** The same for a message and a protocol. *)
Inductive message_names : json -> string -> Prop :=
| mn_request o ps fo j x :
    assoc "request" o = Some (JArr ps) -> In (JObj fo) ps -> assoc "type" fo = Some j -> names_in j x ->
    message_names (JObj o) x
| mn_response o j x : assoc "response" o = Some j -> names_in j x -> message_names (JObj o) x
| mn_errors o es j x : assoc "errors" o = Some (JArr es) -> In j es -> names_in j x -> message_names (JObj o) x.

Inductive protocol_names : json -> string -> Prop :=
| pn_type o ts j x : assoc "types" o = Some (JArr ts) -> In j ts -> names_in j x -> protocol_names (JObj o) x
| pn_message o ms k j x :
    assoc "messages" o = Some (JObj ms) -> In (k, j) ms -> message_names j x -> protocol_names (JObj o) x.
