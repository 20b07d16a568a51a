(** Vocabulary for the import theorems: documents written the ordinary way, and
    the named types inside a schema. *)
From Verif Require Export Import SpecMeaning SpecDoc SpecNames.

(** ** Documents *)

(** Keys of an object in increasing order, as in every parsed document. *)
Fixpoint sortedb (o : list (string * json)) : bool :=
  match o with
  | (k, _) :: (((k', _) :: _) as r) =>
      match String.compare k k' with Lt => sortedb r | _ => false end
  | _ => true
  end.

(** A name that starts with a dot and has no other one. *)
Definition leading_dot (s : string) : bool :=
  match rsplit_once_dot s with Some (ns, _) => str_is_empty ns | None => false end.

Definition absent (k : string) (o : list (string * json)) : bool :=
  match assoc k o with None => true | Some _ => false end.
Definition string_or_absent (k : string) (o : list (string * json)) : bool :=
  match assoc k o with None | Some (JStr _) => true | _ => false end.

(** A full name and a [namespace] attribute are not given together. *)
Definition clean_name (o : list (string * json)) : bool :=
  match sget "name" o with
  | Some n => negb (leading_dot n) && implb (contains_dot n) (absent "namespace" o)
  | None => true
  end.

(** Field attributes are what the specification says they are; the default
    sort order is left implicit. *)
Definition clean_field_attrs (o : list (string * json)) : bool :=
  sortedb o && string_or_absent "doc" o
  && match assoc "order" o with
     | None => true
     | Some (JStr s) => String.eqb s "descending" || String.eqb s "ignore"
     | Some _ => false
     end
  && match assoc "aliases" o with
     | None => true
     | Some (JArr (x :: l)) => match all_strings (x :: l) with Some _ => true | None => false end
     | Some _ => false
     end.

Definition logical_bases : list (string * string) :=
  [("date", "int"); ("time-millis", "int"); ("time-micros", "long"); ("timestamp-millis", "long");
   ("timestamp-micros", "long"); ("local-timestamp-millis", "long"); ("local-timestamp-micros", "long");
   ("uuid", "string")].

(** A logical type sits on its base type and a decimal spells out both of its
    parameters; unknown logical types are unrestricted. *)
Definition u32_attr (low : N) (j : option json) : bool :=
  match j with Some (JNum (NPos n)) => ((low <=? n) && (n <=? u32_max))%N | _ => false end.
Definition clean_primitive (ty : string) (o : list (string * json)) : bool :=
  match sget "logicalType" o with
  | None => true
  | Some l =>
      if String.eqb l "decimal" then
        String.eqb ty "bytes" && u32_attr 1 (assoc "precision" o) && u32_attr 0 (assoc "scale" o)
      else
        match assoc l logical_bases with
        | Some base => String.eqb ty base && absent "precision" o && absent "scale" o
        | None => true
        end
  end.

Fixpoint clean (n : nat) (j : json) : bool :=
  match n with
  | O => true
  | S n' =>
      match j with
      | JStr s => negb (leading_dot s)
      | JArr l => forallb (clean n') l
      | JObj o =>
          sortedb o &&
          match sget "type" o with
          | None => true
          | Some ty =>
              if str_mem ty ["record"; "error"] then
                clean_name o && string_or_absent "doc" o
                && forallb (fun fj => match fj with
                                      | JObj fo => clean_field_attrs fo
                                          && match assoc "type" fo with Some t => clean n' t | None => true end
                                      | _ => true
                                      end) (jarr (assoc "fields" o))
              else if String.eqb ty "enum" then
                clean_name o && string_or_absent "doc" o && string_or_absent "default" o
              else if String.eqb ty "fixed" then
                clean_name o && string_or_absent "doc" o && u32_attr 0 (assoc "size" o)
              else if String.eqb ty "array" then
                match assoc "items" o with Some t => clean n' t | None => true end
              else if String.eqb ty "map" then
                match assoc "values" o with Some t => clean n' t | None => true end
              else clean_primitive ty o
          end
      | _ => true
      end
  end.

Definition clean_field (n : nat) (fj : json) : bool :=
  match fj with
  | JObj fo => clean_field_attrs fo && match assoc "type" fo with Some t => clean n t | None => true end
  | _ => true
  end.

Definition clean_message (n : nat) (j : json) : bool :=
  match j with
  | JObj o => sortedb o && string_or_absent "doc" o
      && forallb (clean_field n) (jarr (assoc "request" o))
      && match assoc "response" o with Some t => clean n t | None => true end
      && forallb (clean n) (jarr (assoc "errors" o))
  | _ => true
  end.

Definition clean_protocol (n : nat) (j : json) : bool :=
  match j with
  | JObj o => forallb (clean n) (jarr (assoc "types" o))
      && forallb (fun nm => clean_message n (snd nm))
           (match assoc "messages" o with Some (JObj ms) => ms | _ => [] end)
  | _ => true
  end.

(** ** Named types inside a schema *)

(** All named types defined in [s], inner ones before the types that contain
    them, in the order they are written. *)
Fixpoint inner_first (s : schema) : list schema :=
  match s with
  | SRecord _ _ _ fs _ _ _ => flat_map (fun f => inner_first (f_schema f)) fs ++ [s]
  | SEnum _ _ _ _ _ _ _ | SFixed _ _ _ _ _ _ => [s]
  | SArray i _ | SMap i _ => inner_first i
  | SUnion ts _ => flat_map inner_first ts
  | _ => []
  end.

(** No named type is defined inside the type expression [s]. *)
Fixpoint no_inline (s : schema) : bool :=
  match s with
  | SRecord _ _ _ _ _ _ _ | SEnum _ _ _ _ _ _ _ | SFixed _ _ _ _ _ _ => false
  | SArray i _ | SMap i _ => no_inline i
  | SUnion ts _ => forallb no_inline ts
  | _ => true
  end.

(** [s] defines a type none of whose members defines another one. *)
Definition flat_definition (s : schema) : bool :=
  match s with
  | SRecord _ _ _ fs _ _ _ => forallb (fun f => no_inline (f_schema f)) fs
  | SEnum _ _ _ _ _ _ _ | SFixed _ _ _ _ _ _ => true
  | _ => false
  end.

(** ** Reading only the [types] of a protocol document *)

Definition read_types (n : nat) (j : json) : option (list (string * adef)) :=
  match j with
  | JObj o =>
      let ns := match sget "namespace" o with Some s => s | None => "" end in
      match map_st (fun tj st => read n tj ns st) (jarr (assoc "types" o)) ([], []) with
      | Some (_, st) => Some (snd st)
      | None => None
      end
  | _ => None
  end.

(** ** Types that survive a trip through JSON *)

(** Annotations that do not look like another schema, and numbers in range. *)
Fixpoint portable (s : schema) : bool :=
  match s with
  | SAnnot k ps => clean_primitive (prim_str k) ps
  | SLogical lt ps =>
      free_of ["logicalType"; "precision"; "scale"] ps
      && match lt with
         | LDecimal p sc => ((1 <=? p) && (p <=? u32_max) && (sc <=? u32_max))%N
         | _ => true
         end
  | SFixed _ _ _ size _ _ => (size <=? u32_max)%N
  | SArray i _ | SMap i _ => portable i
  | SUnion ts _ => forallb portable ts
  | SRecord _ _ _ fs _ _ _ => forallb (fun f => portable (f_schema f)) fs
  | _ => true
  end.
Definition portable_message (m : message) : bool :=
  forallb (fun f => portable (f_schema f)) (m_request m) && portable (m_response m)
  && match m_errors m with Some es => forallb portable es | None => true end.

(** ** What an import does to the registry *)

(** A full name all of whose parts are valid names. *)
Definition valid_full `{Unicode} (full : string) : Prop :=
  exists n ns, full = qualify ns n /\ valid_name n /\ valid_namespace ns.

(** [r'] is [r] with exactly the definitions [defs] added, in that order, none
    of them with another definition inside. *)
Definition added (r r' : registry) (defs : list (string * adef)) : Prop :=
  exists new, r' = r ++ new /\ keys new = keys defs
    /\ map named_meaning (map snd new) = map Some defs
    /\ Forall (fun kv => flat_definition (snd kv) = true) new.
