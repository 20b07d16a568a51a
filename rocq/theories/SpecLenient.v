(** Attributes of imported JSON that are not of the type the Avro specification gives
    them, and documents without them. *)
From Verif Require Export Json.
From Verif Require Import Base.

Definition not_string (j : json) : Prop := forall s, j <> JStr s.
Definition not_array (j : json) : Prop := forall l, j <> JArr l.
Definition not_object (j : json) : Prop := forall o, j <> JObj o.
Definition not_boolean (j : json) : Prop := forall b, j <> JBool b.

(** What a JSON object describes *)
Inductive construct := ARecord | AnEnum | AFixed | AField | AMessage | AProtocol.

(** An attribute [k] with the value [v] says nothing *)
Inductive pointless : construct -> string -> json -> Prop :=
| po_doc c v : c <> AProtocol -> not_string v -> pointless c "doc" v
| po_namespace c v : In c [ARecord; AnEnum; AFixed; AProtocol] -> not_string v -> pointless c "namespace" v
| po_aliases c v : In c [ARecord; AnEnum; AFixed; AField] -> not_array v -> pointless c "aliases" v
| po_symbols v : not_array v -> pointless AnEnum "symbols" v
| po_default v : not_string v -> pointless AnEnum "default" v
| po_fields v : not_array v -> pointless ARecord "fields" v
| po_order v : ~ In v [JStr "ascending"; JStr "descending"; JStr "ignore"] -> pointless AField "order" v
| po_request v : not_array v -> pointless AMessage "request" v
| po_errors v : not_array v -> pointless AMessage "errors" v
| po_one_way v : not_boolean v -> pointless AMessage "one-way" v
| po_types v : not_array v -> pointless AProtocol "types" v
| po_messages v : not_object v -> pointless AProtocol "messages" v.

(** Attributes that are lists of strings *)
Inductive listed : construct -> string -> Prop :=
| li_aliases c : In c [ARecord; AnEnum; AFixed; AField] -> listed c "aliases"
| li_symbols : listed AnEnum "symbols".

(** [o'] is [o] without the attribute [k], which is [v]; or with [v'] in its place *)
Definition without (k : string) (v : json) (o o' : list (string * json)) : Prop :=
  exists a b, o = a ++ (k, v) :: b /\ o' = a ++ b /\ ~ In k (map fst a) /\ ~ In k (map fst b).
Definition changed (k : string) (v v' : json) (o o' : list (string * json)) : Prop :=
  exists a b, o = a ++ (k, v) :: b /\ o' = a ++ (k, v') :: b /\ ~ In k (map fst a).

(** Something that says nothing is taken out of the object: an attribute, or something
    other than a string in a list of strings *)
Inductive tidied (c : construct) : list (string * json) -> list (string * json) -> Prop :=
| ti_attribute o o' k v : without k v o o' -> pointless c k v -> tidied c o o'
| ti_entry o o' k l x r : changed k (JArr (l ++ x :: r)) (JArr (l ++ r)) o o' -> listed c k -> not_string x -> tidied c o o'.

(** [o] is a schema of this kind *)
Definition of_kind (o : list (string * json)) (c : construct) : Prop :=
  exists t, assoc "type" o = Some (JStr t) /\ In (t, c) [("record", ARecord); ("error", ARecord); ("enum", AnEnum); ("fixed", AFixed)].
Definition typed (o : list (string * json)) (t : string) : Prop := assoc "type" o = Some (JStr t).

(** The same in a schema, in a field, however deeply inside *)
Inductive lost : json -> json -> Prop :=
| lo_here o o' c : of_kind o c -> tidied c o o' -> lost (JObj o) (JObj o')
| lo_branch a b j j' : lost j j' -> lost (JArr (a ++ j :: b)) (JArr (a ++ j' :: b))
| lo_items o o' j j' : typed o "array" -> changed "items" j j' o o' -> lost j j' -> lost (JObj o) (JObj o')
| lo_values o o' j j' : typed o "map" -> changed "values" j j' o o' -> lost j j' -> lost (JObj o) (JObj o')
| lo_field o o' a b f f' : of_kind o ARecord -> changed "fields" (JArr (a ++ f :: b)) (JArr (a ++ f' :: b)) o o' -> lost_field f f' -> lost (JObj o) (JObj o')
with lost_field : json -> json -> Prop :=
| lf_here o o' : tidied AField o o' -> lost_field (JObj o) (JObj o')
| lf_type o o' j j' : changed "type" j j' o o' -> lost j j' -> lost_field (JObj o) (JObj o').
(** ... in a message, or anywhere in a protocol *)
Inductive lost_message : json -> json -> Prop :=
| lm_here o o' : tidied AMessage o o' -> lost_message (JObj o) (JObj o')
| lm_request o o' a b f f' : changed "request" (JArr (a ++ f :: b)) (JArr (a ++ f' :: b)) o o' -> lost_field f f' -> lost_message (JObj o) (JObj o')
| lm_response o o' j j' : changed "response" j j' o o' -> lost j j' -> lost_message (JObj o) (JObj o')
| lm_errors o o' a b j j' : changed "errors" (JArr (a ++ j :: b)) (JArr (a ++ j' :: b)) o o' -> lost j j' -> lost_message (JObj o) (JObj o').
Inductive lost_protocol : json -> json -> Prop :=
| lp_here o o' : tidied AProtocol o o' -> lost_protocol (JObj o) (JObj o')
| lp_type o o' a b j j' : changed "types" (JArr (a ++ j :: b)) (JArr (a ++ j' :: b)) o o' -> lost j j' -> lost_protocol (JObj o) (JObj o')
| lp_message o o' a b k m m' : changed "messages" (JObj (a ++ (k, m) :: b)) (JObj (a ++ (k, m') :: b)) o o' -> lost_message m m' -> lost_protocol (JObj o) (JObj o').

(** ** What an imported document must have *)

(** A named type, a field and a fixed type, an array and a map: those attributes and no other *)
Definition has_name (o : list (string * json)) : Prop := exists s, assoc "name" o = Some (JStr s).
Definition has_size (o : list (string * json)) : Prop := exists n, assoc "size" o = Some (JNum (NPos n)) /\ (n <= 4294967295)%N.
(** A decimal without digits *)
Definition no_digits (o : list (string * json)) : Prop :=
  assoc "logicalType" o = Some (JStr "decimal") /\ assoc "precision" o = Some (JNum (NPos 0)).

Inductive acceptable : json -> Prop :=
| ac_name s : acceptable (JStr s)
| ac_union l : (forall j, In j l -> acceptable j) -> acceptable (JArr l)
| ac_record o t : typed o t -> In t ["record"; "error"] -> has_name o ->
    (forall l f, assoc "fields" o = Some (JArr l) -> In f l -> acceptable_field f) -> acceptable (JObj o)
| ac_enum o : typed o "enum" -> has_name o -> acceptable (JObj o)
| ac_fixed o : typed o "fixed" -> has_name o -> has_size o -> acceptable (JObj o)
| ac_array o j : typed o "array" -> assoc "items" o = Some j -> acceptable j -> acceptable (JObj o)
| ac_map o j : typed o "map" -> assoc "values" o = Some j -> acceptable j -> acceptable (JObj o)
| ac_primitive o t : typed o t -> In t ["null"; "boolean"; "int"; "long"; "float"; "double"; "bytes"; "string"] -> ~ no_digits o -> acceptable (JObj o)
with acceptable_field : json -> Prop :=
| af_field o j : has_name o -> assoc "type" o = Some j -> acceptable j -> acceptable_field (JObj o).

Inductive acceptable_message : json -> Prop :=
| am_message o :
    (forall l f, assoc "request" o = Some (JArr l) -> In f l -> acceptable_field f) ->
    (forall j, assoc "response" o = Some j -> acceptable j) ->
    (forall l j, assoc "errors" o = Some (JArr l) -> In j l -> acceptable j) -> acceptable_message (JObj o).
(** Anything but an object is accepted as a protocol, one without types and messages *)
Definition acceptable_protocol (j : json) : Prop :=
  forall o, j = JObj o ->
    (forall l t, assoc "types" o = Some (JArr l) -> In t l -> acceptable t)
    /\ (forall ms n m, assoc "messages" o = Some (JObj ms) -> In (n, m) ms -> acceptable_message m).

(** Any number of changes *)
Inductive often {A} (R : A -> A -> Prop) : A -> A -> Prop :=
| of_none x : often R x x
| of_more x y z : R x y -> often R y z -> often R x z.
