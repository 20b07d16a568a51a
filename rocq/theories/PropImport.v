(** C16-C18: importing JSON schemas and protocols. *)
From Verif Require Import ImportProofs ImportDocProofs RoundTripProofs ProtocolProofs Samples PropRegistry.
From Coq Require Import Permutation.

(** ** C16: flattening *)

(** The collected types are exactly the named types inside [s], inner ones
    first, each with the definition it had; none of them, and not what is left
    of [s], contains another definition; and [s] still denotes the same type. *)
Theorem C16_flatten_loses_nothing :
  forall s, let (collected, s') := flatten s in
  map named_meaning collected = map named_meaning (inner_first s)
  /\ Forall (fun t => flat_definition t = true) collected
  /\ no_inline s' = true
  /\ meaning s' = meaning s.
Proof.
  intro s. pose proof (flatten_defs s) as H1. pose proof (flatten_flat s) as H2. pose proof (flatten_no_inline s) as H3.
  pose proof (flatten_meaning s) as H4. destruct (flatten s) as [c s']. auto.
Qed.
Print Assumptions C16_flatten_loses_nothing.

Definition nested_schema : schema :=
  SArray (SRecord "Outer" (Some "a") None
    [sample_field "x" (SMap (SEnum "E" (Some "b") None ["A"] None [] []) []) None [];
     sample_field "y" (SUnion [SPrim PNull; SRecord "Inner" (Some "a") None
         [sample_field "z" (SFixed "F" None None 3 [] []) None []] true [] []] false) None []] false [] []) [].
Example C16_sample :
  map type_name (fst (flatten nested_schema)) = ["b.E"; "F"; "a.Inner"; "a.Outer"]
  /\ snd (flatten nested_schema) = SArray (SRef "Outer" (Some "a") [] None) [].
Proof. vm_compute. auto. Qed.

(** ** C17: imported names follow the specification *)

(** Whatever a reader of the Avro specification understands by a document, in
    any enclosing namespace, is what the importer gets: the same type, and the
    same definitions under the same full names. *)
Theorem C17_import_means_what_the_document_says :
  forall n j dns st t st',
  clean n j = true -> read n j (nsof dns) st = Some (t, st') ->
  exists s new, json_to_schema j dns = Ok s /\ meaning s = t
    /\ snd st' = snd st ++ new /\ map named_meaning (inner_first s) = map Some new.
Proof. intros n j dns st t st' Hc Hr. exact (import_reads (jdepth j) n j dns st t st' (le_n _) Hc Hr). Qed.
Print Assumptions C17_import_means_what_the_document_says.

(** Importing a .avsc file registers exactly the definitions in it. *)
Theorem C17_schema_file :
  forall (U : Unicode) n j t defs r,
  clean n j = true -> read_document n j = Some (t, defs) ->
  Forall (fun fd => valid_full (fst fd)) defs -> (forall f, In f (keys defs) -> ~ In f (keys r)) ->
  exists r', import_schema j r = (r', Ok tt) /\ added r r' defs.
Proof. intros U. exact import_schema_reads. Qed.
Print Assumptions C17_schema_file.

(** Importing a .avpr file registers exactly the definitions in its [types]
    and returns exactly its messages. *)
Theorem C17_protocol_file :
  forall (U : Unicode) n j ap defs r,
  clean_protocol n j = true -> read_protocol n j = Some ap -> read_types n j = Some defs ->
  Forall (fun fd => valid_full (fst fd)) defs -> (forall f, In f (keys defs) -> ~ In f (keys r)) ->
  exists r' ms, import_protocol j r = (r', Ok ms) /\ added r r' defs
    /\ map (fun nm => (fst nm, message_meaning (snd nm))) ms = ap_messages ap.
Proof.
  intros U n j ap defs r Hc Hp Ht. apply import_protocol_reads with (n := n); auto.
  eapply read_types_NoDup. exact Ht.
Qed.
Print Assumptions C17_protocol_file.

Definition sample_document : json :=
  match protocol_to_json sample_protocol with Some j => j | None => JNull end.
Example C17_sample :
  let j := sample_document in let n := jdepth j in
  clean_protocol n j = true /\ (exists ap, read_protocol n j = Some ap)
  /\ (exists defs, read_types n j = Some defs
        /\ map fst defs = ["other.Color"; "org.acme.MD5"; "org.acme.Node"; "org.acme.string"])
  /\ keys (fst (import_protocol (H := ascii_only) j []))
     = ["other.Color"; "org.acme.MD5"; "org.acme.Node"; "org.acme.string"].
Proof. vm_compute. repeat split; eexists; repeat split. Qed.

(** Nested namespaces: inner types without a namespace take the one of the
    type around them, also a dotted name's; "" resets it. *)
Definition scoped_document : json :=
  JObj [("fields", JArr
          [JObj [("name", JStr "x");
                 ("type", JObj [("name", JStr "In"); ("size", JNum (NPos 2)); ("type", JStr "fixed")])];
           JObj [("name", JStr "y"); ("type", JStr "In")];
           JObj [("name", JStr "z");
                 ("type", JObj [("fields", JArr [JObj [("name", JStr "w"); ("type", JStr "a.b.Out")]]);
                                ("name", JStr "Bare"); ("namespace", JStr ""); ("type", JStr "record")])]]);
        ("name", JStr "a.b.Out"); ("type", JStr "record")].
Example C17_scoping :
  clean 9 scoped_document = true
  /\ (exists t defs, read_document 9 scoped_document = Some (t, defs) /\ keys defs = ["a.b.In"; "Bare"; "a.b.Out"])
  /\ keys (fst (import_schema (H := ascii_only) scoped_document [])) = ["a.b.In"; "Bare"; "a.b.Out"].
Proof. vm_compute. repeat split. do 2 eexists. repeat split. Qed.

(** A dotted name together with a [namespace]: the specification ignores the
    [namespace], the importer lets it win. *)
Theorem C17_dotted_name_refuted :
  exists j t defs, read_document (jdepth j) j = Some (t, defs)
    /\ keys defs = ["a.b.F"] /\ keys (fst (import_schema (H := ascii_only) j [])) = ["x.F"].
Proof.
  exists (JObj [("name", JStr "a.b.F"); ("namespace", JStr "x"); ("size", JNum (NPos 4)); ("type", JStr "fixed")]).
  do 2 eexists. vm_compute. repeat split.
Qed.
Print Assumptions C17_dotted_name_refuted.

(** A logical type on a base type that does not support it must be ignored;
    the importer changes the base type. *)
Theorem C17_logical_base_refuted :
  exists j t s, read_document (jdepth j) j = Some (t, []) /\ json_to_schema j None = Ok s
    /\ t = TPrim "string" [("logicalType", JStr "date")]
    /\ meaning s = TPrim "int" [("logicalType", JStr "date")].
Proof.
  exists (JObj [("logicalType", JStr "date"); ("type", JStr "string")]). do 2 eexists. vm_compute. repeat split.
Qed.
Print Assumptions C17_logical_base_refuted.

(** Types defined inside the messages of a protocol are not registered. *)
Theorem C17_message_types_refuted :
  exists j ap, read_protocol (jdepth j) j = Some ap /\ keys (ap_defs ap) = ["n.R"]
    /\ fst (import_protocol (H := ascii_only) j []) = [].
Proof.
  exists (match protocol_to_json inline_p1 with Some j => j | None => JNull end). eexists. vm_compute. repeat split.
Qed.
Print Assumptions C17_message_types_refuted.

(** ** C18: export, then import *)

Theorem C18_protocol_round_trip :
  forall (U : Unicode) p r,
  protocol_ok p = true -> forallb portable (p_types p) = true ->
  forallb (fun nm => portable_message (snd nm)) (p_messages p) = true ->
  Forall (fun t => valid_full (type_name t)) (p_types p) ->
  (forall t, In t (p_types p) -> ~ In (type_name t) (keys r)) ->
  exists j new ms, protocol_to_json p = Some j
    /\ import_protocol j r = (r ++ new, Ok ms)
    /\ Permutation (keys new) (map type_name (p_types p))
    /\ (forall t, In t (p_types p) -> exists t', assoc (type_name t) new = Some t'
            /\ named_meaning t' = named_meaning t /\ flat_definition t' = true)
    /\ Permutation (map (fun nm => (fst nm, message_meaning (snd nm))) ms)
                   (map (fun nm => (fst nm, message_meaning (snd nm))) (p_messages p)).
Proof. intro U. exact round_trip. Qed.
Print Assumptions C18_protocol_round_trip.

Theorem C18_schema_round_trip :
  forall (U : Unicode) types s r,
  registry_ok types = true -> forallb portable types = true -> portable s = true ->
  In s types \/ (ty_ok true s = true /\ subset (refs_of s) (map type_name types) = true) ->
  Forall (fun t => valid_full (type_name t)) types ->
  (forall t, In t types -> ~ In (type_name t) (keys r)) ->
  exists j known new, schema_to_json s [] None (build_lookup types None) = Some (j, known)
    /\ import_schema j r = (r ++ new, Ok tt)
    /\ NoDup (keys new)
    /\ (forall f, In f (keys new) <-> exists x, In x (roots s) /\ reaches types x f)
    /\ (forall f t', assoc f new = Some t' -> flat_definition t' = true
          /\ exists t, In t types /\ type_name t = f /\ named_meaning t' = named_meaning t).
Proof. intro U. exact round_trip_schema. Qed.
Print Assumptions C18_schema_round_trip.

Example C18_sample :
  protocol_ok sample_protocol = true /\ forallb portable (p_types sample_protocol) = true
  /\ forallb (fun nm => portable_message (snd nm)) (p_messages sample_protocol) = true
  /\ registry_ok sample_types = true
  /\ forallb (fun t => match t with
                       | SRecord n ns _ _ _ _ _ | SEnum n ns _ _ _ _ _ | SFixed n ns _ _ _ _ =>
                           validate_schema_name (H := ascii_only) n ns
                       | _ => false
                       end) sample_types = true.
Proof. vm_compute. repeat split. Qed.

(** Without [portable] the trip is not faithful: an annotated string that
    calls itself a date comes back as an int. *)
Theorem C18_not_portable_refuted :
  exists p j r ms t, protocol_ok p = true /\ protocol_to_json p = Some j
    /\ import_protocol (H := ascii_only) j [] = (r, Ok ms) /\ p_types p = [t]
    /\ map named_meaning (map snd r) <> [named_meaning t].
Proof.
  exists (mkProtocol "P" None None []
            [SRecord "R" None None [sample_field "f" (SAnnot PString [("logicalType", JStr "date")]) None []] false [] []] []).
  do 4 eexists. split; [vm_compute; reflexivity|]. split; [vm_compute; reflexivity|].
  split; [vm_compute; reflexivity|]. split; [reflexivity|]. vm_compute. discriminate.
Qed.
Print Assumptions C18_not_portable_refuted.
