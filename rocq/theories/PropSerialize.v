(** C01-C07: JSON generation. *)
From Verif Require Import OrderProofs Samples.
From Coq Require Import Permutation.

(** ** C01: JSON generation terminates *)

(** Every protocol is converted. *)
Theorem C01_protocol_terminates :
  forall p, exists j, protocol_to_json p = Some j.
Proof. exact protocol_to_json_total. Qed.
Print Assumptions C01_protocol_terminates.

(** Every schema is converted, whatever is already known and whatever the
    lookup table was built from. *)
Theorem C01_schema_terminates :
  forall types dns s known enc,
  exists j known', schema_to_json s known enc (build_lookup types dns) = Some (j, known').
Proof.
  intros types dns s known enc.
  destruct (ser_total (build_lookup types dns)
              (fun k t => table_named_assoc _ k t (build_lookup_named types dns)) s enc known)
    as (j & k & H & _).
  exists j, k. exact H.
Qed.
Print Assumptions C01_schema_terminates.

(** The recursion depth bound of the model plays no role: a result obtained
    with some bound is the result for every larger bound. *)
Theorem C01_bound_irrelevant :
  forall lk n m s enc known r,
  n <= m -> ser lk n s enc known = Some r -> ser lk m s enc known = Some r.
Proof. exact ser_mono. Qed.
Print Assumptions C01_bound_irrelevant.

(** ** C02-C05: the emitted protocol means what was compiled *)

(** Reading the emitted document by the rules of the Avro specification
    (SpecAvro.v: fails on a name used before its definition and on a second
    definition of a name) succeeds and yields the protocol's name, namespace,
    properties, exactly the declared definitions, each once, and exactly the
    declared messages. *)
Theorem C05_protocol_means_what_was_compiled :
  forall p, protocol_ok p = true ->
  exists j ap,
    protocol_to_json p = Some j
    /\ read_protocol (jdepth j) j = Some ap
    /\ ap_name ap = p_name p
    /\ ap_namespace ap = nsof (p_namespace p)
    /\ ap_attrs ap = canon (opt_attr "doc" (option_map JStr (p_doc p)) ++ p_props p)
    /\ NoDup (keys (ap_defs ap))
    /\ Permutation (map (fun fd => Some fd) (ap_defs ap)) (map named_meaning (p_types p))
    /\ Permutation (ap_messages ap)
         (map (fun nm => (fst nm, message_meaning (snd nm))) (p_messages p)).
Proof.
  intros p H. destruct (protocol_faithful p H) as (j & ap & H1 & H2 & H3 & H4 & H5 & H6 & H7 & H8 & _).
  exists j, ap. repeat (split; [assumption|]). assumption.
Qed.
Print Assumptions C05_protocol_means_what_was_compiled.

(** C02: no name is defined twice anywhere in the document. *)
Theorem C02_one_definition_per_name :
  forall p, protocol_ok p = true ->
  exists j, protocol_to_json p = Some j
    /\ NoDup (types_defined (jdepth j) j ++ messages_defined (jdepth j) j).
Proof.
  intros p H. destruct (protocol_faithful p H) as (j & ap & H1 & _ & _ & _ & _ & _ & _ & _ & H2 & H3 & _).
  exists j. split; [exact H1|]. rewrite H3, app_nil_r.
  eapply Permutation_NoDup; [symmetry; exact H2|]. apply protocol_ok_facts in H. apply H.
Qed.
Print Assumptions C02_one_definition_per_name.

(** C03: the [types] array defines every registered type, exactly once, and
    its top-level entries keep the order of declaration. *)
Theorem C03_every_type_once :
  forall p, protocol_ok p = true ->
  exists j, protocol_to_json p = Some j
    /\ Permutation (types_defined (jdepth j) j) (map type_name (p_types p))
    /\ sublist (entry_names j) (map (fun t => Some (type_name t)) (p_types p)).
Proof.
  intros p H. destruct (protocol_faithful p H) as (j & ap & H1 & _ & _ & _ & _ & _ & _ & _ & H2 & _ & H3).
  exists j. auto.
Qed.
Print Assumptions C03_every_type_once.

(** C04: a reader that fails on any name not defined earlier in the document
    gets through the whole document. *)
Theorem C04_defined_before_use :
  forall p, protocol_ok p = true ->
  exists j ap, protocol_to_json p = Some j /\ read_protocol (jdepth j) j = Some ap.
Proof.
  intros p H. destruct (protocol_faithful p H) as (j & ap & H1 & H2 & _). exists j, ap. auto.
Qed.
Print Assumptions C04_defined_before_use.

Example C05_sample : protocol_ok sample_protocol = true.
Proof. vm_compute. reflexivity. Qed.

(** Without the restriction on namespaces the claim is false: a type outside
    any namespace inside a protocol with a namespace is read back under
    another name. *)
Theorem C05_namespace_capture_refuted :
  exists p j ap, protocol_to_json p = Some j /\ read_protocol (jdepth j) j = Some ap
    /\ map type_name (p_types p) = ["Foo"] /\ keys (ap_defs ap) = ["org.Foo"].
Proof.
  exists capture_protocol. do 2 eexists. repeat split; vm_compute; reflexivity.
Qed.
Print Assumptions C05_namespace_capture_refuted.

(** ... and the document may define the same name twice, which a reader
    rejects. *)
Theorem C02_namespace_capture_refuted :
  exists p j, protocol_to_json p = Some j /\ nodupb (map type_name (p_types p)) = true
    /\ read_protocol (jdepth j) j = None.
Proof.
  exists capture_protocol2. eexists. repeat split; vm_compute; reflexivity.
Qed.
Print Assumptions C02_namespace_capture_refuted.

(** ** C06: every .avsc stands on its own *)

(** [s] is a registered type, or any type expression over registered types
    used outside any namespace.  The document defines exactly the types
    reachable from [s]. *)
Theorem C06_avsc_self_contained :
  forall types s,
  registry_ok types = true ->
  In s types \/ (ty_ok true s = true /\ subset (refs_of s) (map type_name types) = true) ->
  exists j known defs,
    schema_to_json s [] None (build_lookup types None) = Some (j, known)
    /\ read_document (jdepth j) j = Some (meaning s, defs)
    /\ NoDup (keys defs)
    /\ (forall f d, In (f, d) defs -> exists t, In t types /\ named_meaning t = Some (f, d))
    /\ (forall f, In f (keys defs) <-> exists r, In r (roots s) /\ reaches types r f).
Proof. exact document_faithful. Qed.
Print Assumptions C06_avsc_self_contained.

Example C06_sample : registry_ok sample_types = true /\ In sample_oops sample_types.
Proof. split; [vm_compute; reflexivity|]. simpl. auto. Qed.

(** ** C07: hash-map order *)

Theorem C07_order_independent :
  forall p q,
  protocol_maps_ok p = true -> protocol_maps_ok q = true ->
  (forall t, In t (p_types p) -> is_named t = true) -> messages_closed p = true ->
  same_protocol p q -> protocol_to_json p = protocol_to_json q.
Proof. exact order_independent. Qed.
Print Assumptions C07_order_independent.

Example C07_sample :
  protocol_maps_ok sample_protocol = true /\ protocol_maps_ok sample_protocol' = true
  /\ messages_closed sample_protocol = true /\ same_protocol sample_protocol sample_protocol'
  /\ sample_protocol <> sample_protocol'.
Proof. repeat split; try (vm_compute; reflexivity). discriminate. Qed.

(** Messages with inline definitions are not covered, and there the order in
    which the hash map yields them shows in the output. *)
Theorem C07_inline_messages_refuted :
  exists p q, protocol_maps_ok p = true /\ protocol_maps_ok q = true /\ same_protocol p q
    /\ p_types p = [] /\ protocol_to_json p <> protocol_to_json q.
Proof.
  exists inline_p1, inline_p2. repeat split; try (vm_compute; reflexivity). vm_compute. discriminate.
Qed.
Print Assumptions C07_inline_messages_refuted.
