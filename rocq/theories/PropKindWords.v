(** C74: types that are called like a word of Avro. *)
From Verif Require Import KindWordProofs.

(** Where a schema document names a type by one of the words [record], [enum],
    [array], [map], [union] and [fixed], the word is the full name of a type:
    no type in a namespace is ever named by such a word. *)
Theorem C74_schema :
  forall types s j known x, registry_ok types = true ->
  In s types \/ (ty_ok true s = true /\ subset (refs_of s) (map type_name types) = true) ->
  schema_to_json s [] None (build_lookup types None) = Some (j, known) ->
  names_in j x -> In x kind_words -> In x (map type_name types).
Proof. exact document_words. Qed.
Print Assumptions C74_schema.

(** The same for a protocol document, its messages included. *)
Theorem C74_protocol :
  forall p j x, protocol_ok p = true -> protocol_to_json p = Some j ->
  protocol_names j x -> In x kind_words -> In x (map type_name (p_types p)).
Proof. exact protocol_words. Qed.
Print Assumptions C74_protocol.

Definition fixed_ref := SRef "fixed" (Some "org") [] None.
Definition wordy : protocol := mkProtocol "P" (Some "org") None []
  [SFixed "fixed" (Some "org") None 4 [] [];
   SRecord "R" (Some "org") None
     [mkField "a" fixed_ref None None None [] []; mkField "b" (SArray fixed_ref []) None None None [] []] false [] []]
  [("m", mkMessage None [] [mkField "c" fixed_ref None None None [] []] fixed_ref None false)].

(** The type [org.fixed] is named four times, always in full. *)
Example C74_sample : protocol_ok wordy = true /\ exists ts ms rest,
  protocol_to_json wordy = Some (JObj (("messages", ms) :: ("namespace", JStr "org") :: ("protocol", JStr "P") :: ("types", JArr ts) :: rest))
  /\ ts = [JObj [("name", JStr "fixed"); ("size", JNum (NPos 4)); ("type", JStr "fixed")];
           JObj [("fields", JArr [JObj [("name", JStr "a"); ("type", JStr "org.fixed")];
                                  JObj [("name", JStr "b"); ("type", JObj [("items", JStr "org.fixed"); ("type", JStr "array")])]]);
                 ("name", JStr "R"); ("type", JStr "record")]]
  /\ ms = JObj [("m", JObj [("request", JArr [JObj [("name", JStr "c"); ("type", JStr "org.fixed")]]); ("response", JStr "org.fixed")])]
  /\ rest = [].
Proof. split; [vm_compute; reflexivity|]. do 3 eexists. split; [vm_compute; reflexivity|]. repeat split. Qed.
