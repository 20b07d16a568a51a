(** Which names a compilation mentions and what a report says, stated without
    reference to the checking code. *)
From Verif Require Export Refs SpecNames.

(** [full] is mentioned somewhere in the registered types or the main
    declaration. *)
Inductive mentioned (r : registry) : idl_file -> string -> Prop :=
| in_registry f k s full : In (k, s) r -> mentions s full -> mentioned r f full
| in_schema s full : mentions s full -> mentioned r (IdlSchema s) full
| in_named ss s full : In s ss -> mentions s full -> mentioned r (IdlNamed ss) full
| in_message p k m t full :
    In (k, m) (p_messages p) -> message_type m t -> mentions t full -> mentioned r (IdlProtocol p) full.

Definition undefined_in (f : idl_file) (r : registry) (full : string) : Prop :=
  mentioned r f full /\ ~ In full (map fst r).

(** The messages shown to the user, main diagnostic first. *)
Fixpoint shown (d : diagnostic) : list string :=
  match d with
  | Diag _ m _ related => m :: flat_map shown related
  | Plain m => [m]
  end.

(** The report names exactly the elements of [names], each once: either one
    message per name, or a single message listing them (followed, in the plain
    text form, by a help line). *)
Definition reports (d : diagnostic) (names : list string) : Prop :=
  shown d = map (fun n => "Undefined name: " ++ n)%string names
  \/ exists tail, shown d = [("Undefined name: " ++ join_comma names ++ tail)%string].

(** [mentions] with the place where the reference is written, if it has one
    (types imported from JSON have none) *)
Inductive mentions_at : schema -> string -> option span -> Prop :=
| ma_ref n ns ps sp : mentions_at (SRef n ns ps sp) (fullname n ns) sp
| ma_field n ns d fs e al ps f full sp :
    In f fs -> mentions_at (f_schema f) full sp -> mentions_at (SRecord n ns d fs e al ps) full sp
| ma_array i ps full sp : mentions_at i full sp -> mentions_at (SArray i ps) full sp
| ma_map i ps full sp : mentions_at i full sp -> mentions_at (SMap i ps) full sp
| ma_union ts b t full sp : In t ts -> mentions_at t full sp -> mentions_at (SUnion ts b) full sp.
Inductive mentioned_at (r : registry) : idl_file -> string -> option span -> Prop :=
| at_registry f k s full sp : In (k, s) r -> mentions_at s full sp -> mentioned_at r f full sp
| at_schema s full sp : mentions_at s full sp -> mentioned_at r (IdlSchema s) full sp
| at_named ss s full sp : In s ss -> mentions_at s full sp -> mentioned_at r (IdlNamed ss) full sp
| at_message p k m t full sp :
    In (k, m) (p_messages p) -> message_type m t -> mentions_at t full sp -> mentioned_at r (IdlProtocol p) full sp.

(** Order in the sources: by file name, then by position *)
Definition not_after (a b : span) : Prop :=
  String.compare (sp_file a) (sp_file b) = Lt \/ sp_file a = sp_file b /\ (sp_offset a <= sp_offset b)%N.

(** The places a report points at, with the messages shown there *)
Fixpoint pointed (d : diagnostic) : list (span * string) :=
  match d with
  | Diag sp m _ related => (sp, m) :: flat_map pointed related
  | Plain _ => []
  end.
