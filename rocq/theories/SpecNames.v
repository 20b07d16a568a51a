(** What valid names, registrable types and occurrences of references are,
    stated without reference to the code. *)
From Verif Require Export Registry SpecMeaning SpecDoc.

Section Names.
  Context `{Unicode}.

  (** "start with a letter or underscore, subsequently contain only letters,
      digits and underscores" *)
  Definition name_start (c : N) : Prop := is_alphabetic c = true \/ c = 95%N.
  Definition name_part (c : N) : Prop := is_alphanumeric c = true \/ c = 95%N.
  Definition valid_name (s : string) : Prop :=
    exists c r, chars s = c :: r /\ name_start c /\ Forall name_part r.

  (** "A namespace is a dot-separated sequence of such names"; the empty string
      is the null namespace. *)
  Fixpoint join_dot (l : list string) : string :=
    match l with
    | [] => ""
    | [x] => x
    | x :: r => (x ++ "." ++ join_dot r)%string
    end.
  Definition valid_namespace (ns : string) : Prop :=
    ns = "" \/ exists segs, segs <> [] /\ ns = join_dot segs /\ Forall valid_name segs.

  (** [s] defines a named type with simple name [n] and namespace [ns]. *)
  Inductive defines : schema -> string -> option string -> Prop :=
  | def_rec n ns d fs e al ps : defines (SRecord n ns d fs e al ps) n ns
  | def_enum n ns d sy df al ps : defines (SEnum n ns d sy df al ps) n ns
  | def_fixed n ns d sz al ps : defines (SFixed n ns d sz al ps) n ns.

  (** [s] can be registered, under the full name [full]. *)
  Definition registrable (s : schema) (full : string) : Prop :=
    exists n ns, defines s n ns /\ full = fullname n ns /\ valid_name n /\ valid_namespace (nsof ns).

  (** The first element of [l] registrable as [full] is [s]. *)
  Definition first_registrable (l : list schema) (full : string) (s : schema) : Prop :=
    exists before after,
      l = before ++ s :: after /\ registrable s full
      /\ forall s', In s' before -> ~ registrable s' full.

  (** The registry after registering the elements of [l] in order, whatever
      each call answers. *)
  Definition registry_after (r : registry) (l : list schema) : registry :=
    fold_left register_ignoring l r.
End Names.

(** A reference with full name [full] occurs somewhere inside [s]. *)
Inductive mentions : schema -> string -> Prop :=
| men_ref n ns ps sp : mentions (SRef n ns ps sp) (fullname n ns)
| men_field n ns d fs e al ps f full :
    In f fs -> mentions (f_schema f) full -> mentions (SRecord n ns d fs e al ps) full
| men_array i ps full : mentions i full -> mentions (SArray i ps) full
| men_map i ps full : mentions i full -> mentions (SMap i ps) full
| men_union ts b t full : In t ts -> mentions t full -> mentions (SUnion ts b) full.

(** Types written in a message. *)
Inductive message_type : message -> schema -> Prop :=
| mt_response m : message_type m (m_response m)
| mt_request m f : In f (m_request m) -> message_type m (f_schema f)
| mt_error m es e : m_errors m = Some es -> In e es -> message_type m e.
