(** Equality of compiled data up to the iteration order of hash maps.  A hash
    map is an association list with distinct keys in an arbitrary order; two
    orders of the same map are the same list once sorted by key. *)
From Verif Require Export SpecMeaning.

Definition sort_field (srt : schema -> schema) (f : field) : field :=
  mkField (f_name f) (srt (f_schema f)) (f_doc f) (f_default f) (f_order f) (f_aliases f)
          (canon (f_props f)).

Fixpoint sort_props (s : schema) : schema :=
  match s with
  | SPrim p => SPrim p
  | SRecord n ns d fs e al ps => SRecord n ns d (map (sort_field sort_props) fs) e al (canon ps)
  | SEnum n ns d sy df al ps => SEnum n ns d sy df al (canon ps)
  | SFixed n ns d sz al ps => SFixed n ns d sz al (canon ps)
  | SArray i ps => SArray (sort_props i) (canon ps)
  | SMap i ps => SMap (sort_props i) (canon ps)
  | SUnion ts b => SUnion (map sort_props ts) b
  | SAnnot k ps => SAnnot k (canon ps)
  | SLogical l ps => SLogical l (canon ps)
  | SRef n ns ps sp => SRef n ns (canon ps) sp
  end.

Definition sort_message (m : message) : message :=
  mkMessage (m_doc m) (canon (m_props m)) (map (sort_field sort_props) (m_request m))
            (sort_props (m_response m)) (option_map (map sort_props) (m_errors m)) (m_one_way m).

(** Every property map has distinct keys, as a [HashMap] has. *)
Fixpoint maps_ok (s : schema) : bool :=
  match s with
  | SPrim _ => true
  | SRecord _ _ _ fs _ _ ps =>
      nodupb (keys ps)
      && forallb (fun f => nodupb (keys (f_props f)) && maps_ok (f_schema f)) fs
  | SEnum _ _ _ _ _ _ ps | SFixed _ _ _ _ _ ps | SAnnot _ ps | SLogical _ ps | SRef _ _ ps _ =>
      nodupb (keys ps)
  | SArray i ps | SMap i ps => nodupb (keys ps) && maps_ok i
  | SUnion ts _ => forallb maps_ok ts
  end.

Definition field_maps_ok (f : field) : bool := nodupb (keys (f_props f)) && maps_ok (f_schema f).

Definition message_maps_ok (m : message) : bool :=
  nodupb (keys (m_props m)) && forallb field_maps_ok (m_request m) && maps_ok (m_response m)
  && match m_errors m with Some es => forallb maps_ok es | None => true end.

Definition protocol_maps_ok (p : protocol) : bool :=
  nodupb (keys (p_props p)) && forallb maps_ok (p_types p)
  && nodupb (keys (p_messages p)) && forallb (fun nm => message_maps_ok (snd nm)) (p_messages p).

(** Two protocols are the same up to hash-map order. *)
Definition same_protocol (p q : protocol) : Prop :=
  p_name p = p_name q /\ p_namespace p = p_namespace q /\ p_doc p = p_doc q
  /\ canon (p_props p) = canon (p_props q)
  /\ map sort_props (p_types p) = map sort_props (p_types q)
  /\ bt_extend [] (map (fun nm => (fst nm, sort_message (snd nm))) (p_messages p))
     = bt_extend [] (map (fun nm => (fst nm, sort_message (snd nm))) (p_messages q)).

(** No named type is defined inside the schema. *)
Fixpoint flat (s : schema) : bool :=
  match s with
  | SRecord _ _ _ _ _ _ _ | SEnum _ _ _ _ _ _ _ | SFixed _ _ _ _ _ _ => false
  | SArray i _ | SMap i _ => flat i
  | SUnion ts _ => forallb flat ts
  | _ => true
  end.

(** Messages only refer to declared types. *)
Definition message_closed (names : list string) (m : message) : bool :=
  forallb (fun f => flat (f_schema f)) (m_request m) && flat (m_response m)
  && match m_errors m with Some es => forallb flat es | None => true end
  && subset (message_refs m) names.

Definition messages_closed (p : protocol) : bool :=
  forallb (fun nm => message_closed (map type_name (p_types p)) (snd nm)) (p_messages p).
