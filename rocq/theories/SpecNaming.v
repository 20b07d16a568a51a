(** What it means to write out the namespace of a name or to leave it to its
    surroundings, where both mean the same. *)
From Verif Require Export SpecRewrite SpecReader.

(** Two names refer to the same type where the namespace is [ns] *)
Definition same_reference (ns : option string) (i i' : string) : Prop :=
  exists r, refers ns i r /\ refers ns i' r.

Inductive same_base (ns : option string) : base_type -> base_type -> Prop :=
| sb_primitive k p : same_base ns (BPrimitive k p) (BPrimitive k p)
| sb_reference i i' sp : same_reference ns i i' -> same_base ns (BReference i sp) (BReference i' sp).

(** The same type but for how its references are written *)
Inductive equal_type (ns : option string) : full_type -> full_type -> Prop :=
| st_full p l t t' : equal_plain ns t t' -> equal_type ns (FullType p l t) (FullType p l t')
with equal_plain (ns : option string) : plain_type -> plain_type -> Prop :=
| sp_array t t' : equal_type ns t t' -> equal_plain ns (PtArray t) (PtArray t')
| sp_map t t' : equal_type ns t t' -> equal_plain ns (PtMap t) (PtMap t')
| sp_union l l' : equal_types ns l l' -> equal_plain ns (PtUnion l) (PtUnion l')
| sp_base b b' q : same_base ns b b' -> equal_plain ns (PtNullable b q) (PtNullable b' q)
with equal_types (ns : option string) : list full_type -> list full_type -> Prop :=
| sl_nil : equal_types ns [] []
| sl_cons t t' l l' : equal_type ns t t' -> equal_types ns l l' -> equal_types ns (t :: l) (t' :: l').

Definition same_field_decl (ns : option string) (f f' : field_decl) : Prop :=
  fd_start f = fd_start f' /\ equal_type ns (fd_type f) (fd_type f') /\ fd_variables f = fd_variables f'.

Section Naming.
  Context `{Floats}.

  (** Two names declare the same type where the namespace is [ns] and the annotations are [l] *)
  Definition same_declared (ns : option string) (l : list annotation) (i i' : located) : Prop :=
    w_place i = w_place i' /\ forall n q, declares i l ns n q <-> declares i' l ns n q.

  (** The same declaration but for how names are written; the fields of a record
      are in the namespace of the record *)
  Inductive same_named (ns : option string) : named_decl -> named_decl -> Prop :=
  | sn_record start l i i' e fs fs' :
      same_declared ns l i i' -> (forall n q, declares i l ns n q -> Forall2 (same_field_decl q) fs fs') ->
      same_named ns (NRecord (mkRecordDecl start l i e fs)) (NRecord (mkRecordDecl start l i' e fs'))
  | sn_enum start l i i' sy d :
      same_declared ns l i i' -> same_named ns (NEnum (mkEnumDecl start l i sy d)) (NEnum (mkEnumDecl start l i' sy d))
  | sn_fixed start l i i' z :
      same_declared ns l i i' -> same_named ns (NFixed (mkFixedDecl start l i z)) (NFixed (mkFixedDecl start l i' z)).

  Definition same_parameter (ns : option string) (p p' : parameter) : Prop :=
    pa_start p = pa_start p' /\ equal_type ns (pa_type p) (pa_type p') /\ pa_variable p = pa_variable p'.
  Inductive same_returned (ns : option string) : option plain_type -> option plain_type -> Prop :=
  | sr_void : same_returned ns None None
  | sr_type t t' : equal_plain ns t t' -> same_returned ns (Some t) (Some t').
  Definition same_thrown (ns : option string) (e e' : string * option span) : Prop :=
    same_reference ns (fst e) (fst e') /\ snd e = snd e'.
  Inductive same_message_decl (ns : option string) : message_decl -> message_decl -> Prop :=
  | sm_message start p l r r' n ps ps' o es es' :
      same_returned ns r r' -> Forall2 (same_parameter ns) ps ps' -> Forall2 (same_thrown ns) es es' ->
      same_message_decl ns (mkMessageDecl start p l r n ps o es) (mkMessageDecl start p l r' n ps' o es').

  Inductive same_statement (ns : option string) : item -> item -> Prop :=
  | ss_import k path p : same_statement ns (ItImport k path p) (ItImport k path p)
  | ss_named d d' p : same_named ns d d' -> same_statement ns (ItNamed d p) (ItNamed d' p)
  | ss_message m m' : same_message_decl ns m m' -> same_statement ns (ItMessage m) (ItMessage m').

  Inductive same_main_type (ns : option string) : option full_type -> option full_type -> Prop :=
  | sx_none : same_main_type ns None None
  | sx_some t t' : equal_type ns t t' -> same_main_type ns (Some t) (Some t').

  (** The same file but for how names are written; a protocol is in its own namespace,
      the declarations of a schema file are in the one it begins with *)
  Inductive same_names : idl_tree -> idl_tree -> Prop :=
  | sf_protocol start l i i' its its' :
      same_declared None l i i' -> (forall n q, declares i l None n q -> Forall2 (same_statement q) its its') ->
      same_names (TreeProtocol start l i its) (TreeProtocol start l i' its')
  | sf_schema ns m m' its its' :
      same_main_type (option_map identifier_text ns) m m' -> Forall2 (same_statement (option_map identifier_text ns)) its its' ->
      same_names (TreeSchema ns m its) (TreeSchema ns m' its').
End Naming.

(** The same token, or two names *)
Definition same_or_names (p p' : token_type * list N) : Prop :=
  p = p' \/ (fst p = T_IdentifierToken /\ fst p' = T_IdentifierToken).

(** Two IDL texts have the same tokens but for names, and these mean the same: the
    trees that the grammar derives differ, apart from places, only in how names are written *)
Definition same_naming `{Floats} (text text' : string) : Prop :=
  exists v v' l l', visible_part text v /\ visible_part text' v'
    /\ taken_apart (chars v) l /\ taken_apart (chars v') l'
    /\ Forall2 same_or_names (kept l) (kept l')
    /\ forall file t t', file_rule true file (visible (stream l 0 0)) t -> file_rule true file (visible (stream l' 0 0)) t' ->
         same_names (forget_tree t) (forget_tree t').
