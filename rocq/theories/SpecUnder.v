(** What it means to give the namespace of a declaration in its name instead of
    in an annotation. *)
From Verif Require Export SpecRewrite SpecReader.

(** Trees without the number of the token that a declaration starts with; only
    documentation is looked for there *)
Definition unnumber_variable (v : variable) : variable := mkVariable 0 (v_ident v) (v_annotations v) (v_default v) (v_place v).
Definition unnumber_field (f : field_decl) : field_decl := mkFieldDecl 0 (fd_type f) (map unnumber_variable (fd_variables f)).
Definition unnumber_named (d : named_decl) : named_decl :=
  match d with
  | NRecord r => NRecord (mkRecordDecl 0 (r_annotations r) (r_ident r) (r_error r) (map unnumber_field (r_fields r)))
  | NEnum e => NEnum (mkEnumDecl 0 (e_annotations e) (e_ident e) (e_symbols e) (e_default e))
  | NFixed x => NFixed (mkFixedDecl 0 (x_annotations x) (x_ident x) (x_size x))
  end.
Definition unnumber_parameter (p : parameter) : parameter := mkParameter 0 (pa_type p) (unnumber_variable (pa_variable p)).
Definition unnumber_message (m : message_decl) : message_decl :=
  mkMessageDecl 0 (md_place m) (md_annotations m) (md_result m) (md_name m) (map unnumber_parameter (md_parameters m)) (md_oneway m) (md_errors m).
Definition unnumber_item (i : item) : item :=
  match i with
  | ItImport k p sp => ItImport k p sp
  | ItNamed d sp => ItNamed (unnumber_named d) sp
  | ItMessage m => ItMessage (unnumber_message m)
  end.
Definition unnumber_tree (t : idl_tree) : idl_tree :=
  match t with
  | TreeProtocol _ l i its => TreeProtocol 0 l i (map unnumber_item its)
  | TreeSchema ns m its => TreeSchema ns m (map unnumber_item its)
  end.

Section Under.
  Context `{Floats}.

  (** [@namespace("q") ... n] and [... q.n]: the only annotation with a namespace
      is left out, and what it says stands before the name *)
  Inductive under_namespace : list annotation -> located -> list annotation -> located -> Prop :=
  | un_same l i : under_namespace l i l i
  | un_moved before a after (i i' : located) q :
      identifier_text (an_name a) = "namespace" -> json_means (an_value a) (JStr q) ->
      ~ mentioned (before ++ after) "namespace" -> w_place i = w_place i' ->
      qualified (identifier_text i') q (identifier_text i) ->
      under_namespace (before ++ a :: after) i (before ++ after) i'.

  (** The same in any number of declarations of a file, and for a protocol itself *)
  Inductive under_named : named_decl -> named_decl -> Prop :=
  | un_record start l i l' i' e fs : under_namespace l i l' i' ->
      under_named (NRecord (mkRecordDecl start l i e fs)) (NRecord (mkRecordDecl start l' i' e fs))
  | un_enum start l i l' i' sy d : under_namespace l i l' i' ->
      under_named (NEnum (mkEnumDecl start l i sy d)) (NEnum (mkEnumDecl start l' i' sy d))
  | un_fixed start l i l' i' z : under_namespace l i l' i' ->
      under_named (NFixed (mkFixedDecl start l i z)) (NFixed (mkFixedDecl start l' i' z)).
  Inductive under_item : item -> item -> Prop :=
  | ui_same it : under_item it it
  | ui_named d d' sp : under_named d d' -> under_item (ItNamed d sp) (ItNamed d' sp).
  Inductive under_tree : idl_tree -> idl_tree -> Prop :=
  | ut_protocol start l i l' i' its its' : under_namespace l i l' i' -> Forall2 under_item its its' ->
      under_tree (TreeProtocol start l i its) (TreeProtocol start l' i' its')
  | ut_schema ns m its its' : Forall2 under_item its its' -> under_tree (TreeSchema ns m its) (TreeSchema ns m its').

  (** No documentation *)
  Definition undocumented (l : list piece) : Prop := forall t, ~ In (Some T_DocComment, t) l.

  (** Two IDL texts without documentation, of which the trees that the grammar derives
      differ, apart from places, only in that; or the same text *)
  Inductive same_under (text : string) : string -> Prop :=
  | su_same : same_under text text
  | su_moved text' v v' l l' t t' :
      visible_part text v -> visible_part text' v' -> taken_apart (chars v) l -> taken_apart (chars v') l' ->
      undocumented l -> undocumented l' ->
      file_rule true "" (visible (stream l 0 0)) t -> file_rule true "" (visible (stream l' 0 0)) t' ->
      under_tree (unnumber_tree (forget_tree t)) (unnumber_tree (forget_tree t')) -> same_under text text'.
End Under.
