(** What layout is: two sequences of tokens are alike if they differ only in where
    their tokens stand, and two trees are if they differ only in places. *)
From Verif Require Export SpecGrammar.

Definition alike (x y : lexeme) : Prop :=
  lx_type x = lx_type y /\ lx_text x = lx_text y /\ lx_index x = lx_index y.

(** A tree with its places left out *)
Definition nowhere : span := mkSpan "" 0.
Definition forget_word (w : located) : located := mkLocated (w_text w) nowhere.
Fixpoint forget_json (t : json_tree) : json_tree :=
  match t with
  | JTInteger w => JTInteger (forget_word w)
  | JTFloat w => JTFloat (forget_word w)
  | JTArray l => JTArray (map forget_json l)
  | JTObject o => JTObject (map (fun kv => (fst kv, forget_json (snd kv))) o)
  | _ => t
  end.
Definition forget_annotation (a : annotation) : annotation := mkAnnotation (an_name a) (forget_json (an_value a)) nowhere.
Definition forget_keyword (k : prim_keyword) : prim_keyword :=
  match k with KDecimal p s => KDecimal (forget_word p) (option_map forget_word s) | _ => k end.
Definition forget_base (b : base_type) : base_type :=
  match b with BPrimitive k _ => BPrimitive (forget_keyword k) nowhere | BReference x _ => BReference x None end.
Fixpoint forget_full (t : full_type) : full_type :=
  match t with FullType _ a t => FullType nowhere (map forget_annotation a) (forget_plain t) end
with forget_plain (t : plain_type) : plain_type :=
  match t with
  | PtArray t => PtArray (forget_full t)
  | PtMap t => PtMap (forget_full t)
  | PtUnion l => PtUnion (map forget_full l)
  | PtNullable b q => PtNullable (forget_base b) q
  end.
Definition forget_variable (v : variable) : variable :=
  mkVariable (v_start v) (forget_word (v_ident v)) (map forget_annotation (v_annotations v))
    (option_map forget_json (v_default v)) nowhere.
Definition forget_field (f : field_decl) : field_decl :=
  mkFieldDecl (fd_start f) (forget_full (fd_type f)) (map forget_variable (fd_variables f)).
Definition forget_named (d : named_decl) : named_decl :=
  match d with
  | NRecord r => 
      NRecord (mkRecordDecl (r_start r) (map forget_annotation (r_annotations r)) (forget_word (r_ident r)) (r_error r) (map forget_field (r_fields r)))
  | NEnum e =>
      NEnum (mkEnumDecl (e_start e) (map forget_annotation (e_annotations e)) (forget_word (e_ident e)) (map forget_word (e_symbols e))
               (option_map forget_word (e_default e)))
  | NFixed x => NFixed (mkFixedDecl (x_start x) (map forget_annotation (x_annotations x)) (forget_word (x_ident x)) (forget_word (x_size x)))
  end.
Definition forget_parameter (p : parameter) : parameter :=
  mkParameter (pa_start p) (forget_full (pa_type p)) (forget_variable (pa_variable p)).
Definition forget_error (e : string * option span) : string * option span := (fst e, None).
Definition forget_message (m : message_decl) : message_decl :=
  mkMessageDecl (md_start m) nowhere (map forget_annotation (md_annotations m)) (option_map forget_plain (md_result m)) (md_name m)
    (map forget_parameter (md_parameters m)) (md_oneway m) (map forget_error (md_errors m)).
Definition forget_item (i : item) : item :=
  match i with
  | ItImport k p _ => ItImport k p nowhere
  | ItNamed d _ => ItNamed (forget_named d) nowhere
  | ItMessage m => ItMessage (forget_message m)
  end.
Definition forget_tree (t : idl_tree) : idl_tree :=
  match t with
  | TreeProtocol i a x l => TreeProtocol i (map forget_annotation a) (forget_word x) (map forget_item l)
  | TreeSchema ns main l => TreeSchema ns (option_map forget_full main) (map forget_item l)
  end.

(** The tokens that count: those that are neither white space nor comments,
    except for documentation, with their texts *)
Definition filler (k : token_type) : bool :=
  match k with
  | T_WS | T_EmptyComment | T_MultiLineComment | T_SingleLineComment => true
  | _ => false
  end.
Fixpoint kept (l : list piece) : list (token_type * list N) :=
  match l with
  | [] => []
  | (Some k, t) :: l => if filler k then kept l else (k, t) :: kept l
  | (None, _) :: l => kept l
  end.
