(** Trees with their places left out and every word put into a standard form: a
    device for proofs about what does not matter in a text. *)
From Verif Require Export SpecLayout.

(** The standard forms of names, strings, integers and floating point numbers *)
Record forms := mkForms { form_name : string -> string; form_string : string -> string; form_integer : string -> string; form_float : string -> string }.
Definition as_written : forms := mkForms (fun s => s) (fun s => s) (fun s => s) (fun s => s).

Section Canon.
  Context (c : forms).
  Definition canon_word (f : string -> string) (w : located) : located := mkLocated (f (w_text w)) nowhere.
  Fixpoint canon_json (t : json_tree) : json_tree :=
    match t with
    | JTInteger w => JTInteger (canon_word (form_integer c) w)
    | JTString s => JTString (form_string c s)
    | JTFloat w => JTFloat (canon_word (form_float c) w)
    | JTArray l => JTArray (map canon_json l)
    | JTObject o => JTObject (map (fun kv => (form_string c (fst kv), canon_json (snd kv))) o)
    | _ => t
    end.
  Definition canon_annotation (a : annotation) : annotation := mkAnnotation (form_name c (an_name a)) (canon_json (an_value a)) nowhere.
  Definition canon_keyword (k : prim_keyword) : prim_keyword :=
    match k with KDecimal p s => KDecimal (canon_word (form_integer c) p) (option_map (canon_word (form_integer c)) s) | _ => k end.
  Definition canon_base (b : base_type) : base_type :=
    match b with BPrimitive k _ => BPrimitive (canon_keyword k) nowhere | BReference x _ => BReference (form_name c x) None end.
  Fixpoint canon_full (t : full_type) : full_type :=
    match t with FullType _ a t => FullType nowhere (map canon_annotation a) (canon_plain t) end
  with canon_plain (t : plain_type) : plain_type :=
    match t with
    | PtArray t => PtArray (canon_full t)
    | PtMap t => PtMap (canon_full t)
    | PtUnion l => PtUnion (map canon_full l)
    | PtNullable b q => PtNullable (canon_base b) q
    end.
  Definition canon_variable (v : variable) : variable :=
    mkVariable (v_start v) (canon_word (form_name c) (v_ident v)) (map canon_annotation (v_annotations v))
      (option_map canon_json (v_default v)) nowhere.
  Definition canon_field (f : field_decl) : field_decl :=
    mkFieldDecl (fd_start f) (canon_full (fd_type f)) (map canon_variable (fd_variables f)).
  Definition canon_named (d : named_decl) : named_decl :=
    match d with
    | NRecord r => 
        NRecord (mkRecordDecl (r_start r) (map canon_annotation (r_annotations r)) (canon_word (form_name c) (r_ident r)) (r_error r) (map canon_field (r_fields r)))
    | NEnum e =>
        NEnum (mkEnumDecl (e_start e) (map canon_annotation (e_annotations e)) (canon_word (form_name c) (e_ident e)) (map (canon_word (form_name c)) (e_symbols e))
                 (option_map (canon_word (form_name c)) (e_default e)))
    | NFixed x => NFixed (mkFixedDecl (x_start x) (map canon_annotation (x_annotations x)) (canon_word (form_name c) (x_ident x)) (canon_word (form_integer c) (x_size x)))
    end.
  Definition canon_parameter (p : parameter) : parameter :=
    mkParameter (pa_start p) (canon_full (pa_type p)) (canon_variable (pa_variable p)).
  Definition canon_error (e : string * option span) : string * option span := (form_name c (fst e), None).
  Definition canon_message (m : message_decl) : message_decl :=
    mkMessageDecl (md_start m) nowhere (map canon_annotation (md_annotations m)) (option_map canon_plain (md_result m)) (form_name c (md_name m))
      (map canon_parameter (md_parameters m)) (md_oneway m) (map canon_error (md_errors m)).
  Definition canon_item (i : item) : item :=
    match i with
    | ItImport k p _ => ItImport k (form_string c p) nowhere
    | ItNamed d _ => ItNamed (canon_named d) nowhere
    | ItMessage m => ItMessage (canon_message m)
    end.
  Definition canon_tree (t : idl_tree) : idl_tree :=
    match t with
    | TreeProtocol i a x l => TreeProtocol i (map canon_annotation a) (canon_word (form_name c) x) (map canon_item l)
    | TreeSchema ns main l => TreeSchema (option_map (form_name c) ns) (option_map canon_full main) (map canon_item l)
    end.
End Canon.
