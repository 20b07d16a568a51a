(** What Avro IDL means: relations between parse trees and schemas that do not
    mention the walker.  The properties of the walker are stated with these. *)
From Verif Require Export SpecReader.

(** ** Types *)

(** A type that can be annotated: anything but a reference. *)
Definition is_reference (p : plain_type) : Prop := exists i sp o, p = PtNullable (BReference i sp) o.

Inductive denotes `{Floats} (ns : option string) : full_type -> schema -> Prop :=
| dn_annotated place l p s s' : denotes_plain ns p s -> Forall (acceptable OnType) l -> (is_reference p -> l = []) ->
    annotated_as l s s' -> denotes ns (FullType place l p) s'
with denotes_plain `{Floats} (ns : option string) : plain_type -> schema -> Prop :=
| dn_logical k lt place : keyword_logical k = Some lt -> denotes_plain ns (PtNullable (BPrimitive k place) false) (SLogical lt [])
| dn_primitive k place : keyword_logical k = None -> (forall p s, k <> KDecimal p s) ->
    denotes_plain ns (PtNullable (BPrimitive k place) false) (SPrim (keyword_base k))
| dn_decimal (p : located) precision place : parse_integer_as_u32 p = Some precision -> (1 <= precision)%N ->
    denotes_plain ns (PtNullable (BPrimitive (KDecimal p None) place) false) (SLogical (LDecimal precision 0) [])
| dn_decimal_scale (p s : located) precision scale place :
    parse_integer_as_u32 p = Some precision -> parse_integer_as_u32 s = Some scale ->
    (1 <= precision)%N -> (scale <= precision)%N ->
    denotes_plain ns (PtNullable (BPrimitive (KDecimal p (Some s)) place) false) (SLogical (LDecimal precision scale) [])
| dn_reference i sp n q : refers ns i (n, q) -> denotes_plain ns (PtNullable (BReference i sp) false) (SRef n q [] sp)
| dn_optional b s : denotes_plain ns (PtNullable b false) s -> s <> SPrim PNull ->
    denotes_plain ns (PtNullable b true) (SUnion [SPrim PNull; s] true)
| dn_array t s : denotes ns t s -> denotes_plain ns (PtArray t) (SArray s [])
| dn_map t s : denotes ns t s -> denotes_plain ns (PtMap t) (SMap s [])
| dn_union ts ss : Forall2 (denotes ns) ts ss -> legal_union ss -> denotes_plain ns (PtUnion ts) (SUnion ss false).

(** Words that stand for unnamed types when the branches of a union are compared *)
Definition union_words : list string :=
  ["null"; "boolean"; "int"; "long"; "float"; "double"; "bytes"; "string"; "array"; "map"; "union"].
(** No reference in the type is to something of such a name. *)
Definition clear_names (ns : option string) (idents : list string) : Prop :=
  forall i n q, In i idents -> refers ns i (n, q) -> ~ In (fullname n q) union_words.

(** ** Fields and parameters *)

(** A variable's type: [T?] is a union of [T] and null, with null first if the
    default is null or there is none, and second otherwise. *)
Inductive variable_type `{Floats} (ns : option string) (v : variable) : full_type -> schema -> Prop :=
| vt_null_first place l b s : denotes ns (FullType place l (PtNullable b false)) s -> null_default v ->
    variable_type ns v (FullType place l (PtNullable b true)) (SUnion [SPrim PNull; s] true)
| vt_null_last place l b s : denotes ns (FullType place l (PtNullable b false)) s -> ~ null_default v ->
    variable_type ns v (FullType place l (PtNullable b true)) (SUnion [s; SPrim PNull] true)
| vt_other place l p s : (forall b, p <> PtNullable b true) -> denotes ns (FullType place l p) s ->
    variable_type ns v (FullType place l p) s.

(** The doc comment of a variable or else that of its declaration *)
Definition variable_doc (tokens : list token) (own declaration : nat) (doc : option string) : Prop :=
  exists d d', doc_at tokens own d /\ doc_at tokens declaration d' /\ doc = match d with Some _ => d | None => d' end.

Inductive default_denotes `{Floats} : option json_tree -> option json -> Prop :=
| dd_none : default_denotes None None
| dd_some t j : json_means t j -> default_denotes (Some t) (Some j).

Record variable_denotes `{Floats} (tokens : list token) (ns : option string) (t : full_type) (start : nat) (v : variable)
    (f : field) : Prop := mkVariableDenotes {
  vd_name : f_name f = identifier_text (v_ident v);
  vd_type : variable_type ns v t (f_schema f);
  vd_doc : variable_doc tokens (v_start v) start (f_doc f);
  vd_default : default_denotes (v_default v) (f_default f);
  vd_default_valid : forall j, f_default f = Some j -> is_valid_default j (f_schema f) = true;
  vd_acceptable : Forall (acceptable OnField) (v_annotations v);
  vd_props : holds_annotations OnField (v_annotations v) (f_props f);
  vd_aliases : aliases_annotation (v_annotations v) (f_aliases f);
  vd_order : order_annotation (v_annotations v) (f_order f)
}.

(** ** Named types *)

(** Words that cannot be the name of a type *)
Definition type_words : list string :=
  ["null"; "boolean"; "int"; "long"; "float"; "double"; "bytes"; "string";
   "date"; "time_ms"; "timestamp_ms"; "local_timestamp_ms"; "uuid"].

(** What all named types have in common *)
Record named_header `{Floats} (tokens : list token) (ns : option string) (d : named_decl)
    (n : string) (q : option string) (doc : option string) (al : list string) (ps : props) : Prop := mkNamedHeader {
  nh_name : declares (named_ident d) (named_annotations d) ns n q;
  nh_word : ~ In n type_words;
  nh_doc : doc_at tokens (named_start d) doc;
  nh_acceptable : Forall (acceptable (named_place d)) (named_annotations d);
  nh_props : holds_annotations (named_place d) (named_annotations d) ps;
  nh_aliases : aliases_annotation (named_annotations d) al
}.

Inductive named_denotes `{Floats} (tokens : list token) (ns : option string) : named_decl -> schema -> Prop :=
| nd_record r n q doc al ps fs :
    named_header tokens ns (NRecord r) n q doc al ps ->
    Forall2 (fun dv f => variable_denotes tokens q (fd_type (fst dv)) (fd_start (fst dv)) (snd dv) f)
      (variables_of (r_fields r)) fs ->
    NoDup (map f_name fs) ->
    named_denotes tokens ns (NRecord r) (SRecord n q doc fs (r_error r) al ps)
| nd_enum e n q doc al ps :
    named_header tokens ns (NEnum e) n q doc al ps ->
    NoDup (symbols_of e) ->
    (forall d, e_default e = Some d -> In (identifier_text d) (symbols_of e)) ->
    named_denotes tokens ns (NEnum e)
      (SEnum n q doc (symbols_of e) (option_map (fun x : located => identifier_text x) (e_default e)) al ps)
| nd_fixed x n q doc al ps size :
    named_header tokens ns (NFixed x) n q doc al ps ->
    parse_integer_as_u32 (x_size x) = Some size ->
    named_denotes tokens ns (NFixed x) (SFixed n q doc size al ps).

(** ** Messages *)
Inductive result_denotes `{Floats} (ns : option string) : option plain_type -> schema -> Prop :=
| rd_void : result_denotes ns None (SPrim PNull)
| rd_type p s : denotes_plain ns p s -> result_denotes ns (Some p) s.

Definition throws (ns : option string) (e : string * option span) (s : schema) : Prop :=
  exists n q, refers ns (fst e) (n, q) /\ s = SRef n q [] (snd e).

Inductive errors_denote (ns : option string) : list (string * option span) -> option (list schema) -> Prop :=
| ed_none : errors_denote ns [] None
| ed_some e es ss : Forall2 (throws ns) (e :: es) ss -> errors_denote ns (e :: es) (Some ss).

Record message_denotes `{Floats} (tokens : list token) (ns : option string) (m : message_decl) (msg : message) : Prop := mkMessageDenotes {
  me_doc : doc_at tokens (md_start m) (m_doc msg);
  me_acceptable : Forall (acceptable OnMessage) (md_annotations m);
  me_props : holds_annotations OnMessage (md_annotations m) (m_props msg);
  me_request : Forall2 (fun p f => variable_denotes tokens ns (pa_type p) (pa_start p) (pa_variable p) f)
                 (md_parameters m) (m_request msg);
  me_distinct : NoDup (map f_name (m_request msg));
  me_response : result_denotes ns (md_result m) (m_response msg);
  me_errors : errors_denote ns (md_errors m) (m_errors msg);
  me_one_way : m_one_way msg = md_oneway m;
  me_one_way_null : md_oneway m = true -> m_response msg = SPrim PNull;
  me_not_annotated : forall p, md_result m = Some p -> is_reference p -> md_annotations m = []
}.

(** ** Files *)
Inductive item_denotes `{Floats} (tokens : list token) (ns : option string) : item -> decl_item -> Prop :=
| id_import k path p : item_denotes tokens ns (ItImport k path p) (DImport k (get_string_from_literal path) p)
| id_named d s p : named_denotes tokens ns d s -> item_denotes tokens ns (ItNamed d p) (DType s p (field_places d)).

Definition handed_on (t : idl_tree) : list item :=
  filter (fun it => match it with ItMessage _ => false | _ => true end) (tree_items t).

Inductive file_denotes `{Floats} (tokens : list token) : idl_tree -> idl_file -> list decl_item -> Prop :=
| fi_protocol start l (ident : located) its p items :
    let t := TreeProtocol start l ident its in
    declares ident l None (p_name p) (p_namespace p) ->
    ~ In (p_name p) type_words ->
    doc_at tokens start (p_doc p) ->
    Forall (acceptable OnProtocol) l -> holds_annotations OnProtocol l (p_props p) ->
    Forall2 (item_denotes tokens (p_namespace p)) (handed_on t) items ->
    NoDup (keys (p_messages p)) ->
    (forall name msg, In (name, msg) (p_messages p) ->
       exists m, last_message t name m /\ message_denotes tokens (p_namespace p) m msg) ->
    (forall name m, last_message t name m -> In name (keys (p_messages p))) ->
    (forall m, In m (tree_messages t) -> exists msg, message_denotes tokens (p_namespace p) m msg) ->
    p_types p = [] ->
    file_denotes tokens t (IProtocol p) items
| fi_schema nsd ft its ns s items :
    let t := TreeSchema nsd (Some ft) its in
    tree_namespace t ns -> denotes ns ft s ->
    Forall2 (item_denotes tokens ns) (handed_on t) items ->
    file_denotes tokens t (ISchema s) items
| fi_named nsd its ns items :
    let t := TreeSchema nsd None its in
    tree_namespace t ns ->
    Forall2 (item_denotes tokens ns) (handed_on t) items ->
    file_denotes tokens t (INamed (declared_types items)) items.

(** ** Properties in the output *)

(** [o] is [o0] with the properties [ps] added. *)
Definition with_props (o0 : list (string * json)) (ps : props) (o : list (string * json)) : Prop :=
  forall k v, assoc k o = Some v <-> assoc k ps = Some v \/ (~ In k (keys ps) /\ assoc k o0 = Some v).
(** No property has one of the names [ks] and none is given twice. *)
Definition props_avoid (ks : list string) (ps : props) : Prop :=
  NoDup (keys ps) /\ forall k, In k (keys ps) -> ~ In k ks.

Definition field_keys : list string := ["name"; "type"; "doc"; "default"; "order"; "aliases"].
Definition message_keys : list string := ["doc"; "request"; "response"; "errors"; "one-way"].
Definition protocol_keys : list string := ["protocol"; "namespace"; "doc"; "types"; "messages"].

Definition bare_field (f : field) : field :=
  mkField (f_name f) (f_schema f) (f_doc f) (f_default f) (f_order f) (f_aliases f) [].
Definition bare_message (m : message) : message :=
  mkMessage (m_doc m) [] (m_request m) (m_response m) (m_errors m) (m_one_way m).
Definition bare_protocol (p : protocol) : protocol :=
  mkProtocol (p_name p) (p_namespace p) (p_doc p) [] (p_types p) (p_messages p).
