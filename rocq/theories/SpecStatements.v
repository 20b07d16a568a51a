(** The statements of a file in another order, and imports said twice. *)
From Verif Require Export SpecExpand.
From Coq Require Import Permutation.
Import SpecNames.

(** The same statement, wherever it is written *)
Definition same_item (i i' : decl_item) : Prop :=
  match i, i' with
  | DType s _ _, DType s' _ _ => unplaced s = unplaced s'
  | DImport k n _, DImport k' n' _ => k = k' /\ n = n'
  | _, _ => False
  end.
(** The same statements, in any order *)
Definition reordered (items items' : list decl_item) : Prop :=
  exists items1, Permutation items items1 /\ Forall2 same_item items1 items'.

(** The types in declarations *)
Definition types_among (ds : list declaration) : list schema :=
  flat_map (fun d => match d with Written s => [s] | Listed l => l end) ds.

(** Messages of different files have different names. *)
Definition messages_once (tables : list (list (string * message))) : Prop :=
  forall a l b l' c n, tables = a ++ l :: b ++ l' :: c -> In n (keys l) -> ~ In n (keys l').

(** The same content, up to the order of types and messages *)
Inductive same_content : idl_file -> idl_file -> Prop :=
| sc_protocol p q :
    p_name p = p_name q -> p_namespace p = p_namespace q -> p_doc p = p_doc q -> p_props p = p_props q ->
    same_types (p_types p) (p_types q) ->
    Permutation (unplaced_messages (p_messages p)) (unplaced_messages (p_messages q)) ->
    same_content (IProtocol p) (IProtocol q)
| sc_schema s s' : unplaced s = unplaced s' -> same_content (ISchema s) (ISchema s')
| sc_named l l' : same_types l l' -> same_content (INamed l) (INamed l').

Section WithWorld.
  Context `{Unicode} `{Floats} `{Parser} `{FileSystem} `{JsonParser}.

  (** Types of one name are declared once. *)
  Definition named_once (l : list schema) : Prop :=
    forall a s b s' c full, l = a ++ s :: b ++ s' :: c -> registrable s full -> ~ registrable s' full.

  Section Input.
    Variables (dirs : list string) (dir : string) (input : option string) (items : list decl_item).
    Definition start : list string := match input with Some p => [p] | None => [] end.

    (** [p] is known when the statements [items] of the input have been dealt
        with: it is the input, or they import it, directly or not. *)
    Inductive known_after : string -> Prop :=
    | ka_input p : input = Some p -> known_after p
    | ka_import k n sp p : In (DImport k n sp) items -> found_in (dir :: dirs) n p -> known_after p
    | ka_nested ds tables seen p : expands dirs dir start items ds tables seen -> In p seen -> known_after p.

    (** A file of kind [k] at [p] is imported, directly or not; the input
        itself is not imported again. *)
    Inductive needed : import_kind -> string -> Prop :=
    | ne_here k name sp p :
        In (DImport k name sp) items -> found_in (dir :: dirs) name p -> needed k p
    | ne_nested q file its ws k name sp p :
        needed ImportIdl q -> input <> Some q -> idl_content q file its ws ->
        In (DImport k name sp) its -> found_in (fs_parent q :: dirs) name p -> needed k p.
    (** No file is imported as two kinds of file. *)
    Definition one_kind : Prop := forall k k' p, needed k p -> needed k' p -> k = k'.
  End Input.
End WithWorld.
