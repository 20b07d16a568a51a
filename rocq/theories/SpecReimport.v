(** What it means to import the schemas that were extracted *)
From Verif Require Export SpecExpand SpecPipeline.

Section WithWorld.
  Context `{Unicode} `{Floats} `{Parser} `{FileSystem} `{JsonParser}.

  (** The statement imports, as a schema, the file that holds the extracted schema [y]. *)
  Definition imports_extracted (dirs : list string) (dir : string) (input : option string) (item : decl_item) (y : named_schema) : Prop :=
    exists n sp p, item = DImport ImportSchema n sp /\ found_in (dir :: dirs) n p /\ input <> Some p /\ json_content p (nm_schema y).

  (** By the rules of the Avro specification, the document [j] defines [full] as [d]. *)
  Definition writes (j : json) (full : string) (d : adef) : Prop :=
    exists t defs, read_document (jdepth j) j = Some (t, defs) /\ In (full, d) defs.
  Definition defined_by (ys : list named_schema) (full : string) (d : adef) : Prop :=
    exists y, In y ys /\ writes (nm_schema y) full d.

  (** The compiler knows a type [full] that means [d]. *)
  Definition known_as (r : list (string * schema)) (full : string) (d : adef) : Prop :=
    exists t, In (full, t) r /\ named_meaning t = Some (full, d).
  (** The message [k] of a protocol, and what it means. *)
  Definition means (ms : list (string * message)) (k : string) (m : amessage) : Prop :=
    exists v, In (k, v) ms /\ message_meaning v = m.
End WithWorld.
