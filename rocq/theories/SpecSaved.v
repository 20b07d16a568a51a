(** Documents saved to files and imported from there *)
From Verif Require Export SpecReimport SpecJsonFile.
From Verif Require Import JsonFile Cli.

(** Imported JSON files are read as texts. *)
Definition file_json `{JsonNumbers} : JsonParser := {| parse_json := parse_json_with_comments |}.

(** Floating point numbers that are read, from IDL or JSON, are written so that
    they read the same. *)
Definition floats_kept `{Floats} `{JsonNumbers} : Prop :=
  (forall text m e, parse_float_text text = Some (FFinite m e) -> number_text (show_float m e) (NFloat m e))
  /\ (forall text m e, read_float text = Some (m, e) -> number_text (show_float m e) (NFloat m e)).

Section WithWorld.
  Context `{FileSystem} `{JsonNumbers}.
  (** The file [q] holds the text written for [j], perhaps with a line end. *)
  Definition saved (q : string) (j : json) : Prop := exists w, spaces w /\ fs_read q = Some (to_string_pretty 0 j ++ w)%string.
  (** The statement imports the file to which the extracted schema [y] was written. *)
  Definition imports_saved (dirs : list string) (dir : string) (input : option string) (item : decl_item) (y : named_schema) : Prop :=
    exists n sp p, item = DImport ImportSchema n sp /\ found_in (dir :: dirs) n p /\ input <> Some p /\ saved p (nm_schema y).
End WithWorld.

(** Documents are written as [to_string_pretty] does. *)
Definition writes_texts (C : Console) `{JsonNumbers} : Prop := forall j, pretty j = to_string_pretty 0 j.
