(** What it means that converting and extracting agree. *)
From Verif Require Export SpecPipeline.

(** [full] is the name [n], perhaps in a namespace *)
Definition simply_named (full n : string) : Prop := full = n \/ exists q, full = (q ++ "." ++ n)%string.

(** [x] is the schema extracted for the type [fd]: it is called by the simple name of
    that type, reads as that type, and defines it and perhaps others, all as in [all] *)
Definition own_document (all : list (string * adef)) (fd : string * adef) (x : named_schema) : Prop :=
  exists defs, simply_named (fst fd) (nm_name x) /\ read_document (jdepth (nm_schema x)) (nm_schema x) = Some (TNamed (fst fd), defs)
    /\ In fd defs /\ incl defs all.
