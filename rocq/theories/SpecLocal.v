(** What a document depends on *)
From Verif Require Export SpecCompile SpecNames SpecPipeline.

(** [s], or a type that it mentions, or one that those mention, and so on,
    mentions [full]. *)
Inductive needs (r : list (string * schema)) : schema -> string -> Prop :=
| nd_here s full : mentions s full -> needs r s full
| nd_there s other t full : mentions s other -> assoc other r = Some t -> needs r t full -> needs r s full.

(** The type known as [full], without the places in the source *)
Definition knows (r : list (string * schema)) (full : string) : option schema := option_map unplaced (assoc full r).
(** All types known in [r] are known, the same, in [r']. *)
Definition grows (r r' : list (string * schema)) : Prop := forall full s, knows r full = Some s -> knows r' full = Some s.
