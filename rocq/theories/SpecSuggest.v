(** What a good suggestion is. *)
From Verif Require Export Suggest SpecEdit.

Definition true_distance (a b : string) (d : nat) : Prop := is_edit_distance (chars a) (chars b) d.

(** The part of a dotted name after the last dot. *)
Definition simple_part (s simple : string) : Prop :=
  contains_dot simple = false /\ (s = simple \/ exists ns, s = (ns ++ "." ++ simple)%string).

(** Short names may be off by one, longer ones by two. *)
Definition tolerance (len : nat) : nat := if Nat.ltb 4 len then 2 else 1.

(** [candidate D u names s d bound]: [s] is a possible correction of [u] at
    distance [d], acceptable up to [bound]; [D] is the distance. *)
Inductive candidate (D : string -> string -> nat -> Prop) (u : string) (names : list string)
  : string -> nat -> nat -> Prop :=
| cand_primitive su p d :
    In p ["null"; "boolean"; "int"; "long"; "float"; "double"; "bytes"; "string"] ->
    simple_part u su -> D su p d ->
    candidate D u names p d (tolerance (Nat.min (String.length su) (String.length p)))
| cand_full f d :
    In f names -> D u f d -> candidate D u names f d (tolerance (Nat.min (String.length u) (String.length f)))
| cand_simple su f sf d :
    In f names -> simple_part u su -> simple_part f sf -> D su sf d ->
    candidate D u names f d (tolerance (Nat.min (String.length su) (String.length sf))).

Definition proposes (msg s : string) : Prop :=
  msg = ("did you mean `" ++ s ++ "`?")%string
  \/ msg = ("did you mean `" ++ s ++ "`? (note: Avro primitives are lowercase)")%string.
