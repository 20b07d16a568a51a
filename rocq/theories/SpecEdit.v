(** Edit distance as edit scripts: independent of any algorithm. *)
From Verif Require Export Base.

(** One insertion, deletion or substitution of a single character. *)
Inductive one_edit : list N -> list N -> Prop :=
| ed_insert l x r : one_edit (l ++ r) (l ++ x :: r)
| ed_delete l x r : one_edit (l ++ x :: r) (l ++ r)
| ed_subst l x y r : one_edit (l ++ x :: r) (l ++ y :: r).

(** [n] edits turn [a] into [b]. *)
Inductive edits : nat -> list N -> list N -> Prop :=
| edits_0 a : edits 0 a a
| edits_S n a b c : one_edit a b -> edits n b c -> edits (S n) a c.

Definition is_edit_distance (a b : list N) (d : nat) : Prop :=
  edits d a b /\ forall n, edits n a b -> d <= n.

(** All bytes below 128. *)
Definition is_ascii_string (s : string) : bool :=
  forallb (fun b => (b <? 128)%N) (bytes_of s).
