(** Model of [serde_json::Value] and [serde_json::Number] (external crate). *)
From Verif Require Export Base.

(** [serde_json::Number] without [arbitrary_precision]: a [u64], a negative
    [i64] or a finite [f64].  A finite double is written [m * 2^e]. *)
Inductive jnum :=
| NPos (n : N)              (* PosInt(u64) *)
| NNeg (z : Z)              (* NegInt(i64), always < 0 *)
| NFloat (m e : Z).         (* Float(f64) = m * 2^e *)

Inductive json :=
| JNull
| JBool (b : bool)
| JNum (n : jnum)
| JStr (s : string)
| JArr (l : list json)
| JObj (o : list (string * json)).

Definition u32_max : N := 4294967295%N.
Definition u64_max : N := 18446744073709551615%N.
Definition i64_max : N := 9223372036854775807%N.
Definition i64_min : Z := (-9223372036854775808)%Z.
Definition i32_max : Z := 2147483647%Z.
Definition i32_min : Z := (-2147483648)%Z.

(** [Value::as_str], [as_array], [as_object], [is_null] *)
Definition as_str (j : json) : option string := match j with JStr s => Some s | _ => None end.
Definition as_array (j : json) : option (list json) := match j with JArr l => Some l | _ => None end.
Definition as_object (j : json) : option (list (string * json)) :=
  match j with JObj o => Some o | _ => None end.
Definition is_null (j : json) : bool := match j with JNull => true | _ => false end.

(** [Number::as_i64] / [Value::as_i64] *)
Definition num_as_i64 (n : jnum) : option Z :=
  match n with
  | NPos v => if (v <=? i64_max)%N then Some (Z.of_N v) else None
  | NNeg z => Some z
  | NFloat _ _ => None
  end.
(** [Number::is_i64], [Number::is_u64] *)
Definition num_is_i64 (n : jnum) : bool := match num_as_i64 n with Some _ => true | None => false end.
Definition num_is_u64 (n : jnum) : bool := match n with NPos _ => true | _ => false end.
(** [Value::as_u64] *)
Definition as_u64 (j : json) : option N :=
  match j with JNum (NPos v) => Some v | _ => None end.

(** [Map::get] *)
Definition jget (k : string) (o : list (string * json)) : option json := assoc k o.

(** Induction over nested JSON values. *)
Section JsonInd.
  Variable P : json -> Prop.
  Hypothesis Hnull : P JNull.
  Hypothesis Hbool : forall b, P (JBool b).
  Hypothesis Hnum : forall n, P (JNum n).
  Hypothesis Hstr : forall s, P (JStr s).
  Hypothesis Harr : forall l, Forall P l -> P (JArr l).
  Hypothesis Hobj : forall o, Forall (fun kv => P (snd kv)) o -> P (JObj o).
  Fixpoint json_ind' (j : json) : P j :=
    match j with
    | JNull => Hnull
    | JBool b => Hbool b
    | JNum n => Hnum n
    | JStr s => Hstr s
    | JArr l => Harr l ((fix go (l : list json) : Forall P l :=
        match l with
        | [] => Forall_nil _
        | x :: xs => Forall_cons _ (json_ind' x) (go xs)
        end) l)
    | JObj o => Hobj o ((fix go (o : list (string * json)) : Forall (fun kv => P (snd kv)) o :=
        match o with
        | [] => Forall_nil _
        | (k, v) :: xs => Forall_cons (k, v) (json_ind' v) (go xs)
        end) o)
    end.
End JsonInd.

(** Nesting depth, used as fuel by functions that recurse through [Map::get]. *)
Fixpoint jdepth (j : json) : nat :=
  match j with
  | JArr l => S (fold_right (fun x n => Nat.max (jdepth x) n) 0 l)
  | JObj o => S (fold_right (fun kv n => Nat.max (jdepth (snd kv)) n) 0 o)
  | _ => 1
  end.
