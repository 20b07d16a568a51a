(** What floating point literals denote: the number they spell, rounded to the
    nearest binary64 number, as in Java. *)
From Verif Require Export SpecLiterals.
From Verif Require Import Reader.
Local Open Scope Z_scope.

(** ** Rounding *)

(** The finite binary64 numbers are [m * 2^e] *)
Definition binary64 (m e : Z) : Prop := Z.abs m < 2 ^ 53 /\ -1074 <= e <= 971.

(** How far [m * 2^e] is from [n / d], in units of [1 / (d * 2^1074)] *)
Definition apart (n d m e : Z) : Z := Z.abs (n * 2 ^ 1074 - m * 2 ^ (e + 1074) * d).

(** Not below the middle between the largest finite number, [(2^53 - 1) * 2^971],
    and [2^1024] *)
Definition too_large (n d : Z) : Prop := (2 ^ 54 - 1) * 2 ^ 970 * d <= Z.abs n.

(** [m] has as many digits as there is room for *)
Definition full (m e : Z) : Prop := m = 0 \/ 2 ^ 52 <= Z.abs m \/ e = -1074.

(** The binary64 number nearest to [n / d], with an even [m] if two are equally near *)
Inductive nearest (n d : Z) : f64_value -> Prop :=
| nearest_finite m e :
    ~ too_large n d -> binary64 m e -> full m e ->
    (forall m' e', binary64 m' e' -> apart n d m e <= apart n d m' e') ->
    (forall m' e', binary64 m' e' -> apart n d m' e' = apart n d m e ->
                   m' * 2 ^ (e' + 1074) = m * 2 ^ (e + 1074) \/ Z.even m = true) ->
    nearest n d (FFinite m e)
| nearest_infinite : too_large n d -> nearest n d (FInfinite (n <? 0)).

(** ... to [v * base^k] *)
Definition nearest_to (v base k : Z) : f64_value -> Prop :=
  nearest (v * base ^ Z.max 0 k) (base ^ Z.max 0 (- k)).

(** ** Texts *)
Definition size_suffix (s : string) : Prop := In s [""; "f"; "F"; "d"; "D"].

Inductive exponent_of (marks : list ascii) : string -> Z -> Prop :=
| eo_plain c s v : In c marks -> spells 10 s v -> exponent_of marks (String c s) (Z.of_N v)
| eo_plus c s v : In c marks -> spells 10 s v -> exponent_of marks (String c (String "+" s)) (Z.of_N v)
| eo_minus c s v : In c marks -> spells 10 s v -> exponent_of marks (String c (String "-" s)) (- Z.of_N v).

Definition point (dot fp : string) : Prop := dot = "." \/ dot = "" /\ fp = "".

(** The digits spell [v], [places] of them behind the point; [x] is the exponent *)
Inductive decimal_text : string -> N -> nat -> Z -> Prop :=
| dt ip dot fp v ex x suf :
    spells 10 (ip ++ fp) v -> point dot fp ->
    (ex = "" /\ x = 0 \/ exponent_of ["e"%char; "E"%char] ex x) -> size_suffix suf ->
    decimal_text (ip ++ dot ++ fp ++ ex ++ suf) v (String.length fp) x.
Inductive hexadecimal_text : string -> N -> nat -> Z -> Prop :=
| ht c ip dot fp v ex x suf :
    In c ["x"%char; "X"%char] -> spells 16 (ip ++ fp) v -> point dot fp ->
    exponent_of ["p"%char; "P"%char] ex x -> size_suffix suf ->
    hexadecimal_text (String "0" (String c (ip ++ dot ++ fp ++ ex ++ suf))) v (String.length fp) x.

Definition sign_of (s : string) (z : Z) : Prop := In (s, z) [("", 1); ("+", 1); ("-", -1)].

(** [j] is the number [x] in JSON *)
Inductive json_float : f64_value -> json -> Prop :=
| jf_finite m e : json_float (FFinite m e) (JNum (NFloat m e))
| jf_infinite : json_float (FInfinite false) (JStr "Infinity")
| jf_minus_infinite : json_float (FInfinite true) (JStr "-Infinity")
| jf_nan : json_float FNan (JStr "NaN").
