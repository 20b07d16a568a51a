(** JSON texts (RFC 8259) with comments, and what they denote *)
From Verif Require Export SpecLiterals SpecReader.
From Verif Require Import JsonFile.

Local Notation dq := """"%char.
Local Notation bs := "\"%char.

(** ** Comments *)
Fixpoint blanks (n : nat) : string := match n with O => "" | S n => String " " (blanks n) end.
(** What may stand between the quotes of a string, for the purpose of finding its end *)
Inductive quoted : string -> Prop :=
| q_nil : quoted ""
| q_char c s : c <> dq -> c <> bs -> quoted s -> quoted (String c s)
| q_escape c s : quoted s -> quoted (String bs (String c s)).
Definition line_follows (s : string) : Prop := s = "" \/ exists r, s = String "010" r.
(** [plain] is [text] with blanks for the comments. *)
Inductive uncommented : string -> string -> Prop :=
| un_end : uncommented "" ""
| un_char c s p : c <> dq -> c <> "/"%char -> uncommented s p -> uncommented (String c s) (String c p)
| un_string b s p : quoted b -> uncommented s p -> uncommented (String dq (b ++ String dq s)) (String dq (b ++ String dq p))
| un_block b s p : (forall x y, b <> x ++ "*/" ++ y)%string -> uncommented s p ->
    uncommented ("/*" ++ b ++ "*/" ++ s) (blanks (4 + String.length b) ++ p)
| un_line b s p : ~ In "010"%char (list_ascii_of_string b) -> line_follows s -> uncommented s p ->
    uncommented ("//" ++ b ++ s) (blanks (2 + String.length b) ++ p).

(** ** Strings *)
Definition escapes : list (ascii * ascii) :=
  [(dq, dq); (bs, bs); ("/", "/"); ("b", "008"); ("f", "012"); ("n", "010"); ("r", "013"); ("t", "009")]%char.
Definition hex_digits (s : string) (v : N) : Prop := String.length s = 4 /\ spells 16 s v.
Inductive string_text : string -> string -> Prop :=
| st_nil : string_text "" ""
| st_char c s v : c <> dq -> c <> bs -> (32 <= N_of_ascii c)%N -> string_text s v -> string_text (String c s) (String c v)
| st_escape c x s v : In (c, x) escapes -> string_text s v -> string_text (String bs (String c s)) (String x v)
| st_unicode h n s v : hex_digits h n -> ~ (55296 <= n <= 57343)%N -> string_text s v -> string_text ("\u" ++ h ++ s) (of_chars [n] ++ v)
| st_pair h n k m s v : hex_digits h n -> hex_digits k m -> (55296 <= n <= 56319)%N -> (56320 <= m <= 57343)%N -> string_text s v ->
    string_text ("\u" ++ h ++ "\u" ++ k ++ s) (of_chars [65536 + (n - 55296) * 1024 + (m - 56320)]%N ++ v).

(** ** Numbers: 64-bit integers as they are, all others as a floating point number *)
Definition all_digits (s : string) : Prop := exists v, spells 10 s v.
Definition fraction_text (f : string) : Prop := f = "" \/ exists ds, all_digits ds /\ f = String "." ds.
Definition exponent_text (x : string) : Prop :=
  x = "" \/ exists e sg ds, In e ["e"; "E"]%char /\ In sg [""; "+"; "-"] /\ all_digits ds /\ x = String e (sg ++ ds).
Section Numbers.
  Context `{JsonNumbers}.
  Inductive number_text : string -> jnum -> Prop :=
  | nt_pos i v : decimal_magnitude i v -> (v <= 18446744073709551615)%N -> number_text i (NPos v)
  | nt_neg i v : decimal_magnitude i v -> (0 < v <= 9223372036854775808)%N -> number_text (String "-" i) (NNeg (- Z.of_N v))
  | nt_float sg i v f x m e : In sg [""; "-"] -> decimal_magnitude i v -> fraction_text f -> exponent_text x ->
      (f = "" -> x = "" -> sg = "" -> (18446744073709551615 < v)%N) ->
      (f = "" -> x = "" -> sg = "-" -> (v = 0 \/ 9223372036854775808 < v)%N) ->
      read_float (sg ++ i ++ f ++ x) = Some (m, e) -> number_text (sg ++ i ++ f ++ x) (NFloat m e).

  (** ** Values with at most [d] brackets inside one another *)
  Definition spaces (w : string) : Prop := forall c, In c (list_ascii_of_string w) -> In c [" "; "009"; "010"; "013"]%char.
  Inductive value_text : nat -> string -> json -> Prop :=
  | vt_null d : value_text d "null" JNull
  | vt_true d : value_text d "true" (JBool true)
  | vt_false d : value_text d "false" (JBool false)
  | vt_number d t n : number_text t n -> value_text d t (JNum n)
  | vt_string d t v : string_text t v -> value_text d (String dq (t ++ String dq "")) (JStr v)
  | vt_no_elements d w : spaces w -> value_text (S d) (String "[" (w ++ "]")) (JArr [])
  | vt_array d t l : elements_text d t l -> value_text (S d) (String "[" (t ++ "]")) (JArr l)
  | vt_no_members d w : spaces w -> value_text (S d) (String "{" (w ++ "}")) (JObj [])
  | vt_object d t l o : members_text d t l -> by_key o -> (forall k, assoc k o = assoc k (rev l)) -> value_text (S d) (String "{" (t ++ "}")) (JObj o)
  with elements_text : nat -> string -> list json -> Prop :=
  | et_one d w t w' v : spaces w -> value_text d t v -> spaces w' -> elements_text d (w ++ t ++ w') [v]
  | et_more d w t w' v r l : spaces w -> value_text d t v -> spaces w' -> elements_text d r l -> elements_text d (w ++ t ++ w' ++ String "," r) (v :: l)
  with members_text : nat -> string -> list (string * json) -> Prop :=
  | mt_one d w k key w1 w2 t w' v : spaces w -> string_text k key -> spaces w1 -> spaces w2 -> value_text d t v -> spaces w' ->
      members_text d (w ++ String dq (k ++ String dq (w1 ++ String ":" (w2 ++ t ++ w')))) [(key, v)]
  | mt_more d w k key w1 w2 t w' v r l : spaces w -> string_text k key -> spaces w1 -> spaces w2 -> value_text d t v -> spaces w' -> members_text d r l ->
      members_text d (w ++ String dq (k ++ String dq (w1 ++ String ":" (w2 ++ t ++ w' ++ String "," r)))) ((key, v) :: l).

  (** A file: white space and comments anywhere between *)
  Definition json_text (d : nat) (text : string) (j : json) : Prop :=
    exists plain w t w', uncommented text plain /\ plain = (w ++ t ++ w')%string /\ spaces w /\ value_text d t j /\ spaces w'.
End Numbers.
Scheme value_text_ind' := Induction for value_text Sort Prop
  with elements_text_ind' := Induction for elements_text Sort Prop
  with members_text_ind' := Induction for members_text Sort Prop.
Combined Scheme json_text_ind from value_text_ind', elements_text_ind', members_text_ind'.

(** Values that can be written: integers of 64 bits, members in the order of their
    keys, and floating point numbers that are read as what they are written for *)
Section Tidy.
  Context `{JsonNumbers}.
  Inductive tidy : json -> Prop :=
  | td_null : tidy JNull
  | td_bool b : tidy (JBool b)
  | td_pos n : (n <= 18446744073709551615)%N -> tidy (JNum (NPos n))
  | td_neg z : (-9223372036854775808 <= z < 0)%Z -> tidy (JNum (NNeg z))
  | td_float m e : number_text (show_float m e) (NFloat m e) -> tidy (JNum (NFloat m e))
  | td_str s : tidy (JStr s)
  | td_arr l : (forall v, In v l -> tidy v) -> tidy (JArr l)
  | td_obj o : by_key o -> (forall k v, In (k, v) o -> tidy v) -> tidy (JObj o).
End Tidy.
(** At most [d] brackets inside one another *)
Inductive nests : nat -> json -> Prop :=
| ns_null d : nests d JNull
| ns_bool d b : nests d (JBool b)
| ns_num d n : nests d (JNum n)
| ns_str d s : nests d (JStr s)
| ns_arr d l : (forall v, In v l -> nests d v) -> nests (S d) (JArr l)
| ns_obj d o : (forall k v, In (k, v) o -> nests d v) -> nests (S d) (JObj o).
