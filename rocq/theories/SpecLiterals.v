(** What integer and string literals of the IDL grammar denote.  The shapes
    are those of the lexer rules IntegerLiteral and StringLiteral (decoded from
    the transition tables in src/generated/idllexer.rs). *)
From Verif Require Export Json.

(** ** Integers *)

Definition digit_table : list (ascii * N) :=
  [("0"%char, 0); ("1"%char, 1); ("2"%char, 2); ("3"%char, 3); ("4"%char, 4); ("5"%char, 5);
   ("6"%char, 6); ("7"%char, 7); ("8"%char, 8); ("9"%char, 9); ("a"%char, 10); ("b"%char, 11);
   ("c"%char, 12); ("d"%char, 13); ("e"%char, 14); ("f"%char, 15); ("A"%char, 10); ("B"%char, 11);
   ("C"%char, 12); ("D"%char, 13); ("E"%char, 14); ("F"%char, 15)]%N.

Definition digit (base : N) (c : ascii) (d : N) : Prop := In (c, d) digit_table /\ (d < base)%N.

(** Positional notation, most significant digit first. *)
Inductive spells (base : N) : string -> N -> Prop :=
| sp_one c d : digit base c d -> spells base (String c "") d
| sp_more s v c d : spells base s v -> digit base c d ->
    spells base (s ++ String c "")%string (v * base + d)%N.

Inductive decimal_magnitude : string -> N -> Prop :=
| dm_zero : decimal_magnitude "0" 0
| dm_dec c s v : c <> "0"%char -> spells 10 (String c s) v -> decimal_magnitude (String c s) v.

Inductive magnitude : string -> N -> Prop :=
| mag_dec s v : decimal_magnitude s v -> magnitude s v
| mag_hex x s v : In x ["x"%char; "X"%char] -> spells 16 s v -> magnitude (String "0" (String x s)) v
| mag_oct s v : spells 8 s v -> magnitude (String "0" s) v.

Definition suffix (s : string) : Prop := In s [""; "l"; "L"].

(** [-]? magnitude [lL]? *)
Inductive int_literal : string -> Z -> Prop :=
| il_pos m v suf : magnitude m v -> suffix suf -> int_literal (m ++ suf)%string (Z.of_N v)
| il_neg m v suf : magnitude m v -> suffix suf ->
    int_literal (String "-" (m ++ suf))%string (- Z.of_N v)%Z.

(** [t] with underscores strewn in. *)
Inductive underscored : string -> string -> Prop :=
| un_nil : underscored "" ""
| un_skip s t : underscored s t -> underscored (String "_" s) t
| un_keep c s t : c <> "_"%char -> underscored s t -> underscored (String c s) (String c t).

(** [s] is [t] with backticks strewn in: an identifier may be written between
    backticks, and so may each part of a dotted name. *)
Inductive unquotes : string -> string -> Prop :=
| uq_nil : unquotes "" ""
| uq_tick s t : unquotes s t -> unquotes (String "`" s) t
| uq_keep c s t : c <> "`"%char -> unquotes s t -> unquotes (String c s) (String c t).

(** [j] is the JSON number [z], as serde_json stores it. *)
Inductive json_int : Z -> json -> Prop :=
| ji_nonneg z : (0 <= z)%Z -> json_int z (JNum (NPos (Z.to_N z)))
| ji_neg z : (z < 0)%Z -> json_int z (JNum (NNeg z)).

(** ** Strings, as lists of code points *)
Local Open Scope N_scope.

(** Unicode scalar values *)
Definition scalar (c : N) : Prop := c < 1114112 /\ ~ (55296 <= c <= 57343).

(** Escape letter and the character it stands for: b t n f r, the quotes, the backslash. *)
Definition simple_escapes : list (N * N) :=
  [(98, 8); (116, 9); (110, 10); (102, 12); (114, 13); (34, 34); (39, 39); (92, 92)].

Inductive octal_digit : N -> N -> Prop := od d : d < 8 -> octal_digit (48 + d) d.

Inductive hexadecimal_digit : N -> N -> Prop :=
| hd_digit d : d < 10 -> hexadecimal_digit (48 + d) d
| hd_lower d : 10 <= d < 16 -> hexadecimal_digit (87 + d) d
| hd_upper d : 10 <= d < 16 -> hexadecimal_digit (55 + d) d.

Inductive four_hex : list N -> N -> Prop :=
| fh c3 c2 c1 c0 d3 d2 d1 d0 :
    hexadecimal_digit c3 d3 -> hexadecimal_digit c2 d2 ->
    hexadecimal_digit c1 d1 -> hexadecimal_digit c0 d0 ->
    four_hex [c3; c2; c1; c0] (d3 * 4096 + d2 * 256 + d1 * 16 + d0).

Definition not_octal_next (l : list N) : Prop :=
  match l with c :: _ => ~ exists d, octal_digit c d | [] => True end.

Definition high_surrogate (v : N) : Prop := 55296 <= v <= 56319.
Definition low_surrogate (v : N) : Prop := 56320 <= v <= 57343.

(** The text a literal body denotes, as in Java.  Octal escapes take as many
    digits as they can; a surrogate must be half of a pair. *)
Inductive denotes : list N -> list N -> Prop :=
| de_nil : denotes [] []
| de_plain c l t : c <> 92 -> denotes l t -> denotes (c :: l) (c :: t)
| de_simple e c l t : In (e, c) simple_escapes -> denotes l t -> denotes (92 :: e :: l) (c :: t)
| de_octal1 c d l t : octal_digit c d -> not_octal_next l -> denotes l t ->
    denotes (92 :: c :: l) (d :: t)
| de_octal2 c1 c0 d1 d0 l t : octal_digit c1 d1 -> octal_digit c0 d0 ->
    3 < d1 \/ not_octal_next l -> denotes l t ->
    denotes (92 :: c1 :: c0 :: l) (d1 * 8 + d0 :: t)
| de_octal3 c2 c1 c0 d2 d1 d0 l t : octal_digit c2 d2 -> d2 <= 3 -> octal_digit c1 d1 -> octal_digit c0 d0 ->
    denotes l t -> denotes (92 :: c2 :: c1 :: c0 :: l) (d2 * 64 + d1 * 8 + d0 :: t)
| de_unicode n h v l t : four_hex h v -> scalar v -> denotes l t ->
    denotes (92 :: 117 :: repeat 117 n ++ h ++ l) (v :: t)
| de_pair n h v n' h' v' l t :
    four_hex h v -> high_surrogate v -> four_hex h' v' -> low_surrogate v' -> denotes l t ->
    denotes (92 :: 117 :: repeat 117 n ++ h ++ 92 :: 117 :: repeat 117 n' ++ h' ++ l)
            (65536 + (v - 55296) * 1024 + (v' - 56320) :: t).

(** Bodies the lexer accepts whose surrogate escapes come in pairs. *)
Inductive body : list N -> Prop :=
| bo_nil : body []
| bo_plain c l : ~ In c [8; 9; 10; 12; 13; 92] -> body l -> body (c :: l)
| bo_simple e c l : In (e, c) simple_escapes -> body l -> body (92 :: e :: l)
| bo_octal1 c d l : octal_digit c d -> body l -> body (92 :: c :: l)
| bo_octal2 c1 c0 d1 d0 l : octal_digit c1 d1 -> octal_digit c0 d0 -> body l -> body (92 :: c1 :: c0 :: l)
| bo_octal3 c2 c1 c0 d2 d1 d0 l : octal_digit c2 d2 -> d2 <= 3 -> octal_digit c1 d1 -> octal_digit c0 d0 ->
    body l -> body (92 :: c2 :: c1 :: c0 :: l)
| bo_unicode h v l : four_hex h v -> scalar v -> body l -> body (92 :: 117 :: h ++ l)
| bo_pair h v h' v' l : four_hex h v -> high_surrogate v -> four_hex h' v' -> low_surrogate v' -> body l ->
    body (92 :: 117 :: h ++ 92 :: 117 :: h' ++ l).

(** Two ways to write down a text: escaping only what must be, and escaping
    everything as UTF-16 code units. *)
Definition escape_char (c : N) : list N :=
  match find (fun ec => snd ec =? c) [(98, 8); (116, 9); (110, 10); (102, 12); (114, 13); (34, 34); (92, 92)] with
  | Some (e, _) => [92; e]
  | None => [c]
  end.

Definition hex_char (d : N) : N := if d <? 10 then 48 + d else 87 + d.
Definition unicode_escape (v : N) : list N :=
  [92; 117; hex_char (v / 4096); hex_char (v / 256 mod 16); hex_char (v / 16 mod 16); hex_char (v mod 16)].
Definition escape_ascii_char (c : N) : list N :=
  if c <? 65536 then unicode_escape c
  else unicode_escape (55296 + (c - 65536) / 1024) ++ unicode_escape (56320 + (c - 65536) mod 1024).
