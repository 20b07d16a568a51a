(** JSON files as texts: how documents are written and imported ones are read.
    [serde_json] 1.0 and [json_comments] 0.2 are external crates, modelled from
    their documentation and behaviour.  A text is its UTF-8 bytes. *)
From Verif Require Export Json.
From Coq Require Import DecimalString DecimalN.

(** Floating point numbers: what a number that is no 64-bit integer is read
    as ([None]: out of range), and how one is written.  [serde_json] promises
    nothing about reading what it wrote unless [float_roundtrip] is enabled. *)
Class JsonNumbers := {
  read_float : string -> option (Z * Z);
  show_float : Z -> Z -> string
}.

Local Notation dq := """"%char.
Local Notation bs := "\"%char.
Local Notation nl := "010"%char.

(** ** Comments: [json_comments::CommentSettings::c_style().strip_comments],
    src/import.rs:40-44.  Every character of a comment becomes a space, except
    for the line end of a line comment.  [None]: the text ends within a string
    or comment, or a slash starts no comment. *)
Inductive strip_state := Top | InString | StringEscape | InComment | InBlock | MaybeEnd | InLine.

Fixpoint strip (st : strip_state) (s : string) : option string :=
  match s with
  | EmptyString => match st with Top | InLine => Some EmptyString | _ => None end
  | String c r =>
      let keep st' := option_map (String c) (strip st' r) in
      let blank st' := option_map (String " ") (strip st' r) in
      match st with
      | Top => if Ascii.eqb c dq then keep InString else if Ascii.eqb c "/" then blank InComment else keep Top
      | InString => if Ascii.eqb c dq then keep Top else if Ascii.eqb c bs then keep StringEscape else keep InString
      | StringEscape => keep InString
      | InComment => if Ascii.eqb c "*" then blank InBlock else if Ascii.eqb c "/" then blank InLine else None
      | InBlock => if Ascii.eqb c "*" then blank MaybeEnd else blank InBlock
      | MaybeEnd => if Ascii.eqb c "/" then blank Top else if Ascii.eqb c "*" then blank MaybeEnd else blank InBlock
      | InLine => if Ascii.eqb c nl then keep Top else blank InLine
      end
  end.

(** ** Reading: [serde_json::from_reader] into a [Value] *)

Definition is_ws (c : ascii) : bool := Ascii.eqb c " " || Ascii.eqb c "009" || Ascii.eqb c nl || Ascii.eqb c "013".
Fixpoint skip_ws (s : string) : string :=
  match s with String c r => if is_ws c then skip_ws r else s | EmptyString => EmptyString end.

(** A word that must follow *)
Fixpoint drop_word (w s : string) : option string :=
  match w, s with
  | EmptyString, _ => Some s
  | String a w, String c s => if Ascii.eqb a c then drop_word w s else None
  | _, _ => None
  end.

(** ** Strings, after the opening quote *)
Definition hex_of (c : ascii) : option N :=
  let n := N_of_ascii c in
  if ((48 <=? n) && (n <=? 57))%N then Some (n - 48)%N
  else if ((97 <=? n) && (n <=? 102))%N then Some (n - 87)%N
  else if ((65 <=? n) && (n <=? 70))%N then Some (n - 55)%N
  else None.
Definition hex4 (a b c d : ascii) : option N :=
  match hex_of a, hex_of b, hex_of c, hex_of d with
  | Some a, Some b, Some c, Some d => Some (((a * 16 + b) * 16 + c) * 16 + d)%N
  | _, _, _, _ => None
  end.
Definition unescape (c : ascii) : option ascii :=
  if Ascii.eqb c dq then Some dq
  else if Ascii.eqb c bs then Some bs
  else if Ascii.eqb c "/" then Some "/"%char
  else if Ascii.eqb c "b" then Some "008"%char
  else if Ascii.eqb c "f" then Some "012"%char
  else if Ascii.eqb c "n" then Some nl
  else if Ascii.eqb c "r" then Some "013"%char
  else if Ascii.eqb c "t" then Some "009"%char
  else None.
Definition push (front : string) (p : option (string * string)) : option (string * string) :=
  match p with Some (v, r) => Some ((front ++ v)%string, r) | None => None end.

Fixpoint p_chars (s : string) : option (string * string) :=
  match s with
  | EmptyString => None
  | String c r =>
      if Ascii.eqb c dq then Some (EmptyString, r)
      else if Ascii.eqb c bs then
        match r with
        | EmptyString => None
        | String e r1 =>
            if Ascii.eqb e "u" then
              match r1 with
              | String h1 (String h2 (String h3 (String h4 r2))) =>
                  match hex4 h1 h2 h3 h4 with
                  | None => None
                  | Some v =>
                      if ((56320 <=? v) && (v <=? 57343))%N then None
                      else if ((55296 <=? v) && (v <=? 56319))%N then
                        match r2 with
                        | String b (String u (String k1 (String k2 (String k3 (String k4 r3))))) =>
                            if Ascii.eqb b bs && Ascii.eqb u "u" then
                              match hex4 k1 k2 k3 k4 with
                              | None => None
                              | Some w =>
                                  if ((56320 <=? w) && (w <=? 57343))%N
                                  then push (of_chars [65536 + (v - 55296) * 1024 + (w - 56320)]%N) (p_chars r3)
                                  else None
                              end
                            else None
                        | _ => None
                        end
                      else push (of_chars [v]) (p_chars r2)
                  end
              | _ => None
              end
            else match unescape e with Some x => push (String x "") (p_chars r1) | None => None end
        end
      else if (N_of_ascii c <? 32)%N then None
      else push (String c "") (p_chars r)
  end.

(** ** Numbers *)
Definition is_digit (c : ascii) : bool := ((48 <=? N_of_ascii c) && (N_of_ascii c <=? 57))%N.
Fixpoint span_digits (s : string) : string * string :=
  match s with
  | String c r => if is_digit c then let (a, b) := span_digits r in (String c a, b) else (EmptyString, s)
  | EmptyString => (EmptyString, EmptyString)
  end.
Fixpoint decimal_value (s : string) (acc : N) : N :=
  match s with String c r => decimal_value r (acc * 10 + (N_of_ascii c - 48))%N | EmptyString => acc end.
(** A part with its digits, which must not be missing *)
Definition span_part (front : string) (s : string) : option (string * string) :=
  match span_digits s with
  | (EmptyString, _) => None
  | (ds, r) => Some ((front ++ ds)%string, r)
  end.
Definition span_fraction (s : string) : option (string * string) :=
  match s with
  | String c r => if Ascii.eqb c "." then span_part "." r else Some (EmptyString, s)
  | EmptyString => Some (EmptyString, s)
  end.
Definition span_exponent (s : string) : option (string * string) :=
  match s with
  | String c r =>
      if Ascii.eqb c "e" || Ascii.eqb c "E" then
        match r with
        | String g r' => if Ascii.eqb g "+" || Ascii.eqb g "-" then span_part (String c (String g "")) r' else span_part (String c "") r
        | EmptyString => None
        end
      else Some (EmptyString, s)
  | EmptyString => Some (EmptyString, s)
  end.
Definition plain_number (negative : bool) (v : N) : option jnum :=
  if negative then if ((0 <? v) && (v <=? 9223372036854775808))%N then Some (NNeg (- Z.of_N v)) else None
  else if (v <=? u64_max)%N then Some (NPos v) else None.
Definition leading_zero (ds : string) : bool :=
  match ds with String c (String _ _) => Ascii.eqb c "0" | _ => false end.

Section Reading.
  Context `{JsonNumbers}.

  Definition p_magnitude (negative : bool) (s : string) : option (jnum * string) :=
    let sign := if negative then "-" else "" in
    let (ds, r) := span_digits s in
    if String.eqb ds "" || leading_zero ds then None
    else
      match span_fraction r with
      | None => None
      | Some (f, r1) =>
          match span_exponent r1 with
          | None => None
          | Some (x, r2) =>
              let float := match read_float (sign ++ ds ++ f ++ x) with Some (m, e) => Some (NFloat m e, r2) | None => None end in
              if String.eqb f "" && String.eqb x "" then
                match plain_number negative (decimal_value ds 0) with Some n => Some (n, r2) | None => float end
              else float
          end
      end.
  Definition p_number (s : string) : option (jnum * string) :=
    match s with
    | String c r => if Ascii.eqb c "-" then p_magnitude true r else p_magnitude false s
    | EmptyString => None
    end.

  (** ** Values.  [d] is [remaining_depth] less one: at the 128th bracket that
      is open the reader gives up.  [n] is fuel. *)
  Fixpoint p_value (n d : nat) (s : string) {struct n} : option (json * string) :=
    match n with
    | O => None
    | S n =>
        match skip_ws s with
        | EmptyString => None
        | String c r =>
            if Ascii.eqb c dq then match p_chars r with Some (v, r) => Some (JStr v, r) | None => None end
            else if Ascii.eqb c "[" then
              match d with
              | O => None
              | S d =>
                  match drop_word "]" (skip_ws r) with
                  | Some r' => Some (JArr [], r')
                  | None => match p_elements n d r with Some (l, r') => Some (JArr l, r') | None => None end
                  end
              end
            else if Ascii.eqb c "{" then
              match d with
              | O => None
              | S d =>
                  match drop_word "}" (skip_ws r) with
                  | Some r' => Some (JObj [], r')
                  | None => match p_members n d r with Some (l, r') => Some (JObj (bt_extend [] l), r') | None => None end
                  end
              end
            else if Ascii.eqb c "n" then option_map (pair JNull) (drop_word "ull" r)
            else if Ascii.eqb c "t" then option_map (pair (JBool true)) (drop_word "rue" r)
            else if Ascii.eqb c "f" then option_map (pair (JBool false)) (drop_word "alse" r)
            else match p_number (String c r) with Some (x, r) => Some (JNum x, r) | None => None end
        end
    end
  with p_elements (n d : nat) (s : string) {struct n} : option (list json * string) :=
    match n with
    | O => None
    | S n =>
        match p_value n d s with
        | None => None
        | Some (v, r) =>
            match skip_ws r with
            | String c r' =>
                if Ascii.eqb c "]" then Some ([v], r')
                else if Ascii.eqb c "," then match p_elements n d r' with Some (l, r'') => Some (v :: l, r'') | None => None end
                else None
            | EmptyString => None
            end
        end
    end
  with p_members (n d : nat) (s : string) {struct n} : option (list (string * json) * string) :=
    match n with
    | O => None
    | S n =>
        match drop_word """" (skip_ws s) with
        | None => None
        | Some r0 =>
            match p_chars r0 with
            | None => None
            | Some (k, r1) =>
                match drop_word ":" (skip_ws r1) with
                | None => None
                | Some r2 =>
                    match p_value n d r2 with
                    | None => None
                    | Some (v, r) =>
                        match skip_ws r with
                        | String c r' =>
                            if Ascii.eqb c "}" then Some ([(k, v)], r')
                            else if Ascii.eqb c "," then match p_members n d r' with Some (l, r'') => Some ((k, v) :: l, r'') | None => None end
                            else None
                        | EmptyString => None
                        end
                    end
                end
            end
        end
    end.

  (** Nothing but white space may follow. *)
  Definition parse_plain (s : string) : option json :=
    match p_value (S (2 * String.length s)) 127 s with
    | Some (j, r) => match skip_ws r with EmptyString => Some j | String _ _ => None end
    | None => None
    end.

  (** src/import.rs:40-44 [parse_json_with_comments] *)
  Definition parse_json_with_comments (text : string) : option json :=
    match strip Top text with Some s => parse_plain s | None => None end.
End Reading.

(** ** Writing: [serde_json::to_string_pretty], src/main.rs:225, 283 *)
Definition hex_char (n : N) : ascii := ascii_of_N (if (n <? 10)%N then 48 + n else 87 + n)%N.
Definition escape_char (c : ascii) : string :=
  if Ascii.eqb c dq then "\"""
  else if Ascii.eqb c bs then "\\"
  else if Ascii.eqb c "008" then "\b"
  else if Ascii.eqb c "009" then "\t"
  else if Ascii.eqb c nl then "\n"
  else if Ascii.eqb c "012" then "\f"
  else if Ascii.eqb c "013" then "\r"
  else if (N_of_ascii c <? 32)%N then "\u00" ++ String (hex_char (N_of_ascii c / 16)) (String (hex_char (N_of_ascii c mod 16)) "")
  else String c "".
Fixpoint escape (s : string) : string :=
  match s with EmptyString => EmptyString | String c r => (escape_char c ++ escape r)%string end.
Definition show_string (s : string) : string := String dq (escape s ++ String dq "").

Fixpoint indent (n : nat) : string := match n with O => "" | S n => "  " ++ indent n end.
Fixpoint join_lines (l : list string) : string :=
  match l with
  | [] => ""
  | [x] => x
  | x :: r => x ++ "," ++ String nl (join_lines r)
  end.

Section Writing.
  Context `{JsonNumbers}.
  Definition show_number (n : jnum) : string :=
    match n with
    | NPos n => NilZero.string_of_uint (N.to_uint n)
    | NNeg z => String "-" (NilZero.string_of_uint (N.to_uint (Z.to_N (- z))))
    | NFloat m e => show_float m e
    end.
  Fixpoint to_string_pretty (ind : nat) (j : json) : string :=
    match j with
    | JNull => "null"
    | JBool b => if b then "true" else "false"
    | JNum n => show_number n
    | JStr s => show_string s
    | JArr [] => "[]"
    | JArr l => String "[" (String nl (join_lines (map (fun x => indent (S ind) ++ to_string_pretty (S ind) x) l) ++ String nl (indent ind ++ "]")))
    | JObj [] => "{}"
    | JObj o => String "{" (String nl (join_lines (map (fun kv => indent (S ind) ++ show_string (fst kv) ++ ": " ++ to_string_pretty (S ind) (snd kv)) o) ++ String nl (indent ind ++ "}")))
    end%string.
End Writing.
