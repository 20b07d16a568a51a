(** Model of the literal parsers of src/reader.rs. *)
From Verif Require Export Json.

(** ** Integer literals *)

(** [str::replace(c, "")] for an ASCII character *)
Fixpoint remove_char (c : ascii) (s : string) : string :=
  match s with
  | EmptyString => EmptyString
  | String d r => if Ascii.eqb c d then remove_char c r else String d (remove_char c r)
  end.

(** [&s[n..]] *)
Fixpoint str_drop (n : nat) (s : string) : string :=
  match n, s with
  | S n, String _ r => str_drop n r
  | _, _ => s
  end.

(** The last byte, and the string without it ([ends_with], [pop]) *)
Fixpoint split_last (s : string) : option (string * ascii) :=
  match s with
  | EmptyString => None
  | String c r => match split_last r with
                  | None => Some (EmptyString, c)
                  | Some (a, b) => Some (String c a, b)
                  end
  end.

(** [char::to_digit(radix)] *)
Definition to_digit (radix : N) (c : ascii) : option N :=
  let n := N_of_ascii c in
  let v := if ((48 <=? n) && (n <=? 57))%N then Some (n - 48)%N
           else if ((97 <=? n) && (n <=? 122))%N then Some (n - 87)%N
           else if ((65 <=? n) && (n <=? 90))%N then Some (n - 55)%N
           else None in
  match v with
  | Some d => if (d <? radix)%N then Some d else None
  | None => None
  end.

(** Digits without a sign; [acc] is the value so far. *)
Fixpoint digits_value (radix : N) (s : string) (acc : N) : option N :=
  match s with
  | EmptyString => Some acc
  | String c r => match to_digit radix c with
                  | Some d => digits_value radix r (acc * radix + d)%N
                  | None => None
                  end
  end.

(** [iNN::from_str_radix] / [uNN::from_str_radix] / [parse]: optional sign
    ([-] only for signed types), at least one digit, no overflow.  The checked
    multiplication and addition of the standard library are replaced by one
    range test on the exact value. *)
Definition from_str_radix (radix : N) (signed : bool) (lo hi : Z) (s : string) : option Z :=
  let ranged z := if ((lo <=? z) && (z <=? hi))%Z then Some z else None in
  match s with
  | EmptyString => None
  | String c r =>
      if Ascii.eqb c "+"%char then
        match r with
        | EmptyString => None
        | _ => match digits_value radix r 0 with Some v => ranged (Z.of_N v) | None => None end
        end
      else if signed && Ascii.eqb c "-"%char then
        match r with
        | EmptyString => None
        | _ => match digits_value radix r 0 with Some v => ranged (- Z.of_N v)%Z | None => None end
        end
      else match digits_value radix s 0 with Some v => ranged (Z.of_N v) | None => None end
  end.

Definition i64_radix (radix : N) : string -> option Z :=
  from_str_radix radix true i64_min (Z.of_N i64_max).
Definition u32_radix (radix : N) : string -> option Z :=
  from_str_radix radix false 0 (Z.of_N u32_max).

Fixpoint contains_char (c : ascii) (s : string) : bool :=
  match s with
  | EmptyString => false
  | String d r => Ascii.eqb c d || contains_char c r
  end.

(** [serde_json::to_value] of an [i64] or [i32] *)
Definition json_of_i64 (z : Z) : json :=
  if (z <? 0)%Z then JNum (NNeg z) else JNum (NPos (Z.to_N z)).

(** [long_value as i32]: the low 32 bits, read as two's complement *)
Definition as_i32 (z : Z) : Z := ((z + 2147483648) mod 4294967296 - 2147483648)%Z.

(** src/reader.rs:3990-4012, the number after underscores and suffix are gone *)
Definition decode_i64 (number : string) : option Z :=
  if prefix "0x" number || prefix "0X" number then i64_radix 16 (str_drop 2 number)
  else if prefix "-" number && (prefix "-0x" number || prefix "-0X" number) then
    match i64_radix 16 (str_drop 3 number) with Some a => Some (- a)%Z | None => None end
  else if prefix "0" number && Nat.ltb 1 (String.length number) && negb (contains_char "." number) then
    i64_radix 8 number
  else if prefix "-0" number && Nat.ltb 2 (String.length number) && negb (contains_char "." number) then
    match i64_radix 8 (str_drop 1 number) with Some a => Some (- a)%Z | None => None end
  else i64_radix 10 number.

(** src/reader.rs:3977-4023 [parse_integer_literal]; [None] is [Err] *)
Definition parse_integer_literal (text : string) : option json :=
  let number := remove_char "_" text in
  let '(number, coerce_to_long) :=
    match split_last number with
    | Some (init, c) => if Ascii.eqb c "l" || Ascii.eqb c "L" then (init, true) else (number, false)
    | None => (number, false)
    end in
  match decode_i64 number with
  | None => None
  | Some long_value =>
      let int_value := as_i32 long_value in
      if coerce_to_long || negb (int_value =? long_value)%Z
      then Some (json_of_i64 long_value)
      else Some (json_of_i64 int_value)
  end.

Definition is_ascii_whitespace (c : ascii) : bool :=
  let n := N_of_ascii c in ((n =? 32) || (n =? 9) || (n =? 10) || (n =? 12) || (n =? 13))%N.

(** [trim_start_matches(is_ascii_whitespace)] *)
Fixpoint trim_start_ws (s : string) : string :=
  match s with
  | String c r => if is_ascii_whitespace c then trim_start_ws r else s
  | EmptyString => s
  end.

(** src/reader.rs:4160-4181 [parse_integer_as_u32]; [None] is [Err] *)
Definition parse_integer_as_u32 (text : string) : option N :=
  let number := remove_char "_" text in
  if prefix "-" (trim_start_ws number) then None
  else
    let v :=
      if prefix "0x" number || prefix "0X" number then u32_radix 16 (str_drop 2 number)
      else if prefix "0" number && Nat.ltb 1 (String.length number) then u32_radix 8 number
      else u32_radix 10 number in
    match v with Some z => Some (Z.to_N z) | None => None end.

(** ** String literals, as lists of code points *)

Section Chars.
Local Open Scope N_scope.

Definition c_backslash : N := 92.
Definition c_u : N := 117.

Definition is_octal_char (c : N) : bool := (48 <=? c) && (c <=? 55).

(** [char::to_digit(16)] on a code point *)
Definition hex_digit (c : N) : option N :=
  if (48 <=? c) && (c <=? 57) then Some (c - 48)
  else if (97 <=? c) && (c <=? 102) then Some (c - 87)
  else if (65 <=? c) && (c <=? 70) then Some (c - 55)
  else None.

Fixpoint hex_value (l : list N) (acc : N) : option N :=
  match l with
  | [] => Some acc
  | c :: r => match hex_digit c with Some d => hex_value r (acc * 16 + d) | None => None end
  end.

(** [u32::from_str_radix(&hex, 16)] on at most four characters: no overflow is
    possible; a leading [+] is accepted. *)
Definition hex_u32 (l : list N) : option N :=
  match l with
  | [] => None
  | c :: r =>
      if c =? 43 then match r with [] => None | _ => hex_value r 0 end
      else hex_value l 0
  end.

(** [char::from_u32] *)
Definition from_u32 (v : N) : option N :=
  if (1114112 <=? v) || ((55296 <=? v) && (v <=? 57343)) then None else Some v.

(** [while chars.peek() == Some(&'u') { chars.next(); }] *)
Fixpoint skip_u (l : list N) : list N :=
  match l with
  | c :: r => if c =? c_u then skip_u r else l
  | [] => []
  end.

(** Bytes of a [String] *)
Definition utf8_length (l : list N) : nat := length (flat_map utf8_encode_char l).

(** src/reader.rs:3931-3970 [try_parse_low_surrogate]: the low surrogate and
    the rest, or [None] with the iterator restored *)
Definition try_parse_low_surrogate (l : list N) : option (N * list N) :=
  match l with
  | b :: u :: r =>
      if (b =? c_backslash) && (u =? c_u) then
        let r := skip_u r in
        let hex := firstn 4 r in
        if Nat.eqb (utf8_length hex) 4 then
          match hex_u32 hex with
          | Some low => if (56320 <=? low) && (low <=? 57343) then Some (low, skipn 4 r) else None
          | None => None
          end
        else None
      else None
  | _ => None
  end.

(** One escape: what it pushes and what is left. [l] starts after the
    backslash. *)
Definition unescape_one (l : list N) : list N * list N :=
  match l with
  | [] => ([c_backslash], [])
  | c :: r =>
      if c =? 110 then ([10], r)
      else if c =? 114 then ([13], r)
      else if c =? 116 then ([9], r)
      else if c =? 98 then ([8], r)
      else if c =? 102 then ([12], r)
      else if c =? 92 then ([92], r)
      else if c =? 34 then ([34], r)
      else if c =? 39 then ([39], r)
      else if c =? c_u then
        let r := skip_u r in
        let hex := firstn 4 r in
        let r := skipn 4 r in
        let raw := c_backslash :: c_u :: hex in
        match hex_u32 hex with
        | Some cp =>
            if (55296 <=? cp) && (cp <=? 56319) then
              match try_parse_low_surrogate r with
              | Some (low, r') =>
                  match from_u32 ((cp - 55296) * 1024 + (low - 56320) + 65536) with
                  | Some ch => ([ch], r')
                  | None => (raw, r')
                  end
              | None => (raw, r)
              end
            else match from_u32 cp with
                 | Some ch => ([ch], r)
                 | None => (raw, r)
                 end
        | None => (raw, r)
        end
      else if is_octal_char c then
        match r with
        | d :: r1 =>
            if is_octal_char d then
              match r1 with
              | e :: r2 =>
                  if (c <=? 51) && is_octal_char e
                  then ([((c - 48) * 8 + (d - 48)) * 8 + (e - 48)], r2)
                  else ([(c - 48) * 8 + (d - 48)], r1)
              | [] => ([(c - 48) * 8 + (d - 48)], r1)
              end
            else ([c - 48], r)
        | [] => ([c - 48], r)
        end
      else ([c_backslash; c], r)
  end.

(** src/reader.rs:3821-3920 [unescape_java].  An octal value is at most 255, so
    its error branches cannot be reached and are left out.  Every step consumes
    a character, so the length is enough fuel. *)
Fixpoint unescape_loop (fuel : nat) (l : list N) : list N :=
  match fuel with
  | O => []
  | S fuel =>
      match l with
      | [] => []
      | c :: r =>
          if c =? c_backslash then
            let (out, r') := unescape_one r in out ++ unescape_loop fuel r'
          else c :: unescape_loop fuel r
      end
  end.
Definition unescape_java (l : list N) : list N := unescape_loop (S (length l)) l.
End Chars.

(** [&raw[1..raw.len() - 1]] *)
Definition strip_quotes (raw : string) : string := substring 1 (String.length raw - 2) raw.

(** src/reader.rs:3811-3818 [get_string_from_literal] *)
Definition get_string_from_literal (raw : string) : string :=
  if Nat.ltb (String.length raw) 2 then raw
  else of_chars (unescape_java (chars (strip_quotes raw))).

(** src/reader.rs:3802-3807 [identifier_text] *)
Definition identifier_text (text : string) : string := remove_char "`" text.
