(** Model of the parser of floating point literals in src/reader.rs, which the
    rest of the model leaves open as [Floats]. *)
From Verif Require Export Literals Reader.

(** ** [f64]: IEEE 754 binary64 *)
Local Open Scope Z_scope.

(** The integer nearest to [n / d]; the even one of two *)
Definition div_nearest (n d : Z) : Z :=
  let q := n / d in
  match 2 * (n mod d) ?= d with
  | Lt => q
  | Gt => q + 1
  | Eq => if Z.even q then q else q + 1
  end.

(** The result of an operation whose exact result is [n / d], [d > 0]: rounding to
    nearest, ties to even.  Finite numbers are [m * 2^(s - 1074)] with [m < 2^53]
    and [s <= 2045].  Simplified: the sign of a zero is lost. *)
Definition round_f64 (n d : Z) : f64_value :=
  let a := Z.abs n * 2 ^ 1074 in
  let s := Z.max 0 (Z.log2 (a / d) - 52) in
  let m := div_nearest a (d * 2 ^ s) in
  let (m, s) := if m =? 2 ^ 53 then (2 ^ 52, s + 1) else (m, s) in
  if 2045 <? s then FInfinite (n <? 0)
  else if m =? 0 then FFinite 0 0
  else FFinite (Z.sgn n * m) (s - 1074).

(** [v * base^k], rounded *)
Definition round_scaled (v base k : Z) : f64_value := round_f64 (v * base ^ Z.max 0 k) (base ^ Z.max 0 (- k)).

(** [x * y], [x + y], [x / 16.0], [n as f64] *)
Definition f64_negative (x : f64_value) : bool :=
  match x with FFinite m _ => m <? 0 | FInfinite b => b | FNan => false end.
Definition f64_zero (x : f64_value) : bool := match x with FFinite m _ => m =? 0 | _ => false end.
Definition f64_mul (x y : f64_value) : f64_value :=
  match x, y with
  | FNan, _ | _, FNan => FNan
  | FFinite m e, FFinite m' e' => round_scaled (m * m') 2 (e + e')
  | _, _ => if f64_zero x || f64_zero y then FNan else FInfinite (xorb (f64_negative x) (f64_negative y))
  end.
Definition f64_add (x y : f64_value) : f64_value :=
  match x, y with
  | FNan, _ | _, FNan => FNan
  | FInfinite b, FInfinite b' => if Bool.eqb b b' then FInfinite b else FNan
  | FInfinite b, _ | _, FInfinite b => FInfinite b
  | FFinite m e, FFinite m' e' =>
      let low := Z.min e e' in
      round_scaled (m * 2 ^ (e - low) + m' * 2 ^ (e' - low)) 2 low
  end.
Definition f64_of_int (n : Z) : f64_value := round_f64 n 1.
Definition f64_div16 (x : f64_value) : f64_value :=
  match x with FFinite m e => round_scaled m 2 (e - 4) | _ => x end.

(** [2.0_f64.powi(e)], whose precision the standard library does not specify: it
    is taken to be exact where the power is a normal number. *)
Class Powers := {
  power_of_two : Z -> f64_value;
  power_exact : forall e, -1022 <= e <= 1023 -> power_of_two e = round_scaled 1 2 e
}.

(** ** Texts *)

(** [str::split_once] with a set of characters *)
Fixpoint split_once (p : ascii -> bool) (s : string) : option (string * string) :=
  match s with
  | EmptyString => None
  | String c r =>
      if p c then Some (EmptyString, r)
      else match split_once p r with Some (a, b) => Some (String c a, b) | None => None end
  end.

(** [u64::from_str_radix(_, 16)], [i32::from_str] *)
Definition u64_hex : string -> option Z := from_str_radix 16 false 0 (Z.of_N u64_max).
Definition i32_decimal : string -> option Z := from_str_radix 10 true i32_min i32_max.

(** src/reader.rs:4140-4147, the loop over the digits behind the point *)
Fixpoint hex_fraction (s : string) (frac_val place : f64_value) : option f64_value :=
  match s with
  | EmptyString => Some frac_val
  | String c r =>
      match to_digit 16 c with
      | None => None
      | Some d => hex_fraction r (f64_add frac_val (f64_mul (f64_of_int (Z.of_N d)) place)) (f64_div16 place)
      end
  end.

(** src/reader.rs:4125-4154, the mantissa *)
Definition hex_mantissa (mantissa_str : string) : option f64_value :=
  match split_once (Ascii.eqb ".") mantissa_str with
  | Some (int_part, frac_part) =>
      let int_val := match int_part with
                     | EmptyString => Some (FFinite 0 0)
                     | _ => option_map f64_of_int (u64_hex int_part)
                     end in
      match int_val, hex_fraction frac_part (FFinite 0 0) (f64_div16 (f64_of_int 1)) with
      | Some i, Some f => Some (f64_add i f)
      | _, _ => None
      end
  | None => option_map f64_of_int (u64_hex mantissa_str)
  end.

(** src/reader.rs:4112-4157 [parse_hex_float_mantissa_and_exponent] *)
Definition parse_hex_float `{Powers} (hex_body : string) : option f64_value :=
  match split_once (fun c => Ascii.eqb c "p" || Ascii.eqb c "P") hex_body with
  | None => None
  | Some (mantissa_str, exp_str) =>
      match i32_decimal exp_str, hex_mantissa mantissa_str with
      | Some exponent, Some mantissa => Some (f64_mul mantissa (power_of_two exponent))
      | _, _ => None
      end
  end.

(** Decimal digits at the start *)
Fixpoint take_digits (s : string) : string * string :=
  match s with
  | String c r =>
      match to_digit 10 c with
      | Some _ => let (a, b) := take_digits r in (String c a, b)
      | None => (EmptyString, s)
      end
  | EmptyString => (EmptyString, EmptyString)
  end.

(** The exponent of [f64::from_str], if there is one *)
Definition decimal_exponent (s : string) : option Z :=
  match s with
  | EmptyString => Some 0
  | String c r =>
      if Ascii.eqb c "e" || Ascii.eqb c "E" then
        let (negative, digits) := match r with
                                  | String "-" t => (true, t)
                                  | String "+" t => (false, t)
                                  | _ => (false, r)
                                  end in
        match digits with
        | EmptyString => None
        | _ => option_map (fun v => if negative : bool then - Z.of_N v else Z.of_N v) (digits_value 10 digits 0)
        end
      else None
  end.

Fixpoint eq_ignore_case (a b : string) : bool :=
  match a, b with
  | EmptyString, EmptyString => true
  | String c a, String d b =>
      let lower x := if ((65 <=? N_of_ascii x) && (N_of_ascii x <=? 90))%N then (N_of_ascii x + 32)%N else N_of_ascii x in
      (lower c =? lower d)%N && eq_ignore_case a b
  | _, _ => false
  end.

(** [f64::from_str]: digits with a point among them or not, an exponent, or one of
    the words for infinity and NaN.  The number is rounded once. *)
Definition f64_from_str (s : string) : option f64_value :=
  let (negative, unsigned) := match s with
                              | String "-" t => (true, t)
                              | String "+" t => (false, t)
                              | _ => (false, s)
                              end in
  if eq_ignore_case unsigned "nan" then Some FNan
  else if eq_ignore_case unsigned "inf" || eq_ignore_case unsigned "infinity" then Some (FInfinite negative)
  else
    let (int_digits, r) := take_digits unsigned in
    let (frac_digits, r) := match r with
                            | String "." t => take_digits t
                            | _ => (EmptyString, r)
                            end in
    match (int_digits ++ frac_digits)%string with
    | EmptyString => None
    | digits =>
        match digits_value 10 digits 0, decimal_exponent r with
        | Some v, Some x =>
            Some (round_scaled (if negative then - Z.of_N v else Z.of_N v) 10 (x - Z.of_nat (String.length frac_digits)))
        | _, _ => None
        end
    end.

(** src/reader.rs:4073-4099, the rest of [parse_float_text] *)
Definition float_of_text `{Powers} (text : string) : option f64_value :=
  let number := match split_last text with
                | Some (rest, c) =>
                    if Ascii.eqb c "f" || Ascii.eqb c "F" || Ascii.eqb c "d" || Ascii.eqb c "D" then rest else text
                | None => text
                end in
  let (sign, unsigned) := match number with
                          | String "-" rest => (-1, rest)
                          | String "+" rest => (1, rest)
                          | _ => (1, number)
                          end in
  if prefix "0x" unsigned || prefix "0X" unsigned then
    option_map (f64_mul (f64_of_int sign)) (parse_hex_float (str_drop 2 unsigned))
  else f64_from_str number.

#[export] Instance float_texts `{Powers} : Floats := {| finite_float := float_of_text |}.
