(** Why the size of a fixed type, or a precision or scale, is refused. *)
From Verif Require Export Literals.

(** [std::num::IntErrorKind], as far as unsigned numbers go *)
Inductive int_error_kind := KindEmpty | KindInvalidDigit | KindPosOverflow.

(** The loop of [u32::from_str_radix]: multiplication and addition are checked
    at every digit, the digit before the multiplication.  The standard library
    leaves out the checks for texts too short to overflow; the result is the
    same. *)
Fixpoint checked_digits (radix max : N) (s : string) (acc : N) : result N int_error_kind :=
  match s with
  | EmptyString => Ok acc
  | String c r =>
      match to_digit radix c with
      | None => Err KindInvalidDigit
      | Some d =>
          if (max <? acc * radix)%N then Err KindPosOverflow
          else if (max <? acc * radix + d)%N then Err KindPosOverflow
          else checked_digits radix max r (acc * radix + d)%N
      end
  end.

(** [u32::from_str_radix] and [str::parse::<u32>] *)
Definition checked_u32 (radix : N) (s : string) : result N int_error_kind :=
  match s with
  | EmptyString => Err KindEmpty
  | String c r =>
      match r with
      | EmptyString => if Ascii.eqb c "+" || Ascii.eqb c "-" then Err KindInvalidDigit else checked_digits radix u32_max s 0
      | _ => if Ascii.eqb c "+" then checked_digits radix u32_max r 0 else checked_digits radix u32_max s 0
      end
  end.

(** The messages of src/reader.rs:4160-4204 *)
Inductive size_error := SizeNegative | SizeTooLarge | SizeNotDigits | SizeEmpty.

(** src/reader.rs:4185-4204 [friendly_int_error] *)
Definition friendly_int_error (k : int_error_kind) : size_error :=
  match k with
  | KindPosOverflow => SizeTooLarge
  | KindInvalidDigit => SizeNotDigits
  | KindEmpty => SizeEmpty
  end.

(** src/reader.rs:4160-4181 [parse_integer_as_u32], with its errors *)
Definition parse_size (text : string) : result N size_error :=
  let number := remove_char "_" text in
  if prefix "-" (trim_start_ws number) then Err SizeNegative
  else
    let r :=
      if prefix "0x" number || prefix "0X" number then checked_u32 16 (str_drop 2 number)
      else if prefix "0" number && Nat.ltb 1 (String.length number) then checked_u32 8 number
      else checked_u32 10 number in
    match r with Ok n => Ok n | Err k => Err (friendly_int_error k) end.

(** src/reader.rs:4167-4171, 4185-4204: the text of the error *)
Definition size_message (text : string) (e : size_error) : string :=
  match e with
  | SizeNegative => "value must be a non-negative integer, got `" ++ text ++ "`"
  | SizeTooLarge => "integer `" ++ text ++ "` is too large (maximum is 4294967295)"
  | SizeNotDigits => "invalid integer `" ++ text ++ "`: contains non-digit characters"
  | SizeEmpty => "expected an integer, got an empty value"
  end%string.
