(** Which sizes are refused, and why *)
From Verif Require Export SpecLiterals Sizes.

(** Numbers up to 4294967295 are sizes; what is wrong with another literal *)
Inductive size_verdict : string -> result N size_error -> Prop :=
| sv_fits m v : magnitude m v -> (v <= 4294967295)%N -> size_verdict m (Ok v)
| sv_large m v suf : magnitude m v -> suffix suf -> (4294967295 < v)%N -> size_verdict (m ++ suf) (Err SizeTooLarge)
| sv_suffix m v suf : magnitude m v -> In suf ["l"; "L"] -> (v <= 4294967295)%N -> size_verdict (m ++ suf) (Err SizeNotDigits)
| sv_negative m v suf : magnitude m v -> suffix suf -> size_verdict (String "-" (m ++ suf)) (Err SizeNegative).
