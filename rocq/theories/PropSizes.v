(** C76: a size, precision or scale that is refused is refused for the right
    reason: it is negative, or too large, or has a suffix. *)
From Coq Require Import NArith Lia.
From Verif Require Import SpecSizes SizeProofs.
From Verif Require Import Compile IdlParser SpecRewrite SpecPlaces SpecBlame SampleFile SampleWorld PropSource PropLayout PropDefects PropPlaces PropBlame.
From Verif Require JsonTextProofs.

Theorem C76_verdict text r : size_verdict text r -> parse_size text = r.
Proof. exact (verdict_right text r). Qed.
(** Every integer literal has a verdict, and only one. *)
Theorem C76_total text z : int_literal text z -> exists! r, size_verdict text r.
Proof.
  intro L. destruct (verdict_total text z L) as (r & V). exists r. split; [exact V|]. intros r' V'. apply verdict_right in V, V'. congruence.
Qed.
(** It is what the reader goes by. *)
Theorem C76_reader text n : parse_integer_as_u32 text = Some n <-> parse_size text = Ok n.
Proof. exact (size_is_u32 text n). Qed.
Print Assumptions C76_verdict.
Print Assumptions C76_total.
Print Assumptions C76_reader.

Section Texts.
  Context `{Unicode} `{Floats} `{LexerMessages}.
  Existing Instance text_parser.
  (** A file that is refused for the size of a fixed type has, at the place of
      the error, an integer that is no size, for the reason given. *)
  Theorem C76_reported f text p : utf8 text -> parse_idl f text = Err (WalkError BadFixedSize p) ->
    exists word why, says f text p word /\ size_verdict word (Err why) /\ parse_size word = Err why.
  Proof.
    intros U E. apply (C66_word f text _ p U) in E as (word & S & B). inversion B as [| | | | | | | | | | | | | | | | | |raw why V| | |]; subst.
    exists word, why. auto using verdict_right.
  Qed.
  Theorem C76_precision f text p : utf8 text -> parse_idl f text = Err (WalkError BadPrecision p) ->
    exists word r, says f text p word /\ size_verdict word r /\ parse_size word = r /\ (r = Ok 0%N \/ exists why, r = Err why).
  Proof.
    intros U E. apply (C66_word f text _ p U) in E as (word & S & B). inversion B as [| | | | | | | | | | |raw r V N| | | | | | | | | |]; subst.
    exists word, r. split; [exact S|]. split; [exact V|]. split; [now apply verdict_right|]. destruct r as [n|why]; [left; now rewrite (N n eq_refl)|eauto].
  Qed.
  Theorem C76_scale f text p : utf8 text -> parse_idl f text = Err (WalkError BadScale p) ->
    exists word r, says f text p word /\ size_verdict word r /\ parse_size word = r /\ r <> Ok 0%N.
  Proof.
    intros U E. apply (C66_word f text _ p U) in E as (word & S & B). inversion B as [| | | | | | | | | | | |raw r V N| | | | | | | | |]; subst.
    exists word, r. auto using verdict_right.
  Qed.
End Texts.
Print Assumptions C76_reported.
Print Assumptions C76_precision.
Print Assumptions C76_scale.

(** ** Samples *)
Example C76_sample : map parse_size ["16"; "0x10"; "017"; "4294967295"; "4294967296"; "0xFFFFFFFFF"; "16L"; "-5"; "0"; "00"; "99999999999L"]
  = [Ok 16; Ok 16; Ok 15; Ok 4294967295; Err SizeTooLarge; Err SizeTooLarge; Err SizeNotDigits; Err SizeNegative; Ok 0; Ok 0; Err SizeTooLarge]%N.
Proof. vm_compute. reflexivity. Qed.
Example C76_sample_verdict : size_verdict "017" (Ok 15%N) /\ size_verdict "4294967296" (Err SizeTooLarge) /\ size_verdict "16L" (Err SizeNotDigits) /\ size_verdict "-5" (Err SizeNegative).
Proof.
  repeat split.
  - apply sv_fits; [|lia]. apply mag_oct. apply (spells_read 8 "1" "7" 15 1); [lia|reflexivity|reflexivity].
  - apply (sv_large "4294967296" 4294967296 ""); [|now left|lia]. apply mag_dec, dm_dec; [discriminate|]. apply (spells_read 10 "4" "294967296" _ 4); [lia|reflexivity|vm_compute; reflexivity].
  - apply (sv_suffix "16" 16 "L"); [|right; now left|lia]. apply mag_dec, dm_dec; [discriminate|]. apply (spells_read 10 "1" "6" _ 1); [lia|reflexivity|reflexivity].
  - apply (sv_negative "5" 5 ""); [|now left]. apply mag_dec, dm_dec; [discriminate|]. apply (spells_read 10 "5" "" _ 5); [lia|reflexivity|reflexivity].
Qed.
Example C76_sample_message : size_message "16L" SizeNotDigits = "invalid integer `16L`: contains non-digit characters"%string.
Proof. reflexivity. Qed.
Section Examples.
  Existing Instance ascii_chars. Existing Instance few_floats. Existing Instance the_text_parser.
  Example C76_sample_reported : map (fun text => match parse_idl "t" text with Err (WalkError e p) => Some (e, substring (N.to_nat (sp_offset p)) 3 text) | _ => None end)
    ["protocol P { fixed F(16L); }"; "schema decimal(-5);"; "schema decimal(0);"; "schema decimal(3, 5l);"]%string
    = [Some (BadFixedSize, "16L"); Some (BadPrecision, "-5)"); Some (BadPrecision, "0);"); Some (BadScale, "5l)")]%string.
  Proof. vm_compute. reflexivity. Qed.
End Examples.
