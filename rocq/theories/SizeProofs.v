(** Why a size is refused *)
From Verif Require Export SpecSizes.
From Verif Require Import LiteralsProofs.
From Coq Require Import Lia.

Lemma checked_app radix max a : forall b acc,
  checked_digits radix max (a ++ b) acc = match checked_digits radix max a acc with Ok v => checked_digits radix max b v | Err e => Err e end.
Proof.
  induction a as [|c a IH]; intros b acc; [reflexivity|]. cbn. destruct (to_digit radix c) as [d|]; [|reflexivity].
  destruct (max <? acc * radix)%N; [reflexivity|]. destruct (max <? acc * radix + d)%N; [reflexivity|]. apply IH.
Qed.
Lemma digits_grow radix s : (0 < radix)%N -> forall acc v, digits_value radix s acc = Some v -> (acc <= v)%N.
Proof.
  intro Hr. induction s as [|c s IH]; intros acc v E; cbn in E; [injection E as <-; lia|]. destruct (to_digit radix c) as [d|]; [|discriminate].
  apply IH in E. nia.
Qed.
Lemma checked_value radix max s : (0 < radix)%N -> forall acc v, digits_value radix s acc = Some v -> (acc <= max)%N ->
  checked_digits radix max s acc = if (v <=? max)%N then Ok v else Err KindPosOverflow.
Proof.
  intro Hr. induction s as [|c s IH]; intros acc v E Ha; cbn in *.
  - injection E as <-. destruct (N.leb_spec acc max); [reflexivity|lia].
  - destruct (to_digit radix c) as [d|]; [|discriminate]. pose proof (digits_grow _ _ Hr _ _ E) as Hg.
    destruct (N.ltb_spec max (acc * radix)).
    { destruct (N.leb_spec v max); [lia|reflexivity]. }
    destruct (N.ltb_spec max (acc * radix + d)).
    { destruct (N.leb_spec v max); [lia|reflexivity]. }
    now apply IH.
Qed.
Lemma checked_bad radix max s : forall acc, digits_value radix s acc = None -> exists e, checked_digits radix max s acc = Err e.
Proof.
  induction s as [|c s IH]; intros acc E; cbn in *; [discriminate|]. destruct (to_digit radix c) as [d|]; [|eauto].
  destruct (max <? acc * radix)%N; [eauto|]. destruct (max <? acc * radix + d)%N; [eauto|]. now apply IH.
Qed.
Lemma ranged_u32 v : ranged 0 (Z.of_N u32_max) (Z.of_N v) = if (v <=? u32_max)%N then Some (Z.of_N v) else None.
Proof.
  destruct (N.leb_spec v u32_max); [apply ranged_in|apply ranged_out]; lia.
Qed.

(** The loop agrees with the test on the exact value. *)
Lemma checked_radix radix s : (0 < radix <= 36)%N ->
  u32_radix radix s = match checked_u32 radix s with Ok n => Some (Z.of_N n) | Err _ => None end.
Proof.
  intro Hr. assert (G : forall t, match digits_value radix t 0 with Some v => ranged 0 (Z.of_N u32_max) (Z.of_N v) | None => None end
    = match checked_digits radix u32_max t 0 with Ok n => Some (Z.of_N n) | Err _ => None end).
  { intro t. destruct (digits_value radix t 0) as [v|] eqn:E.
    - rewrite (checked_value radix u32_max t ltac:(lia) 0 v E ltac:(unfold u32_max; lia)), ranged_u32. now destruct (v <=? u32_max)%N.
    - destruct (checked_bad radix u32_max t 0 E) as (e & ->). reflexivity. }
  unfold u32_radix, from_str_radix, checked_u32. destruct s as [|c r]; [reflexivity|]. cbn [andb].
  destruct r as [|c' r].
  - destruct (Ascii.eqb_spec c "+"); [subst; reflexivity|]. cbn [orb]. destruct (Ascii.eqb_spec c "-").
    + subst. unfold ranged in G. cbn [digits_value]. assert (to_digit radix "-" = None) as -> by reflexivity. reflexivity.
    + exact (G (String c "")).
  - destruct (Ascii.eqb c "+"); exact (G _).
Qed.

Lemma size_is_u32 text n : parse_integer_as_u32 text = Some n <-> parse_size text = Ok n.
Proof.
  unfold parse_integer_as_u32, parse_size. cbv zeta. set (number := remove_char "_" text).
  destruct (prefix "-" (trim_start_ws number)); [split; discriminate|].
  assert (K : forall radix s, (0 < radix <= 36)%N ->
    match u32_radix radix s with Some z => Some (Z.to_N z) | None => None end = Some n
    <-> match checked_u32 radix s with Ok n => Ok n | Err k => Err (friendly_int_error k) end = Ok n).
  { intros radix s Hr. rewrite (checked_radix radix s Hr). destruct (checked_u32 radix s) as [v|]; [|split; discriminate]. rewrite N2Z.id. split; congruence. }
  destruct (prefix "0x" number || prefix "0X" number); [apply K; lia|].
  destruct (prefix "0" number && Nat.ltb 1 (String.length number)); apply K; lia.
Qed.

Lemma checked_spells base s v suf : (0 < base <= 16)%N -> spells base s v -> suffix suf ->
  checked_u32 base (s ++ suf) = if (v <=? u32_max)%N then (if String.eqb suf "" then Ok v else Err KindInvalidDigit) else Err KindPosOverflow.
Proof.
  intros Hb Hs Hsuf. pose proof (spells_nonempty _ _ _ Hs) as Hne. pose proof (spells_value _ _ _ Hs) as Hv. pose proof (spells_chars _ _ _ Hs) as Hc.
  assert (E : checked_u32 base (s ++ suf) = checked_digits base u32_max (s ++ suf) 0).
  { destruct s as [|c s]; [congruence|]. cbn [str_all] in Hc. apply andb_true_iff, proj1 in Hc. unfold checked_u32. cbn [append].
    rewrite (lit_char_plus _ Hc), (lit_char_minus _ Hc). cbn [orb]. now destruct (s ++ suf)%string. }
  rewrite E, checked_app, (checked_value base u32_max s ltac:(lia) 0 v Hv ltac:(unfold u32_max; lia)).
  destruct (v <=? u32_max)%N; [|reflexivity].
  destruct Hsuf as [<-|[<-|[<-|[]]]]; [reflexivity| |]; cbn [checked_digits String.eqb Ascii.eqb Bool.eqb].
  - assert (to_digit base "l" = None) as ->; [|reflexivity]. unfold to_digit. cbn. destruct (N.ltb_spec 21 base); [lia|reflexivity].
  - assert (to_digit base "L" = None) as ->; [|reflexivity]. unfold to_digit. cbn. destruct (N.ltb_spec 21 base); [lia|reflexivity].
Qed.

Lemma size_positive m v suf : magnitude m v -> suffix suf ->
  parse_size (m ++ suf) = if (v <=? u32_max)%N then (if String.eqb suf "" then Ok v else Err SizeNotDigits) else Err SizeTooLarge.
Proof.
  intros Hm Hsuf. pose proof (magnitude_chars _ _ Hm) as Hall. unfold parse_size.
  assert (Hu : str_all (fun c => negb (Ascii.eqb "_" c)) (m ++ suf) = true).
  { rewrite str_all_app. apply andb_true_iff. split; [eapply str_all_impl; [apply lit_char_us|exact Hall]|]. destruct Hsuf as [<-|[<-|[<-|[]]]]; reflexivity. }
  rewrite remove_char_all by exact Hu.
  assert (Hne : m <> EmptyString) by (destruct Hm as [? ? [|]| |]; discriminate).
  assert (En : prefix "-" (trim_start_ws (m ++ suf)) = false).
  { destruct m as [|c m]; [congruence|]. cbn [str_all] in Hall. apply andb_true_iff, proj1 in Hall.
    cbn [trim_start_ws append]. rewrite (lit_char_ws _ Hall), prefix_cons, Ascii.eqb_sym, (lit_char_minus _ Hall). reflexivity. }
  rewrite En.
  assert (K : forall base s, (0 < base <= 16)%N -> spells base s v ->
    match checked_u32 base (s ++ suf) with Ok n => Ok n | Err k => Err (friendly_int_error k) end
    = if (v <=? u32_max)%N then (if String.eqb suf "" then Ok v else Err SizeNotDigits) else Err SizeTooLarge).
  { intros base s Hb Hs. rewrite (checked_spells base s v suf Hb Hs Hsuf). destruct (v <=? u32_max)%N; [|reflexivity]. now destruct (String.eqb suf ""). }
  destruct Hm as [s v Hd|x s v Hx Hs|s v Hs].
  - destruct Hd as [|c t v Hc Hs].
    + destruct Hsuf as [<-|[<-|[<-|[]]]]; reflexivity.
    + assert (E0 : Ascii.eqb "0" c = false) by (destruct (Ascii.eqb_spec "0" c); congruence).
      cbn [append]. rewrite !prefix_cons, E0. cbn [orb andb]. exact (K 10%N (String c t) ltac:(lia) Hs).
  - assert (E : forall z, prefix "0x" (String "0" (String x z)) || prefix "0X" (String "0" (String x z)) = true)
      by (intro z; destruct Hx as [<-|[<-|[]]]; destruct z; reflexivity).
    cbn [append]. rewrite E. cbn [str_drop]. exact (K 16%N s ltac:(lia) Hs).
  - destruct (spells_octal_digits _ _ Hs) as (c & s' & Es & N1 & N2).
    assert (E : prefix "0x" (String "0" (s ++ suf)) = false /\ prefix "0X" (String "0" (s ++ suf)) = false).
    { rewrite Es. cbn [append]. rewrite !prefix_cons, Ascii.eqb_refl.
      destruct (Ascii.eqb_spec "x" c); [congruence|]. destruct (Ascii.eqb_spec "X" c); [congruence|]. now split. }
    cbn [append]. destruct E as [-> ->]. rewrite !prefix_cons. cbn [Ascii.eqb Bool.eqb orb andb]. rewrite prefix_nil.
    assert (El : Nat.ltb 1 (String.length (String "0" (s ++ suf))) = true) by (rewrite Es; reflexivity).
    rewrite El. cbn [andb]. change (String "0" (s ++ suf)) with (String "0" s ++ suf)%string. apply K; [lia|]. apply spells_zero; [reflexivity|exact Hs].
Qed.
Lemma size_negative m v suf : magnitude m v -> suffix suf -> parse_size (String "-" (m ++ suf)) = Err SizeNegative.
Proof. intros _ _. unfold parse_size. assert (remove_char "_" (String "-" (m ++ suf)) = String "-" (remove_char "_" (m ++ suf))) as -> by reflexivity. cbv zeta. set (r := remove_char _ _). assert (trim_start_ws (String "-" r) = String "-" r) as -> by reflexivity. rewrite prefix_cons. cbn [Ascii.eqb Bool.eqb]. now rewrite prefix_nil. Qed.
Lemma app_empty s : (s ++ "")%string = s.
Proof. induction s; cbn; congruence. Qed.
Lemma verdict_right text r : size_verdict text r -> parse_size text = r.
Proof.
  destruct 1 as [m v Hm Hv|m v suf Hm Hs Hv|m v suf Hm Hs Hv|m v suf Hm Hs].
  - pose proof (size_positive m v "" Hm (or_introl eq_refl)) as G. rewrite app_empty in G. rewrite G. unfold u32_max. destruct (N.leb_spec v 4294967295); [reflexivity|lia].
  - rewrite (size_positive m v suf Hm Hs). unfold u32_max. destruct (N.leb_spec v 4294967295); [lia|reflexivity].
  - rewrite (size_positive m v suf Hm (or_intror Hs)). unfold u32_max. destruct (N.leb_spec v 4294967295); [|lia]. destruct Hs as [<-|[<-|[]]]; reflexivity.
  - exact (size_negative m v suf Hm Hs).
Qed.
Lemma verdict_total text z : int_literal text z -> exists r, size_verdict text r.
Proof.
  destruct 1 as [m v suf Hm Hs|m v suf Hm Hs]; [|eexists; eapply sv_negative; eauto].
  destruct (N.leb_spec v 4294967295); [|eexists; eapply sv_large; eauto].
  destruct Hs as [<-|Hs]; [rewrite app_empty; eexists; eapply sv_fits; eauto|eexists; eapply sv_suffix; eauto].
Qed.

(** Reading digits, for the samples *)
Lemma digit_of base c d : (base <= 16)%N -> to_digit base c = Some d -> digit base c d.
Proof.
  intros Hb E. assert (Hd : (d < base)%N).
  { unfold to_digit in E. repeat match goal with E : match ?x with _ => _ end = _ |- _ => destruct x eqn:? | E : (if ?x then _ else _) = _ |- _ => destruct x eqn:? end; try discriminate; injection E as <-; now apply N.ltb_lt. }
  split; [|exact Hd]. assert (E16 : to_digit 16 c = Some d).
  { unfold to_digit in *. repeat match goal with E : match ?x with _ => _ end = _ |- _ => destruct x eqn:? | E : (if ?x then _ else _) = _ |- _ => destruct x eqn:? end; try discriminate; injection E as <-; (rewrite (proj2 (N.ltb_lt _ _)) by lia; reflexivity). }
  revert E16. clear. destruct c as [[] [] [] [] [] [] [] []]; vm_compute; intro E; try discriminate E; injection E as <-; tauto.
Qed.
Lemma spells_from base s : (base <= 16)%N -> forall a va v, spells base a va -> digits_value base s va = Some v -> spells base (a ++ s) v.
Proof.
  intro Hb. induction s as [|c s IH]; intros a va v Ha E; cbn in E; [injection E as <-; now rewrite app_empty|].
  destruct (to_digit base c) as [d|] eqn:Ed; [|discriminate]. apply digit_of in Ed; [|exact Hb].
  replace (a ++ String c s)%string with ((a ++ String c "") ++ s)%string by (clear; induction a; cbn; congruence).
  eapply IH; [|exact E]. now constructor.
Qed.
Lemma spells_read base c s v d : (base <= 16)%N -> to_digit base c = Some d -> digits_value base s d = Some v -> spells base (String c s) v.
Proof. intros Hb Ed E. apply (spells_from base s Hb (String c "") d v); [constructor; now apply digit_of|exact E]. Qed.
