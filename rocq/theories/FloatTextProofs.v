(** Proofs about the texts of floating point literals. *)
From Coq Require Import ZArith Lia.
From Verif Require Import FloatText SpecFloatText LiteralsProofs BaseProofs FloatProofs.

Lemma str_assoc a b c : ((a ++ b) ++ c)%string = (a ++ b ++ c)%string.
Proof. induction a as [|x a IH]; cbn; [reflexivity|now rewrite IH]. Qed.
Lemma str_length_app a b : String.length (a ++ b) = (String.length a + String.length b)%nat.
Proof. induction a as [|x a IH]; cbn; [reflexivity|now rewrite IH]. Qed.

(** ** Digits *)
Lemma digits_value_app base s t a : digits_value base (s ++ t)%string a =
  match digits_value base s a with Some x => digits_value base t x | None => None end.
Proof. revert a. induction s as [|c s IH]; intro a; cbn; [reflexivity|]. destruct (to_digit base c); [apply IH|reflexivity]. Qed.

Lemma to_digit_lt base c d : to_digit base c = Some d -> (d < base)%N.
Proof.
  unfold to_digit. intro E.
  match type of E with match ?v with _ => _ end = _ => destruct v as [x|]; [|discriminate] end.
  destruct (x <? base)%N eqn:L; [|discriminate]. injection E as <-. now apply N.ltb_lt.
Qed.
Lemma to_digit_digit base c d : (base <= 16)%N -> to_digit base c = Some d -> digit base c d.
Proof.
  intros B E. split; [|now apply (to_digit_lt base c)]. pose proof (to_digit_lt base c d E) as L. revert E. unfold to_digit.
  match goal with |- match ?v with _ => _ end = _ -> _ => destruct v as [x|] eqn:V; [|discriminate] end.
  destruct (x <? base)%N eqn:L'; [|discriminate]. intro E. injection E as ->.
  assert (D16 : (d < 16)%N) by lia. clear L' L B base. revert V D16.
  destruct c as [[|] [|] [|] [|] [|] [|] [|] [|]]; vm_compute; intros V D16; try discriminate V; injection V as <-; try discriminate D16; tauto.
Qed.

Lemma digits_value_acc base s : forall a v, digits_value base s a = Some v ->
  exists w, digits_value base s 0 = Some w /\ (v = a * base ^ N.of_nat (String.length s) + w)%N.
Proof.
  induction s as [|c s IH]; intros a v E; cbn [digits_value] in *.
  - injection E as <-. exists 0%N. split; [reflexivity|]. cbn [String.length N.of_nat]. rewrite N.pow_0_r. lia.
  - destruct (to_digit base c) as [d|]; [|discriminate]. destruct (IH _ _ E) as (w & Ew & Ev).
    assert (E0 : exists v0, digits_value base s (0 * base + d) = Some v0).
    { clear -Ew. revert Ew. generalize 0%N at 1. generalize (0 * base + d)%N. revert w. induction s as [|x s IH]; intros w a b E; cbn in *; [eauto|]. destruct (to_digit base x); [eapply IH; exact E|discriminate]. }
    destruct E0 as (v0 & E0). rewrite E0. exists v0. split; [reflexivity|]. destruct (IH _ _ E0) as (w' & Ew' & Ev0). rewrite Ew in Ew'. injection Ew' as <-.
    cbn [String.length]. rewrite Nat2N.inj_succ, N.pow_succ_r'. subst v v0. lia.
Qed.
Lemma digits_value_first base c s a v : digits_value base (String c s) a = Some v -> exists d, to_digit base c = Some d.
Proof. cbn. destruct (to_digit base c) as [d|]; [eauto|discriminate]. Qed.

Lemma spells_digits base s v : (base <= 16)%N -> spells base s v <-> s <> EmptyString /\ digits_value base s 0 = Some v.
Proof.
  intro B. split.
  - intro H. split; [now apply (spells_nonempty base s v)|now apply spells_value].
  - intros [Ne E]. destruct (split_last s) as [[a c]|] eqn:L.
    2: { destruct s as [|x s]; [now destruct Ne|]. cbn in L. destruct (split_last s) as [[? ?]|]; discriminate. }
    assert (Es : s = (a ++ String c "")%string). { clear -L. revert a c L. induction s as [|x s IH]; intros a c L; cbn in L; [discriminate|]. destruct (split_last s) as [[a' c']|] eqn:E; injection L as <- <-; [cbn; f_equal; now apply IH|]. destruct s as [|y s]; [reflexivity|]. cbn in E. destruct (split_last s) as [[? ?]|]; discriminate. }
    clear L. revert v c s Es Ne E. induction (String.length a) as [n IHn] eqn:Ln in a |- * using (well_founded_induction lt_wf). intros v c s -> _ E.
    rewrite digits_value_snoc in E. destruct (digits_value base a 0) as [w|] eqn:Ea; [|discriminate]. destruct (to_digit base c) as [d|] eqn:Ed; [|discriminate]. injection E as <-.
    apply to_digit_digit in Ed; [|exact B]. destruct a as [|x a].
    + cbn in Ea. injection Ea as <-. cbn. rewrite N.add_0_l || idtac. now apply sp_one.
    + apply sp_more; [|exact Ed]. destruct (split_last (String x a)) as [[a' c']|] eqn:L.
      2: { cbn in L. destruct (split_last a) as [[? ?]|]; discriminate. }
      assert (Es : String x a = (a' ++ String c' "")%string). { clear -L. revert a' c' L. generalize (String x a). intro s. induction s as [|y s IH]; intros a' c' L; cbn in L; [discriminate|]. destruct (split_last s) as [[a2 c2]|] eqn:E; injection L as <- <-; [cbn; f_equal; now apply IH|]. destruct s as [|z s]; [reflexivity|]. cbn in E. destruct (split_last s) as [[? ?]|]; discriminate. }
      eapply (IHn (String.length a')); [|reflexivity|exact Es|discriminate|exact Ea].
      rewrite <- Ln, Es, str_length_app. cbn. lia.
Qed.

(** ** Cutting texts *)
Lemma split_once_at p a c b : str_all (fun x => negb (p x)) a = true -> p c = true -> split_once p (a ++ String c b)%string = Some (a, b).
Proof.
  intros A C. induction a as [|x a IH]; cbn in *; [now rewrite C|]. apply andb_true_iff in A as [Ax A]. apply negb_true_iff in Ax. now rewrite Ax, (IH A).
Qed.
Lemma split_once_none p a : str_all (fun x => negb (p x)) a = true -> split_once p a = None.
Proof. intro A. induction a as [|x a IH]; cbn in *; [reflexivity|]. apply andb_true_iff in A as [Ax A]. apply negb_true_iff in Ax. now rewrite Ax, (IH A). Qed.

Lemma digits_all base s (p : ascii -> bool) : (base <= 16)%N -> (forall c d, digit base c d -> p c = true) ->
  forall a v, digits_value base s a = Some v -> str_all p s = true.
Proof.
  intros B P. induction s as [|c s IH]; intros a v E; [reflexivity|]. cbn in *. destruct (to_digit base c) as [d|] eqn:D; [|discriminate].
  rewrite (P c d) by now apply to_digit_digit. now rewrite (IH _ _ E).
Qed.
(** A test of characters that holds for all hexadecimal digits *)
Ltac each_digit H := destruct H as [H _]; unfold digit_table in H; cbn [In] in H;
  repeat (destruct H as [H|H]; [apply pair_equal_spec in H; destruct H as [<- <-]; reflexivity|]); destruct H.

Local Open Scope Z_scope.

(** ** The digits behind the point *)
Lemma hex_fraction_exact s : forall j F T frac place,
  digits_value 16 s F = Some T -> (T < 2 ^ 53)%N -> 4 * (Z.of_nat j + Z.of_nat (String.length s)) <= 1074 ->
  valued frac (Z.of_N F) (2 ^ (4 * Z.of_nat j)) ->
  (s <> EmptyString -> valued place 1 (2 ^ (4 * Z.of_nat j + 4))) ->
  exists r, hex_fraction s frac place = Some r /\ valued r (Z.of_N T) (2 ^ (4 * (Z.of_nat j + Z.of_nat (String.length s)))).
Proof.
  induction s as [|c s IH]; intros j F T frac place E LT K VF VP; cbn [digits_value hex_fraction String.length] in *.
  - injection E as <-. exists frac. split; [reflexivity|]. cbn [Z.of_nat]. rewrite Z.add_0_r. exact VF.
  - destruct (to_digit 16 c) as [d|] eqn:D; [|discriminate]. pose proof (to_digit_lt _ _ _ D) as Ld.
    destruct (digits_value_acc _ _ _ _ E) as (w & _ & Tw).
    assert (P16 : (1 <= 16 ^ N.of_nat (String.length s))%N) by (apply N.lt_pred_le, N.neq_0_lt_0, N.pow_nonzero; lia).
    assert (LF : (F * 16 + d < 2 ^ 53)%N) by nia.
    change (2 ^ 53)%N with 9007199254740992%N in *.
    assert (LFz : Z.abs (Z.of_N (F * 16 + d)) < 2 ^ 53) by (change (2 ^ 53) with 9007199254740992; lia).
    specialize (VP ltac:(discriminate)).
    assert (Vd : valued (f64_mul (f64_of_int (Z.of_N d)) place) (Z.of_N d) (2 ^ (4 * Z.of_nat j + 4))).
    { assert (Vi : valued (f64_of_int (Z.of_N d)) (Z.of_N d) (2 ^ 0)) by (apply int_exact; change (2 ^ 53) with 9007199254740992; lia).
      pose proof (mul_exact _ _ _ 0 _ (4 * Z.of_nat j + 4) ltac:(lia) ltac:(lia) Vi VP) as M. rewrite Z.mul_1_r, Z.add_0_l in M. apply M.
      apply small_representable; [change (2 ^ 53) with 9007199254740992; lia|lia]. }
    assert (VF' : valued frac (Z.of_N F * 16) (2 ^ (4 * Z.of_nat j + 4))).
    { apply (valued_ratio _ (Z.of_N F) (2 ^ (4 * Z.of_nat j))); [apply pow_pos; lia|apply pow_pos; lia| |exact VF]. rewrite pow_split by lia. change (2 ^ 4) with 16. ring. }
    assert (Vs : valued (f64_add frac (f64_mul (f64_of_int (Z.of_N d)) place)) (Z.of_N (F * 16 + d)) (2 ^ (4 * Z.of_nat (S j)))).
    { replace (4 * Z.of_nat (S j)) with (4 * Z.of_nat j + 4) by lia. rewrite N2Z.inj_add, N2Z.inj_mul. apply add_exact; [lia|exact VF'|exact Vd|].
      apply small_representable; [|lia]. rewrite N2Z.inj_add, N2Z.inj_mul in LFz. exact LFz. }
    destruct (IH (S j) _ _ _ (f64_div16 place) E LT ltac:(lia) Vs) as (r & Er & Vr).
    + intro Ne. replace (4 * Z.of_nat (S j) + 4) with (4 * Z.of_nat j + 4 + 4) by lia. apply div16_exact; [lia|exact VP|].
      apply small_representable; [reflexivity|]. destruct s; [now destruct Ne|]. cbn [String.length] in K. lia.
    + exists r. split; [exact Er|]. replace (Z.of_nat j + Z.of_nat (S (String.length s))) with (Z.of_nat (S j) + Z.of_nat (String.length s)) by lia. exact Vr.
Qed.

Lemma u64_hex_digits c s v : digits_value 16 (String c s) 0 = Some v -> (v < 2 ^ 64)%N -> u64_hex (String c s) = Some (Z.of_N v).
Proof.
  intros E L. unfold u64_hex. assert (S : spells 16 (String c s) v) by (apply spells_digits; [lia|split; [discriminate|exact E]]).
  rewrite (from_str_radix_spells _ _ _ _ _ _ S). apply ranged_in. change (2 ^ 64)%N with 18446744073709551616%N in L. unfold u64_max. lia.
Qed.

Lemma hex_mantissa_exact ip dot fp v : spells 16 (ip ++ fp) v -> point dot fp -> (v < 2 ^ 53)%N -> 4 * Z.of_nat (String.length fp) <= 1074 ->
  exists r, hex_mantissa (ip ++ dot ++ fp) = Some r /\ valued r (Z.of_N v) (2 ^ (4 * Z.of_nat (String.length fp))).
Proof.
  intros Sp Pt Lv K. apply spells_digits in Sp as [Ne E]; [|lia]. rewrite digits_value_app in E.
  destruct (digits_value 16 ip 0) as [I|] eqn:Ei; [|discriminate].
  assert (Li : (I < 2 ^ 53)%N). { destruct (digits_value_acc _ _ _ _ E) as (w & _ & Ew). assert (P16 : (1 <= 16 ^ N.of_nat (String.length fp))%N) by (apply N.lt_pred_le, N.neq_0_lt_0, N.pow_nonzero; lia). nia. }
  assert (NoDot : str_all (fun x => negb (Ascii.eqb "." x)) ip = true) by (refine (digits_all 16 ip _ ltac:(lia) _ _ _ Ei); intros c d H; each_digit H).
  unfold hex_mantissa. destruct Pt as [->|[-> ->]].
  - change ("." ++ fp)%string with (String "." fp). rewrite (split_once_at _ ip "." fp NoDot eq_refl). cbn [fst snd].
    destruct (digits_value_acc _ _ _ _ E) as (F & Ef & Ev).
    assert (Lf : (F < 2 ^ 53)%N) by lia.
    destruct (hex_fraction_exact fp 0 0 F (FFinite 0 0) (f64_div16 (f64_of_int 1)) Ef Lf) as (f & Hf & Vf).
    + lia.
    + exists 0, 0. repeat split; lia.
    + intro N. assert (V1 : valued (f64_of_int 1) 1 (2 ^ 0)) by (apply int_exact; reflexivity).
      cbn [Z.of_nat]. rewrite Z.mul_0_r. apply div16_exact; [lia|exact V1|]. apply small_representable; [reflexivity|lia].
    + rewrite Hf. cbn [Z.of_nat] in Vf. rewrite Z.add_0_l in Vf.
      assert (Hi : exists i, match ip with EmptyString => Some (FFinite 0 0) | _ => option_map f64_of_int (u64_hex ip) end = Some i /\ valued i (Z.of_N I) 1).
      { destruct ip as [|c ip].
        - injection Ei as <-. exists (FFinite 0 0). split; [reflexivity|]. exists 0, 0. repeat split; lia.
        - rewrite (u64_hex_digits c ip I Ei) by (change (2 ^ 53)%N with 9007199254740992%N in *; change (2 ^ 64)%N with 18446744073709551616%N; lia).
          exists (f64_of_int (Z.of_N I)). split; [reflexivity|]. apply int_exact. change (2 ^ 53) with 9007199254740992. change (2 ^ 53)%N with 9007199254740992%N in Li. lia. }
      destruct Hi as (i & -> & Vi). eexists. split; [reflexivity|].
      assert (Ez : Z.of_N v = Z.of_N I * 2 ^ (4 * Z.of_nat (String.length fp)) + Z.of_N F).
      { subst v. rewrite N2Z.inj_add, N2Z.inj_mul, N2Z.inj_pow, nat_N_Z. rewrite Z.pow_mul_r by lia. reflexivity. }
      rewrite Ez. apply add_exact; [lia| |exact Vf|].
      * apply (valued_ratio _ (Z.of_N I) 1); [lia|apply pow_pos; lia|ring|exact Vi].
      * rewrite <- Ez. apply small_representable; [|lia]. change (2 ^ 53) with 9007199254740992. change (2 ^ 53)%N with 9007199254740992%N in Lv. lia.
  - change ("" ++ "")%string with "". rewrite app_empty_r in *. rewrite (split_once_none _ ip NoDot). cbn [digits_value] in E. injection E as ->.
    destruct ip as [|c ip]; [now destruct Ne|]. rewrite (u64_hex_digits c ip v Ei) by (change (2 ^ 53)%N with 9007199254740992%N in *; change (2 ^ 64)%N with 18446744073709551616%N; lia).
    eexists. split; [reflexivity|]. cbn [String.length Z.of_nat]. rewrite Z.mul_0_r. apply int_exact. change (2 ^ 53) with 9007199254740992. change (2 ^ 53)%N with 9007199254740992%N in Lv. lia.
Qed.

(** ** Exponents and suffixes *)
Lemma exponent_i32 marks ex x : exponent_of marks ex x -> exists c t, ex = String c t /\ In c marks /\ i32_decimal t = ranged i32_min i32_max x.
Proof.
  intro H. destruct H as [c s v M S|c s v M S|c s v M S]; do 2 eexists; split; try reflexivity; split; try exact M.
  - now apply from_str_radix_spells.
  - unfold i32_decimal, from_str_radix. cbn [Ascii.eqb Bool.eqb andb]. pose proof (spells_nonempty _ _ _ S). destruct s; [congruence|]. now rewrite (spells_value _ _ _ S).
  - now apply from_str_radix_neg.
Qed.
Lemma exponent_decimal ex x : exponent_of ["e"%char; "E"%char] ex x -> decimal_exponent ex = Some x.
Proof.
  intro H. destruct H as [c s v M S|c s v M S|c s v M S]; unfold decimal_exponent;
    (replace (Ascii.eqb c "e" || Ascii.eqb c "E") with true by (destruct M as [<-|[<-|[]]]; reflexivity));
    pose proof (spells_nonempty _ _ _ S) as Ne; pose proof (spells_value _ _ _ S) as E.
  - destruct s as [|a s]; [congruence|]. destruct (spells_first _ _ _ _ S) as (d & D).
    assert (W : match String a s with String "-" t => (true, t) | String "+" t => (false, t) | _ => (false, String a s) end = (false, String a s)).
    { destruct D as [D _]. unfold digit_table in D. cbn [In] in D. repeat (destruct D as [D|D]; [injection D as <- <-; reflexivity|]). destruct D. }
    rewrite W, E. reflexivity.
  - destruct s; [congruence|]. now rewrite E.
  - destruct s; [congruence|]. now rewrite E.
Qed.

Definition size_char (c : ascii) : bool := Ascii.eqb c "f" || Ascii.eqb c "F" || Ascii.eqb c "d" || Ascii.eqb c "D".
(** [s] does not end in a size letter *)
Definition unsized (s : string) : Prop := match split_last s with Some (_, c) => size_char c = false | None => True end.
Lemma unsized_app a b : b <> EmptyString -> unsized b -> unsized (a ++ b).
Proof.
  intros Ne U. unfold unsized in *. assert (E : exists x c, split_last b = Some (x, c)).
  { destruct b as [|c b]; [congruence|]. cbn. destruct (split_last b) as [[? ?]|]; eauto. }
  destruct E as (x & c & E). rewrite E in U. replace (split_last (a ++ b)) with (Some ((a ++ x)%string, c)); [exact U|].
  induction a as [|y a IH]; cbn; [now rewrite E|]. now rewrite <- IH.
Qed.
Lemma unsized_spells s v : spells 10 s v -> unsized s.
Proof.
  intro H. unfold unsized. assert (D : forall c d, digit 10 c d -> size_char c = false).
  { intros c d [D L]. unfold digit_table in D. cbn [In] in D. repeat (destruct D as [D|D]; [injection D as <- <-; (reflexivity || (exfalso; lia))|]). destruct D. }
  destruct H as [c d Hd|s v c d Hs Hd]; [cbn|rewrite split_last_snoc]; now apply (D c d).
Qed.
Lemma unsized_exponent marks ex x : exponent_of marks ex x -> ex <> EmptyString /\ unsized ex.
Proof.
  intro H. split; [destruct H; discriminate|].
  destruct H as [c s v M S|c s v M S|c s v M S]; pose proof (unsized_spells _ _ S); pose proof (spells_nonempty _ _ _ S).
  - now apply (unsized_app (String c "")).
  - now apply (unsized_app (String c "+")).
  - now apply (unsized_app (String c "-")).
Qed.
Lemma strip_suffix s suf : unsized s -> size_suffix suf ->
  match split_last (s ++ suf) with Some (rest, c) => if size_char c then rest else (s ++ suf)%string | None => (s ++ suf)%string end = s.
Proof.
  intros U [<-|[<-|[<-|[<-|[<-|[]]]]]]; try (rewrite split_last_snoc; reflexivity).
  rewrite app_empty_r. unfold unsized in U. destruct (split_last s) as [[r c]|]; [|reflexivity]. now rewrite U.
Qed.

(** ** Changing the sign *)
Lemma full_unique m e m' e' : binary64 m e -> binary64 m' e' -> full m e -> full m' e' ->
  m * 2 ^ (e + 1074) = m' * 2 ^ (e' + 1074) -> m = m'.
Proof.
  assert (W : forall m e m' e', binary64 m e -> binary64 m' e' -> full m e -> full m' e' -> m * 2 ^ (e + 1074) = m' * 2 ^ (e' + 1074) -> e < e' -> m = m').
  { clear. intros m e m' e' [M E] [M' E'] F F' Q L.
    replace (e' + 1074) with ((e' - e) + (e + 1074)) in Q by lia. rewrite (pow_split (e' - e) (e + 1074)), Z.mul_assoc in Q by lia.
    apply Z.mul_cancel_r in Q; [|apply Z.pow_nonzero; lia]. destruct F' as [->|[B|B]]; [now rewrite Z.mul_0_l in Q| |lia].
    exfalso. assert (2 <= 2 ^ (e' - e)). { change 2 with (2 ^ 1) at 1. apply Z.pow_le_mono_r; lia. }
    subst m. rewrite abs_scale in M by lia. assert (2 ^ 52 * 2 <= Z.abs m' * 2 ^ (e' - e)) by (apply Z.mul_le_mono_nonneg; lia).
    change (2 ^ 53) with (2 ^ 52 * 2) in M. lia. }
  intros B B' F F' Q. destruct (Z.lt_trichotomy e e') as [L|[->|L]].
  - now apply (W m e m' e').
  - apply Z.mul_cancel_r in Q; [exact Q|]. apply Z.pow_nonzero; [lia|]. destruct B'; lia.
  - symmetry. now apply (W m' e' m e).
Qed.
Lemma nearest_same n d m e m' e' : nearest n d (FFinite m e) -> binary64 m' e' -> full m' e' ->
  m' * 2 ^ (e' + 1074) = m * 2 ^ (e + 1074) -> nearest n d (FFinite m' e').
Proof.
  intros N B' F' Q. inversion N as [m0 e0 NL B F Near Tie|]; subst m0 e0. assert (m' = m) by now apply (full_unique m' e' m e). subst m'.
  assert (A : apart n d m e' = apart n d m e) by (unfold apart; now rewrite Q).
  constructor; [exact NL|exact B'|exact F'| |]; intros m2 e2 B2; rewrite A; [now apply Near|]. rewrite Q. now apply Tie.
Qed.
Lemma nearest_negate n d m e : nearest n d (FFinite m e) -> nearest (- n) d (FFinite (- m) e).
Proof.
  intro N. inversion N as [m0 e0 NL B F Near Tie|]; subst m0 e0.
  assert (A : forall m e, apart (- n) d (- m) e = apart n d m e) by (intros; unfold apart; rewrite <- Z.abs_opp; f_equal; ring).
  assert (Bn : forall m e, binary64 m e -> binary64 (- m) e) by (intros ? ? [? ?]; split; [rewrite Z.abs_opp|]; assumption).
  constructor.
  - intro L. apply NL. unfold too_large in *. now rewrite Z.abs_opp in L.
  - now apply Bn.
  - unfold full in *. rewrite Z.abs_opp. destruct F as [->|F]; auto.
  - intros m' e' B'. rewrite A. rewrite <- (Z.opp_involutive m'), A. now apply Near, Bn.
  - intros m' e' B'. rewrite A. rewrite <- (Z.opp_involutive m') at 1. rewrite A. intro Q. destruct (Tie (- m') e' (Bn _ _ B') Q) as [T|T].
    + left. rewrite !Z.mul_opp_l in *. lia.
    + right. now rewrite Z.even_opp.
Qed.

Lemma round_one : f64_of_int 1 = FFinite (2 ^ 52) (-52).
Proof. vm_compute. reflexivity. Qed.
Lemma round_minus_one : f64_of_int (-1) = FFinite (- 2 ^ 52) (-52).
Proof. vm_compute. reflexivity. Qed.
Lemma mul_sign_nearest s z n d r : sign_of s z -> 0 < d -> nearest n d r -> nearest (z * n) d (f64_mul (f64_of_int z) r).
Proof.
  intros S D N.
  assert (F : forall m e, nearest n d (FFinite m e) -> nearest (z * n) d (round_scaled ((z * 2 ^ 52) * m) 2 (-52 + e))).
  { intros m e N'. assert (Z1 : nearest (z * n) d (FFinite (z * m) e)).
    { destruct S as [S|[S|[S|[]]]]; injection S as _ <-; rewrite ?Z.mul_1_l; [exact N'|exact N'|].
      replace (-1 * n) with (- n) by lia. replace (-1 * m) with (- m) by lia. now apply nearest_negate. }
    inversion Z1 as [m0 e0 NL B F0 Near Tie|]; subst m0 e0. destruct B as [M E]. assert (B : binary64 (z * m) e) by (split; assumption).
    assert (Eq : z * 2 ^ 52 * m * 2 ^ (-52 + e + 1126) * 2 ^ 1074 = (z * m * 2 ^ (e + 1074)) * 2 ^ 1126).
    { replace (-52 + e + 1126) with (e + 1074) by lia. change 1126 with (52 + 1074). rewrite (pow_split 52 1074) by lia. ring. }
    pose proof (pow_pos 1074 ltac:(lia)) as P.
    pose proof (round_scaled_nearest _ (-52 + e) 1126 _ (2 ^ 1074) P ltac:(lia) ltac:(lia) Eq) as R.
    pose proof (round_scaled_exact _ (-52 + e) 1126 _ (2 ^ 1074) P ltac:(lia) ltac:(lia) Eq) as (m' & e' & Er & B' & V).
    { exists (z * m), e. split; [exact B|]. reflexivity. }
    rewrite Er in *. apply (nearest_same _ d (z * m) e); [exact Z1|exact B'|now inversion R|].
    unfold is_ratio in V. apply Z.mul_cancel_r in V; [exact V|lia]. }
  destruct r as [|b|m e].
  - inversion N.
  - assert (T : too_large n d /\ b = (n <? 0)) by (inversion N; auto). destruct T as [T Eb].
    assert (Nn : n <> 0). { intros ->. unfold too_large in T. cbn [Z.abs] in T. assert (0 < (2 ^ 54 - 1) * 2 ^ 970) by reflexivity. nia. }
    destruct S as [S|[S|[S|[]]]]; injection S as _ <-; rewrite ?round_one, ?round_minus_one; cbn [f64_mul f64_zero f64_negative].
    1,2: rewrite Z.mul_1_l; change (2 ^ 52 =? 0) with false; change (2 ^ 52 <? 0) with false; cbn [orb xorb]; destruct b; exact N.
    change (- 2 ^ 52 =? 0) with false. change (- 2 ^ 52 <? 0) with true. cbn [orb xorb].
    replace (-1 * n) with (- n) by lia. replace (if b then false else true) with (- n <? 0).
    + constructor. unfold too_large in *. now rewrite Z.abs_opp.
    + subst b. destruct (Z.ltb_spec (- n) 0), (Z.ltb_spec n 0); try reflexivity; lia.
  - destruct S as [S|[S|[S|[]]]]; injection S as _ <-; rewrite ?round_one, ?round_minus_one; cbn [f64_mul]; exact (F m e N).
Qed.

(** ** Literals *)
Definition head_in (l : list ascii) (s : string) : Prop := match s with String c _ => In c l | EmptyString => False end.
Definition digit_chars : list ascii := ["0"; "1"; "2"; "3"; "4"; "5"; "6"; "7"; "8"; "9"]%char.

Lemma sign_split s z t : sign_of s z -> ~ head_in ["+"; "-"]%char t ->
  match (s ++ t)%string with String "-" rest => (-1, rest) | String "+" rest => (1, rest) | _ => (1, (s ++ t)%string) end = (z, t).
Proof.
  intros [S|[S|[S|[]]]] H; injection S as <- <-; [|reflexivity|reflexivity]. cbn [String.append].
  destruct t as [|[[|] [|] [|] [|] [|] [|] [|] [|]] t]; try reflexivity; exfalso; apply H; cbn; tauto.
Qed.
Lemma sign_split_bool s z t : sign_of s z -> ~ head_in ["+"; "-"]%char t ->
  match (s ++ t)%string with String "-" rest => (true, rest) | String "+" rest => (false, rest) | _ => (false, (s ++ t)%string) end = (z <? 0, t).
Proof.
  intros [S|[S|[S|[]]]] H; injection S as <- <-; [|reflexivity|reflexivity]. cbn [String.append].
  destruct t as [|[[|] [|] [|] [|] [|] [|] [|] [|]] t]; try reflexivity; exfalso; apply H; cbn; tauto.
Qed.

Section Hex.
  Context `{Powers}.

  Lemma power_valued x : -1022 <= x <= 1023 -> valued (power_of_two x) (2 ^ Z.max 0 x) (2 ^ Z.max 0 (- x)).
  Proof.
    intro X. rewrite power_exact by exact X. unfold round_scaled. rewrite Z.mul_1_l. apply round_exact; [apply pow_pos; lia|].
    destruct (Z_le_gt_dec x 971) as [L|L].
    - exists 1, x. split; [split; [reflexivity|lia]|]. unfold is_ratio. rewrite Z.mul_1_l, <- !pow_split by lia. f_equal. lia.
    - exists (2 ^ (x - 971)), 971. split; [split; [|lia]|].
      + rewrite Z.abs_eq by (apply Z.pow_nonneg; lia). apply Z.pow_lt_mono_r; lia.
      + unfold is_ratio. rewrite <- !pow_split by lia. f_equal. lia.
  Qed.

  Lemma hexadecimal_body ip dot fp v ex x : spells 16 (ip ++ fp) v -> point dot fp -> exponent_of ["p"; "P"]%char ex x ->
    (v < 2 ^ 53)%N -> 4 * Z.of_nat (String.length fp) <= 1074 -> -1022 <= x <= 1023 ->
    exists r, parse_hex_float (ip ++ dot ++ fp ++ ex) = Some r /\ nearest_to (Z.of_N v) 2 (x - 4 * Z.of_nat (String.length fp)) r.
  Proof.
    intros Sp Pt Ex Lv K X. destruct (hex_mantissa_exact ip dot fp v Sp Pt Lv K) as (r & Er & Vr).
    destruct (exponent_i32 _ _ _ Ex) as (c & t & -> & Hc & Et).
    assert (Nop : str_all (fun x => negb (Ascii.eqb x "p" || Ascii.eqb x "P")) (ip ++ dot ++ fp) = true).
    { apply spells_digits in Sp as [_ E]; [|lia]. rewrite digits_value_app in E. destruct (digits_value 16 ip 0) as [I|] eqn:Ei; [|discriminate].
      assert (Dp : forall c d, digit 16 c d -> negb (Ascii.eqb c "p" || Ascii.eqb c "P") = true) by (intros a d Hd; each_digit Hd).
      rewrite !str_all_app. rewrite (digits_all 16 ip _ ltac:(lia) Dp _ _ Ei), (digits_all 16 fp _ ltac:(lia) Dp _ _ E).
      destruct Pt as [->|[-> _]]; reflexivity. }
    unfold parse_hex_float. replace (ip ++ dot ++ fp ++ String c t)%string with ((ip ++ dot ++ fp) ++ String c t)%string by now rewrite !str_assoc.
    rewrite (split_once_at _ _ c t Nop) by (destruct Hc as [<-|[<-|[]]]; reflexivity).
    rewrite Et, ranged_in, Er by (unfold i32_min, i32_max; lia). eexists. split; [reflexivity|].
    pose proof (mul_nearest r (power_of_two x) (Z.of_N v) (4 * Z.of_nat (String.length fp)) (2 ^ Z.max 0 x) (Z.max 0 (- x)) ltac:(lia) ltac:(lia) Vr (power_valued x X)) as N.
    unfold nearest_to. refine (nearest_ratio _ _ _ _ _ _ _ _ N); [apply pow_pos; lia|apply pow_pos; lia|].
    rewrite <- !(Z.mul_assoc (Z.of_N v)), <- !pow_split by lia. do 2 f_equal. lia.
  Qed.

  Lemma not_word w s t :
    (exists c r, s = String c r /\ In c ["0"; "1"; "2"; "3"; "4"; "5"; "6"; "7"; "8"; "9"; "."]%char) ->
    In w ["NaN"; "Infinity"] -> forall sg z, sign_of sg z -> t = (sg ++ s)%string -> t <> w /\ t <> ("+" ++ w)%string /\ t <> ("-" ++ w)%string.
  Proof.
    intros (c & r & -> & Hc) Hw sg z Sg ->.
    destruct Hw as [<-|[<-|[]]], Sg as [S|[S|[S|[]]]]; injection S as <- _;
      repeat (destruct Hc as [<-|Hc]; [repeat split; discriminate|]); destruct Hc.
  Qed.

  Lemma parse_float_number s c r sg z : s = String c r -> In c ["0"; "1"; "2"; "3"; "4"; "5"; "6"; "7"; "8"; "9"; "."]%char -> sign_of sg z ->
    parse_float_text (sg ++ s) = float_of_text (sg ++ s).
  Proof.
    intros E Hc Sg. pose proof (fun w Hw => not_word w s (sg ++ s) (ex_intro _ c (ex_intro _ r (conj E Hc))) Hw sg z Sg eq_refl) as W.
    destruct (W "NaN" ltac:(cbn; tauto)) as (N1 & N2 & N3). destruct (W "Infinity" ltac:(cbn; tauto)) as (I1 & I2 & I3).
    unfold parse_float_text. cbn [String.append] in N2, N3, I2, I3.
    repeat match goal with H : (sg ++ s)%string <> ?w |- _ => apply String.eqb_neq in H; rewrite H; clear H end. reflexivity.
  Qed.

  Theorem hexadecimal_literal text v places x sg z : hexadecimal_text text v places x -> sign_of sg z ->
    (v < 2 ^ 53)%N -> 4 * Z.of_nat places <= 1074 -> -1022 <= x <= 1023 ->
    exists r, parse_float_text (sg ++ text) = Some r /\ nearest_to (z * Z.of_N v) 2 (x - 4 * Z.of_nat places) r.
  Proof.
    intros T Sg Lv K X. destruct T as [c ip dot fp v ex x suf Hc Sp Pt Ex Su].
    destruct (hexadecimal_body ip dot fp v ex x Sp Pt Ex Lv K X) as (r & Er & Nr).
    exists (f64_mul (f64_of_int z) r). split.
    - rewrite (parse_float_number _ _ _ _ z eq_refl ltac:(cbn; tauto) Sg). unfold float_of_text.
      set (body := String "0" (String c (ip ++ dot ++ fp ++ ex))).
      replace (sg ++ String "0" (String c (ip ++ dot ++ fp ++ ex ++ suf)))%string with ((sg ++ body) ++ suf)%string by (unfold body; rewrite !str_assoc; cbn [String.append]; now rewrite !str_assoc).
      assert (U : unsized (sg ++ body)).
      { destruct (unsized_exponent _ _ _ Ex) as [Ne U]. replace (sg ++ body)%string with ((sg ++ String "0" (String c (ip ++ dot ++ fp))) ++ ex)%string by (unfold body; rewrite !str_assoc; cbn [String.append]; now rewrite !str_assoc). now apply unsized_app. }
      pose proof (strip_suffix _ suf U Su) as St. unfold size_char in St. cbv zeta. rewrite St.
      rewrite (sign_split sg z body Sg) by (unfold body, head_in; intros [D|[D|[]]]; discriminate).
      replace (prefix "0x" body || prefix "0X" body) with true by (destruct Hc as [<-|[<-|[]]]; unfold body; cbn; now rewrite prefix_nil || (destruct (ip ++ dot ++ fp ++ ex)%string; reflexivity)).
      unfold body. cbn [str_drop]. now rewrite Er.
    - unfold nearest_to in *. rewrite <- Z.mul_assoc. apply (mul_sign_nearest sg); [exact Sg|apply pow_pos; lia|exact Nr].
  Qed.
End Hex.

(** ** Decimal literals *)
Lemma take_digits_all s r : str_all (fun c => match to_digit 10 c with Some _ => true | None => false end) s = true ->
  match r with EmptyString => True | String c _ => to_digit 10 c = None end -> take_digits (s ++ r) = (s, r).
Proof.
  intros A R. induction s as [|c s IH]; cbn in *.
  - destruct r as [|c r]; [reflexivity|]. cbn. now rewrite R.
  - apply andb_true_iff in A as [Ac A]. destruct (to_digit 10 c); [|discriminate]. now rewrite (IH A).
Qed.
Lemma digits_are s a v : digits_value 10 s a = Some v -> str_all (fun c => match to_digit 10 c with Some _ => true | None => false end) s = true.
Proof. revert a. induction s as [|c s IH]; intros a E; cbn in *; [reflexivity|]. destruct (to_digit 10 c); [|discriminate]. cbn. eapply IH, E. Qed.
Lemma decimal_char c d : to_digit 10 c = Some d -> In c digit_chars.
Proof.
  intro E. apply to_digit_digit in E; [|lia]. destruct E as [D L]. unfold digit_table in D. cbn [In] in D.
  repeat (destruct D as [D|D]; [injection D as <- <-; (cbn; tauto) || (exfalso; lia)|]). destruct D.
Qed.
Lemma exponent_starts ex x : ex = EmptyString /\ x = 0 \/ exponent_of ["e"; "E"]%char ex x ->
  match ex with EmptyString => True | String c _ => In c ["e"; "E"]%char end /\ decimal_exponent ex = Some x.
Proof.
  intros [[-> ->]|E]; [auto|]. split; [destruct E; assumption|now apply exponent_decimal].
Qed.
Lemma decimal_starts ip dot fp ex v x : spells 10 (ip ++ fp) v -> point dot fp -> ex = EmptyString /\ x = 0 \/ exponent_of ["e"; "E"]%char ex x ->
  exists c r, (ip ++ dot ++ fp ++ ex)%string = String c r /\ In c ["0"; "1"; "2"; "3"; "4"; "5"; "6"; "7"; "8"; "9"; "."]%char.
Proof.
  intros Sp Pt _. apply spells_digits in Sp as [Ne E]; [|lia]. destruct ip as [|c ip].
  - destruct Pt as [->|[-> ->]]; [|now destruct Ne]. cbn. do 2 eexists. split; [reflexivity|]. tauto.
  - cbn. do 2 eexists. split; [reflexivity|]. destruct (digits_value_first _ _ _ _ _ E) as (d & D). apply decimal_char in D. cbn in D. tauto.
Qed.
Lemma decimal_unsized ip dot fp ex v x : spells 10 (ip ++ fp) v -> point dot fp -> ex = EmptyString /\ x = 0 \/ exponent_of ["e"; "E"]%char ex x ->
  unsized (ip ++ dot ++ fp ++ ex).
Proof.
  intros Sp Pt [[-> _]|E].
  - rewrite app_empty_r. destruct Pt as [->|[-> ->]].
    + destruct fp as [|c fp]; [apply unsized_app; [discriminate|reflexivity]|].
      replace (ip ++ "." ++ String c fp)%string with ((ip ++ ".") ++ String c fp)%string by now rewrite str_assoc. apply unsized_app; [discriminate|].
      apply spells_digits in Sp as [_ E]; [|lia]. rewrite digits_value_app in E. destruct (digits_value 10 ip 0) as [I|]; [|discriminate].
      destruct (digits_value_acc _ _ _ _ E) as (w & Ew & _). apply (unsized_spells _ w), spells_digits; [lia|]. split; [discriminate|exact Ew].
    + rewrite app_empty_r in Sp. change ("" ++ "")%string with "". rewrite app_empty_r. now apply (unsized_spells _ v).
  - destruct (unsized_exponent _ _ _ E) as [Ne U]. replace (ip ++ dot ++ fp ++ ex)%string with ((ip ++ dot ++ fp) ++ ex)%string by now rewrite !str_assoc. now apply unsized_app.
Qed.

Lemma from_str_decimal ip dot fp ex v x sg z : spells 10 (ip ++ fp) v -> point dot fp -> ex = EmptyString /\ x = 0 \/ exponent_of ["e"; "E"]%char ex x -> sign_of sg z ->
  f64_from_str (sg ++ ip ++ dot ++ fp ++ ex) = Some (round_scaled (z * Z.of_N v) 10 (x - Z.of_nat (String.length fp))).
Proof.
  intros Sp Pt Ex Sg. destruct (decimal_starts ip dot fp ex v x Sp Pt Ex) as (c & r & Ec & Hc). destruct (exponent_starts ex x Ex) as [Hex Dex].
  unfold f64_from_str. rewrite (sign_split_bool sg z _ Sg).
  2: { rewrite Ec. cbn. intros [<-|[<-|[]]]; cbn in Hc; repeat (destruct Hc as [Hc|Hc]; [discriminate|]); destruct Hc. }
  assert (W : eq_ignore_case (ip ++ dot ++ fp ++ ex) "nan" = false /\ eq_ignore_case (ip ++ dot ++ fp ++ ex) "inf" = false /\ eq_ignore_case (ip ++ dot ++ fp ++ ex) "infinity" = false).
  { rewrite Ec. cbn in Hc. repeat (destruct Hc as [<-|Hc]; [repeat split; reflexivity|]). destruct Hc. }
  destruct W as (-> & -> & ->). cbn [orb].
  apply spells_digits in Sp as [Ne E]; [|lia]. pose proof E as E'. rewrite digits_value_app in E'. destruct (digits_value 10 ip 0) as [I|] eqn:Ei; [|discriminate].
  pose proof (digits_are _ _ _ Ei) as Di. pose proof (digits_are _ _ _ E') as Df.
  assert (Rx : match ex with EmptyString => True | String c _ => to_digit 10 c = None end) by (destruct ex as [|e ex]; [exact Logic.I|]; destruct Hex as [<-|[<-|[]]]; reflexivity).
  assert (Sz : (if z <? 0 then - Z.of_N v else Z.of_N v) = z * Z.of_N v) by (destruct Sg as [S|[S|[S|[]]]]; injection S as _ <-; cbn [Z.ltb Z.compare]; lia).
  destruct Pt as [->|[-> ->]].
  - rewrite (take_digits_all ip ("." ++ fp ++ ex)) by (exact Di || reflexivity). cbn [String.append]. rewrite (take_digits_all fp ex Df Rx).
    destruct (ip ++ fp)%string as [|a s] eqn:Ea; [now destruct Ne|]. rewrite E, Dex, Sz. reflexivity.
  - cbn [String.append]. rewrite (take_digits_all ip ex Di Rx).
    assert (Wd : match ex with String "." t => take_digits t | _ => (EmptyString, ex) end = (EmptyString, ex)) by (destruct ex as [|e ex]; [reflexivity|]; destruct Hex as [<-|[<-|[]]]; reflexivity).
    rewrite Wd. destruct (ip ++ "")%string as [|a s] eqn:Ea; [now destruct Ne|]. rewrite E, Dex, Sz. reflexivity.
Qed.

Lemma decimal_exact `{Powers} text v places x sg z : decimal_text text v places x -> sign_of sg z ->
  parse_float_text (sg ++ text) = Some (round_scaled (z * Z.of_N v) 10 (x - Z.of_nat places)).
Proof.
  intros T Sg. destruct T as [ip dot fp v ex x suf Sp Pt Ex Su].
    destruct (decimal_starts ip dot fp ex v x Sp Pt Ex) as (c & r & Ec & Hc).
    assert (Eb : (ip ++ dot ++ fp ++ ex ++ suf)%string = String c (r ++ suf)).
    { change (String c (r ++ suf)) with (String c r ++ suf)%string. rewrite <- Ec. now rewrite !str_assoc. }
    rewrite (parse_float_number _ _ _ _ z Eb Hc Sg). unfold float_of_text.
    replace (sg ++ ip ++ dot ++ fp ++ ex ++ suf)%string with ((sg ++ ip ++ dot ++ fp ++ ex) ++ suf)%string by now rewrite !str_assoc.
    assert (U : unsized (sg ++ ip ++ dot ++ fp ++ ex)) by (apply unsized_app; [rewrite Ec; discriminate|now apply (decimal_unsized ip dot fp ex v x)]).
    pose proof (strip_suffix _ suf U Su) as St. unfold size_char in St. cbv zeta. rewrite St.
    rewrite (sign_split sg z _ Sg).
    2: { rewrite Ec. cbn. intros [<-|[<-|[]]]; cbn in Hc; repeat (destruct Hc as [Hc|Hc]; [discriminate|]); destruct Hc. }
    assert (NoX : prefix "0x" (ip ++ dot ++ fp ++ ex) || prefix "0X" (ip ++ dot ++ fp ++ ex) = false).
    { clear -Sp Pt Ex. destruct (exponent_starts ex x Ex) as [Hex _]. apply spells_digits in Sp as [Ne E]; [|lia]. rewrite digits_value_app in E.
      destruct ip as [|a [|b ip]].
      - destruct Pt as [->|[-> ->]]; [reflexivity|now destruct Ne].
      - destruct Pt as [->|[-> ->]].
        + destruct a as [[|] [|] [|] [|] [|] [|] [|] [|]]; reflexivity.
        + destruct ex as [|e ex]; [destruct a as [[|] [|] [|] [|] [|] [|] [|] [|]]; reflexivity|]. destruct Hex as [<-|[<-|[]]]; destruct a as [[|] [|] [|] [|] [|] [|] [|] [|]]; reflexivity.
      - cbn [digits_value] in E. destruct (to_digit 10 a) as [d|] eqn:Da; [|discriminate]. destruct (to_digit 10 b) as [d'|] eqn:Db; [|discriminate].
        apply decimal_char in Db. cbn [In digit_chars] in Db. clear -Db. cbn [String.append prefix].
        destruct (ascii_dec "0" a); [|reflexivity]. repeat (destruct Db as [<-|Db]; [reflexivity|]). destruct Db. }
    rewrite NoX. now apply from_str_decimal.
Qed.
Theorem decimal_literal `{Powers} text v places x sg z : decimal_text text v places x -> sign_of sg z ->
  exists r, parse_float_text (sg ++ text) = Some r /\ nearest_to (z * Z.of_N v) 10 (x - Z.of_nat places) r.
Proof.
  intros T Sg. eexists. split; [exact (decimal_exact _ _ _ _ _ _ T Sg)|]. unfold nearest_to, round_scaled. apply round_nearest. apply Z.pow_pos_nonneg; lia.
Qed.

(** ** Which hexadecimal literals are refused *)
Lemma hex_fraction_some s : forall a v frac place, digits_value 16 s a = Some v -> exists r, hex_fraction s frac place = Some r.
Proof. induction s as [|c s IH]; intros a v frac place E; cbn in *; [eauto|]. destruct (to_digit 16 c); [|discriminate]. eapply IH, E. Qed.
Lemma ranged_none lo hi z : ranged lo hi z = None <-> ~ lo <= z <= hi.
Proof. unfold ranged. destruct ((lo <=? z) && (z <=? hi)) eqn:E; [apply andb_true_iff in E as [A B]; apply Z.leb_le in A, B; split; [discriminate|lia]|]. split; [|reflexivity]. intros _ [A B]. apply Z.leb_le in A, B. rewrite A, B in E. discriminate. Qed.

Theorem hexadecimal_refused `{Powers} sg z c ip dot fp iv ex x suf : sign_of sg z -> In c ["x"%char; "X"%char] ->
  (ip = EmptyString /\ iv = 0%N \/ spells 16 ip iv) -> (fp = EmptyString \/ exists fv, spells 16 fp fv) -> (ip ++ fp)%string <> EmptyString ->
  point dot fp -> exponent_of ["p"%char; "P"%char] ex x -> size_suffix suf ->
  parse_float_text (sg ++ String "0" (String c (ip ++ dot ++ fp ++ ex ++ suf))) = None
  <-> ~ (-2147483648 <= x <= 2147483647) \/ (2 ^ 64 <= iv)%N.
Proof.
  intros Sg Hc Hi Hf Ne Pt Ex Su.
  rewrite (parse_float_number _ _ _ _ z eq_refl ltac:(cbn; tauto) Sg). unfold float_of_text.
  set (body := String "0" (String c (ip ++ dot ++ fp ++ ex))).
  replace (sg ++ String "0" (String c (ip ++ dot ++ fp ++ ex ++ suf)))%string with ((sg ++ body) ++ suf)%string by (unfold body; rewrite !str_assoc; cbn [String.append]; now rewrite !str_assoc).
  assert (U : unsized (sg ++ body)).
  { destruct (unsized_exponent _ _ _ Ex) as [Nx U]. replace (sg ++ body)%string with ((sg ++ String "0" (String c (ip ++ dot ++ fp))) ++ ex)%string by (unfold body; rewrite !str_assoc; cbn [String.append]; now rewrite !str_assoc). now apply unsized_app. }
  pose proof (strip_suffix _ suf U Su) as St. unfold size_char in St. cbv zeta. rewrite St.
  rewrite (sign_split sg z body Sg) by (unfold body, head_in; intros [D|[D|[]]]; discriminate).
  replace (prefix "0x" body || prefix "0X" body) with true by (destruct Hc as [<-|[<-|[]]]; unfold body; cbn; now rewrite prefix_nil || (destruct (ip ++ dot ++ fp ++ ex)%string; reflexivity)).
  unfold body. cbn [str_drop].
  destruct (exponent_i32 _ _ _ Ex) as (c' & t & -> & Hc' & Et).
  assert (Ei : digits_value 16 ip 0 = Some iv) by (destruct Hi as [[-> ->]|S]; [reflexivity|now apply spells_value]).
  assert (Ef : exists fv, digits_value 16 fp 0 = Some fv) by (destruct Hf as [->|[fv S]]; [exists 0%N; reflexivity|exists fv; now apply spells_value]).
  destruct Ef as [fv Ef].
  assert (Nop : str_all (fun x => negb (Ascii.eqb x "p" || Ascii.eqb x "P")) (ip ++ dot ++ fp) = true).
  { assert (Dp : forall c d, digit 16 c d -> negb (Ascii.eqb c "p" || Ascii.eqb c "P") = true) by (intros a d Hd; each_digit Hd).
    rewrite !str_all_app. rewrite (digits_all 16 ip _ ltac:(lia) Dp _ _ Ei), (digits_all 16 fp _ ltac:(lia) Dp _ _ Ef). destruct Pt as [->|[-> _]]; reflexivity. }
  assert (Mant : hex_mantissa (ip ++ dot ++ fp) = None <-> (2 ^ 64 <= iv)%N).
  { assert (NoDot : str_all (fun x => negb (Ascii.eqb "." x)) ip = true) by (refine (digits_all 16 ip _ ltac:(lia) _ _ _ Ei); intros a d Hd; each_digit Hd).
    assert (Big : forall a r, ip = String a r -> option_map f64_of_int (u64_hex ip) = None <-> (2 ^ 64 <= iv)%N).
    { intros a r Eip. assert (S : spells 16 ip iv) by (apply spells_digits; [lia|]; split; [rewrite Eip; discriminate|exact Ei]).
      unfold u64_hex. rewrite (from_str_radix_spells _ _ _ _ _ _ S). change (2 ^ 64)%N with 18446744073709551616%N.
      pose proof (ranged_none 0 (Z.of_N u64_max) (Z.of_N iv)) as R. destruct (ranged 0 (Z.of_N u64_max) (Z.of_N iv)); cbn [option_map].
      - split; [discriminate|]. intro L. destruct R as [_ R]. discriminate R. unfold u64_max. lia.
      - split; [|reflexivity]. intros _. destruct R as [R _]. specialize (R eq_refl). unfold u64_max in R. lia. }
    unfold hex_mantissa. destruct Pt as [->|[-> ->]].
    - change ("." ++ fp)%string with (String "." fp). rewrite (split_once_at _ ip "." fp NoDot eq_refl).
      destruct (hex_fraction_some fp 0 fv (FFinite 0 0) (f64_div16 (f64_of_int 1)) Ef) as (f & ->).
      destruct ip as [|a r].
      + injection Ei as <-. split; [discriminate|]. intro L. exfalso. change (2 ^ 64)%N with 18446744073709551616%N in L. lia.
      + rewrite <- (Big a r eq_refl). destruct (option_map f64_of_int (u64_hex (String a r))); split; (discriminate || reflexivity).
    - change ("" ++ "")%string with "". rewrite app_empty_r in *. rewrite (split_once_none _ ip NoDot). destruct ip as [|a r]; [now destruct Ne|]. exact (Big a r eq_refl). }
  unfold parse_hex_float. replace (ip ++ dot ++ fp ++ String c' t)%string with ((ip ++ dot ++ fp) ++ String c' t)%string by now rewrite !str_assoc.
  rewrite (split_once_at _ _ c' t Nop) by (destruct Hc' as [<-|[<-|[]]]; reflexivity).
  rewrite <- Mant, Et. change (-2147483648) with i32_min. change 2147483647 with i32_max. rewrite <- ranged_none.
  destruct (ranged i32_min i32_max x), (hex_mantissa (ip ++ dot ++ fp)); cbn; split; try (intros [D|D]; discriminate); (discriminate || auto).
Qed.

(** ** There is one nearest number *)
Lemma between_evens m e m' e' : binary64 m e -> binary64 m' e' -> full m e -> full m' e' -> Z.even m = true -> Z.even m' = true ->
  m * 2 ^ (e + 1074) < m' * 2 ^ (e' + 1074) ->
  exists a b, binary64 a b /\ m * 2 ^ (e + 1074) < a * 2 ^ (b + 1074) < m' * 2 ^ (e' + 1074).
Proof.
  intros [M E] [M' E'] F F' Ev Ev' L.
  apply Z.even_spec in Ev as [k ->]. apply Z.even_spec in Ev' as [k' ->]. change (2 ^ 53) with (2 * 2 ^ 52) in *.
  pose proof (pow_pos (e + 1074) ltac:(lia)) as P. pose proof (pow_pos (e' + 1074) ltac:(lia)) as P'.
  destruct (Z.lt_trichotomy e e') as [Lt|[->|Lt]].
  - replace (e' + 1074) with ((e' - e) + (e + 1074)) in * by lia. rewrite (pow_split (e' - e) (e + 1074)), Z.mul_assoc in * by lia.
    apply Z.mul_lt_mono_pos_r in L; [|exact P]. set (q := 2 ^ (e' - e)) in *. assert (Q : 2 <= q) by (unfold q; change 2 with (2 ^ 1) at 1; apply Z.pow_le_mono_r; lia).
    clearbody q. assert (A : 2 * k + 1 < 2 * k' * q /\ Z.abs (2 * k + 1) < 2 * 2 ^ 52).
    { clear P P' E E' Lt F. set (b := 2 ^ 52) in *. assert (B : 0 < b) by (unfold b; lia). clearbody b. destruct F' as [F'|[F'|F']]; [|nia|nia]. nia. }
    destruct A as [A B]. exists (2 * k + 1), e. split; [split; [exact B|lia]|]. split; apply Z.mul_lt_mono_pos_r; lia.
  - apply Z.mul_lt_mono_pos_r in L; [|exact P]. exists (2 * k + 1), e'. split; [split; lia|]. split; apply Z.mul_lt_mono_pos_r; lia.
  - replace (e + 1074) with ((e - e') + (e' + 1074)) in * by lia. rewrite (pow_split (e - e') (e' + 1074)), Z.mul_assoc in * by lia.
    apply Z.mul_lt_mono_pos_r in L; [|exact P']. set (q := 2 ^ (e - e')) in *. assert (Q : 2 <= q) by (unfold q; change 2 with (2 ^ 1) at 1; apply Z.pow_le_mono_r; lia).
    clearbody q. assert (A : 2 * k * q < 2 * k' - 1 /\ Z.abs (2 * k' - 1) < 2 * 2 ^ 52).
    { clear P P' E E' Lt F'. set (b := 2 ^ 52) in *. assert (B : 0 < b) by (unfold b; lia). clearbody b. destruct F as [F|[F|F]]; nia. }
    destruct A as [A B]. exists (2 * k' - 1), e'. split; [split; [exact B|lia]|]. split; apply Z.mul_lt_mono_pos_r; lia.
Qed.
Lemma between_nearer n d v w u : 0 < d -> v < u < w -> Z.abs (n - v * d) = Z.abs (n - w * d) -> Z.abs (n - u * d) < Z.abs (n - v * d).
Proof.
  intros D [A B] E. assert (V : v * d < u * d) by (apply Z.mul_lt_mono_pos_r; lia). assert (W : u * d < w * d) by (apply Z.mul_lt_mono_pos_r; lia). lia.
Qed.
Lemma nearest_one_value n d m e m' e' : 0 < d -> nearest n d (FFinite m e) -> nearest n d (FFinite m' e') -> m * 2 ^ (e + 1074) = m' * 2 ^ (e' + 1074).
Proof.
  intros D N N'. inversion N as [? ? _ B F Near Tie|]; subst. inversion N' as [? ? _ B' F' Near' Tie'|]; subst.
  assert (A : apart n d m' e' = apart n d m e) by (pose proof (Near _ _ B'); pose proof (Near' _ _ B); lia).
  destruct (Tie _ _ B' A) as [<-|Ev]; [reflexivity|]. destruct (Tie' _ _ B (eq_sym A)) as [<-|Ev']; [reflexivity|].
  assert (W : forall m e m' e', binary64 m e -> binary64 m' e' -> full m e -> full m' e' -> Z.even m = true -> Z.even m' = true ->
    apart n d m' e' = apart n d m e -> (forall a b, binary64 a b -> apart n d m e <= apart n d a b) -> m * 2 ^ (e + 1074) < m' * 2 ^ (e' + 1074) -> False).
  { clear -D. intros m e m' e' B B' F F' Ev Ev' A Near L. destruct (between_evens m e m' e' B B' F F' Ev Ev' L) as (a & b & Bab & Lab).
    specialize (Near a b Bab). unfold apart in *. pose proof (between_nearer (n * 2 ^ 1074) d _ _ _ D Lab (eq_sym A)). lia. }
  destruct (Z.lt_trichotomy (m * 2 ^ (e + 1074)) (m' * 2 ^ (e' + 1074))) as [L|[L|L]].
  - destruct (W m e m' e' B B' F F' Ev Ev' A Near L).
  - exact L.
  - destruct (W m' e' m e B' B F' F Ev' Ev (eq_sym A) Near' L).
Qed.
Theorem nearest_unique n d r r' : 0 < d -> nearest n d r -> nearest n d r' ->
  r = r' \/ exists e e', r = FFinite 0 e /\ r' = FFinite 0 e'.
Proof.
  intros D N N'. pose proof N as N0. pose proof N' as N0'.
  destruct N as [m e NL B F Near Tie|T]; destruct N' as [m' e' NL' B' F' Near' Tie'|T']; try contradiction; [|now left].
  pose proof (nearest_one_value n d m e m' e' D N0 N0') as V. pose proof (full_unique m e m' e' B B' F F' V) as <-.
  destruct (Z.eq_dec m 0) as [->|Nz]; [right; eauto|]. left. f_equal. apply Z.mul_cancel_l in V; [|exact Nz].
  apply Z.pow_inj_r in V; destruct B, B'; lia.
Qed.
