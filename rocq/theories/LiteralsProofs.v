From Verif Require Import Literals SpecLiterals BaseProofs EditProofs.

(** ** Integers *)

Fixpoint str_all (p : ascii -> bool) (s : string) : bool :=
  match s with EmptyString => true | String c r => p c && str_all p r end.

Lemma str_all_app p a b : str_all p (a ++ b)%string = str_all p a && str_all p b.
Proof. induction a as [|c a IH]; cbn; [reflexivity|]. now rewrite IH, andb_assoc. Qed.

Definition lit_char (c : ascii) : bool :=
  negb (Ascii.eqb "_" c) && negb (Ascii.eqb "." c) && negb (Ascii.eqb "-" c) && negb (Ascii.eqb "+" c)
  && negb (is_ascii_whitespace c).

Lemma digit_to_digit base c d : digit base c d -> to_digit base c = Some d.
Proof.
  intros [Hin Hd]. apply N.ltb_lt in Hd. unfold digit_table in Hin. cbn [In] in Hin.
  unfold to_digit.
  repeat (destruct Hin as [Hin|Hin]; [apply pair_equal_spec in Hin; destruct Hin as [<- <-];
    cbn -[N.ltb]; cbn -[N.ltb] in Hd; now rewrite Hd|]).
  destruct Hin.
Qed.

Lemma digit_lit_char base c d : digit base c d -> lit_char c = true.
Proof.
  intros [Hin _]. unfold digit_table in Hin. cbn [In] in Hin.
  repeat (destruct Hin as [Hin|Hin]; [apply pair_equal_spec in Hin; destruct Hin as [<- <-]; reflexivity|]).
  destruct Hin.
Qed.

Lemma digit_not_l base c d : digit base c d -> Ascii.eqb c "l" || Ascii.eqb c "L" = false.
Proof.
  intros [Hin _]. unfold digit_table in Hin. cbn [In] in Hin.
  repeat (destruct Hin as [Hin|Hin]; [apply pair_equal_spec in Hin; destruct Hin as [<- <-]; reflexivity|]).
  destruct Hin.
Qed.

Lemma digits_value_snoc base s c acc :
  digits_value base (s ++ String c "")%string acc =
  match digits_value base s acc with
  | Some v => match to_digit base c with Some d => Some (v * base + d)%N | None => None end
  | None => None
  end.
Proof.
  revert acc. induction s as [|a s IH]; intro acc; cbn.
  - destruct (to_digit base c); reflexivity.
  - destruct (to_digit base a); [apply IH|reflexivity].
Qed.

Lemma spells_value base s v : spells base s v -> digits_value base s 0 = Some v.
Proof.
  induction 1 as [c d Hd|s v c d Hs IH Hd].
  - cbn. rewrite (digit_to_digit _ _ _ Hd). f_equal. 
  - rewrite digits_value_snoc, IH, (digit_to_digit _ _ _ Hd). reflexivity.
Qed.

Lemma spells_chars base s v : spells base s v -> str_all lit_char s = true.
Proof.
  induction 1 as [c d Hd|s v c d Hs IH Hd].
  - cbn. now rewrite (digit_lit_char _ _ _ Hd).
  - rewrite str_all_app, IH. cbn. now rewrite (digit_lit_char _ _ _ Hd).
Qed.

Lemma spells_last base s v : spells base s v ->
  exists s' c, s = (s' ++ String c "")%string /\ Ascii.eqb c "l" || Ascii.eqb c "L" = false.
Proof.
  destruct 1 as [c d Hd|s v c d Hs Hd].
  - exists "", c. split; [reflexivity|]. eapply digit_not_l; eauto.
  - exists s, c. split; [reflexivity|]. eapply digit_not_l; eauto.
Qed.

Lemma spells_nonempty base s v : spells base s v -> s <> EmptyString.
Proof. destruct 1 as [c d Hd|s v c d Hs Hd]; [discriminate|]. destruct s; discriminate. Qed.

Lemma spells_first base c s v : spells base (String c s) v -> exists d, digit base c d.
Proof.
  remember (String c s) as t. intro H. revert c s Heqt.
  induction H as [c d Hd|s v c d Hs IH Hd]; intros c' s' E.
  - injection E as -> _. eauto.
  - destruct s as [|a s]; [exfalso; eapply spells_nonempty; eauto|]. cbn in E. injection E as -> _. eauto.
Qed.

Lemma magnitude_chars m v : magnitude m v -> str_all lit_char m = true.
Proof.
  destruct 1 as [s v [|c s' v' Hc Hs]|x s v Hx Hs|s v Hs].
  - reflexivity.
  - eapply spells_chars; eauto.
  - apply spells_chars in Hs. destruct Hx as [<-|[<-|[]]]; cbn; exact Hs.
  - apply spells_chars in Hs. exact Hs.
Qed.

Lemma magnitude_last m v : magnitude m v ->
  exists s' c, m = (s' ++ String c "")%string /\ Ascii.eqb c "l" || Ascii.eqb c "L" = false.
Proof.
  destruct 1 as [s v [|c s' v' Hc Hs]|x s v Hx Hs|s v Hs].
  - exists "", "0"%char. now split.
  - eapply spells_last; eauto.
  - apply spells_last in Hs. destruct Hs as (s' & c & -> & E). exists (String "0" (String x s')), c. now split.
  - apply spells_last in Hs. destruct Hs as (s' & c & -> & E). exists (String "0" s'), c. now split.
Qed.

Lemma remove_char_all c s : str_all (fun d => negb (Ascii.eqb c d)) s = true -> remove_char c s = s.
Proof.
  induction s as [|d s IH]; [reflexivity|]. cbn. intro E. apply andb_true_iff in E. destruct E as [E1 E2].
  apply negb_true_iff in E1. now rewrite E1, (IH E2).
Qed.

Lemma contains_char_all c s : str_all (fun d => negb (Ascii.eqb c d)) s = true -> contains_char c s = false.
Proof.
  induction s as [|d s IH]; [reflexivity|]. cbn. intro E. apply andb_true_iff in E. destruct E as [E1 E2].
  apply negb_true_iff in E1. now rewrite E1, (IH E2).
Qed.

Lemma str_all_impl (p q : ascii -> bool) s :
  (forall c, p c = true -> q c = true) -> str_all p s = true -> str_all q s = true.
Proof.
  intro H. induction s as [|d s IH]; [reflexivity|]. cbn. intro E. apply andb_true_iff in E. destruct E as [E1 E2].
  now rewrite (H _ E1), (IH E2).
Qed.

Lemma lit_char_us c : lit_char c = true -> negb (Ascii.eqb "_" c) = true.
Proof. unfold lit_char. intro E. repeat apply andb_true_iff, proj1 in E. exact E. Qed.
Lemma lit_char_dot c : lit_char c = true -> negb (Ascii.eqb "." c) = true.
Proof. unfold lit_char. intro E. repeat (apply andb_true_iff in E; destruct E as [E ?]). assumption. Qed.
Lemma lit_char_minus c : lit_char c = true -> Ascii.eqb c "-" = false.
Proof.
  unfold lit_char. intro E. repeat (apply andb_true_iff in E; destruct E as [E ?]).
  rewrite Ascii.eqb_sym. now apply negb_true_iff.
Qed.
Lemma lit_char_plus c : lit_char c = true -> Ascii.eqb c "+" = false.
Proof.
  unfold lit_char. intro E. repeat (apply andb_true_iff in E; destruct E as [E ?]).
  rewrite Ascii.eqb_sym. now apply negb_true_iff.
Qed.
Lemma lit_char_ws c : lit_char c = true -> is_ascii_whitespace c = false.
Proof.
  unfold lit_char. intro E. repeat (apply andb_true_iff in E; destruct E as [E ?]). now apply negb_true_iff.
Qed.

Lemma split_last_snoc s c : split_last (s ++ String c "")%string = Some (s, c).
Proof. induction s as [|a s IH]; cbn; [reflexivity|]. now rewrite IH. Qed.

Definition ranged (lo hi z : Z) : option Z := if ((lo <=? z) && (z <=? hi))%Z then Some z else None.

Lemma from_str_radix_spells base signed lo hi s v :
  spells base s v -> from_str_radix base signed lo hi s = ranged lo hi (Z.of_N v).
Proof.
  intro Hs. destruct s as [|c s]; [exfalso; eapply spells_nonempty; eauto|].
  pose proof (spells_chars _ _ _ Hs) as Hc. cbn [str_all] in Hc. apply andb_true_iff, proj1 in Hc.
  pose proof (spells_value _ _ _ Hs) as Hv.
  unfold from_str_radix. rewrite (lit_char_plus _ Hc), (lit_char_minus _ Hc), andb_false_r, Hv. reflexivity.
Qed.

Lemma from_str_radix_neg base lo hi s v :
  spells base s v -> from_str_radix base true lo hi (String "-" s) = ranged lo hi (- Z.of_N v).
Proof.
  intro Hs. pose proof (spells_nonempty _ _ _ Hs) as Hne. pose proof (spells_value _ _ _ Hs) as Hv.
  unfold from_str_radix. cbn [Ascii.eqb Bool.eqb andb]. destruct s; [congruence|]. rewrite Hv. reflexivity.
Qed.

Lemma spells_zero base s v : (0 < base)%N -> spells base s v -> spells base (String "0" s) v.
Proof.
  intro Hb. assert (D0 : digit base "0" 0) by (split; [now left|exact Hb]).
  induction 1 as [c d Hd|s v c d Hs IH Hd].
  - pose proof (sp_more base (String "0" "") 0 c d (sp_one _ _ _ D0) Hd) as H.
    cbn in H. exact H.
  - exact (sp_more _ _ _ _ _ IH Hd).
Qed.

Lemma dec_not_zero_prefix c s : c <> "0"%char -> prefix "0" (String c s) = false.
Proof. intro H. cbn [prefix]. destruct (ascii_dec "0" c); [congruence|reflexivity]. Qed.

Lemma prefix_cons a p c s : prefix (String a p) (String c s) = if Ascii.eqb a c then prefix p s else false.
Proof.
  cbn [prefix]. destruct (ascii_dec a c) as [->|n].
  - now rewrite Ascii.eqb_refl.
  - destruct (Ascii.eqb_spec a c); [congruence|reflexivity].
Qed.

Lemma prefix_nil s : prefix "" s = true.
Proof. destruct s; reflexivity. Qed.

Lemma spells_octal_digits s v : spells 8 s v -> exists c s', s = String c s' /\ c <> "x"%char /\ c <> "X"%char.
Proof.
  intro H. destruct s as [|c s]; [exfalso; eapply spells_nonempty; eauto|].
  exists c, s. split; [reflexivity|]. apply spells_first in H. destruct H as (d & Hin & Hd).
  split; intros ->; unfold digit_table in Hin; cbn [In] in Hin;
    repeat (destruct Hin as [Hin|Hin]; [discriminate|]); destruct Hin.
Qed.

Definition i64_hi : Z := Z.of_N i64_max.

Lemma decode_pos m v : magnitude m v -> decode_i64 m = ranged i64_min i64_hi (Z.of_N v).
Proof.
  intro Hm. pose proof (magnitude_chars _ _ Hm) as Hall.
  destruct Hm as [s v Hd|x s v Hx Hs|s v Hs].
  - destruct Hd as [|c s v Hc Hs].
    + reflexivity.
    + unfold decode_i64. cbn [str_all] in Hall. apply andb_true_iff, proj1 in Hall.
      apply lit_char_minus in Hall. rewrite Ascii.eqb_sym in Hall.
      assert (E0 : Ascii.eqb "0" c = false) by (destruct (Ascii.eqb_spec "0" c); congruence).
      rewrite !prefix_cons, E0, Hall. cbn [orb andb].
      exact (from_str_radix_spells _ _ _ _ _ _ Hs).
  - unfold decode_i64. assert (E : prefix "0x" (String "0" (String x s)) || prefix "0X" (String "0" (String x s)) = true)
      by (destruct Hx as [<-|[<-|[]]]; destruct s; reflexivity).
    rewrite E. cbn [str_drop]. exact (from_str_radix_spells _ _ _ _ _ _ Hs).
  - destruct (spells_octal_digits _ _ Hs) as (c & s' & Es & N1 & N2).
    unfold decode_i64.
    assert (E : prefix "0x" (String "0" s) = false /\ prefix "0X" (String "0" s) = false).
    { rewrite Es, !prefix_cons, Ascii.eqb_refl.
      destruct (Ascii.eqb_spec "x" c); [congruence|]. destruct (Ascii.eqb_spec "X" c); [congruence|]. now split. }
    destruct E as [-> ->]. rewrite !prefix_cons. cbn [Ascii.eqb Bool.eqb orb andb]. rewrite prefix_nil.
    assert (El : Nat.ltb 1 (String.length (String "0" s)) = true) by (rewrite Es; reflexivity).
    rewrite El. rewrite contains_char_all; [|eapply str_all_impl; [apply lit_char_dot|exact Hall]].
    cbn [negb andb]. apply from_str_radix_spells, spells_zero; [reflexivity|exact Hs].
Qed.

Lemma decode_neg_dec m v : decimal_magnitude m v -> decode_i64 (String "-" m) = ranged i64_min i64_hi (- Z.of_N v).
Proof.
  destruct 1 as [|c s v Hc Hs]; [reflexivity|].
  unfold decode_i64. rewrite !prefix_cons.
  assert (E0 : Ascii.eqb "0" c = false) by (destruct (Ascii.eqb_spec "0" c); congruence).
  change (Ascii.eqb "0" "-") with false. rewrite Ascii.eqb_refl, E0. cbn [orb andb]. rewrite andb_false_r.
  exact (from_str_radix_neg _ _ _ _ _ Hs).
Qed.

Lemma decode_neg m v : magnitude m v -> ~ decimal_magnitude m v ->
  decode_i64 (String "-" m) = option_map Z.opp (ranged i64_min i64_hi (Z.of_N v)).
Proof.
  intros Hm Hnd. pose proof (magnitude_chars _ _ Hm) as Hall.
  destruct Hm as [s v Hd|x s v Hx Hs|s v Hs]; [contradiction| |].
  - unfold decode_i64. rewrite !prefix_cons. change (Ascii.eqb "0" "-") with false. rewrite !Ascii.eqb_refl. cbn [orb].
    assert (E : (if Ascii.eqb "x" x then prefix "" s else false) || (if Ascii.eqb "X" x then prefix "" s else false) = true)
      by (destruct Hx as [<-|[<-|[]]]; destruct s; reflexivity).
    rewrite E. cbn [andb str_drop].
    unfold i64_radix. rewrite (from_str_radix_spells _ _ _ _ _ _ Hs). unfold i64_hi.
    destruct (ranged _ _ _); reflexivity.
  - destruct (spells_octal_digits _ _ Hs) as (c & s' & Es & N1 & N2).
    assert (Es' : exists c s', s = String c s') by eauto. 
    unfold decode_i64. rewrite !prefix_cons. change (Ascii.eqb "0" "-") with false. rewrite !Ascii.eqb_refl. cbn [orb].
    assert (Ex : prefix "x" s = false) by (rewrite Es, prefix_cons; destruct (Ascii.eqb_spec "x" c); congruence).
    assert (EX : prefix "X" s = false) by (rewrite Es, prefix_cons; destruct (Ascii.eqb_spec "X" c); congruence).
    rewrite Ex, EX. cbn [orb andb].
    assert (El : Nat.ltb 2 (String.length (String "-" (String "0" s))) = true) by (rewrite Es; reflexivity).
    rewrite El. rewrite contains_char_all.
    2:{ change (str_all ?p (String "-" ?t)) with (p "-"%char && str_all p t). cbn [Ascii.eqb Bool.eqb negb andb].
        eapply str_all_impl; [apply lit_char_dot|exact Hall]. }
    cbn [negb andb]. rewrite !prefix_nil. cbn [andb str_drop].
    unfold i64_radix. rewrite (from_str_radix_spells _ _ _ _ _ _ (spells_zero 8 s v eq_refl Hs)). unfold i64_hi.
    destruct (ranged _ _ _); reflexivity.
Qed.

Definition parse_result (o : option Z) : option json := option_map json_of_i64 o.

Lemma parse_core number (b : bool) :
  match decode_i64 number with
  | None => None
  | Some z => if b || negb (as_i32 z =? z)%Z then Some (json_of_i64 z) else Some (json_of_i64 (as_i32 z))
  end = parse_result (decode_i64 number).
Proof.
  destruct (decode_i64 number) as [z|]; [|reflexivity]. cbn.
  destruct b; [reflexivity|]. cbn. destruct (Z.eqb_spec (as_i32 z) z) as [->|]; reflexivity.
Qed.

Lemma app_empty_r s : (s ++ "")%string = s.
Proof. induction s as [|c s IH]; cbn; [reflexivity|]. now rewrite IH. Qed.

Lemma parse_suffixed n s' c suf :
  str_all (fun d => negb (Ascii.eqb "_" d)) n = true ->
  n = (s' ++ String c "")%string -> Ascii.eqb c "l" || Ascii.eqb c "L" = false -> suffix suf ->
  parse_integer_literal (n ++ suf) = parse_result (decode_i64 n).
Proof.
  intros Hall En Ec Hsuf. unfold parse_integer_literal. 
  rewrite remove_char_all.
  2:{ rewrite str_all_app, Hall. destruct Hsuf as [<-|[<-|[<-|[]]]]; reflexivity. }
  destruct Hsuf as [<-|[<-|[<-|[]]]].
  - rewrite app_empty_r. rewrite En at 1. rewrite split_last_snoc, Ec. apply (parse_core n false).
  - rewrite split_last_snoc. cbn [Ascii.eqb Bool.eqb orb]. apply (parse_core n true).
  - rewrite split_last_snoc. cbn [Ascii.eqb Bool.eqb orb]. apply (parse_core n true).
Qed.

Lemma parse_pos m v suf : magnitude m v -> suffix suf ->
  parse_integer_literal (m ++ suf) = parse_result (ranged i64_min i64_hi (Z.of_N v)).
Proof.
  intros Hm Hs. destruct (magnitude_last _ _ Hm) as (s' & c & E & Ec).
  rewrite <- (decode_pos _ _ Hm). eapply parse_suffixed; eauto.
  eapply str_all_impl; [apply lit_char_us|eapply magnitude_chars; eauto].
Qed.

Lemma parse_neg m v suf : magnitude m v -> suffix suf ->
  parse_integer_literal (String "-" (m ++ suf)) = parse_result (decode_i64 (String "-" m)).
Proof.
  intros Hm Hs. destruct (magnitude_last _ _ Hm) as (s' & c & E & Ec).
  change (String "-" (m ++ suf)) with (String "-" m ++ suf)%string.
  apply (parse_suffixed _ (String "-" s') c); [|now rewrite E|exact Ec|exact Hs].
  cbn [str_all Ascii.eqb Bool.eqb negb andb].
  eapply str_all_impl; [apply lit_char_us|eapply magnitude_chars; eauto].
Qed.

Lemma ranged_in lo hi z : (lo <= z <= hi)%Z -> ranged lo hi z = Some z.
Proof. unfold ranged. intro H. destruct (Z.leb_spec lo z), (Z.leb_spec z hi); try lia; reflexivity. Qed.
Lemma ranged_out lo hi z : ~ (lo <= z <= hi)%Z -> ranged lo hi z = None.
Proof. unfold ranged. intro H. destruct (Z.leb_spec lo z), (Z.leb_spec z hi); try lia; reflexivity. Qed.

Lemma json_of_i64_int z : json_int z (json_of_i64 z).
Proof. unfold json_of_i64. destruct (Z.ltb_spec z 0); constructor; lia. Qed.

Lemma i64_bounds : (i64_min = -9223372036854775808 /\ i64_hi = 9223372036854775807)%Z.
Proof. split; reflexivity. Qed.

Lemma dec_magnitude_dec m v : magnitude m v -> decimal_magnitude m v \/ ~ decimal_magnitude m v.
Proof.
  destruct 1 as [s v Hd|x s v Hx Hs|s v Hs]; [now left| |]; right; intro H; inversion H; subst.
  - now match goal with H : "0"%char <> "0"%char |- _ => apply H end.
  - eapply spells_nonempty; eauto.
  - now match goal with H : "0"%char <> "0"%char |- _ => apply H end.
Qed.

Lemma parse_value text z : int_literal text z -> (-9223372036854775808 < z <= 9223372036854775807)%Z ->
  exists j, parse_integer_literal text = Some j /\ json_int z j.
Proof.
  intros Hl Hz. destruct i64_bounds as [Elo Ehi].
  destruct Hl as [m v suf Hm Hs|m v suf Hm Hs]; eexists; (split; [|apply json_of_i64_int]).
  - rewrite (parse_pos _ _ _ Hm Hs), ranged_in; [reflexivity|]. rewrite Elo, Ehi. lia.
  - rewrite (parse_neg _ _ _ Hm Hs). destruct (dec_magnitude_dec _ _ Hm) as [Hd|Hd].
    + rewrite (decode_neg_dec _ _ Hd), ranged_in; [reflexivity|]. rewrite Elo, Ehi. lia.
    + rewrite (decode_neg _ _ Hm Hd), ranged_in; [reflexivity|]. rewrite Elo, Ehi. lia.
Qed.

Lemma parse_min_decimal m suf : decimal_magnitude m 9223372036854775808 -> suffix suf ->
  exists j, parse_integer_literal (String "-" (m ++ suf)) = Some j /\ json_int (-9223372036854775808) j.
Proof.
  intros Hd Hs. destruct i64_bounds as [Elo Ehi].
  eexists. split; [|apply json_of_i64_int].
  rewrite (parse_neg _ _ _ (mag_dec _ _ Hd) Hs), (decode_neg_dec _ _ Hd), ranged_in; [reflexivity|].
  rewrite Elo, Ehi. lia.
Qed.

Lemma parse_out_of_range text z : int_literal text z ->
  ~ (-9223372036854775808 <= z <= 9223372036854775807)%Z -> parse_integer_literal text = None.
Proof.
  intros Hl Hz. destruct i64_bounds as [Elo Ehi].
  destruct Hl as [m v suf Hm Hs|m v suf Hm Hs].
  - rewrite (parse_pos _ _ _ Hm Hs), ranged_out; [reflexivity|]. rewrite Elo, Ehi. lia.
  - rewrite (parse_neg _ _ _ Hm Hs). destruct (dec_magnitude_dec _ _ Hm) as [Hd|Hd].
    + rewrite (decode_neg_dec _ _ Hd), ranged_out; [reflexivity|]. rewrite Elo, Ehi. lia.
    + rewrite (decode_neg _ _ Hm Hd), ranged_out; [reflexivity|]. rewrite Elo, Ehi. lia.
Qed.

Lemma remove_underscored s t : underscored s t -> remove_char "_" s = t.
Proof.
  induction 1 as [|s t H IH|c s t Hc H IH]; cbn [remove_char]; [reflexivity| |].
  - rewrite Ascii.eqb_refl. exact IH.
  - destruct (Ascii.eqb_spec "_" c); [congruence|]. now rewrite IH.
Qed.

Lemma underscored_idem s t : underscored s t -> remove_char "_" t = t.
Proof.
  induction 1 as [|s t H IH|c s t Hc H IH]; cbn [remove_char]; [reflexivity|exact IH|].
  destruct (Ascii.eqb_spec "_" c); [congruence|]. now rewrite IH.
Qed.

Lemma parse_underscored s t : underscored s t -> parse_integer_literal s = parse_integer_literal t.
Proof.
  intro H. unfold parse_integer_literal. now rewrite (remove_underscored _ _ H), (underscored_idem _ _ H).
Qed.

Lemma u32_underscored s t : underscored s t -> parse_integer_as_u32 s = parse_integer_as_u32 t.
Proof.
  intro H. unfold parse_integer_as_u32. now rewrite (remove_underscored _ _ H), (underscored_idem _ _ H).
Qed.

Lemma u32_decode m v : magnitude m v ->
  parse_integer_as_u32 m = option_map Z.to_N (ranged 0 (Z.of_N u32_max) (Z.of_N v)).
Proof.
  intro Hm. pose proof (magnitude_chars _ _ Hm) as Hall. unfold parse_integer_as_u32.
  rewrite remove_char_all; [|eapply str_all_impl; [apply lit_char_us|exact Hall]].
  assert (En : prefix "-" (trim_start_ws m) = false).
  { destruct m as [|c m]; [reflexivity|]. cbn [str_all] in Hall. apply andb_true_iff, proj1 in Hall.
    cbn [trim_start_ws]. rewrite (lit_char_ws _ Hall), prefix_cons, Ascii.eqb_sym, (lit_char_minus _ Hall). reflexivity. }
  rewrite En.
  assert (K : forall o : option Z, match o with Some z => Some (Z.to_N z) | None => None end = option_map Z.to_N o)
    by (intros [?|]; reflexivity).
  rewrite K. f_equal. unfold u32_radix.
  destruct Hm as [s v Hd|x s v Hx Hs|s v Hs].
  - destruct Hd as [|c s v Hc Hs].
    + reflexivity.
    + assert (E0 : Ascii.eqb "0" c = false) by (destruct (Ascii.eqb_spec "0" c); congruence).
      rewrite !prefix_cons, E0. cbn [orb andb].
      exact (from_str_radix_spells _ _ _ _ _ _ Hs).
  - assert (E : prefix "0x" (String "0" (String x s)) || prefix "0X" (String "0" (String x s)) = true)
      by (destruct Hx as [<-|[<-|[]]]; destruct s; reflexivity).
    rewrite E. cbn [str_drop]. exact (from_str_radix_spells _ _ _ _ _ _ Hs).
  - destruct (spells_octal_digits _ _ Hs) as (c & s' & Es & N1 & N2).
    assert (E : prefix "0x" (String "0" s) = false /\ prefix "0X" (String "0" s) = false).
    { rewrite Es, !prefix_cons, Ascii.eqb_refl.
      destruct (Ascii.eqb_spec "x" c); [congruence|]. destruct (Ascii.eqb_spec "X" c); [congruence|]. now split. }
    destruct E as [-> ->]. rewrite !prefix_cons. cbn [Ascii.eqb Bool.eqb orb andb]. rewrite prefix_nil.
    assert (El : Nat.ltb 1 (String.length (String "0" s)) = true) by (rewrite Es; reflexivity).
    rewrite El. cbn [andb]. apply from_str_radix_spells, spells_zero; [reflexivity|exact Hs].
Qed.

Lemma u32_value m v : magnitude m v -> (v <= 4294967295)%N -> parse_integer_as_u32 m = Some v.
Proof.
  intros Hm Hv. rewrite (u32_decode _ _ Hm), ranged_in.
  - cbn. now rewrite N2Z.id.
  - change u32_max with 4294967295%N. lia.
Qed.

Lemma u32_out_of_range m v : magnitude m v -> (4294967295 < v)%N -> parse_integer_as_u32 m = None.
Proof.
  intros Hm Hv. rewrite (u32_decode _ _ Hm), ranged_out; [reflexivity|]. change u32_max with 4294967295%N. lia.
Qed.

Lemma u32_negative s : parse_integer_as_u32 (String "-" s) = None.
Proof.
  unfold parse_integer_as_u32. cbn [remove_char Ascii.eqb Bool.eqb trim_start_ws].
  change (is_ascii_whitespace "-") with false. cbn iota. rewrite prefix_cons, Ascii.eqb_refl, prefix_nil. reflexivity.
Qed.

(** ** Strings *)
Local Open Scope N_scope.

Lemma octal_char c d : octal_digit c d -> is_octal_char c = true /\ c - 48 = d /\ c <> 92 /\ 48 <= c <= 55.
Proof.
  destruct 1 as [d Hd]. unfold is_octal_char. repeat split; try lia.
Qed.

Lemma octal_char_inv c : is_octal_char c = true -> octal_digit c (c - 48).
Proof.
  unfold is_octal_char. intro E. apply andb_true_iff in E. destruct E as [E1 E2].
  apply N.leb_le in E1. apply N.leb_le in E2. replace c with (48 + (c - 48)) at 1 by lia. constructor. lia.
Qed.

Lemma not_octal_next_false l : not_octal_next l -> match l with c :: _ => is_octal_char c = false | [] => True end.
Proof.
  destruct l as [|c l]; [trivial|]. cbn. intro H. destruct (is_octal_char c) eqn:E; [|reflexivity].
  exfalso. apply H. exists (c - 48). now apply octal_char_inv.
Qed.

Lemma hex_digit_spec c d : hexadecimal_digit c d -> hex_digit c = Some d /\ c <> 117 /\ c <> 43 /\ c < 128 /\ d < 16.
Proof.
  destruct 1 as [d Hd|d Hd|d Hd]; unfold hex_digit.
  - assert (E : (48 <=? 48 + d) && (48 + d <=? 57) = true) by (apply andb_true_iff; split; apply N.leb_le; lia).
    rewrite E. repeat split; try lia. f_equal. lia.
  - assert (E : (48 <=? 87 + d) && (87 + d <=? 57) = false) by (apply andb_false_iff; right; apply N.leb_gt; lia).
    assert (E' : (97 <=? 87 + d) && (87 + d <=? 102) = true) by (apply andb_true_iff; split; apply N.leb_le; lia).
    rewrite E, E'. repeat split; try lia. f_equal. lia.
  - assert (E : (48 <=? 55 + d) && (55 + d <=? 57) = false) by (apply andb_false_iff; right; apply N.leb_gt; lia).
    assert (E' : (97 <=? 55 + d) && (55 + d <=? 102) = false) by (apply andb_false_iff; left; apply N.leb_gt; lia).
    assert (E'' : (65 <=? 55 + d) && (55 + d <=? 70) = true) by (apply andb_true_iff; split; apply N.leb_le; lia).
    rewrite E, E', E''. repeat split; try lia. f_equal. lia.
Qed.

Lemma four_hex_facts h v : four_hex h v ->
  hex_u32 h = Some v /\ utf8_length h = 4%nat /\ v < 65536 /\
  forall l, skip_u (h ++ l) = h ++ l /\ firstn 4 (h ++ l) = h /\ skipn 4 (h ++ l) = l.
Proof.
  destruct 1 as [c3 c2 c1 c0 d3 d2 d1 d0 H3 H2 H1 H0].
  apply hex_digit_spec in H3, H2, H1, H0.
  destruct H3 as (E3 & U3 & P3 & L3 & B3), H2 as (E2 & U2 & P2 & L2 & B2), H1 as (E1 & U1 & P1 & L1 & B1), H0 as (E0 & U0 & P0 & L0 & B0).
  split; [|split; [|split]].
  - unfold hex_u32. apply N.eqb_neq in P3. rewrite P3. cbn [hex_value]. rewrite E3, E2, E1, E0. f_equal. lia.
  - unfold utf8_length, utf8_encode_char. cbn [flat_map].
    apply N.ltb_lt in L3, L2, L1, L0. rewrite L3, L2, L1, L0. reflexivity.
  - lia.
  - intro l. cbn [app]. split; [|split; reflexivity]. cbn [skip_u]. unfold c_u. apply N.eqb_neq in U3. now rewrite U3.
Qed.

Lemma skip_u_repeat n l : skip_u (repeat 117 n ++ l) = skip_u l.
Proof. induction n as [|n IH]; [reflexivity|]. exact IH. Qed.

Lemma scalar_from_u32 v : scalar v -> from_u32 v = Some v.
Proof.
  intros [H1 H2]. unfold from_u32.
  destruct (N.leb_spec 1114112 v); [lia|]. destruct (N.leb_spec 55296 v), (N.leb_spec v 57343); try lia; reflexivity.
Qed.

Lemma unescape_simple e c l : In (e, c) simple_escapes -> unescape_one (e :: l) = ([c], l).
Proof.
  unfold simple_escapes. cbn [In]. intro Hin.
  repeat (destruct Hin as [Hin|Hin]; [apply pair_equal_spec in Hin; destruct Hin as [<- <-]; reflexivity|]).
  destruct Hin.
Qed.

Lemma unescape_octal_head c r : is_octal_char c = true ->
  unescape_one (c :: r) =
        match r with
        | d :: r1 =>
            if is_octal_char d then
              match r1 with
              | e :: r2 =>
                  if (c <=? 51) && is_octal_char e
                  then ([((c - 48) * 8 + (d - 48)) * 8 + (e - 48)], r2)
                  else ([(c - 48) * 8 + (d - 48)], r1)
              | [] => ([(c - 48) * 8 + (d - 48)], r1)
              end
            else ([c - 48], r)
        | [] => ([c - 48], r)
        end.
Proof.
  intro E. pose proof E as E'. unfold is_octal_char in E'. apply andb_true_iff in E'. destruct E' as [E1 E2].
  apply N.leb_le in E1. apply N.leb_le in E2. unfold unescape_one, c_u.
  repeat match goal with |- context [c =? ?k] => destruct (N.eqb_spec c k); [lia|] end.
  rewrite E. reflexivity.
Qed.

Lemma unescape_unicode n h v l : four_hex h v -> scalar v ->
  unescape_one (117 :: repeat 117 n ++ h ++ l) = ([v], l).
Proof.
  intros Hh Hv. destruct (four_hex_facts _ _ Hh) as (Eh & _ & _ & Hl). destruct (Hl l) as (E1 & E2 & E3).
  unfold unescape_one, c_u. cbn [N.eqb Pos.eqb]. rewrite skip_u_repeat, E1, E2, E3, Eh, (scalar_from_u32 _ Hv).
  destruct Hv as [Hv1 Hv2].
  destruct (N.leb_spec 55296 v), (N.leb_spec v 56319); try lia; reflexivity.
Qed.

Lemma unescape_pair n h v n' h' v' l :
  four_hex h v -> high_surrogate v -> four_hex h' v' -> low_surrogate v' ->
  unescape_one (117 :: repeat 117 n ++ h ++ 92 :: 117 :: repeat 117 n' ++ h' ++ l)
  = ([65536 + (v - 55296) * 1024 + (v' - 56320)], l).
Proof.
  intros Hh [Hv1 Hv2] Hh' [Hv1' Hv2'].
  destruct (four_hex_facts _ _ Hh) as (Eh & _ & _ & Hl).
  destruct (Hl (92 :: 117 :: repeat 117 n' ++ h' ++ l)) as (E1 & E2 & E3).
  destruct (four_hex_facts _ _ Hh') as (Eh' & El' & _ & Hl'). destruct (Hl' l) as (E1' & E2' & E3').
  unfold unescape_one, c_u. cbn [N.eqb Pos.eqb]. rewrite skip_u_repeat, E1, E2, E3, Eh.
  destruct (N.leb_spec 55296 v), (N.leb_spec v 56319); try lia. cbn [andb].
  unfold try_parse_low_surrogate, c_backslash, c_u. cbn [N.eqb Pos.eqb andb].
  rewrite skip_u_repeat, E1', E2', E3', El', Eh'. cbn [Nat.eqb].
  destruct (N.leb_spec 56320 v'), (N.leb_spec v' 57343); try lia. cbn [andb].
  rewrite scalar_from_u32.
  - do 2 f_equal. lia.
  - split; lia.
Qed.

Lemma unescape_loop_denotes l t : denotes l t -> forall fuel, (length l < fuel)%nat -> unescape_loop fuel l = t.
Proof.
  induction 1 as [|c l t Hc Hd IH|e c l t Hin Hd IH|c d l t Ho Hn Hd IH|c1 c0 d1 d0 l t Ho1 Ho0 Hn Hd IH
                  |c2 c1 c0 d2 d1 d0 l t Ho2 Hle Ho1 Ho0 Hd IH|n h v l t Hh Hv Hd IH|n h v n' h' v' l t Hh Hv Hh' Hv' Hd IH];
    intros [|fuel] Hf; try (cbn in Hf; lia); cbn [unescape_loop]; try (change (92 =? c_backslash) with true; cbn iota).
  - reflexivity.
  - apply N.eqb_neq in Hc. unfold c_backslash. rewrite Hc. f_equal. apply IH. cbn in Hf. lia.
  - rewrite (unescape_simple _ _ _ Hin). cbn [app]. f_equal. apply IH. cbn in Hf. lia.
  - destruct (octal_char _ _ Ho) as (Eo & Ed & _ & _). rewrite (unescape_octal_head _ _ Eo).
    apply not_octal_next_false in Hn.
    destruct l as [|x l]; [|rewrite Hn]; cbn [app]; (f_equal; [exact Ed|apply IH; cbn in Hf |- *; lia]).
  - destruct (octal_char _ _ Ho1) as (Eo1 & Ed1 & _ & B1). destruct (octal_char _ _ Ho0) as (Eo0 & Ed0 & _ & _).
    rewrite (unescape_octal_head _ _ Eo1), Eo0.
    assert (E : match l with x :: _ => (c1 <=? 51) && is_octal_char x = false | [] => True end).
    { destruct l as [|x l]; [trivial|]. destruct Hn as [Hn|Hn].
      - apply andb_false_iff. left. apply N.leb_gt. lia.
      - apply not_octal_next_false in Hn. rewrite Hn. apply andb_false_r. }
    destruct l as [|x l]; [|rewrite E]; cbn [app]; (f_equal; [lia|apply IH; cbn in Hf |- *; lia]).
  - destruct (octal_char _ _ Ho2) as (Eo2 & Ed2 & _ & B2). destruct (octal_char _ _ Ho1) as (Eo1 & Ed1 & _ & _).
    destruct (octal_char _ _ Ho0) as (Eo0 & Ed0 & _ & _).
    rewrite (unescape_octal_head _ _ Eo2), Eo1, Eo0.
    assert (E : (c2 <=? 51) = true) by (apply N.leb_le; lia). rewrite E. cbn [andb app].
    f_equal; [lia|apply IH; cbn in Hf |- *; lia].
  - rewrite (unescape_unicode _ _ _ _ Hh Hv). cbn [app]. f_equal. apply IH. cbn in Hf. rewrite !app_length in Hf. lia.
  - rewrite (unescape_pair _ _ _ _ _ _ _ Hh Hv Hh' Hv'). cbn [app]. f_equal. apply IH.
    cbn in Hf. rewrite !app_length in Hf. cbn in Hf. rewrite !app_length in Hf. lia.
Qed.

Lemma unescape_denotes l t : denotes l t -> unescape_java l = t.
Proof. intro H. apply (unescape_loop_denotes _ _ H). lia. Qed.

Lemma denotes_plain l : ~ In 92 l -> denotes l l.
Proof.
  induction l as [|c l IH]; intro H; [constructor|]. constructor.
  - intros ->. apply H. now left.
  - apply IH. intro. apply H. now right.
Qed.

(** *** Every body denotes a text *)
Lemma body_tail c l : c <> 92 -> body (c :: l) -> body l.
Proof. intros Hc H. inversion H; subst; try contradiction. assumption. Qed.

Lemma octal_ne_bs c d : octal_digit c d -> c <> 92.
Proof. destruct 1. lia. Qed.

Lemma not_octal_dec l : not_octal_next l \/ exists c d r, l = c :: r /\ octal_digit c d.
Proof.
  destruct l as [|c l]; [now left|]. destruct (is_octal_char c) eqn:E.
  - right. exists c, (c - 48), l. split; [reflexivity|]. now apply octal_char_inv.
  - left. cbn. intros (d & H). apply octal_char in H. destruct H as (H & _). congruence.
Qed.

Lemma body_denotes_len n : forall l, (length l <= n)%nat -> body l -> exists t, denotes l t.
Proof.
  induction n as [|n IH]; intros l Hl Hb.
  { destruct l; [|cbn in Hl; lia]. exists []. constructor. }
  assert (Two : forall c1 c0 d1 d0 l0, octal_digit c1 d1 -> octal_digit c0 d0 -> body l0 ->
           (length (92%N :: c1 :: c0 :: l0) <= S n)%nat -> exists t, denotes (92 :: c1 :: c0 :: l0) t).
  { intros c1 c0 d1 d0 l0 H1 H0 Hb0 Hl0. cbn in Hl0.
    destruct (not_octal_dec l0) as [Hn|(x & d & r & -> & Hx)].
    - destruct (IH l0) as [t Ht]; [lia|exact Hb0|]. eexists. eapply de_octal2; eauto.
    - destruct (N.leb_spec d1 3).
      + destruct (IH r) as [t Ht]; [cbn in Hl0; lia|eapply body_tail; [eapply octal_ne_bs|]; eauto|].
        eexists. eapply de_octal3; eauto.
      + destruct (IH (x :: r)) as [t Ht]; [lia|exact Hb0|]. eexists. eapply de_octal2; eauto. }
  destruct Hb as [|c l Hc Hb|e c l Hin Hb|c d l Ho Hb|c1 c0 d1 d0 l Ho1 Ho0 Hb
                 |c2 c1 c0 d2 d1 d0 l Ho2 Hle Ho1 Ho0 Hb|h v l Hh Hv Hb|h v h' v' l Hh Hv Hh' Hv' Hb].
  - exists []. constructor.
  - destruct (IH l) as [t Ht]; [cbn in Hl; lia|exact Hb|]. exists (c :: t). constructor; [|exact Ht].
    intros ->. apply Hc. cbn. tauto.
  - destruct (IH l) as [t Ht]; [cbn in Hl; lia|exact Hb|]. eexists. eapply de_simple; eauto.
  - destruct (not_octal_dec l) as [Hn|(x & d' & r & -> & Hx)].
    + destruct (IH l) as [t Ht]; [cbn in Hl; lia|exact Hb|]. eexists. eapply de_octal1; eauto.
    + eapply Two; eauto. eapply body_tail; [eapply octal_ne_bs|]; eauto.
  - eapply Two; eauto.
  - destruct (IH l) as [t Ht]; [cbn in Hl; lia|exact Hb|]. eexists. eapply de_octal3; eauto.
  - destruct (IH l) as [t Ht]; [cbn in Hl; rewrite app_length in Hl; lia|exact Hb|].
    eexists. apply (de_unicode 0 h v l); eauto.
  - destruct (IH l) as [t Ht]; [cbn in Hl; rewrite app_length in Hl; cbn in Hl; rewrite app_length in Hl; lia|exact Hb|].
    eexists. apply (de_pair 0 h v 0 h' v' l); eauto.
Qed.

Lemma body_denotes l : body l -> exists t, denotes l t.
Proof. apply (body_denotes_len (length l)). lia. Qed.

(** *** Escaping *)
Lemma escape_char_cases c :
  (exists e, In (e, c) simple_escapes /\ escape_char c = [92; e]) \/
  (escape_char c = [c] /\ ~ In c [8; 9; 10; 12; 13; 92; 34]).
Proof.
  unfold escape_char, simple_escapes. cbn [find snd].
  repeat match goal with |- context [?k =? c] =>
    destruct (N.eqb_spec k c) as [<-|]; [left; eexists; split; [|reflexivity]; cbn [In]; tauto|] end.
  right. split; [reflexivity|]. cbn [In]. intuition congruence.
Qed.

Lemma escape_denotes t : denotes (flat_map escape_char t) t /\ body (flat_map escape_char t).
Proof.
  induction t as [|c t [IH1 IH2]]; [split; constructor|]. cbn [flat_map].
  destruct (escape_char_cases c) as [(e & Hin & ->)|[-> Hn]]; cbn [app].
  - split; [now apply de_simple|now apply bo_simple with c].
  - split; constructor; try assumption.
    + intros ->. apply Hn. cbn. tauto.
    + intro Hi. apply Hn. cbn in *. tauto.
Qed.

Lemma hex_char_digit d : d < 16 -> hexadecimal_digit (hex_char d) d.
Proof.
  intro H. unfold hex_char. destruct (N.ltb_spec d 10); [now apply hd_digit|now apply hd_lower].
Qed.

Lemma unicode_escape_four v : v < 65536 ->
  exists h, unicode_escape v = 92 :: 117 :: h /\ four_hex h v.
Proof.
  intro H. eexists. split; [reflexivity|].
  assert (E : v = v / 4096 * 4096 + v / 256 mod 16 * 256 + v / 16 mod 16 * 16 + v mod 16)
    by (zify; Z.to_euclidean_division_equations; lia).
  rewrite E at 5. constructor; apply hex_char_digit.
  - apply N.div_lt_upper_bound; lia.
  - now apply N.mod_lt.
  - now apply N.mod_lt.
  - now apply N.mod_lt.
Qed.

Lemma escape_ascii_denotes t : Forall scalar t ->
  denotes (flat_map escape_ascii_char t) t /\ body (flat_map escape_ascii_char t).
Proof.
  induction 1 as [|c t [Hc1 Hc2] Ht [IH1 IH2]]; [split; constructor|]. cbn [flat_map].
  unfold escape_ascii_char at 1 3. destruct (N.ltb_spec c 65536) as [Hlt|Hge].
  - destruct (unicode_escape_four c Hlt) as (h & -> & Hh). cbn [app]. split.
    + apply (de_unicode 0 h c); [exact Hh|now split|exact IH1].
    + apply bo_unicode with c; [exact Hh|now split|exact IH2].
  - set (hi := 55296 + (c - 65536) / 1024). set (lo := 56320 + (c - 65536) mod 1024).
    assert (Bq : (c - 65536) / 1024 < 1024) by (apply N.div_lt_upper_bound; lia).
    assert (Br : (c - 65536) mod 1024 < 1024) by (now apply N.mod_lt).
    destruct (unicode_escape_four hi) as (h & -> & Hh); [unfold hi; lia|].
    destruct (unicode_escape_four lo) as (h' & -> & Hh'); [unfold lo; lia|].
    assert (Hhi : high_surrogate hi) by (unfold high_surrogate, hi; lia).
    assert (Hlo : low_surrogate lo) by (unfold low_surrogate, lo; lia).
    rewrite <- !app_assoc. cbn [app]. split.
    + assert (E : c = 65536 + (hi - 55296) * 1024 + (lo - 56320)).
      { unfold hi, lo. pose proof (N.div_mod (c - 65536) 1024 ltac:(lia)). lia. }
      pose proof (de_pair 0 h hi 0 h' lo _ _ Hh Hhi Hh' Hlo IH1) as P. rewrite <- E in P. exact P.
    + apply bo_pair with hi lo; assumption.
Qed.

(** *** UTF-8 *)
Lemma is_cont_mod x : is_cont (128 + x mod 64) = true.
Proof.
  unfold is_cont. pose proof (N.mod_lt x 64 ltac:(lia)).
  apply andb_true_iff. split; [apply N.leb_le|apply N.ltb_lt]; lia.
Qed.

Lemma decode_encode c r : c < 1114112 -> utf8_decode_bytes (utf8_encode_char c ++ r) = c :: utf8_decode_bytes r.
Proof.
  intro Hc. unfold utf8_encode_char.
  destruct (N.ltb_spec c 128) as [H1|H1]; [|destruct (N.ltb_spec c 2048) as [H2|H2]; [|destruct (N.ltb_spec c 65536) as [H3|H3]]].
  - cbn [app utf8_decode_bytes]. apply N.ltb_lt in H1. now rewrite H1.
  - cbn [app utf8_decode_bytes].
    assert (Q : c / 64 < 32) by (apply N.div_lt_upper_bound; lia).
    assert (Q' : 2 <= c / 64) by (apply N.div_le_lower_bound; lia).
    destruct (N.ltb_spec (192 + c / 64) 128); [lia|].
    destruct (N.leb_spec 194 (192 + c / 64)); [|lia]. destruct (N.ltb_spec (192 + c / 64) 224); [|lia].
    rewrite is_cont_mod. cbn [andb]. f_equal. pose proof (N.div_mod c 64 ltac:(lia)). lia.
  - cbn [app utf8_decode_bytes].
    assert (Q : c / 4096 < 16) by (apply N.div_lt_upper_bound; lia).
    destruct (N.ltb_spec (224 + c / 4096) 128); [lia|].
    destruct (N.leb_spec 194 (224 + c / 4096)); [|lia]. destruct (N.ltb_spec (224 + c / 4096) 224); [lia|].
    destruct (N.leb_spec 224 (224 + c / 4096)); [|lia]. destruct (N.ltb_spec (224 + c / 4096) 240); [|lia].
    rewrite !is_cont_mod. cbn [andb]. f_equal.
    clear. zify. Z.to_euclidean_division_equations. lia.
  - cbn [app utf8_decode_bytes].
    assert (Q : c / 262144 < 5) by (apply N.div_lt_upper_bound; lia).
    destruct (N.ltb_spec (240 + c / 262144) 128); [lia|].
    destruct (N.leb_spec 194 (240 + c / 262144)); [|lia]. destruct (N.ltb_spec (240 + c / 262144) 224); [lia|].
    destruct (N.leb_spec 224 (240 + c / 262144)); [|lia]. destruct (N.ltb_spec (240 + c / 262144) 240); [lia|].
    destruct (N.leb_spec 240 (240 + c / 262144)); [|lia]. destruct (N.ltb_spec (240 + c / 262144) 245); [|lia].
    rewrite !is_cont_mod. cbn [andb]. f_equal.
    clear. zify. Z.to_euclidean_division_equations. lia.
Qed.

Lemma decode_encode_all l : Forall scalar l -> utf8_decode_bytes (flat_map utf8_encode_char l) = l.
Proof.
  induction 1 as [|c l [Hc _] Hl IH]; [reflexivity|]. cbn [flat_map]. now rewrite decode_encode, IH.
Qed.

Lemma encode_byte c : c < 1114112 -> Forall (fun b => b < 256) (utf8_encode_char c).
Proof.
  intro Hc. unfold utf8_encode_char.
  pose proof (N.mod_lt c 64 ltac:(lia)). pose proof (N.mod_lt (c / 64) 64 ltac:(lia)).
  pose proof (N.mod_lt (c / 4096) 64 ltac:(lia)).
  destruct (N.ltb_spec c 128) as [L1|L1]; [|destruct (N.ltb_spec c 2048) as [L2|L2]; [|destruct (N.ltb_spec c 65536) as [L3|L3]]].
  - repeat constructor. lia.
  - assert (Q : c / 64 < 32) by (apply N.div_lt_upper_bound; lia). repeat constructor; lia.
  - assert (Q : c / 4096 < 16) by (apply N.div_lt_upper_bound; lia). repeat constructor; lia.
  - assert (Q : c / 262144 < 5) by (apply N.div_lt_upper_bound; lia). repeat constructor; lia.
Qed.

Lemma bytes_of_string_of_bytes l : Forall (fun b => b < 256) l -> bytes_of (string_of_bytes l) = l.
Proof.
  unfold bytes_of, string_of_bytes. rewrite list_ascii_of_string_of_list_ascii, map_map.
  induction 1 as [|b l Hb Hl IH]; [reflexivity|]. cbn [map]. rewrite IH, N_ascii_embedding by exact Hb. reflexivity.
Qed.

Lemma chars_of_chars l : Forall scalar l -> chars (of_chars l) = l.
Proof.
  intro Hl. unfold chars, of_chars. rewrite bytes_of_string_of_bytes; [now apply decode_encode_all|].
  induction Hl as [|c l [Hc _] Hl IH]; [constructor|]. cbn [flat_map]. apply Forall_app. split; [now apply encode_byte|exact IH].
Qed.

(** *** The literal token *)
Lemma substring_prefix n a b : String.length a = n -> substring 0 n (a ++ b)%string = a.
Proof.
  revert n. induction a as [|c a IH]; intros n <-; cbn; [destruct b; reflexivity|]. now rewrite IH.
Qed.

Lemma str_app_length a b : String.length (a ++ b)%string = (String.length a + String.length b)%nat.
Proof. induction a as [|c a IH]; cbn; [reflexivity|]. now rewrite IH. Qed.

Lemma strip_quotes_spec q s : strip_quotes (String q (s ++ String q ""))%string = s.
Proof.
  unfold strip_quotes. cbn [String.length]. rewrite str_app_length. cbn [String.length substring].
  apply substring_prefix. lia.
Qed.

Lemma literal_denotes q l t : Forall scalar l -> denotes l t ->
  get_string_from_literal (String q (of_chars l ++ String q ""))%string = of_chars t.
Proof.
  intros Hl Hd. unfold get_string_from_literal.
  assert (E : Nat.ltb (String.length (String q (of_chars l ++ String q ""))%string) 2 = false).
  { apply Nat.ltb_ge. cbn. rewrite str_app_length. cbn. lia. }
  rewrite E, strip_quotes_spec, (chars_of_chars _ Hl), (unescape_denotes _ _ Hd). reflexivity.
Qed.

Lemma lone_surrogate_denotes_nothing t : ~ denotes (chars "\uD83D") t.
Proof.
  change (chars "\uD83D") with [92; 117; 68; 56; 51; 68]. intro H.
  inversion H as [|c l t' Hc Hd|e c l t' Hin Hd|c d l t' Ho Hn Hd|c1 c0 d1 d0 l t' Ho1 Ho0 Hn Hd
                  |c2 c1 c0 d2 d1 d0 l t' Ho2 Hle Ho1 Ho0 Hd|n h v l t' Hh Hv Hd El|n h v n' h' v' l t' Hh Hv Hh' Hv' Hd El]; subst.
  - contradiction.
  - cbn in Hin. repeat (destruct Hin as [Hin|Hin]; [discriminate|]). destruct Hin.
  - apply octal_char in Ho. lia.
  - apply octal_char in Ho1. lia.
  - apply octal_char in Ho2. lia.
  - destruct (four_hex_facts _ _ Hh) as (Eh & _ & _ & Hl).
    destruct n as [|n]; [|discriminate]. cbn [repeat app] in El.
    destruct (Hl l) as (_ & E2 & _). rewrite El in E2. cbn in E2. subst h. vm_compute in Eh. injection Eh as <-.
    destruct Hv as [_ Hv]. lia.
  - destruct n as [|n]; [|discriminate]. cbn [repeat app] in El.
    destruct Hh. cbn [app] in El. discriminate.
Qed.

(** *** Surrogates on their own *)
Lemma no_low_surrogate l t : denotes l t -> try_parse_low_surrogate l = None.
Proof.
  assert (Q : forall c d, octal_digit c d -> (c =? c_u) = false).
  { intros c d []. apply N.eqb_neq. unfold c_u. lia. }
  assert (U : forall n h v l, four_hex h v -> ~ low_surrogate v ->
            try_parse_low_surrogate (92 :: 117 :: repeat 117 n ++ h ++ l) = None).
  { intros n h v l0 Hh Hv. destruct (four_hex_facts _ _ Hh) as (Eh & El & _ & Hl). destruct (Hl l0) as (E1 & E2 & E3).
    unfold try_parse_low_surrogate, c_backslash, c_u. cbn [N.eqb Pos.eqb andb].
    rewrite skip_u_repeat, E1, E2, E3, El, Eh. cbn [Nat.eqb]. unfold low_surrogate in Hv.
    destruct (N.leb_spec 56320 v), (N.leb_spec v 57343); try reflexivity. lia. }
  destruct 1 as [|c l t Hc Hd|e c l t Hin Hd|c d l t Ho Hn Hd|c1 c0 d1 d0 l t Ho1 Ho0 Hn Hd
                  |c2 c1 c0 d2 d1 d0 l t Ho2 Hle Ho1 Ho0 Hd|n h v l t Hh Hv Hd|n h v n' h' v' l t Hh Hv Hh' Hv' Hd].
  - reflexivity.
  - apply N.eqb_neq in Hc. unfold try_parse_low_surrogate, c_backslash. destruct l; [reflexivity|]. rewrite Hc. reflexivity.
  - unfold try_parse_low_surrogate. assert (E : (e =? c_u) = false).
    { cbn in Hin. repeat destruct Hin as [Hin|Hin]; try (injection Hin as <- <-; reflexivity). destruct Hin. }
    rewrite E, andb_false_r. reflexivity.
  - unfold try_parse_low_surrogate. rewrite (Q _ _ Ho), andb_false_r. reflexivity.
  - unfold try_parse_low_surrogate. rewrite (Q _ _ Ho1), andb_false_r. reflexivity.
  - unfold try_parse_low_surrogate. rewrite (Q _ _ Ho2), andb_false_r. reflexivity.
  - apply (U n h v l Hh). intros [A B]. destruct Hv as [_ Hv]. apply Hv. lia.
  - apply (U n h v (92 :: 117 :: repeat 117 n' ++ h' ++ l) Hh). intros [A B]. destruct Hv. lia.
Qed.

Lemma lone_surrogate_kept n h v l t : four_hex h v -> high_surrogate v \/ low_surrogate v -> denotes l t ->
  unescape_java (92 :: 117 :: repeat 117 n ++ h ++ l) = 92 :: 117 :: h ++ t.
Proof.
  intros Hh Hv Hd. destruct (four_hex_facts _ _ Hh) as (Eh & _ & _ & Hl). destruct (Hl l) as (E1 & E2 & E3).
  assert (E : unescape_one (117 :: repeat 117 n ++ h ++ l) = (92 :: 117 :: h, l)).
  { unfold unescape_one, c_u. cbn [N.eqb Pos.eqb]. rewrite skip_u_repeat, E1, E2, E3, Eh, (no_low_surrogate _ _ Hd).
    destruct Hv as [[A B]|[A B]].
    - destruct (N.leb_spec 55296 v), (N.leb_spec v 56319); try lia. reflexivity.
    - destruct (N.leb_spec 55296 v), (N.leb_spec v 56319); try lia. cbn [andb]. unfold from_u32.
      destruct (N.leb_spec 1114112 v), (N.leb_spec 55296 v), (N.leb_spec v 57343); try lia. reflexivity. }
  unfold unescape_java. set (fuel := length _). cbn [unescape_loop]. change (92 =? c_backslash) with true. cbn iota.
  rewrite E. cbn [app]. do 2 f_equal. f_equal. apply unescape_loop_denotes; [exact Hd|].
  unfold fuel. cbn. rewrite !app_length. lia.
Qed.

(** *** Identifiers *)
Lemma identifier_unquotes s t : identifier_text s = t <-> unquotes s t.
Proof.
  unfold identifier_text. split.
  - intros <-. induction s as [|c s IH]; cbn [remove_char]; [constructor|].
    destruct (Ascii.eqb_spec "`" c) as [<-|n]; constructor; [exact IH|congruence|exact IH].
  - induction 1 as [|s t H IH|c s t Hc H IH]; cbn [remove_char]; [reflexivity| |].
    + rewrite Ascii.eqb_refl. exact IH.
    + destruct (Ascii.eqb_spec "`" c); [congruence|]. now rewrite IH.
Qed.
