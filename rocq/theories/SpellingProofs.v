(** How words are written does not change what is read. *)
From Verif Require Import Canon SpecSpelling LayoutProofs ForgetProofs ReadingProofs RewriteProofs LiteralsProofs FloatProofs FloatTextProofs FileProofs CutProofs.
From Verif Require Import FloatText.
From Coq Require Import Lia.
Local Open Scope Z_scope.

(** ** Equal values *)
Lemma round_zero n d e : 0 < d -> round_f64 n d = FFinite 0 e -> e = 0.
Proof.
  intros D. unfold round_f64. set (a := Z.abs n * 2 ^ 1074). set (s := Z.max 0 (Z.log2 (a / d) - 52)).
  assert (P : 0 < d * 2 ^ s) by (apply Z.mul_pos_pos; [exact D|apply Z.pow_pos_nonneg; unfold s; lia]).
  destruct (div_nearest a (d * 2 ^ s) =? 2 ^ 53) eqn:E1; (destruct (2045 <? _); [discriminate|]).
  - change (2 ^ 52 =? 0) with false. cbn iota. intro E. exfalso. injection E as E _. assert (n = 0) as -> by (destruct n; [reflexivity|discriminate|discriminate]).
    apply Z.eqb_eq in E1. assert (A0 : a = 0) by reflexivity. rewrite A0 in E1. unfold div_nearest in E1. rewrite Z.mod_0_l, Z.div_0_l in E1 by lia.
    cbn [Z.mul Z.even] in E1. destruct (0 ?= d * 2 ^ s); discriminate E1.
  - destruct (div_nearest a (d * 2 ^ s) =? 0) eqn:E2; [intro E; now injection E|]. intro E. injection E as E _. apply Z.eqb_neq in E2. exfalso. apply E2.
    apply Z.mul_eq_0 in E as [E|E]; [|exact E]. assert (A0 : a = 0) by (unfold a; destruct n; [reflexivity|discriminate|discriminate]). rewrite A0. clearbody s. unfold div_nearest. rewrite Z.mod_0_l, Z.div_0_l by lia.
    cbn [Z.mul Z.even]. destruct (0 ?= d * 2 ^ s) eqn:Q; [reflexivity|reflexivity|]. apply Z.compare_gt_iff in Q. lia.
Qed.
Lemma round_ratio n d n' d' : 0 < d -> 0 < d' -> n * d' = n' * d -> round_f64 n d = round_f64 n' d'.
Proof.
  intros D D' E. pose proof (round_nearest n d D) as N. pose proof (nearest_ratio n d n' d' _ D D' E N) as N1. pose proof (round_nearest n' d' D') as N'.
  destruct (nearest_unique n' d' _ _ D' N1 N') as [Q|(e & e' & Q & Q')]; [exact Q|]. pose proof (round_zero _ _ _ D Q). pose proof (round_zero _ _ _ D' Q'). congruence.
Qed.
Lemma round_decimal z v k v' k' : same_decimal v k v' k' -> round_scaled (z * Z.of_N v) 10 k = round_scaled (z * Z.of_N v') 10 k'.
Proof.
  intros (c & C & K & K' & E). unfold round_scaled. apply round_ratio; [apply Z.pow_pos_nonneg; lia|apply Z.pow_pos_nonneg; lia|].
  assert (P : 0 < 10 ^ c) by (apply Z.pow_pos_nonneg; lia).
  apply (Z.mul_reg_r _ _ (10 ^ c)); [lia|].
  assert (S : forall a b, 0 <= a -> 0 <= b -> 10 ^ a * 10 ^ b = 10 ^ (a + b)) by (intros; symmetry; now apply Z.pow_add_r).
  transitivity (z * (Z.of_N v * 10 ^ (k + c)) * 10 ^ (Z.max 0 (- k) + Z.max 0 (- k'))).
  - rewrite <- !Z.mul_assoc. do 2 f_equal. rewrite !S by lia. f_equal. lia.
  - rewrite E. rewrite <- !Z.mul_assoc. do 2 f_equal. rewrite !S by lia. f_equal. lia.
Qed.
Lemma float_same `{Powers} sg sg' z text text' v v' places places' x x' :
  sign_of sg z -> sign_of sg' z -> decimal_text text v places x -> decimal_text text' v' places' x' ->
  same_decimal v (x - Z.of_nat places) v' (x' - Z.of_nat places') ->
  parse_floating_point_literal (sg ++ text) = parse_floating_point_literal (sg' ++ text').
Proof.
  intros S S' T T' E. unfold parse_floating_point_literal. now rewrite (decimal_exact _ _ _ _ _ _ T S), (decimal_exact _ _ _ _ _ _ T' S'), (round_decimal z _ _ _ _ E).
Qed.

Lemma json_int_one z j j' : json_int z j -> json_int z j' -> j = j'.
Proof. intros H H'. destruct H; inversion H'; subst; (reflexivity || lia). Qed.
Lemma literal_same s s' z : int_literal s z -> int_literal s' z -> z <> -9223372036854775808 -> parse_integer_literal s = parse_integer_literal s'.
Proof.
  intros L L' Nz. destruct (Z_le_gt_dec z 9223372036854775807) as [U|U], (Z_le_gt_dec z (-9223372036854775808)) as [D|D];
    try (rewrite (parse_out_of_range _ _ L), (parse_out_of_range _ _ L') by lia; reflexivity).
  destruct (parse_value _ _ L ltac:(lia)) as (j & -> & J). destruct (parse_value _ _ L' ltac:(lia)) as (j' & -> & J'). f_equal. exact (json_int_one _ _ _ J J').
Qed.
Lemma digits_suffix radix s c a : to_digit radix c = None -> digits_value radix (s ++ String c "") a = None.
Proof. intro E. revert a. induction s as [|d s IH]; intro a; cbn; [now rewrite E|]. destruct (to_digit radix d); [apply IH|reflexivity]. Qed.
Lemma radix_suffix radix signed lo hi s c : to_digit radix c = None -> from_str_radix radix signed lo hi (s ++ String c "") = None.
Proof.
  intro E. destruct s as [|d s]; cbn [String.append from_str_radix].
  - destruct (Ascii.eqb c "+"); [reflexivity|]. destruct (signed && Ascii.eqb c "-"); [reflexivity|]. cbn. now rewrite E.
  - pose proof (fun a => digits_suffix radix s c a E) as D. destruct (s ++ String c "")%string eqn:Q; [destruct s; discriminate|]. rewrite D.
    destruct (Ascii.eqb d "+"); [reflexivity|]. destruct (signed && Ascii.eqb d "-"); [reflexivity|]. cbn [digits_value] in *. destruct (to_digit radix d); [|reflexivity]. now rewrite D.
Qed.
Lemma remove_us_l s c : In c ["l"; "L"]%char -> remove_char "_" (s ++ String c "") = (remove_char "_" s ++ String c "")%string.
Proof. intro I. induction s as [|d s IH]; [destruct I as [<-|[<-|[]]]; reflexivity|]. cbn [String.append remove_char]. destruct (Ascii.eqb "_" d); [exact IH|]. cbn [String.append]. now rewrite IH. Qed.
Lemma u32_suffix s c : In c ["l"; "L"]%char -> parse_integer_as_u32 (s ++ String c "") = None.
Proof.
  intro I. unfold parse_integer_as_u32. rewrite (remove_us_l _ _ I). generalize (remove_char "_" s). clear s. intro s.
  destruct (prefix "-" _); [reflexivity|].
  assert (T : forall r, (r <= 16)%N -> to_digit r c = None).
  { intros r L. unfold to_digit. destruct I as [<-|[<-|[]]]; cbn; destruct (_ <? r)%N eqn:Q; try reflexivity; apply N.ltb_lt in Q; lia. }
  unfold u32_radix. rewrite !radix_suffix by (apply T; lia).
  destruct (prefix "0x" _ || prefix "0X" _) eqn:P; [|destruct (_ && _); reflexivity].
  assert (Q : exists t, str_drop 2 (s ++ String c "") = (t ++ String c "")%string).
  { destruct s as [|a [|b s]]; [destruct I as [<-|[<-|[]]]; discriminate P|exfalso|exists s; reflexivity]. destruct I as [<-|[<-|[]]]; destruct a as [[|] [|] [|] [|] [|] [|] [|] [|]]; discriminate P. }
  destruct Q as (t & ->). rewrite radix_suffix by (apply T; lia). reflexivity.
Qed.
Lemma integer_same s s' : same_integer s s' -> parse_integer_literal s = parse_integer_literal s' /\ parse_integer_as_u32 s = parse_integer_as_u32 s'.
Proof.
  intros [sign m m' v suf suf' Sg M M' Su Su' Both Nz]. split.
  - destruct Sg as [<-|[<-|[]]]; cbn [String.append].
    + apply (literal_same _ _ (Z.of_N v)); [now apply il_pos|now apply il_pos|lia].
    + apply (literal_same _ _ (- Z.of_N v)); [now apply il_neg|now apply il_neg|]. destruct Nz as [Nz|Nz]; [discriminate|]. lia.
  - destruct Sg as [<-|[<-|[]]]; cbn [String.append]; [|now rewrite !u32_negative].
    destruct Su as [<-|Su].
    + assert (suf' = "") as -> by tauto. rewrite !app_empty_r. now rewrite (u32_decode _ _ M), (u32_decode _ _ M').
    + destruct Su' as [<-|Su']; [exfalso; assert (suf = "") by tauto; subst; destruct Su as [Su|[Su|[]]]; discriminate|].
      assert (exists c, suf = String c "" /\ In c ["l"; "L"]%char) as (c & -> & I) by (destruct Su as [<-|[<-|[]]]; eexists; split; try reflexivity; cbn; tauto).
      assert (exists c, suf' = String c "" /\ In c ["l"; "L"]%char) as (c' & -> & I') by (destruct Su' as [<-|[<-|[]]]; eexists; split; try reflexivity; cbn; tauto).
      now rewrite !u32_suffix.
Qed.

(** ** Standard forms: of each value, the first way to write it in a list *)
Section Representative.
  Context (same : string -> string -> bool).
  Definition representative (l : list string) (x : string) : string := match find (fun y => same y x) l with Some y => y | None => x end.
  Lemma representative_same {V} (value : string -> V) l x : (forall y, same y x = true -> value y = value x) -> value (representative l x) = value x.
  Proof. intro E. unfold representative. destruct (find _ l) as [y|] eqn:F; [|reflexivity]. apply E. now apply find_some in F. Qed.
  Lemma representative_one l x y : In x l -> In y l -> same x x = true -> (forall z, same z x = same z y) -> representative l x = representative l y.
  Proof.
    intros Hx Hy Rx E. unfold representative. replace (find (fun z => same z y) l) with (find (fun z => same z x) l).
    - destruct (find (fun z => same z x) l) eqn:F; [reflexivity|]. exfalso. pose proof (find_none _ _ F _ Hx). cbn in *. congruence.
    - clear -E. induction l as [|a l IH]; cbn; [reflexivity|]. rewrite <- E, IH. reflexivity.
  Qed.
End Representative.

Definition number_eqb (a b : jnum) : bool :=
  match a, b with
  | NPos n, NPos m => N.eqb n m
  | NNeg n, NNeg m => Z.eqb n m
  | NFloat m e, NFloat m' e' => Z.eqb m m' && Z.eqb e e'
  | _, _ => false
  end.
Definition leaf_eqb (a b : option json) : bool :=
  match a, b with
  | None, None => true
  | Some (JNum n), Some (JNum m) => number_eqb n m
  | Some (JStr s), Some (JStr t) => String.eqb s t
  | _, _ => false
  end.
Lemma leaf_eqb_eq a b : leaf_eqb a b = true -> a = b.
Proof.
  destruct a as [[| |[n|n|m e]|s| |]|], b as [[| |[n'|n'|m' e']|s'| |]|]; cbn; try discriminate; intro E; try reflexivity.
  - apply N.eqb_eq in E. now subst.
  - apply Z.eqb_eq in E. now subst.
  - apply andb_true_iff in E as [E1 E2]. apply Z.eqb_eq in E1, E2. now subst.
  - apply String.eqb_eq in E. now subst.
Qed.
Definition leaf (j : option json) : Prop := match j with None | Some (JNum _) | Some (JStr _) => True | _ => False end.
Lemma leaf_eqb_refl a : leaf a -> leaf_eqb a a = true.
Proof. destruct a as [[| |[n|n|m e]|s| |]|]; cbn; try contradiction; intros _; auto using N.eqb_refl, Z.eqb_refl, String.eqb_refl. now rewrite !Z.eqb_refl. Qed.
Lemma integer_leaf s : leaf (parse_integer_literal s).
Proof.
  unfold parse_integer_literal. destruct (match split_last _ with Some _ => _ | None => _ end) as [n b]. destruct (decode_i64 n) as [z|]; [|exact I].
  unfold json_of_i64. destruct (b || _), (_ <? 0); exact I.
Qed.
Section Forms.
  Context `{Powers}.
  Lemma float_leaf s : leaf (parse_floating_point_literal s).
  Proof. unfold parse_floating_point_literal. destruct (parse_float_text s) as [[|[|]|m e]|]; exact I. Qed.
  Definition string_same (a b : string) : bool := String.eqb (get_string_from_literal a) (get_string_from_literal b).
  Definition size_eqb (a b : option N) : bool := match a, b with Some n, Some m => N.eqb n m | None, None => true | _, _ => false end.
  Definition int_same (a b : string) : bool := leaf_eqb (parse_integer_literal a) (parse_integer_literal b) && size_eqb (parse_integer_as_u32 a) (parse_integer_as_u32 b).
  Definition float_eqb (a b : string) : bool := leaf_eqb (parse_floating_point_literal a) (parse_floating_point_literal b).
  Definition standard (l : list string) : forms := mkForms identifier_text (representative string_same l) (representative int_same l) (representative float_eqb l).
  Lemma size_eqb_eq a b : size_eqb a b = true -> a = b.
  Proof. destruct a, b; cbn; try discriminate; [|reflexivity]. intro E. apply N.eqb_eq in E. now subst. Qed.
  Lemma size_eqb_refl a : size_eqb a a = true.
  Proof. destruct a; cbn; [apply N.eqb_refl|reflexivity]. Qed.
  Lemma identifier_twice s : identifier_text (identifier_text s) = identifier_text s.
  Proof. unfold identifier_text. induction s as [|c s IH]; cbn [remove_char]; [reflexivity|]. destruct (Ascii.eqb "`" c) eqn:E; [exact IH|]. cbn [remove_char]. now rewrite E, IH. Qed.
  Lemma standard_faithful l : faithful (standard l).
  Proof.
    split; intro s; cbn [form_name form_string form_integer form_float standard].
    - apply identifier_twice.
    - apply representative_same. intros y E. now apply String.eqb_eq in E.
    - apply representative_same. intros y E. apply andb_true_iff in E as [E _]. now apply leaf_eqb_eq in E.
    - apply representative_same. intros y E. apply andb_true_iff in E as [_ E]. now apply size_eqb_eq in E.
    - apply representative_same. intros y E. now apply leaf_eqb_eq in E.
  Qed.
  Lemma word_kin l k w w' : In w l -> In w' l -> same_word k w w' -> form_of (standard l) k w = form_of (standard l) k w'.
  Proof.
    intros Hw Hw' S. destruct S as [s s' n U U'|b b' t Sb Sb' D D'|s s' E|sg sg' z text text' v v' places places' x x' Sg Sg' T T' E].
    - apply identifier_unquotes in U, U'. cbn. congruence.
    - apply representative_one; [exact Hw|exact Hw'|apply String.eqb_refl|]. intro y. unfold string_same. now rewrite (literal_denotes _ b t Sb D), (literal_denotes _ b' t Sb' D').
    - apply integer_same in E as [E1 E2]. apply representative_one; [exact Hw|exact Hw'| |]; [|intro y; unfold int_same; now rewrite E1, E2].
      unfold int_same. now rewrite leaf_eqb_refl, size_eqb_refl by apply integer_leaf.
    - apply representative_one; [exact Hw|exact Hw'|apply leaf_eqb_refl, float_leaf|]. intro y. unfold float_eqb. now rewrite (float_same sg sg' z _ _ _ _ _ _ _ _ Sg Sg' T T' E).
  Qed.
  Lemma token_kin l p p' : In (of_chars (snd p)) l -> In (of_chars (snd p')) l -> same_token p p' -> kin_piece (standard l) p p'.
  Proof.
    intros Hp Hp' [<-|[E S]]; [repeat split|]. destruct p as [k t], p' as [k' t']. cbn in *. subst k'. split; [reflexivity|]. split; [now apply word_kin|].
    cbn. intros ->. inversion S.
  Qed.
  Lemma pieces_kin L l l' : Forall2 same_token l l' -> incl (map (fun p => of_chars (snd p)) l) L -> incl (map (fun p => of_chars (snd p)) l') L -> Forall2 (kin_piece (standard L)) l l'.
  Proof.
    induction 1 as [|p p' l l' S F IH]; intros I I'; constructor.
    - apply token_kin; [apply I|apply I'|exact S]; now left.
    - apply IH; intros x Hx; [apply I|apply I']; now right.
  Qed.
  Lemma spelling_parse `{Unicode} `{LexerMessages} file file' t t' : same_words t t' -> same_reading_of (@parse_idl _ _ text_parser file t) (@parse_idl _ _ text_parser file' t').
  Proof.
    intros (v & v' & l & l' & V & V' & T & T' & K).
    apply (kin_parse (standard (map (fun p => of_chars (snd p)) (kept l ++ kept l')))); [apply standard_faithful|].
    rewrite (visible_until _ _ V), (visible_until _ _ V'). apply cut_iff in T, T'. rewrite T, T'.
    apply pieces_kin; [exact K| |]; intros x Hx; rewrite map_app; apply in_app_iff; auto.
  Qed.
End Forms.
