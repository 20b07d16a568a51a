(** Proofs about rounding and floating point literals. *)
From Coq Require Import ZArith Lia Znumtheory.
From Verif Require Import FloatText SpecFloatText LiteralsProofs.
Local Open Scope Z_scope.

(** ** Nearest integers *)
Lemma div_nearest_bounds n d : 0 < d -> let m := div_nearest n d in
  (2 * m - 1) * d <= 2 * n <= (2 * m + 1) * d
  /\ (2 * n = (2 * m - 1) * d \/ 2 * n = (2 * m + 1) * d -> Z.even m = true).
Proof.
  intro D. cbv zeta. unfold div_nearest. pose proof (Z.div_mod n d ltac:(lia)) as E. pose proof (Z.mod_pos_bound n d D) as R.
  set (q := n / d) in *. set (r := n mod d) in *. clearbody q r.
  destruct (Z.compare_spec (2 * r) d) as [C|C|C].
  - destruct (Z.even q) eqn:Ev.
    + split; [nia|auto].
    + split; [nia|]. intros _. rewrite Z.even_add, Ev. reflexivity.
  - split; [nia|]. intros [F|F]; exfalso; nia.
  - split; [nia|]. intros [F|F]; exfalso; nia.
Qed.

(** Nearest among all integers *)
Lemma nearest_int n d m k : 0 < d -> (2 * m - 1) * d <= 2 * n <= (2 * m + 1) * d ->
  Z.abs (n - m * d) <= Z.abs (n - k * d)
  /\ (Z.abs (n - k * d) = Z.abs (n - m * d) -> k = m \/ 2 * n = (2 * m - 1) * d \/ 2 * n = (2 * m + 1) * d).
Proof.
  intros D B. destruct (Z.eq_dec k m) as [->|Ne]; [split; [lia|auto]|].
  assert (Hk : k <= m - 1 \/ m + 1 <= k) by lia. split; [nia|]. intro E. right. nia.
Qed.

(** ** Rounding *)
Lemma pow_pos k : 0 <= k -> 0 < 2 ^ k.
Proof. intro. apply Z.pow_pos_nonneg; lia. Qed.
Lemma pow_split a b : 0 <= a -> 0 <= b -> 2 ^ (a + b) = 2 ^ a * 2 ^ b.
Proof. intros. apply Z.pow_add_r; lia. Qed.

Lemma log2_place a d : 0 < d -> 0 <= a -> let s := Z.max 0 (Z.log2 (a / d) - 52) in
  0 <= s /\ a < 2 ^ 53 * 2 ^ s * d /\ (s = 0 \/ 2 ^ 52 * 2 ^ s * d <= a).
Proof.
  intros D A. cbv zeta. set (q := a / d). pose proof (Z.div_mod a d ltac:(lia)) as E. pose proof (Z.mod_pos_bound a d D) as R. fold q in E.
  assert (Q : 0 <= q) by (apply Z.div_pos; lia). split; [lia|].
  destruct (Z.eq_dec q 0) as [Z0|NZ].
  - rewrite Z0 in *. change (Z.log2 0) with 0. replace (Z.max 0 (0 - 52)) with 0 by lia. change (2 ^ 0) with 1. split; [|auto]. change (2 ^ 53) with 9007199254740992. nia.
  - assert (Qp : 0 < q) by lia. pose proof (Z.log2_spec q Qp) as [L U].
    pose proof (Z.log2_nonneg q) as NN. rewrite Z.pow_succ_r in U by lia.
    destruct (Z.max_spec 0 (Z.log2 q - 52)) as [[C ->]|[C ->]].
    + assert (P : 2 ^ 52 * 2 ^ (Z.log2 q - 52) = 2 ^ Z.log2 q) by (rewrite <- pow_split by lia; f_equal; lia).
      assert (P' : 2 ^ 53 * 2 ^ (Z.log2 q - 52) = 2 * 2 ^ Z.log2 q) by (change (2 ^ 53) with (2 * 2 ^ 52); lia).
      rewrite P, P'. split; [nia|]. right. nia.
    + change (2 ^ 0) with 1. split; [|auto].
      assert (P : 2 * 2 ^ Z.log2 q <= 2 ^ 53). { change (2 ^ 53) with (2 * 2 ^ 52). assert (2 ^ Z.log2 q <= 2 ^ 52) by (apply Z.pow_le_mono_r; lia). lia. }
      nia.
Qed.

(** [m * 2^s] is nearest to [a / d] among the [m' * 2^s'] *)
Lemma nearest_grid a d m s m' s' : 0 < d -> 0 <= a -> 0 <= s -> 0 <= s' ->
  a < 2 ^ 53 * 2 ^ s * d -> (s = 0 \/ 2 ^ 52 * 2 ^ s * d <= a) ->
  (2 * m - 1) * (d * 2 ^ s) <= 2 * a <= (2 * m + 1) * (d * 2 ^ s) ->
  Z.abs m' < 2 ^ 53 ->
  Z.abs (a - m * 2 ^ s * d) <= Z.abs (a - m' * 2 ^ s' * d)
  /\ (Z.abs (a - m' * 2 ^ s' * d) = Z.abs (a - m * 2 ^ s * d) ->
      m' * 2 ^ s' = m * 2 ^ s \/ 2 * a = (2 * m - 1) * (d * 2 ^ s) \/ 2 * a = (2 * m + 1) * (d * 2 ^ s)).
Proof.
  intros D A S S' U L B M'. pose proof (pow_pos s S) as Ps. pose proof (pow_pos s' S') as Ps'.
  assert (D2 : 0 < d * 2 ^ s) by nia.
  assert (W : forall k, Z.abs (a - m * 2 ^ s * d) <= Z.abs (a - k * 2 ^ s * d)
              /\ (Z.abs (a - k * 2 ^ s * d) = Z.abs (a - m * 2 ^ s * d) -> k = m \/ 2 * a = (2 * m - 1) * (d * 2 ^ s) \/ 2 * a = (2 * m + 1) * (d * 2 ^ s))).
  { intro k. pose proof (nearest_int a (d * 2 ^ s) m k D2 B) as [N1 N2].
    replace (m * (d * 2 ^ s)) with (m * 2 ^ s * d) in * by ring. replace (k * (d * 2 ^ s)) with (k * 2 ^ s * d) in * by ring. auto. }
  destruct (Z_le_gt_dec s s') as [C|C].
  - replace (2 ^ s') with (2 ^ (s' - s) * 2 ^ s) by (rewrite <- pow_split by lia; f_equal; lia).
    destruct (W (m' * 2 ^ (s' - s))) as [W1 W2]. rewrite Z.mul_assoc. split; [exact W1|]. intro E. destruct (W2 E) as [->|F]; auto.
  - destruct L as [L|L]; [lia|].
    assert (T : Z.abs (m' * 2 ^ s') < 2 ^ 52 * 2 ^ s).
    { rewrite Z.abs_mul, (Z.abs_eq (2 ^ s')) by lia.
      assert (2 ^ s' * 2 <= 2 ^ s). { rewrite <- (Z.pow_1_r 2) at 2. rewrite <- pow_split by lia. apply Z.pow_le_mono_r; lia. }
      change (2 ^ 53) with (2 ^ 52 * 2) in M'. set (K := 2 ^ 52) in *. clearbody K. assert (0 <= Z.abs m') by apply Z.abs_nonneg. nia. }
    destruct (W (2 ^ 52)) as [W1 _]. set (v := m' * 2 ^ s') in *. set (K := 2 ^ 52 * 2 ^ s) in *. clearbody v K.
    assert (v * d < K * d) by nia. split; lia.
Qed.

Lemma too_large_iff n d : 0 < d -> too_large n d <-> (2 ^ 54 - 1) * 2 ^ 2044 * d <= Z.abs n * 2 ^ 1074.
Proof.
  intro D. unfold too_large. replace ((2 ^ 54 - 1) * 2 ^ 2044 * d) with ((2 ^ 54 - 1) * 2 ^ 970 * d * 2 ^ 1074) by (replace 2044 with (970 + 1074) by lia; rewrite pow_split by lia; ring).
  pose proof (pow_pos 1074 ltac:(lia)). set (x := (2 ^ 54 - 1) * 2 ^ 970 * d). set (y := 2 ^ 1074) in *. clearbody x y. split; nia.
Qed.

Lemma sgn_abs n : Z.sgn n * Z.abs n = n.
Proof. apply Z.sgn_abs || (rewrite Z.mul_comm; apply Z.abs_sgn). Qed.

(** Distances do not depend on the sign *)
Lemma apart_sgn n d m s : n <> 0 -> apart n d (Z.sgn n * m) s = Z.abs (Z.abs n * 2 ^ 1074 - m * 2 ^ (s + 1074) * d).
Proof.
  intro N. unfold apart. destruct (Z.lt_trichotomy n 0) as [L|[E|G]]; [|lia|].
  - rewrite (Z.sgn_neg n L), (Z.abs_neq n) by lia. rewrite <- (Z.abs_opp (n * _ - _)). f_equal. ring.
  - rewrite (Z.sgn_pos n G), (Z.abs_eq n) by lia. f_equal. ring.
Qed.

Lemma abs_sgn_mul n m : n <> 0 -> Z.abs (Z.sgn n * m) = Z.abs m.
Proof. intro. rewrite Z.abs_mul. destruct n; cbn [Z.sgn]; lia. Qed.
Lemma sgn_twice n m : n <> 0 -> Z.sgn n * (Z.sgn n * m) = m.
Proof. intro. destruct n; cbn [Z.sgn]; lia. Qed.
Lemma binary64_sgn n m e : n <> 0 -> binary64 m e -> binary64 (Z.sgn n * m) e.
Proof. intros N [A B]. split; [now rewrite abs_sgn_mul|exact B]. Qed.

Lemma round_nearest n d : 0 < d -> nearest n d (round_f64 n d).
Proof.
  intro D. unfold round_f64.
  set (a := Z.abs n * 2 ^ 1074). assert (A : 0 <= a) by (unfold a; pose proof (pow_pos 1074 ltac:(lia)); nia).
  pose proof (log2_place a d D A) as (S & U & L). set (s := Z.max 0 (Z.log2 (a / d) - 52)) in *. clearbody s.
  pose proof (pow_pos s S) as Ps.
  pose proof (div_nearest_bounds a (d * 2 ^ s) ltac:(nia)) as [B T]. set (m := div_nearest a (d * 2 ^ s)) in *. clearbody m.
  assert (M0 : 0 <= m) by nia.
  assert (M1 : m <= 2 ^ 53) by (set (K := 2 ^ 53) in *; clearbody K; nia).
  assert (M2 : s = 0 \/ 2 ^ 52 <= m) by (destruct L as [L|L]; [auto|right]; set (K := 2 ^ 52) in *; clearbody K; nia).
  (* the pair after a carry *)
  assert (C : exists m1 s1, (if m =? 2 ^ 53 then (2 ^ 52, s + 1) else (m, s)) = (m1, s1) /\ m1 * 2 ^ s1 = m * 2 ^ s
              /\ 0 <= m1 < 2 ^ 53 /\ s <= s1 <= s + 1 /\ (s1 = 0 \/ 2 ^ 52 <= m1) /\ (Z.even m = true -> Z.even m1 = true)
              /\ (s1 = s + 1 <-> m = 2 ^ 53)).
  { destruct (Z.eqb_spec m (2 ^ 53)) as [E|E].
    - exists (2 ^ 52), (s + 1). split; [reflexivity|]. rewrite pow_split by lia. subst m. change (2 ^ 53) with (2 ^ 52 * 2 ^ 1). repeat split; try lia; auto.
    - exists m, s. repeat split; auto; lia. }
  destruct C as (m1 & s1 & -> & V & M3 & S1 & F1 & Ev & Cy).
  destruct (Z.ltb_spec 2045 s1) as [Big|Small].
  - (* overflow *)
    apply nearest_infinite, too_large_iff; [exact D|]. fold a.
    destruct (Z_le_gt_dec 2046 s) as [S2|S2].
    + destruct L as [L|L]; [lia|]. assert (2 ^ 2046 <= 2 ^ s) by (apply Z.pow_le_mono_r; lia).
      replace (2 ^ 2046) with (4 * 2 ^ 2044) in H by (change 4 with (2 ^ 2); rewrite <- pow_split by lia; reflexivity).
      change (2 ^ 54 - 1) with (4 * 2 ^ 52 - 1). pose proof (pow_pos 2044 ltac:(lia)). set (K := 2 ^ 52) in *. set (P := 2 ^ 2044) in *. set (Q := 2 ^ s) in *.
      assert (0 < K) by (apply pow_pos; lia). clearbody K P Q. nia.
    + assert (E : s = 2045 /\ m = 2 ^ 53) by (split; [lia|]; apply Cy; lia). destruct E as [Es Em]. rewrite Es, Em in B.
      replace (2 ^ 2045) with (2 * 2 ^ 2044) in B by (change 2 with (2 ^ 1) at 1; rewrite <- pow_split by lia; reflexivity).
      change (2 * 2 ^ 53 - 1) with (2 ^ 54 - 1) in B. set (K := 2 ^ 54 - 1) in *. set (P := 2 ^ 2044) in *. clearbody K P. nia.
  - (* finite *)
    assert (NL : ~ too_large n d).
    { rewrite too_large_iff by exact D. fold a. intro X.
      destruct (Z_le_gt_dec s 2044) as [S2|S2].
      - assert (2 ^ s <= 2 ^ 2044) by (apply Z.pow_le_mono_r; lia). change (2 ^ 54 - 1) with (2 * 2 ^ 53 - 1) in X.
        assert (1 < 2 ^ 53) by reflexivity. set (K := 2 ^ 53) in *. set (P := 2 ^ 2044) in *. set (Q := 2 ^ s) in *. clearbody K P Q. clear -X U D H H0 Ps.
        assert (K * Q <= (2 * K - 1) * P) by nia. assert (K * Q * d <= (2 * K - 1) * P * d) by (apply Z.mul_le_mono_nonneg_r; lia). lia.
      - assert (Es : s = 2045) by lia. assert (Nm : m <> 2 ^ 53) by (intro E; apply Cy in E; lia).
        rewrite Es in B, T. replace (2 ^ 2045) with (2 * 2 ^ 2044) in B, T by (change 2 with (2 ^ 1) at 1; rewrite <- pow_split by lia; reflexivity).
        change (2 ^ 54 - 1) with (2 * 2 ^ 53 - 1) in X. pose proof (pow_pos 2044 ltac:(lia)) as Pp.
        assert (Em : m = 2 ^ 53 - 1) by (set (K := 2 ^ 53) in *; set (P := 2 ^ 2044) in *; clearbody K P; nia).
        assert (Te : Z.even m = true).
        { apply T. right. rewrite Em in B |- *. set (K := 2 ^ 53) in *; set (P := 2 ^ 2044) in *; clearbody K P. nia. }
        rewrite Em in Te. discriminate. }
    assert (G : forall m' e', binary64 m' e' ->
              Z.abs (a - m1 * 2 ^ s1 * d) <= Z.abs (a - m' * 2 ^ (e' + 1074) * d)
              /\ (Z.abs (a - m' * 2 ^ (e' + 1074) * d) = Z.abs (a - m1 * 2 ^ s1 * d) -> m' * 2 ^ (e' + 1074) = m1 * 2 ^ s1 \/ Z.even m1 = true)).
    { intros m' e' [Hm He]. rewrite V. destruct (nearest_grid a d m s m' (e' + 1074) D A S ltac:(lia) U L B Hm) as [N1 N2].
      split; [exact N1|]. intro E. destruct (N2 E) as [F|F]; [now left|right; apply Ev, T, F]. }
    destruct (Z.eqb_spec m1 0) as [Z0|NZ].
    + (* zero *)
      rewrite Z0 in G. constructor; [exact NL|split; cbn; lia|now left| |].
      * intros m' e' H'. destruct (Z.eq_dec n 0) as [->|Nn].
        -- unfold apart. cbn [Z.mul]. rewrite Z.sub_diag. cbn. lia.
        -- destruct (Z.lt_trichotomy n 0) as [Ln|[En|Gn]]; [|lia|].
           ++ destruct (G (- m') e') as [G1 _]; [destruct H'; split; [rewrite Z.abs_opp; lia|lia]|].
              replace (apart n d m' e') with (Z.abs (a - - m' * 2 ^ (e' + 1074) * d)) by (unfold apart, a; rewrite (Z.abs_neq n) by lia; rewrite <- Z.abs_opp; f_equal; ring).
              replace (apart n d 0 0) with (Z.abs (a - 0 * 2 ^ s1 * d)) by (unfold apart, a; rewrite (Z.abs_neq n) by lia; rewrite <- Z.abs_opp; f_equal; ring).
              exact G1.
           ++ destruct (G m' e' H') as [G1 _].
              replace (apart n d m' e') with (Z.abs (a - m' * 2 ^ (e' + 1074) * d)) by (unfold apart, a; rewrite (Z.abs_eq n) by lia; reflexivity).
              replace (apart n d 0 0) with (Z.abs (a - 0 * 2 ^ s1 * d)) by (unfold apart, a; rewrite (Z.abs_eq n) by lia; f_equal; ring).
              exact G1.
      * intros m' e' _ _. now right.
    + assert (Nn : n <> 0). { intros E0. assert (Ea : a = 0) by (unfold a; rewrite E0; reflexivity). rewrite Ea in B.
        assert (Dp : 0 < d * 2 ^ s) by nia. set (X := d * 2 ^ s) in *. clearbody X. assert (m = 0) by nia. subst m. rewrite Z.mul_0_l in V. pose proof (pow_pos s1 ltac:(lia)). nia. }
      assert (Sg : Z.abs (Z.sgn n * m1) = m1) by (rewrite abs_sgn_mul by exact Nn; apply Z.abs_eq; apply M3).
      constructor; [exact NL|split; [rewrite Sg; apply M3|clear -S S1 Small; lia]| | |].
      * right. rewrite Sg. destruct F1 as [F1|F1]; [right; clear -F1; lia|left; exact F1].
      * intros m' e' H'. rewrite apart_sgn by exact Nn. fold a. replace (s1 - 1074 + 1074) with s1 by (clear; lia).
        destruct (G (Z.sgn n * m') e') as [G1 _]. { now apply binary64_sgn. }
        replace (apart n d m' e') with (apart n d (Z.sgn n * (Z.sgn n * m')) e') by (now rewrite sgn_twice).
        rewrite apart_sgn by exact Nn. exact G1.
      * intros m' e' H' E. rewrite apart_sgn in E by exact Nn. fold a in E. replace (s1 - 1074 + 1074) with s1 in * by (clear; lia).
        replace (apart n d m' e') with (apart n d (Z.sgn n * (Z.sgn n * m')) e') in E by (now rewrite sgn_twice).
        rewrite apart_sgn in E by exact Nn. destruct (G (Z.sgn n * m') e') as [_ G2]. { now apply binary64_sgn. }
        destruct (G2 E) as [Q|Q].
        -- left. rewrite <- Z.mul_assoc, <- Q, Z.mul_assoc. now rewrite sgn_twice.
        -- right. rewrite Z.even_mul, Q. apply Bool.orb_true_r.
Qed.

(** ** Fractions *)
Lemma abs_scale x c : 0 <= c -> Z.abs (x * c) = Z.abs x * c.
Proof. intro. rewrite Z.abs_mul, (Z.abs_eq c) by lia. reflexivity. Qed.

Lemma apart_ratio n d n' d' m e : 0 < d -> 0 < d' -> n * d' = n' * d -> apart n' d' m e * d = apart n d m e * d'.
Proof.
  intros D D' E. unfold apart. rewrite <- (abs_scale _ d), <- (abs_scale _ d') by lia. f_equal.
  set (P := 2 ^ 1074). set (Q := 2 ^ (e + 1074)). clearbody P Q. replace ((n' * P - m * Q * d') * d) with (n' * d * P - m * Q * d' * d) by ring. rewrite <- E. ring.
Qed.
Lemma too_large_ratio n d n' d' : 0 < d -> 0 < d' -> n * d' = n' * d -> too_large n d -> too_large n' d'.
Proof.
  unfold too_large. intros D D' E L. set (K := (2 ^ 54 - 1) * 2 ^ 970) in *. clearbody K.
  assert (A : Z.abs n * d' = Z.abs n' * d) by (rewrite <- (abs_scale n), <- (abs_scale n') by lia; now f_equal).
  assert (K * d * d' <= Z.abs n * d') by (apply Z.mul_le_mono_nonneg_r; lia). nia.
Qed.
Lemma nearest_ratio n d n' d' r : 0 < d -> 0 < d' -> n * d' = n' * d -> nearest n d r -> nearest n' d' r.
Proof.
  intros D D' E N. destruct N as [m e NL B F Near Tie|L].
  - assert (A := fun m e => apart_ratio n d n' d' m e D D' E). constructor; [|exact B|exact F| |].
    + intro L. apply NL. exact (too_large_ratio n' d' n d D' D ltac:(lia) L).
    + intros m' e' B'. pose proof (Near m' e' B'). pose proof (A m e). pose proof (A m' e'). nia.
    + intros m' e' B' Q. apply Tie; [exact B'|]. pose proof (A m e). pose proof (A m' e'). rewrite Q in *. nia.
  - replace (n <? 0) with (n' <? 0).
    + constructor. exact (too_large_ratio n d n' d' D D' E L).
    + destruct (Z.ltb_spec n 0), (Z.ltb_spec n' 0); try reflexivity; exfalso; nia.
Qed.

Definition is_ratio (m e n d : Z) : Prop := m * 2 ^ (e + 1074) * d = n * 2 ^ 1074.
Definition valued (r : f64_value) (n d : Z) : Prop := exists m e, r = FFinite m e /\ binary64 m e /\ is_ratio m e n d.
Definition representable (n d : Z) : Prop := exists m e, binary64 m e /\ is_ratio m e n d.

Lemma is_ratio_ratio m e n d n' d' : 0 < d -> 0 < d' -> n * d' = n' * d -> is_ratio m e n d -> is_ratio m e n' d'.
Proof.
  unfold is_ratio. intros D D' E R. set (P := 2 ^ 1074) in *. set (Q := 2 ^ (e + 1074)) in *. clearbody P Q.
  apply (Z.mul_cancel_r _ _ d); [lia|]. replace (n' * P * d) with (n' * d * P) by ring. rewrite <- E. replace (n * d' * P) with (n * P * d') by ring. rewrite <- R. ring.
Qed.
Lemma valued_ratio r n d n' d' : 0 < d -> 0 < d' -> n * d' = n' * d -> valued r n d -> valued r n' d'.
Proof. intros D D' E (m & e & -> & B & R). exists m, e. split; [reflexivity|]. split; [exact B|]. exact (is_ratio_ratio m e n d n' d' D D' E R). Qed.

Lemma binary64_not_large m e n d : 0 < d -> binary64 m e -> is_ratio m e n d -> ~ too_large n d.
Proof.
  intros D [M E] R. rewrite too_large_iff by exact D. unfold is_ratio in R.
  assert (A : Z.abs n * 2 ^ 1074 = Z.abs m * 2 ^ (e + 1074) * d).
  { rewrite <- (abs_scale n) by (apply Z.pow_nonneg; lia). rewrite <- R. rewrite abs_scale by lia. rewrite abs_scale by (apply Z.pow_nonneg; lia). reflexivity. }
  rewrite A. assert (L : 2 ^ (e + 1074) <= 2 ^ 2045) by (apply Z.pow_le_mono_r; lia).
  replace (2 ^ 2045) with (2 * 2 ^ 2044) in L by (change 2 with (2 ^ 1) at 1; rewrite <- pow_split by lia; reflexivity).
  pose proof (pow_pos 2044 ltac:(lia)) as P. pose proof (pow_pos (e + 1074) ltac:(lia)) as Q. pose proof (Z.abs_nonneg m) as Mn.
  change (2 ^ 54 - 1) with (2 * 2 ^ 53 - 1). assert (K0 : 1 < 2 ^ 53) by reflexivity.
  set (K := 2 ^ 53) in *. set (T := 2 ^ 2044) in *. set (S := 2 ^ (e + 1074)) in *. set (x := Z.abs m) in *. clearbody K T S x. clear -M L P Q Mn K0 D.
  intro H. assert (x * S <= (K - 1) * (2 * T)) by (apply Z.mul_le_mono_nonneg; lia).
  assert (x * S * d <= (K - 1) * (2 * T) * d) by (apply Z.mul_le_mono_nonneg_r; lia). nia.
Qed.

(** What can be represented is not changed by rounding *)
Lemma round_exact n d : 0 < d -> representable n d -> valued (round_f64 n d) n d.
Proof.
  intros D (m & e & B & R). destruct (round_nearest n d D) as [m' e' _ B' _ Near _|L].
  - exists m', e'. split; [reflexivity|]. split; [exact B'|]. specialize (Near m e B). unfold apart, is_ratio in *. rewrite R, Z.sub_diag in Near. cbn [Z.abs] in Near. lia.
  - exfalso. exact (binary64_not_large m e n d D B R L).
Qed.

Lemma scaled_ratio v k c n d : 0 <= c -> 0 <= k + c -> v * 2 ^ (k + c) * d = n * 2 ^ c ->
  v * 2 ^ Z.max 0 k * d = n * 2 ^ Z.max 0 (- k).
Proof.
  intros C K E. apply (Z.mul_cancel_r _ _ (2 ^ c)); [apply Z.pow_nonzero; lia|].
  assert (P : 2 ^ Z.max 0 k * 2 ^ c = 2 ^ (k + c) * 2 ^ Z.max 0 (- k)) by (rewrite <- !pow_split by lia; f_equal; lia).
  replace (v * 2 ^ Z.max 0 k * d * 2 ^ c) with (v * d * (2 ^ Z.max 0 k * 2 ^ c)) by ring. rewrite P.
  replace (v * d * (2 ^ (k + c) * 2 ^ Z.max 0 (- k))) with (v * 2 ^ (k + c) * d * 2 ^ Z.max 0 (- k)) by ring. rewrite E. ring.
Qed.
Lemma round_scaled_nearest v k c n d : 0 < d -> 0 <= c -> 0 <= k + c -> v * 2 ^ (k + c) * d = n * 2 ^ c -> nearest n d (round_scaled v 2 k).
Proof.
  intros D C K E. unfold round_scaled. pose proof (pow_pos (Z.max 0 (- k)) ltac:(lia)) as P.
  apply (nearest_ratio (v * 2 ^ Z.max 0 k) (2 ^ Z.max 0 (- k))); [exact P|exact D|now apply (scaled_ratio v k c)|now apply round_nearest].
Qed.
Lemma round_scaled_exact v k c n d : 0 < d -> 0 <= c -> 0 <= k + c -> v * 2 ^ (k + c) * d = n * 2 ^ c -> representable n d -> valued (round_scaled v 2 k) n d.
Proof.
  intros D C K E (m & e & B & R). unfold round_scaled. pose proof (pow_pos (Z.max 0 (- k)) ltac:(lia)) as P. pose proof (scaled_ratio v k c n d C K E) as S.
  apply (valued_ratio _ (v * 2 ^ Z.max 0 k) (2 ^ Z.max 0 (- k))); [exact P|exact D|exact S|]. apply round_exact; [exact P|].
  exists m, e. split; [exact B|]. apply (is_ratio_ratio m e n d); [exact D|exact P|symmetry; exact S|exact R].
Qed.

Lemma mul_equation m e m' e' v j w i : 0 <= e + 1074 -> 0 <= e' + 1074 -> 0 <= i -> 0 <= j ->
  is_ratio m e v (2 ^ j) -> is_ratio m' e' w (2 ^ i) -> (m * m') * 2 ^ (e + e' + 2148) * 2 ^ (j + i) = (v * w) * 2 ^ 2148.
Proof.
  unfold is_ratio. intros E E' I J R R'. replace (e + e' + 2148) with ((e + 1074) + (e' + 1074)) by lia. change 2148 with (1074 + 1074).
  rewrite (pow_split (e + 1074) (e' + 1074)), (pow_split 1074 1074), (pow_split j i) by lia. set (a := 2 ^ (e + 1074)) in *. set (b := 2 ^ (e' + 1074)) in *. set (P := 2 ^ 1074) in *. set (x := 2 ^ j) in *. set (y := 2 ^ i) in *. clearbody a b P x y.
  replace (m * m' * (a * b) * (x * y)) with ((m * a * x) * (m' * b * y)) by ring. rewrite R, R'. ring.
Qed.
Lemma mul_exact x y v j w i : 0 <= i -> 0 <= j -> valued x v (2 ^ j) -> valued y w (2 ^ i) -> representable (v * w) (2 ^ (j + i)) ->
  valued (f64_mul x y) (v * w) (2 ^ (j + i)).
Proof.
  intros I J (m & e & -> & [_ E] & R) (m' & e' & -> & [_ E'] & R') Rep. cbn [f64_mul].
  apply (round_scaled_exact _ _ 2148); [apply pow_pos; lia|lia|lia| |exact Rep]. now apply mul_equation; try lia.
Qed.
Lemma mul_nearest x y v j w i : 0 <= i -> 0 <= j -> valued x v (2 ^ j) -> valued y w (2 ^ i) -> nearest (v * w) (2 ^ (j + i)) (f64_mul x y).
Proof.
  intros I J (m & e & -> & [_ E] & R) (m' & e' & -> & [_ E'] & R'). cbn [f64_mul].
  apply (round_scaled_nearest _ _ 2148); [apply pow_pos; lia|lia|lia|]. now apply mul_equation; try lia.
Qed.
Lemma add_exact x y v w j : 0 <= j -> valued x v (2 ^ j) -> valued y w (2 ^ j) -> representable (v + w) (2 ^ j) ->
  valued (f64_add x y) (v + w) (2 ^ j).
Proof.
  intros J (m & e & -> & [_ E] & R) (m' & e' & -> & [_ E'] & R') Rep. cbn [f64_add].
  apply (round_scaled_exact _ _ 1074); [apply pow_pos; lia|lia|lia| |exact Rep]. unfold is_ratio in *.
  rewrite !Z.mul_add_distr_r. rewrite <- R, <- R'. rewrite <- !(Z.mul_assoc _ (2 ^ (_ - _)) (2 ^ _)), <- !pow_split by lia. f_equal; f_equal; f_equal; f_equal; lia.
Qed.
Lemma div16_exact x v j : 0 <= j -> valued x v (2 ^ j) -> representable v (2 ^ (j + 4)) -> valued (f64_div16 x) v (2 ^ (j + 4)).
Proof.
  intros J (m & e & -> & [_ E] & R) Rep. cbn [f64_div16]. apply (round_scaled_exact _ _ 1078); [apply pow_pos; lia|lia|lia| |exact Rep].
  unfold is_ratio in R. replace (e - 4 + 1078) with (e + 1074) by lia. change 1078 with (1074 + 4). rewrite (pow_split j 4), (pow_split 1074 4) by lia. rewrite !Z.mul_assoc, <- R. reflexivity.
Qed.
Lemma int_exact n : Z.abs n < 2 ^ 53 -> valued (f64_of_int n) n 1.
Proof. intro H. apply round_exact; [lia|]. exists n, 0. split; [split; lia|]. unfold is_ratio. rewrite Z.mul_1_r. reflexivity. Qed.
Lemma small_representable n j : Z.abs n < 2 ^ 53 -> 0 <= j <= 1074 -> representable n (2 ^ j).
Proof. intros H J. exists n, (- j). split; [split; [exact H|lia]|]. unfold is_ratio. rewrite <- Z.mul_assoc, <- pow_split by lia. do 2 f_equal. lia. Qed.
