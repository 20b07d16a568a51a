(** The floating-point precision bound for decimals on [fixed]. *)
From Verif Require Import Defaults SpecDefaults.
Local Open Scope Z_scope.

(** ** Bounds for the decimal logarithm of 2 *)

(** [lo * 10^e <= x <= hi * 10^e], squared and cut back by [d] digits. *)
Definition square_step (d : Z) (st : Z * Z * Z) : Z * Z * Z :=
  match st with (lo, hi, e) => (lo * lo / 10 ^ d, hi * hi / 10 ^ d + 1, 2 * e + d) end.

Definition brackets (st : Z * Z * Z) (x : Z) : Prop :=
  match st with (lo, hi, e) => 0 <= lo /\ 0 <= hi /\ 0 <= e /\ lo * 10 ^ e <= x <= hi * 10 ^ e end.

Lemma square_step_brackets d st x :
  0 <= d -> 0 <= x -> brackets st x -> brackets (square_step d st) (x * x).
Proof.
  destruct st as [[lo hi] e]. unfold brackets, square_step. intros Hd Hx (Hlo & Hhi & He & Hl & Hh).
  assert (Hp : 0 < 10 ^ d) by (apply Z.pow_pos_nonneg; lia).
  assert (He' : 0 < 10 ^ e) by (apply Z.pow_pos_nonneg; lia).
  set (w := 10 ^ e) in *. set (t := 10 ^ d) in *.
  assert (Hpow : 10 ^ (2 * e + d) = w * w * t).
  { subst w t. replace (2 * e + d) with (e + e + d) by lia. rewrite !Z.pow_add_r by lia. reflexivity. }
  rewrite Hpow. clear Hpow.
  pose proof (Z.mul_div_le (lo * lo) t Hp) as Hm1.
  pose proof (Z.mul_succ_div_gt (hi * hi) t Hp) as Hm2. unfold Z.succ in Hm2.
  assert (Hq1 : 0 <= lo * lo / t) by (apply Z.div_pos; [apply Z.mul_nonneg_nonneg; auto|auto]).
  assert (Hq2 : 0 <= hi * hi / t) by (apply Z.div_pos; [apply Z.mul_nonneg_nonneg; auto|auto]).
  assert (Hx1 : lo * w * (lo * w) <= x * x) by (apply Z.mul_le_mono_nonneg; try lia; apply Z.mul_nonneg_nonneg; lia).
  assert (Hx2 : x * x <= hi * w * (hi * w)) by (apply Z.mul_le_mono_nonneg; lia).
  assert (Hw2 : 0 <= w * w) by (apply Z.mul_nonneg_nonneg; lia).
  split; [lia|]. split; [lia|]. split; [lia|]. split.
  - apply Z.le_trans with (2 := Hx1).
    replace (lo * lo / t * (w * w * t)) with (t * (lo * lo / t) * (w * w)) by ring.
    replace (lo * w * (lo * w)) with (lo * lo * (w * w)) by ring.
    apply Z.mul_le_mono_nonneg_r; auto.
  - apply Z.le_trans with (1 := Hx2).
    replace ((hi * hi / t + 1) * (w * w * t)) with (t * (hi * hi / t + 1) * (w * w)) by ring.
    replace (hi * w * (hi * w)) with (hi * hi * (w * w)) by ring.
    apply Z.mul_le_mono_nonneg_r; lia.
Qed.

Fixpoint run (ds : list Z) (st : Z * Z * Z) : Z * Z * Z :=
  match ds with [] => st | d :: r => run r (square_step d st) end.

Lemma run_brackets ds : forall st n, Forall (fun d => 0 <= d) ds -> 0 <= n ->
  brackets st (2 ^ (2 ^ n)) -> brackets (run ds st) (2 ^ (2 ^ (n + Z.of_nat (length ds)))).
Proof.
  induction ds as [|d ds IH]; intros st n Hds Hn Hb.
  - cbn [length run]. rewrite Z.add_0_r. exact Hb.
  - inversion Hds; subst. cbn [length run]. rewrite Nat2Z.inj_succ.
    replace (n + Z.succ (Z.of_nat (length ds))) with (n + 1 + Z.of_nat (length ds)) by lia.
    apply IH; [auto|lia|].
    assert (E : 2 ^ (2 ^ (n + 1)) = 2 ^ (2 ^ n) * 2 ^ (2 ^ n)).
    { rewrite <- Z.pow_add_r by (apply Z.pow_nonneg; lia). f_equal. rewrite Z.pow_add_r by lia. lia. }
    rewrite E. apply square_step_brackets; [auto|apply Z.pow_nonneg; lia|auto].
Qed.

(** Digits to cut so that 32 remain, from [2^64] up to [2^(2^70)]. *)
Definition cuts : list Z :=
  [7; 32; 31; 31; 31; 32; 31; 31; 31; 31; 31; 32; 31; 31; 32; 32; 31; 32; 31; 32; 31; 31; 31; 31; 32;
   31; 31; 32; 32; 32; 32; 32; 31; 32; 32; 32; 32; 31; 31; 32; 32; 32; 32; 32; 32; 32; 32; 31; 32; 32;
   32; 32; 31; 31; 32; 32; 31; 31; 31; 32; 31; 31; 31; 32].

Definition log_num : Z := 355393490465494856465.

Lemma bracket_log st x a :
  brackets st x ->
  (match st with (lo, hi, e) => (10 ^ 31 <=? lo) && (hi <? 10 ^ 32) && (e + 31 =? a) end)%Z = true ->
  10 ^ a <= x < 10 ^ (a + 1).
Proof.
  destruct st as [[lo hi] e]. unfold brackets. intros (Hlo & Hhi & He & Hl & Hh) Hc.
  apply andb_true_iff in Hc. destruct Hc as [Hc E]. apply andb_true_iff in Hc. destruct Hc as [H1 H2].
  apply Z.leb_le in H1. apply Z.ltb_lt in H2. apply Z.eqb_eq in E. subst a.
  assert (Hw : 0 < 10 ^ e) by (apply Z.pow_pos_nonneg; lia).
  split.
  - rewrite Z.pow_add_r by lia. apply Z.le_trans with (2 := Hl). rewrite Z.mul_comm.
    apply Z.mul_le_mono_nonneg_r; lia.
  - replace (e + 31 + 1) with (e + 32) by lia. rewrite Z.pow_add_r by lia.
    apply Z.le_lt_trans with (1 := Hh). rewrite (Z.mul_comm (10 ^ e)). apply Z.mul_lt_mono_pos_r; auto.
Qed.

(** [log_num / 2^70 <= log10 2 < (log_num + 1) / 2^70] *)
Lemma log10_2_bounds n : n = 70 -> 10 ^ log_num <= 2 ^ (2 ^ n) < 10 ^ (log_num + 1).
Proof.
  intro Hn. apply bracket_log with (st := run cuts (2 ^ 64, 2 ^ 64, 0)); [|vm_compute; reflexivity].
  assert (E : n = 6 + Z.of_nat (length cuts)) by (subst n; vm_compute; reflexivity).
  rewrite E. apply run_brackets.
  - repeat (constructor; [lia|]). constructor.
  - lia.
  - unfold brackets. change (2 ^ 6) with 64. rewrite Z.pow_0_r. lia.
Qed.

(** ** Comparing powers of 10 and 2 through the logarithm *)

Section Compare.
  Variables T a : Z.
  Hypothesis HT : 0 < T.
  Hypothesis Ha : 0 <= a.
  Hypothesis Hlog : 10 ^ a <= 2 ^ T < 10 ^ (a + 1).

  Lemma pow_le_of_log k m : 0 <= k -> 0 <= m -> m * T <= k * a -> 10 ^ m <= 2 ^ k.
  Proof.
    intros Hk Hm H. apply Z.nlt_ge. intro Hlt.
    assert (H1 : (2 ^ k) ^ T < (10 ^ m) ^ T).
    { apply Z.pow_lt_mono_l; [auto|]. split; [apply Z.pow_nonneg; lia|auto]. }
    rewrite <- !Z.pow_mul_r in H1 by lia.
    assert (H2 : 10 ^ (m * T) <= 10 ^ (k * a)) by (apply Z.pow_le_mono_r; lia).
    assert (H3 : 10 ^ (k * a) <= 2 ^ (k * T)).
    { rewrite (Z.mul_comm k a), (Z.mul_comm k T), !Z.pow_mul_r by lia.
      apply Z.pow_le_mono_l. split; [apply Z.pow_nonneg; lia|lia]. }
    lia.
  Qed.

  Lemma pow_gt_of_log k m : 0 < k -> 0 <= m -> k * (a + 1) <= m * T -> 2 ^ k < 10 ^ m.
  Proof.
    intros Hk Hm H. apply Z.nle_gt. intro Hle.
    assert (H1 : (10 ^ m) ^ T <= (2 ^ k) ^ T).
    { apply Z.pow_le_mono_l. split; [apply Z.pow_nonneg; lia|auto]. }
    rewrite <- !Z.pow_mul_r in H1 by lia.
    assert (H2 : 10 ^ (k * (a + 1)) <= 10 ^ (m * T)) by (apply Z.pow_le_mono_r; lia).
    assert (H3 : 2 ^ (k * T) < 10 ^ (k * (a + 1))).
    { rewrite (Z.mul_comm k (a + 1)), (Z.mul_comm k T), !Z.pow_mul_r by lia.
      apply Z.pow_lt_mono_l; [lia|]. split; [apply Z.pow_nonneg; lia|lia]. }
    lia.
  Qed.
End Compare.

Lemma pow_le_of_ratio k m : 0 <= k -> 0 <= m -> m * 1180591620717411303424 <= k * 355393490465494856465 -> 10 ^ m <= 2 ^ k.
Proof.
  intros Hk Hm H.
  apply (pow_le_of_log (2 ^ 70) log_num); [lia|unfold log_num; lia|exact (log10_2_bounds 70 eq_refl)|auto|auto|].
  unfold log_num. change (2 ^ 70) with 1180591620717411303424. exact H.
Qed.

Lemma pow_gt_of_ratio k m : 0 < k -> 0 <= m -> k * 355393490465494856466 <= m * 1180591620717411303424 -> 2 ^ k < 10 ^ m.
Proof.
  intros Hk Hm H.
  apply (pow_gt_of_log (2 ^ 70) log_num); [lia|unfold log_num; lia|exact (log10_2_bounds 70 eq_refl)|auto|auto|].
  unfold log_num. change (2 ^ 70) with 1180591620717411303424. exact H.
Qed.

(** ** Rounding *)

Definition float_floor (k : Z) : Z :=
  let (m, e) := round53 (k * log10_2_mantissa) (-54) in m / 2 ^ (- e).

Lemma round53_spec M e q' e' :
  0 < M -> round53 M e = (q', e') ->
  (q' = M /\ e' = e) \/
  exists s, s = Z.log2 M - 52 /\ 0 < s /\ e' = e + s
    /\ (q' = M / 2 ^ s \/ (q' = M / 2 ^ s + 1 /\ 2 ^ (s - 1) <= M mod 2 ^ s)).
Proof.
  intros HM. unfold round53. destruct (Z.leb_spec (Z.log2 M - 52) 0) as [Hs|Hs].
  - intros [= <- <-]. auto.
  - intros [= <- <-]. right. exists (Z.log2 M - 52). repeat split; auto.
    destruct ((2 ^ (Z.log2 M - 52 - 1) <? M mod 2 ^ (Z.log2 M - 52)) ||
      ((2 ^ (Z.log2 M - 52 - 1) =? M mod 2 ^ (Z.log2 M - 52)) && Z.odd (M / 2 ^ (Z.log2 M - 52)))) eqn:E; auto.
    right. split; auto. apply orb_true_iff in E. destruct E as [E|E].
    + apply Z.ltb_lt in E. lia.
    + apply andb_true_iff in E. destruct E as [E _]. apply Z.eqb_eq in E. lia.
Qed.

Lemma log2_product_bound k : 0 < k < 2 ^ 35 -> 52 <= Z.log2 (k * log10_2_mantissa) < 88.
Proof.
  intro Hk. unfold log10_2_mantissa. split.
  - change 52 with (Z.log2 (2 ^ 52)) at 1. apply Z.log2_le_mono. lia.
  - apply Z.log2_lt_pow2; lia.
Qed.

(** Rounding never goes below an integer the exact product reaches. *)
Lemma float_floor_ge k m :
  0 < k < 2 ^ 35 -> m * 2 ^ 54 <= k * log10_2_mantissa -> m <= float_floor k.
Proof.
  intros Hk H. unfold float_floor. pose proof (log2_product_bound k Hk) as Hl.
  destruct (round53 (k * log10_2_mantissa) (-54)) as [q' e'] eqn:E.
  apply round53_spec in E; [|unfold log10_2_mantissa; lia].
  destruct E as [[-> ->]|(s & Hs & Hs0 & -> & Hq)].
  - apply Z.div_le_lower_bound; [reflexivity|]. change (- -54) with 54. lia.
  - assert (Hge : m * 2 ^ (54 - s) <= k * log10_2_mantissa / 2 ^ s).
    { apply Z.div_le_lower_bound; [apply Z.pow_pos_nonneg; lia|].
      replace (2 ^ s * (m * 2 ^ (54 - s))) with (m * (2 ^ (54 - s) * 2 ^ s)) by ring.
      rewrite <- Z.pow_add_r by lia. replace (54 - s + s) with 54 by lia. exact H. }
    replace (- (-54 + s)) with (54 - s) by lia.
    apply Z.div_le_lower_bound; [apply Z.pow_pos_nonneg; lia|]. lia.
Qed.

(** It goes above one only across at most half a unit in the last place. *)
Lemma float_floor_le k m :
  0 < k < 2 ^ 35 -> m <= float_floor k ->
  m * 2 ^ 54 - k * log10_2_mantissa <= 2 ^ (Z.log2 (k * log10_2_mantissa) - 53)
  \/ m * 2 ^ 54 <= k * log10_2_mantissa.
Proof.
  intros Hk H. unfold float_floor in H. pose proof (log2_product_bound k Hk) as Hl.
  destruct (round53 (k * log10_2_mantissa) (-54)) as [q' e'] eqn:E.
  apply round53_spec in E; [|unfold log10_2_mantissa; lia].
  set (M := k * log10_2_mantissa) in *.
  destruct E as [[-> ->]|(s & Hs & Hs0 & -> & Hq)].
  - right. change (- -54) with 54 in H. pose proof (Z.mul_div_le M (2 ^ 54) ltac:(lia)). lia.
  - replace (- (-54 + s)) with (54 - s) in H by lia.
    set (u := 2 ^ (54 - s)) in *.
    assert (Hu : 0 < u) by (apply Z.pow_pos_nonneg; lia).
    pose proof (Z.mul_div_le q' u Hu) as Hqu.
    assert (Hmq : m * u <= q') by (pose proof (Z.mul_le_mono_nonneg_l m (q' / u) u); lia).
    assert (Hp : 0 < 2 ^ s) by (apply Z.pow_pos_nonneg; lia).
    pose proof (Z.div_mod M (2 ^ s) ltac:(lia)) as Hdm.
    pose proof (Z.mod_pos_bound M (2 ^ s) Hp) as Hmb.
    assert (H54 : 2 ^ 54 = u * 2 ^ s).
    { subst u. rewrite <- Z.pow_add_r by lia. f_equal. lia. }
    replace (Z.log2 M - 53) with (s - 1) by lia.
    assert (Hhalf : 2 ^ s = 2 * 2 ^ (s - 1)).
    { replace s with (1 + (s - 1)) at 1 by lia. rewrite Z.pow_add_r by lia. reflexivity. }
    rewrite H54. replace (m * (u * 2 ^ s)) with (m * u * 2 ^ s) by ring.
    assert (Hms : m * u * 2 ^ s <= q' * 2 ^ s) by (apply Z.mul_le_mono_nonneg_r; lia).
    destruct Hq as [->|[-> Hr]].
    + right. lia.
    + left. lia.
Qed.

(** ** The bound is exact below 122202250 bytes *)

Definition exact_limit : Z := 977617999.    (* 8 * 122202250 - 1 *)

Lemma float_floor_small k :
  (k = 95832151 -> float_floor k = 28848351)
  /\ (k = 389760767 -> float_floor k = 117329681)
  /\ (k = 683689383 -> float_floor k = 205811011).
Proof. repeat split; intros ->; vm_compute; reflexivity. Qed.

(** No fraction [m/k] with [k < exact_limit] lies strictly between the two. *)
Lemma no_overshoot k m n :
  0 < m -> k = 8 * n - 1 -> 0 < k < exact_limit -> m <= float_floor k -> 10 ^ m <= 2 ^ k.
Proof.
  intros Hm Hn Hk H. unfold exact_limit in Hk.
  destruct (Z_le_gt_dec (m * 1233278784) (371253907 * k)) as [Hle|Hgt].
  { apply pow_le_of_ratio; lia. }
  exfalso.
  set (t := m * 345060773 - 103873643 * k).
  set (x := m * 1233278784 - 371253907 * k).
  assert (Ek : k = 345060773 * x - 1233278784 * t) by (subst t x; ring).
  assert (Em : m = 103873643 * x - 371253907 * t) by (subst t x; ring).
  assert (Hx : 1 <= x) by (subst x; lia).
  clearbody t x.
  assert (Ht : 0 <= t) by lia.
  assert (Hlog : Z.log2 (k * log10_2_mantissa) < 83).
  { apply Z.log2_lt_pow2; unfold log10_2_mantissa; lia. }
  assert (Hl52 := log2_product_bound k ltac:(lia)).
  assert (Hd : m * 2 ^ 54 - k * log10_2_mantissa <= 2 ^ 29).
  { destruct (float_floor_le k m ltac:(lia) H) as [Hd|Hd]; [|lia].
    apply Z.le_trans with (1 := Hd).
    apply Z.le_trans with (2 ^ (82 - 53)); [|lia]. 
    destruct (Z_lt_le_dec (Z.log2 (k * log10_2_mantissa)) 53) as [Hs|Hs].
    - rewrite Z.pow_neg_r by lia. lia.
    - apply Z.pow_le_mono_r; lia. }
  unfold log10_2_mantissa in Hd. change (2 ^ 54) with 18014398509481984 in Hd.
  change (2 ^ 29) with 536870912 in Hd.
  assert (Ht' : t <= 10) by lia.
  assert (Hc : k = 95832151 \/ k = 389760767 \/ k = 683689383).
  { assert (Hcases : t = 0 \/ t = 1 \/ t = 2 \/ t = 3 \/ t = 4 \/ t = 5 \/ t = 6 \/ t = 7 \/ t = 8 \/ t = 9 \/ t = 10) by lia.
    clear Hd Hlog Hl52 H Em Hgt.
    repeat (destruct Hcases as [Hcases|Hcases]; [subst t; lia|]). subst t; lia. }
  destruct (float_floor_small k) as (F1 & F2 & F3).
  destruct Hc as [Hc|[Hc|Hc]]; [rewrite (F1 Hc) in H|rewrite (F2 Hc) in H|rewrite (F3 Hc) in H];
    clear F1 F2 F3 Hlog Hl52 Hd; lia.
Qed.

(** It never rejects a precision that fits. *)
Lemma no_undershoot k m :
  0 < k < 2 ^ 35 -> 0 <= m -> 10 ^ m <= 2 ^ k -> m <= float_floor k.
Proof.
  intros Hk Hm H. apply float_floor_ge; auto.
  destruct (Z_le_gt_dec (m * 18014398509481984) (k * 5422874305198591)) as [Hle|Hgt]; [exact Hle|].
  exfalso.
  assert (2 ^ k < 10 ^ m); [|lia].
  apply pow_gt_of_ratio; lia.
Qed.

(** At most one digit too many. *)
Lemma overshoot_by_one k m :
  0 < k < 2 ^ 35 -> 0 < m -> m <= float_floor k -> 10 ^ (m - 1) <= 2 ^ k.
Proof.
  intros Hk Hm H.
  assert (Hl := log2_product_bound k Hk).
  assert (Hd : m * 2 ^ 54 - k * log10_2_mantissa <= 2 ^ 34).
  { destruct (float_floor_le k m Hk H) as [Hd|Hd]; [|lia].
    apply Z.le_trans with (1 := Hd).
    destruct (Z_lt_le_dec (Z.log2 (k * log10_2_mantissa)) 53) as [Hs|Hs].
    - rewrite Z.pow_neg_r by lia. lia.
    - apply Z.pow_le_mono_r; lia. }
  unfold log10_2_mantissa in Hd. change (2 ^ 54) with 18014398509481984 in Hd.
  change (2 ^ 34) with 17179869184 in Hd. change (2 ^ 35) with 34359738368 in Hk.
  apply pow_le_of_ratio; lia.
Qed.

(** ** The model's function *)

Lemma max_fixed_precision_floor size p :
  (0 < size)%N -> (1 <= p <= u32_max)%N ->
  ((p <= max_fixed_precision size)%N <-> Z.of_N p <= float_floor (8 * Z.of_N size - 1)).
Proof.
  intros Hs Hp. unfold max_fixed_precision, float_floor, floor_u32.
  destruct (N.eqb_spec size 0) as [->|Hne]; [lia|].
  destruct (round53 _ _) as [m e]. rewrite N.min_glb_iff. lia.
Qed.

Lemma digits_fit_Z p size :
  (0 < size)%N -> (digits_fit p size <-> 10 ^ Z.of_N p <= 2 ^ (8 * Z.of_N size - 1)).
Proof.
  intro Hs. unfold digits_fit.
  assert (Hp : (0 < 10 ^ p)%N) by (apply N.neq_0_lt_0, N.pow_nonzero; lia).
  assert (Hq : (0 < 2 ^ (8 * size - 1))%N) by (apply N.neq_0_lt_0, N.pow_nonzero; lia).
  replace (8 * Z.of_N size - 1) with (Z.of_N (8 * size - 1)) by lia.
  change 10 with (Z.of_N 10) at 1. change 2 with (Z.of_N 2) at 1. rewrite <- !N2Z.inj_pow.
  lia.
Qed.

Lemma decimal_accepts size p sc :
  validate_logical_type_on_fixed "decimal" size (Some p) sc = true <->
  (1 <= p)%N /\ (match sc with Some s => s | None => 0%N end <= p)%N /\ (p <= max_fixed_precision size)%N.
Proof.
  unfold validate_logical_type_on_fixed. cbn [String.eqb Ascii.eqb Bool.eqb].
  destruct (N.ltb_spec p 1); destruct (N.ltb_spec p (match sc with Some s => s | None => 0%N end)); cbn [orb];
    rewrite ?N.leb_le; split; try discriminate; try lia; tauto.
Qed.

Lemma max_fixed_zero : max_fixed_precision 0 = 0%N.
Proof. reflexivity. Qed.

Lemma decimal_exact size p sc :
  (size < 122202250)%N -> (p <= u32_max)%N ->
  (validate_logical_type_on_fixed "decimal" size (Some p) sc = true <->
   (1 <= p)%N /\ (match sc with Some s => s | None => 0%N end <= p)%N /\ digits_fit p size).
Proof.
  intros Hs Hp. rewrite decimal_accepts. split; intros (H1 & H2 & H3); repeat split; auto.
  - destruct (N.eq_dec size 0) as [->|]; [rewrite max_fixed_zero in H3; lia|lia].
  - destruct (N.eq_dec size 0) as [->|]; [rewrite max_fixed_zero in H3; lia|].
    apply max_fixed_precision_floor in H3; [|lia|lia].
    apply digits_fit_Z; [lia|]. apply no_overshoot with (n := Z.of_N size); unfold exact_limit; lia.
  - pose proof H3 as [Hz _]. apply max_fixed_precision_floor; [lia|lia|].
    apply digits_fit_Z in H3; [|lia]. apply no_undershoot; lia.
Qed.

Lemma decimal_never_rejects size p sc :
  (size <= u32_max)%N -> (p <= u32_max)%N ->
  (1 <= p)%N -> (match sc with Some s => s | None => 0%N end <= p)%N -> digits_fit p size ->
  validate_logical_type_on_fixed "decimal" size (Some p) sc = true.
Proof.
  intros Hs Hp H1 H2 H3. apply decimal_accepts. repeat split; auto.
  pose proof H3 as [Hz _]. unfold u32_max in Hs. apply max_fixed_precision_floor; [lia|lia|].
  apply digits_fit_Z in H3; [|lia]. apply no_undershoot; lia.
Qed.

Lemma decimal_off_by_one size p sc :
  (size <= u32_max)%N -> (p <= u32_max)%N ->
  validate_logical_type_on_fixed "decimal" size (Some p) sc = true -> digits_fit (p - 1) size.
Proof.
  intros Hs Hp H. apply decimal_accepts in H. destruct H as (H1 & H2 & H3). unfold u32_max in Hs.
  destruct (N.eq_dec size 0) as [->|]; [rewrite max_fixed_zero in H3; lia|].
  apply max_fixed_precision_floor in H3; [|lia|lia]. apply digits_fit_Z; [lia|].
  replace (Z.of_N (p - 1)) with (Z.of_N p - 1) by lia. apply overshoot_by_one; lia.
Qed.

Lemma not_digits_fit size p :
  (0 < size)%N ->
  ((8 * Z.of_N size - 1) * 355393490465494856466 <=? Z.of_N p * 1180591620717411303424) = true ->
  ~ digits_fit p size.
Proof.
  intros Hs Hr H. apply digits_fit_Z in H; [|auto]. apply Z.leb_le in Hr.
  apply (Z.lt_irrefl (2 ^ (8 * Z.of_N size - 1))).
  apply Z.lt_le_trans with (2 := H). apply pow_gt_of_ratio; [lia|lia|exact Hr].
Qed.

Lemma decimal_too_wide :
  validate_logical_type_on_fixed "decimal" 122202250 (Some 294292342%N) None = true
  /\ ~ digits_fit 294292342 122202250.
Proof.
  split; [vm_compute; reflexivity|]. apply not_digits_fit; [reflexivity|vm_compute; reflexivity].
Qed.
