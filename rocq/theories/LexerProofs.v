(** Facts about the lexer: the expressions denote the shapes of SpecLexer, and the
    scan takes the longest token. *)
From Verif Require Import SpecLexer.
From Coq Require Import Lia.

(** ** What expressions match *)
Fixpoint lang (r : regex) : texts :=
  match r with
  | RVoid => fun _ => False
  | REmpty => fun s => s = []
  | RIn l => fun s => exists c, s = [c] /\ in_ranges c l = true
  | RNot l => fun s => exists c, s = [c] /\ in_ranges c l = false
  | RSeq a b => then_ (lang a) (lang b)
  | RAlt a b => either (lang a) (lang b)
  | RStar a => many (lang a)
  | RShortest a => fun s => lang a s /\ forall p q, s = p ++ q -> q <> [] -> ~ lang a p
  end.

Lemma lang_accepting r : accepting r = true <-> lang r [].
Proof.
  induction r; cbn; try (split; [discriminate|intros (c & E & _); discriminate E]).
  - split; [discriminate|tauto].
  - tauto.
  - rewrite andb_true_iff, IHr1, IHr2. split.
    + intros [A B]. exists [], []. auto.
    + intros (x & y & E & A & B). symmetry in E. apply app_eq_nil in E as [-> ->]. auto.
  - rewrite orb_true_iff, IHr1, IHr2. reflexivity.
  - split; [constructor|reflexivity].
  - rewrite IHr. split; [|tauto]. intro H. split; [exact H|]. intros p q E Hq. symmetry in E. apply app_eq_nil in E as [_ ->]. congruence.
Qed.

Lemma lang_seq_of a b s : lang (seq_of a b) s <-> lang (RSeq a b) s.
Proof.
  destruct a; cbn; try reflexivity.
  - split; [tauto|]. intros (x & y & _ & [] & _).
  - split; [intro H; exists [], s; auto|]. intros (x & y & -> & -> & H). exact H.
Qed.
Lemma lang_alt_of a b s : lang (alt_of a b) s <-> lang (RAlt a b) s.
Proof. destruct a, b; cbn; unfold either; cbn; tauto. Qed.

Lemma many_step (P : texts) c s : many P (c :: s) -> exists a b, s = a ++ b /\ P (c :: a) /\ many P b.
Proof.
  intro H. remember (c :: s) as w eqn:E. revert c s E. induction H as [|a b Ha Hb IH]; intros c s E; [discriminate|].
  destruct a as [|c' a]; [exact (IH _ _ E)|]. cbn in E. injection E as -> <-. eauto.
Qed.

Lemma lang_advance c r : forall s, lang (advance c r) s <-> lang r (c :: s).
Proof.
  induction r as [| |l|l|a IHa b IHb|a IHa b IHb|a IHa|a IHa]; intro s; cbn.
  - tauto.
  - split; [tauto|discriminate].
  - destruct (in_ranges c l) eqn:E; cbn; split.
    + intros ->. eauto.
    + intros (c' & H & _). congruence.
    + tauto.
    + intros (c' & H & H'). injection H as <- ->. congruence.
  - destruct (in_ranges c l) eqn:E; cbn; split.
    + tauto.
    + intros (c' & H & H'). injection H as <- ->. congruence.
    + intros ->. eauto.
    + intros (c' & H & _). congruence.
  - assert (Hn : lang (seq_of (advance c a) b) s <-> exists x y, s = x ++ y /\ lang a (c :: x) /\ lang b y).
    { rewrite lang_seq_of. cbn. unfold then_. split; intros (x & y & -> & A & B); exists x, y; (split; [reflexivity|split; [apply IHa, A|exact B]]). }
    destruct (accepting a) eqn:Ea.
    + rewrite lang_alt_of. cbn. unfold either. rewrite Hn, IHb. split.
      * intros [(x & y & -> & A & B)|B]; [exists (c :: x), y; auto|]. exists [], (c :: s). split; [reflexivity|]. split; [apply lang_accepting, Ea|exact B].
      * intros (x & y & E & A & B). destruct x as [|c' x]; [right; cbn in E; rewrite E; exact B|].
        cbn in E. injection E as <- ->. left. eauto.
    + rewrite Hn. split.
      * intros (x & y & -> & A & B). exists (c :: x), y. auto.
      * intros (x & y & E & A & B). destruct x as [|c' x]; [apply lang_accepting in A; congruence|].
        cbn in E. injection E as <- ->. eauto.
  - rewrite lang_alt_of. cbn. unfold either. rewrite IHa, IHb. reflexivity.
  - rewrite lang_seq_of. cbn. split.
    + intros (x & y & -> & A & B). apply IHa in A. exact (many_more _ (c :: x) y A B).
    + intro H. apply many_step in H as (x & y & -> & A & B). exists x, y. rewrite IHa. auto.
  - destruct (accepting a) eqn:Ea; cbn.
    + split; [tauto|]. intros [_ H]. apply (H [] (c :: s) eq_refl); [discriminate|]. apply lang_accepting, Ea.
    + rewrite IHa. split; intros [A B]; split; try exact A.
      * intros p q E Hq Hp. destruct p as [|c' p]; [apply lang_accepting in Hp; congruence|].
        cbn in E. injection E as <- ->. apply (B p q eq_refl Hq), IHa, Hp.
      * intros p q -> Hq Hp. apply (B (c :: p) q eq_refl Hq), IHa, Hp.
Qed.

Definition residual (r : regex) (u : list N) : regex := fold_left (fun r c => advance c r) u r.
Lemma lang_residual u : forall r s, lang (residual r u) s <-> lang r (u ++ s).
Proof.
  induction u as [|c u IH]; intros r s; [reflexivity|]. cbn. unfold residual in IH. rewrite IH, lang_advance. reflexivity.
Qed.
Lemma lang_dec r s : {lang r s} + {~ lang r s}.
Proof.
  destruct (accepting (residual r s)) eqn:E.
  - left. rewrite <- (app_nil_r s). apply lang_residual, lang_accepting, E.
  - right. intro H. rewrite <- (app_nil_r s) in H. apply lang_residual, lang_accepting in H. congruence.
Qed.

(** Some prefix of a text with a property is the shortest with it *)
Lemma shortest_prefix (P : texts) (dec : forall s, {P s} + {~ P s}) : forall s, P s ->
  exists p, P p /\ forall a b, p = a ++ b -> b <> [] -> ~ P a.
Proof.
  intro s. remember (length s) as n eqn:En. revert s En. induction n as [n IH] using (well_founded_induction Wf_nat.lt_wf).
  intros s -> Hs.
  assert (D : forall m, (exists a b, s = a ++ b /\ b <> [] /\ length a <= m /\ P a) \/ forall a b, s = a ++ b -> b <> [] -> length a <= m -> ~ P a).
  { induction m as [|m [Hm|Hm]].
    - destruct (dec []) as [H|H].
      + destruct s as [|c s]; [right; intros a b E Hb _; symmetry in E; apply app_eq_nil in E as [_ ->]; congruence|].
        left. exists [], (c :: s). repeat split; [discriminate|cbn; lia|exact H].
      + right. intros [|x a] b E Hb Hl; [exact H|cbn in Hl; lia].
    - left. destruct Hm as (a & b & E & Hb & Hl & Ha). exists a, b. repeat split; auto.
    - destruct (dec (firstn (S m) s)) as [H|H].
      + destruct (Nat.le_gt_cases (length s) (S m)) as [Hl|Hl].
        * right. intros a b E Hb Hla. destruct (Nat.le_gt_cases (length a) m) as [Hm'|Hm']; [exact (Hm a b E Hb Hm')|].
          exfalso. apply (f_equal (@length N)) in E. rewrite app_length in E. destruct b; [congruence|]. cbn in E. lia.
        * left. exists (firstn (S m) s), (skipn (S m) s). repeat split; [symmetry; apply firstn_skipn| |rewrite firstn_length; lia|exact H].
          intro E. apply (f_equal (@length N)) in E. rewrite skipn_length in E. cbn in E. lia.
      + right. intros a b E Hb Hla. destruct (Nat.eq_dec (length a) (S m)) as [Em|Em].
        * intro Ha. apply H. rewrite E, <- Em, firstn_app, firstn_all, Nat.sub_diag, firstn_O, app_nil_r. exact Ha.
        * apply (Hm a b E Hb). lia. }
  destruct (D (length s)) as [(a & b & E & Hb & _ & Ha)|H].
  - apply (IH (length a)) with (s := a); [|reflexivity|exact Ha]. rewrite E, app_length. destruct b; [congruence|]. cbn. lia.
  - exists s. split; [exact Hs|]. intros a b E Hb. apply (H a b E Hb). rewrite E, app_length. lia.
Qed.

Lemma in_ranges_spec c l : in_ranges c l = true <-> exists lo hi, In (lo, hi) l /\ (lo <= c <= hi)%N.
Proof.
  unfold in_ranges. rewrite existsb_exists. split.
  - intros ([lo hi] & H & E). apply andb_true_iff in E as [A B]. cbn in *. apply N.leb_le in A, B. exists lo, hi. auto.
  - intros (lo & hi & H & A & B). exists (lo, hi). split; [exact H|]. cbn. apply andb_true_iff. split; apply N.leb_le; assumption.
Qed.

(** Some character is outside any list of ranges *)
Lemma outside l : exists c, in_ranges c l = false.
Proof.
  assert (B : exists m, forall lo hi, In (lo, hi) l -> (hi < m)%N).
  { induction l as [|[lo hi] l [m IH]]; [exists 0%N; intros ? ? []|]. exists (N.max m (N.succ hi)).
    intros lo' hi' [E|H]; [injection E as _ <-; lia|specialize (IH _ _ H); lia]. }
  destruct B as [m B]. exists m. destruct (in_ranges m l) eqn:E; [|reflexivity].
  apply in_ranges_spec in E as (lo & hi & H & _ & Hm). specialize (B _ _ H). lia.
Qed.

Lemma dead_lang r : dead r = false <-> exists s, lang r s.
Proof.
  induction r as [| |l|l|a IHa b IHb|a IHa b IHb|a IHa|a IHa]; cbn.
  - split; [discriminate|intros [s []]].
  - split; [eauto|reflexivity].
  - rewrite negb_false_iff, existsb_exists. split.
    + intros ([lo hi] & H & E). cbn in E. apply N.leb_le in E. exists [lo], lo. split; [reflexivity|]. apply in_ranges_spec. exists lo, hi. split; [exact H|lia].
    + intros (s & c & _ & H). apply in_ranges_spec in H as (lo & hi & H & L). exists (lo, hi). split; [exact H|]. cbn. apply N.leb_le. lia.
  - split; [|reflexivity]. intros _. destruct (outside l) as [c H]. eauto.
  - rewrite orb_false_iff, IHa, IHb. split.
    + intros [[s Hs] [t Ht]]. exists (s ++ t), s, t. auto.
    + intros (s & x & y & -> & A & B). eauto.
  - rewrite andb_false_iff, IHa, IHb. unfold either. split.
    + intros [[s H]|[s H]]; eauto.
    + intros [s [H|H]]; eauto.
  - split; [|reflexivity]. intros _. exists []. constructor.
  - rewrite IHa. split.
    + intros [s H]. destruct (shortest_prefix (lang a) (lang_dec a) s H) as (p & Hp & Hm). exists p. split; [exact Hp|exact Hm].
    + intros (s & H & _). eauto.
Qed.

(** ** The scan *)
Section Scan.
  Context (rules : list (token_type * regex)).

  (** The rules after [u] *)
  Definition states (u : list N) : list (token_type * regex) :=
    filter (fun kr => negb (dead (snd kr))) (map (fun kr => (fst kr, residual (snd kr) u)) rules).

  Definition first_match (u : list N) : option token_type :=
    accepted (map (fun kr => (fst kr, residual (snd kr) u)) rules).
  Definition viable (u : list N) : Prop := exists k r more, In (k, r) rules /\ lang r (u ++ more).

  Lemma residual_snoc r u c : residual r (u ++ [c]) = advance c (residual r u).
  Proof. unfold residual. rewrite fold_left_app. reflexivity. Qed.

  Lemma dead_advance r c : dead r = true -> dead (advance c r) = true.
  Proof.
    intro H. destruct (dead (advance c r)) eqn:E; [reflexivity|]. apply dead_lang in E as [s Hs].
    apply lang_advance in Hs. assert (dead r = false) by (apply dead_lang; eauto). congruence.
  Qed.

  Lemma states_step u c : advance_all c (states u) = states (u ++ [c]).
  Proof.
    unfold advance_all, states. induction rules as [|[k r] l IH]; [reflexivity|]. cbn.
    rewrite residual_snoc. destruct (dead (residual r u)) eqn:E; cbn.
    - rewrite (dead_advance _ c E). exact IH.
    - destruct (dead (advance c (residual r u))); cbn; rewrite IH; reflexivity.
  Qed.

  Lemma accepted_live (l : list (token_type * regex)) : accepted (filter (fun kr => negb (dead (snd kr))) l) = accepted l.
  Proof.
    induction l as [|[k r] l IH]; [reflexivity|]. cbn. destruct (accepting r) eqn:E.
    - assert (dead r = false) as -> by (apply dead_lang; exists []; apply lang_accepting, E). cbn. rewrite E. reflexivity.
    - destruct (dead r); cbn; [exact IH|]. rewrite E. exact IH.
  Qed.
  Lemma accepted_states u : accepted (states u) = first_match u.
  Proof. apply accepted_live. Qed.

  Lemma states_viable u : states u <> [] <-> viable u.
  Proof.
    unfold states, viable. split.
    - intro H. destruct (filter _ _) as [|[k r'] l] eqn:E; [congruence|].
      assert (Hi : In (k, r') ((k, r') :: l)) by (left; reflexivity). rewrite <- E in Hi.
      apply filter_In in Hi as [Hi Hd]. apply in_map_iff in Hi as ([k0 r] & E' & Hi). cbn in E'. injection E' as <- <-.
      cbn in Hd. apply negb_true_iff, dead_lang in Hd as [s Hs]. apply lang_residual in Hs. eauto.
    - intros (k & r & more & Hi & Hl) E.
      assert (Hin : In (k, residual r u) (filter (fun kr : token_type * regex => negb (dead (snd kr)))
                  (map (fun kr : token_type * regex => (fst kr, residual (snd kr) u)) rules))).
      { apply filter_In. split; [apply in_map_iff; exists (k, r); auto|]. cbn. apply negb_true_iff, dead_lang. exists more. apply lang_residual, Hl. }
      rewrite E in Hin. destruct Hin.
  Qed.

  Lemma accepted_none (l : list (token_type * regex)) : accepted l = None <-> forall k r, In (k, r) l -> accepting r = false.
  Proof.
    induction l as [|[k r] l IH]; cbn; [split; [intros _ k r []|reflexivity]|].
    destruct (accepting r) eqn:E.
    - split; [discriminate|]. intro H. specialize (H k r (or_introl eq_refl)). congruence.
    - rewrite IH. split; intros H k' r'; [intros [X|X]; [injection X as <- <-; exact E|exact (H _ _ X)]|]. intro X. apply (H k' r'). auto.
  Qed.
  Lemma first_match_none u : first_match u = None <-> forall k r, In (k, r) rules -> ~ lang r u.
  Proof.
    unfold first_match. rewrite accepted_none. split.
    - intros H k r Hi Hl. specialize (H k (residual r u)). rewrite <- (app_nil_r u) in Hl. apply lang_residual, lang_accepting in Hl.
      rewrite H in Hl; [discriminate|]. apply in_map_iff. exists (k, r). auto.
    - intros H k r' Hi. apply in_map_iff in Hi as ([k0 r] & E & Hi). cbn in E. injection E as <- <-.
      destruct (accepting (residual r u)) eqn:E; [|reflexivity]. exfalso. apply (H _ _ Hi). rewrite <- (app_nil_r u). apply lang_residual, lang_accepting, E.
  Qed.
  Lemma first_match_some u k : first_match u = Some k ->
    exists a r b, rules = a ++ (k, r) :: b /\ lang r u /\ forall k' r', In (k', r') a -> ~ lang r' u.
  Proof.
    unfold first_match. induction rules as [|[k0 r0] l IH]; cbn; [discriminate|].
    destruct (accepting (residual r0 u)) eqn:E.
    - intro X. injection X as <-. exists [], r0, l. repeat split; [|intros ? ? []].
      rewrite <- (app_nil_r u). apply lang_residual, lang_accepting, E.
    - intro X. destruct (IH X) as (a & r & b & -> & Hr & Ha). exists ((k0, r0) :: a), r, b. repeat split; [exact Hr|].
      intros k' r' [Y|Y]; [|exact (Ha _ _ Y)]. injection Y as <- <-. intro Hl. rewrite <- (app_nil_r u) in Hl. apply lang_residual, lang_accepting in Hl. congruence.
  Qed.

  (** What the scan of [s], after [u], finds *)
  Definition found (u s : list N) (best best' : option (nat * token_type)) : Prop :=
    (exists p q k, s = p ++ q /\ p <> [] /\ first_match (u ++ p) = Some k /\ best' = Some (length (u ++ p), k)
       /\ forall p' q', s = p' ++ q' -> length p < length p' -> first_match (u ++ p') = None)
    \/ (best' = best /\ forall p q, s = p ++ q -> p <> [] -> first_match (u ++ p) = None).
  Definition stopped (u s : list N) (m : nat) : Prop :=
    (exists begun c q, s = begun ++ c :: q /\ m = length (u ++ begun ++ [c]) /\ (begun = [] \/ viable (u ++ begun)) /\ ~ viable (u ++ begun ++ [c]))
    \/ (m = length (u ++ s) /\ (s = [] \/ viable (u ++ s))).

  Lemma viable_prefix u v : viable (u ++ v) -> viable u.
  Proof. intros (k & r & more & Hi & Hl). rewrite <- app_assoc in Hl. exists k, r, (v ++ more). auto. Qed.

  Lemma scan_spec s : forall u best best' m, scan (states u) best (length u) s = (best', m) ->
    found u s best best' /\ stopped u s m.
  Proof.
    induction s as [|c s IH]; intros u best best' m E.
    - cbn in E. injection E as <- <-. split.
      + right. split; [reflexivity|]. intros p q X Hp. symmetry in X. apply app_eq_nil in X as [-> _]. congruence.
      + right. rewrite app_nil_r. auto.
    - cbn [scan] in E. rewrite states_step in E.
      destruct (states (u ++ [c])) as [|kr l] eqn:Es.
      + injection E as <- <-.
        assert (Hv : ~ viable (u ++ [c])) by (intro H; apply states_viable in H; congruence). split.
        * right. split; [reflexivity|]. intros [|c' p] q X Hp; [congruence|]. cbn in X. injection X as <- ->.
          apply first_match_none. intros k r Hi Hl. apply Hv. exists k, r, p. split; [exact Hi|]. rewrite <- app_assoc. exact Hl.
        * left. exists [], c, s. cbn. rewrite app_length. cbn. repeat split; [lia|auto|exact Hv].
      + rewrite <- Es in E. replace (S (length u)) with (length (u ++ [c])) in E by (rewrite app_length; cbn; lia).
        rewrite accepted_states in E.
        assert (Hv : viable (u ++ [c])) by (apply states_viable; congruence).
        specialize (IH _ _ _ _ E). destruct IH as [IHf IHs]. split.
        * destruct IHf as [(p & q & k & -> & Hp & Hk & -> & Hm)|[-> Hm]].
          -- left. exists (c :: p), q, k. rewrite <- app_assoc in Hk. rewrite <- app_assoc. repeat split; [discriminate|exact Hk|].
             intros [|c' p'] q' X Hl; [cbn in Hl; lia|]. cbn in X. injection X as <- X. specialize (Hm p' q' X).
             rewrite <- app_assoc in Hm. apply Hm. cbn in Hl. lia.
          -- destruct (first_match (u ++ [c])) as [k|] eqn:Ek.
             ++ left. exists [c], s, k. repeat split; [discriminate|exact Ek|].
                intros [|c' p'] q' X Hl; [cbn in Hl; lia|]. cbn in X. injection X as <- X. specialize (Hm p' q' X).
                rewrite <- app_assoc in Hm. apply Hm. destruct p'; [cbn in Hl; lia|discriminate].
             ++ right. split; [reflexivity|]. intros [|c' p'] q' X Hp; [congruence|]. cbn in X. injection X as <- X.
                destruct p' as [|c2 p']; [exact Ek|]. specialize (Hm _ q' X). rewrite <- app_assoc in Hm. apply Hm. discriminate.
        * destruct IHs as [(begun & c' & q & -> & -> & Hb & Hn)|[-> Hs]].
          -- left. exists (c :: begun), c', q. cbn. rewrite <- !app_assoc in *. cbn in *. repeat split; [|exact Hn].
             right. destruct Hb as [->|Hb]; [exact Hv|exact Hb].
          -- right. rewrite <- !app_assoc. cbn. split; [reflexivity|]. right. destruct Hs as [->|Hs]; [exact Hv|]. rewrite <- app_assoc in Hs. exact Hs.
  Qed.
End Scan.
