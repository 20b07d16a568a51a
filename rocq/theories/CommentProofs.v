From Verif Require Import Doc SpecComment BaseProofs.
Local Open Scope N_scope.

(** ** Lists and lines *)
Lemma strip_prefix_some p l r : strip_prefix p l = Some r <-> l = p ++ r.
Proof.
  revert l. induction p as [|a p IH]; intros l; cbn.
  - split; [intro E; now injection E|intros ->; reflexivity].
  - destruct l as [|b l]; [split; discriminate|]. destruct (N.eqb_spec a b) as [->|n].
    + rewrite IH. split; [intros ->; reflexivity|intro E; now injection E].
    + split; [discriminate|intro E; injection E; congruence].
Qed.

Lemma strip_prefix_none p l : strip_prefix p l = None <-> ~ exists r, l = p ++ r.
Proof.
  destruct (strip_prefix p l) as [r|] eqn:E.
  - apply strip_prefix_some in E. split; [discriminate|]. intro H. exfalso. eauto.
  - split; [|reflexivity]. intros _ [r Hr]. apply strip_prefix_some in Hr. congruence.
Qed.

Lemma split_nl_lines t : lines_of t (split_nl t).
Proof.
  induction t as [|c t IH]; cbn [split_nl].
  - constructor. intros [].
  - unfold c_nl. destruct (N.eqb_spec c 10) as [->|n].
    + apply (lo_more [] t). { intros []. } exact IH.
    + inversion IH as [l Hl E1 E2|l t' ls Hl Ht E1 E2]; subst.
      * constructor. intros [E|E]; [unfold newline in E; congruence|exact (Hl E)].
      * apply (lo_more (c :: l)); [|exact Ht]. intros [E|E]; [unfold newline in E; congruence|exact (Hl E)].
Qed.

Lemma lines_of_det t ls : lines_of t ls -> split_nl t = ls.
Proof.
  induction 1 as [l Hl|l t ls Hl Ht IH].
  - induction l as [|c l IH]; [reflexivity|]. cbn [split_nl]. unfold c_nl.
    destruct (N.eqb_spec c 10) as [->|n]; [exfalso; apply Hl; now left|].
    rewrite IH; [reflexivity|]. intro. apply Hl. now right.
  - induction l as [|c l IHl]; cbn [app split_nl].
    + change (newline =? c_nl) with true. cbn iota. now rewrite IH.
    + unfold c_nl. destruct (N.eqb_spec c 10) as [->|n]; [exfalso; apply Hl; now left|].
      rewrite IHl; [reflexivity|]. intro. apply Hl. now right.
Qed.

Lemma lines_of_ne t ls : lines_of t ls -> ls <> [].
Proof. destruct 1; discriminate. Qed.

Lemma join_lines ls : ls <> [] -> Forall (fun l => ~ In newline l) ls -> lines_of (join_nl ls) ls.
Proof.
  intros Hne H. induction H as [|l ls Hl Hls IH]; [congruence|].
  destruct ls as [|l2 ls].
  - cbn. now constructor.
  - change (join_nl (l :: l2 :: ls)) with (l ++ newline :: join_nl (l2 :: ls)). constructor; [exact Hl|].
    apply IH. discriminate.
Qed.

Lemma lines_no_nl t ls : lines_of t ls -> Forall (fun l => ~ In newline l) ls.
Proof. induction 1; repeat constructor; assumption. Qed.

Lemma is_whitespace_iff c : is_whitespace c = true <-> In c white_space.
Proof.
  unfold is_whitespace, white_space.
  rewrite !orb_true_iff, !andb_true_iff, !N.leb_le, !N.eqb_eq. cbn [In]. lia.
Qed.

Lemma is_blank_iff c : is_blank c = true <-> blank c.
Proof. unfold is_blank, blank. now rewrite orb_true_iff, !N.eqb_eq. Qed.

Lemma blank_space c : blank c -> In c white_space.
Proof. intros [-> | ->]; cbn; tauto. Qed.

Lemma drop_while_split p l : exists a, l = a ++ drop_while p l /\ Forall (fun c => p c = true) a.
Proof.
  induction l as [|c l IH]; cbn; [exists []; now split|].
  destruct (p c) eqn:E; [|exists []; now split].
  destruct IH as (a & Ea & Ha). exists (c :: a). split; [cbn; congruence|now constructor].
Qed.

Lemma drop_while_stop p l c r : drop_while p l = c :: r -> p c = false.
Proof.
  induction l as [|d l IH]; cbn; [discriminate|]. destruct (p d) eqn:E; [exact IH|].
  intro H. injection H as <- _. exact E.
Qed.

Lemma drop_while_app p a l : Forall (fun c => p c = true) a -> drop_while p (a ++ l) = drop_while p l.
Proof. induction 1 as [|c a Hc Ha IH]; [reflexivity|]. cbn. now rewrite Hc. Qed.

Lemma drop_while_all p a : Forall (fun c => p c = true) a -> drop_while p a = [].
Proof. induction 1 as [|c a Hc Ha IH]; [reflexivity|]. cbn. now rewrite Hc. Qed.

Lemma drop_while_nil p l : drop_while p l = [] -> Forall (fun c => p c = true) l.
Proof.
  intro H. destruct (drop_while_split p l) as (a & Ea & Ha). rewrite H, app_nil_r in Ea. now subst.
Qed.

Lemma drop_cr_cases l : (exists l', l = l' ++ [carriage_return] /\ drop_cr l = l') \/
  ((~ exists l', l = l' ++ [carriage_return]) /\ drop_cr l = l).
Proof.
  unfold drop_cr, c_cr. destruct (rev l) as [|c r] eqn:E.
  - right. apply (f_equal (@rev N)) in E. rewrite rev_involutive in E. cbn in E. subst l.
    split; [|reflexivity]. intros (l' & H). destruct l'; discriminate.
  - apply (f_equal (@rev N)) in E. rewrite rev_involutive in E. cbn in E. subst l.
    destruct (N.eqb_spec c 13) as [->|n].
    + left. exists (rev r). now split.
    + right. split; [|reflexivity]. intros (l' & H). apply app_inj_tail in H. destruct H as [_ H].
      unfold carriage_return in H. congruence.
Qed.

Lemma no_cr_iff l : no_cr l = true <-> ~ In carriage_return l.
Proof.
  unfold no_cr, c_cr. rewrite forallb_forall. split.
  - intros H Hin. apply H in Hin. discriminate.
  - intros H x Hx. destruct (N.eqb_spec x 13) as [->|]; [contradiction|reflexivity].
Qed.

Lemma stars_repeat k : stars k = repeat star k.
Proof. reflexivity. Qed.

Lemma repeat_star_no k x : x <> star -> ~ In x (repeat star k).
Proof. intros H Hin. apply repeat_spec in Hin. congruence. Qed.

Lemma blanks_bool l : Forall (fun c => is_blank c = true) l <-> Forall blank l.
Proof. split; intro H; induction H; constructor; auto; now apply is_blank_iff. Qed.

Lemma spaces_bool l : Forall (fun c => is_whitespace c = true) l <-> all_space l.
Proof. split; intro H; induction H; constructor; auto; now apply is_whitespace_iff. Qed.

Lemma star_not_blank : is_blank star = false.
Proof. reflexivity. Qed.

(** ** Only decoration is removed *)
Lemma decoration_nil : decoration [].
Proof. exists [], [], []. repeat split; [constructor|now left|now left]. Qed.

Lemma drop_one_blank_split l : exists b, l = b ++ drop_one_blank l /\ (b = [] \/ exists c, blank c /\ b = [c]).
Proof.
  destruct l as [|c l]; cbn; [exists []; split; auto|].
  destruct (is_blank c) eqn:E; [|exists []; split; auto].
  exists [c]. split; [reflexivity|]. right. exists c. split; [now apply is_blank_iff|reflexivity].
Qed.

Definition shortened (l l' : list N) : Prop := exists p, l = p ++ l' /\ decoration p.

Lemma shortened_refl l : shortened l l.
Proof. exists []. split; [reflexivity|apply decoration_nil]. Qed.

Lemma star_dec_shape k ws b : (k = 1 \/ k = 2)%nat -> Forall blank ws ->
  (b = [] \/ exists c, blank c /\ b = [c]) -> decoration (ws ++ repeat star k ++ b).
Proof.
  intros Hk Hws Hb. exists ws, (repeat star k), b. split; [reflexivity|]. split; [|split].
  - eapply Forall_impl; [|exact Hws]. intros c Hc. now apply blank_space.
  - destruct Hk as [-> | ->]; cbn; tauto.
  - destruct Hb as [->|H]; [now left|]. right. split; [|exact H]. destruct Hk as [-> | ->]; discriminate.
Qed.

Lemma star_first_shortened k l : (k = 1 \/ k = 2)%nat -> shortened l (star_replace_first k l).
Proof.
  intro Hk. unfold star_replace_first. destruct (strip_prefix (stars k) l) as [r|] eqn:E; [|apply shortened_refl].
  apply strip_prefix_some in E. destruct (drop_one_blank_split r) as (b & Er & Hb).
  exists ([] ++ repeat star k ++ b). split.
  - rewrite stars_repeat in E. rewrite E, Er at 1. now rewrite <- !app_assoc.
  - now apply star_dec_shape.
Qed.

Lemma star_line_shortened k l : (k = 1 \/ k = 2)%nat -> shortened l (star_replace_line k l).
Proof.
  intro Hk. unfold star_replace_line.
  destruct (strip_prefix (stars k) (drop_while is_blank l)) as [r|] eqn:E; [|apply shortened_refl].
  apply strip_prefix_some in E. destruct (drop_one_blank_split r) as (b & Er & Hb).
  destruct (drop_while_split is_blank l) as (ws & El & Hws). apply blanks_bool in Hws.
  exists (ws ++ repeat star k ++ b). split.
  - rewrite El, E, stars_repeat, Er at 1. now rewrite <- !app_assoc.
  - now apply star_dec_shape.
Qed.

Lemma remove_indent_shortened p l : all_space p -> shortened l (remove_indent p l).
Proof.
  intro Hp. unfold remove_indent. destruct (strip_prefix p l) as [r|] eqn:E; [|apply shortened_refl].
  apply strip_prefix_some in E. exists p. split; [exact E|].
  exists p, [], []. rewrite !app_nil_r. repeat split; [exact Hp|now left|now left].
Qed.

Lemma Forall2_map_r {A B} (R : A -> B -> Prop) f l : (forall x, R x (f x)) -> Forall2 R l (map f l).
Proof. intro H. induction l; constructor; auto. Qed.

Lemma shortened_no_nl l l' : shortened l l' -> ~ In newline l -> ~ In newline l'.
Proof. intros (p & -> & _) H Hin. apply H, in_or_app. now right. Qed.

Lemma shortened_lines t ls ls' : lines_of t ls -> Forall2 shortened ls ls' ->
  lines_of (join_nl ls') ls'.
Proof.
  intros Ht H2. apply join_lines.
  - apply lines_of_ne in Ht. destruct H2; [congruence|discriminate].
  - apply lines_no_nl in Ht. clear -Ht H2. induction H2 as [|l l' ls ls' Hl H2 IH]; [constructor|].
    inversion Ht; subst. constructor; [eapply shortened_no_nl; eauto|auto].
Qed.

Lemma join_split t : join_nl (split_nl t) = t.
Proof.
  induction (split_nl_lines t) as [l Hl|l t ls Hl Ht IH]; [reflexivity|].
  pose proof (lines_of_ne _ _ Ht). destruct ls as [|l2 ls]; [congruence|].
  change (join_nl (l :: l2 :: ls)) with (l ++ newline :: join_nl (l2 :: ls)). now rewrite IH.
Qed.

Lemma take_while_all p l : Forall (fun c => p c = true) (take_while p l).
Proof. induction l as [|c l IH]; cbn; [constructor|]. destruct (p c) eqn:E; [now constructor|constructor]. Qed.

Lemma common_prefix_spec a b : exists a' b', a = common_prefix a b ++ a' /\ b = common_prefix a b ++ b' /\
  match a', b' with x :: _, y :: _ => x <> y | _, _ => True end.
Proof.
  revert b. induction a as [|x a IH]; intro b; cbn.
  - exists [], b. now repeat split.
  - destruct b as [|y b]; [exists (x :: a), []; now repeat split|].
    destruct (N.eqb_spec x y) as [->|n].
    + destruct (IH b) as (a' & b' & Ea & Eb & H). exists a', b'. cbn. repeat split; congruence.
    + exists (x :: a), (y :: b). now repeat split.
Qed.

Lemma common_indent_space ls cur p : (forall c, cur = Some c -> all_space c) ->
  common_indent ls cur = Some p -> all_space p.
Proof.
  revert cur. induction ls as [|l ls IH]; intros cur Hc; cbn [common_indent]; [apply Hc|].
  destruct (is_nil (trim l)); [now apply IH|].
  apply IH. intros c E. injection E as <-.
  assert (Ht : all_space (take_while is_whitespace l)) by (apply spaces_bool, take_while_all).
  destruct cur as [d|]; [|exact Ht].
  destruct (common_prefix_spec d (take_while is_whitespace l)) as (a' & b' & Ea & _ & _).
  specialize (Hc d eq_refl). unfold all_space in *. rewrite Ea in Hc. now apply Forall_app in Hc.
Qed.

Lemma strip_indents_lines t ls : lines_of t ls ->
  exists ls', lines_of (strip_indents t) ls' /\ Forall2 shortened ls ls'.
Proof.
  intro Ht. pose proof (lines_of_det _ _ Ht) as Es.
  assert (Id : exists ls', lines_of t ls' /\ Forall2 shortened ls ls').
  { exists ls. split; [exact Ht|]. clear. induction ls; constructor; auto using shortened_refl. }
  assert (St : forall k, (k = 1 \/ k = 2)%nat -> exists ls', lines_of (star_replace k t) ls' /\ Forall2 shortened ls ls').
  { intros k Hk. unfold star_replace. rewrite Es. destruct ls as [|first rest]; [exfalso; now apply lines_of_ne in Ht|].
    assert (F2 : Forall2 shortened (first :: rest) (star_replace_first k first :: map (star_replace_line k) rest)).
    { constructor; [now apply star_first_shortened|]. apply Forall2_map_r. intro. now apply star_line_shortened. }
    eexists. split; [|exact F2]. exact (shortened_lines _ _ _ Ht F2). }
  unfold strip_indents. destruct (star_validate 2 t); [apply St; auto|]. destruct (star_validate 1 t); [apply St; auto|].
  destruct (ws_indent_validate t); [|exact Id]. unfold try_strip_ws_indent.
  destruct (str_lines t) as [|x [|y rest]]; [exact Id|exact Id|].
  destruct (common_indent (y :: rest) None) as [p|] eqn:Ec; [|exact Id].
  destruct p as [|a p]; [exact Id|]. rewrite Es. destruct ls as [|first ls]; [exact Id|].
  apply common_indent_space in Ec; [|discriminate].
  assert (F2 : Forall2 shortened (first :: ls) (first :: map (remove_indent (a :: p)) ls)).
  { constructor; [apply shortened_refl|]. apply Forall2_map_r. intro. now apply remove_indent_shortened. }
  eexists. split; [|exact F2]. exact (shortened_lines _ _ _ Ht F2).
Qed.

(** ** Star decoration is removed completely *)
Lemma repeat_cons_app {A} (x : A) k l : repeat x (S k) ++ l = x :: (repeat x k ++ l).
Proof. reflexivity. Qed.

Lemma drop_blanks_star k ws r : (0 < k)%nat -> Forall blank ws ->
  drop_while is_blank (ws ++ repeat star k ++ r) = repeat star k ++ r.
Proof.
  intros Hk Hws. rewrite drop_while_app by now apply blanks_bool.
  destruct k; [lia|]. reflexivity.
Qed.

Lemma drop_one_blank_spec b c :
  (b = [] /\ (forall x r, c = x :: r -> ~ blank x) \/ exists x, blank x /\ b = [x]) ->
  drop_one_blank (b ++ c) = c.
Proof.
  intros [[-> H]|(x & Hx & ->)]; cbn.
  - destruct c as [|x r]; [reflexivity|]. cbn. destruct (is_blank x) eqn:E; [|reflexivity].
    exfalso. apply (H x r eq_refl). now apply is_blank_iff.
  - apply is_blank_iff in Hx. now rewrite Hx.
Qed.

Lemma star_replace_line_starred k l c : (0 < k)%nat -> starred k l c -> star_replace_line k l = c.
Proof.
  intros Hk [ws b c' Hws Hb]. unfold star_replace_line. rewrite (drop_blanks_star _ _ _ Hk Hws).
  assert (E : strip_prefix (stars k) (repeat star k ++ b ++ c') = Some (b ++ c')) by now apply strip_prefix_some.
  rewrite E. now apply drop_one_blank_spec.
Qed.

Lemma star_replace_first_starred k l c r : (0 < k)%nat -> l = repeat star k ++ r -> starred k l c ->
  star_replace_first k l = c.
Proof.
  intros Hk El Hs. rewrite <- (star_replace_line_starred k l c Hk Hs).
  unfold star_replace_first, star_replace_line.
  rewrite El. rewrite <- (app_nil_l (repeat star k ++ r)) at 2.
  rewrite (drop_blanks_star _ [] _ Hk); [|constructor]. destruct (strip_prefix _ _); reflexivity.
Qed.

Lemma star_replace_line_blank k l : (0 < k)%nat -> blank_line l -> star_replace_line k l = l.
Proof.
  intros Hk Hl. unfold star_replace_line.
  assert (E : strip_prefix (stars k) (drop_while is_blank l) = None).
  { destruct k; [lia|]. destruct Hl as [Hl|(l' & -> & Hl)].
    - rewrite drop_while_all; [reflexivity|now apply blanks_bool].
    - rewrite drop_while_app by now apply blanks_bool. reflexivity. }
  now rewrite E.
Qed.

Lemma star_replace_decorated k t ls cs : (0 < k)%nat -> lines_of t ls -> decorated k ls cs ->
  star_replace k t = join_nl cs.
Proof.
  intros Hk Ht [_ Hd]. unfold star_replace. rewrite (lines_of_det _ _ Ht).
  destruct ls as [|l ls]; [destruct Hd|]. destruct cs as [|c cs]; [destruct Hd|].
  destruct Hd as ((r & Er) & Hs & H2). f_equal. f_equal.
  - eapply star_replace_first_starred; eauto.
  - clear -Hk H2. induction H2 as [|x y xs ys Hxy H2 IH]; [reflexivity|]. cbn. f_equal; [|apply IH].
    destruct Hxy as [Hxy|[Hb ->]]; [now apply star_replace_line_starred|now apply star_replace_line_blank].
Qed.

Definition line_ok (k : nat) (d : list N) : Prop :=
  ~ In carriage_return d /\ (Forall blank d \/ exists ws r, Forall blank ws /\ d = ws ++ repeat star k ++ r).

Lemma blanks_no_cr l : Forall blank l -> ~ In carriage_return l.
Proof. intros H Hin. rewrite Forall_forall in H. apply H in Hin. destruct Hin; discriminate. Qed.

Lemma star_line_iff k d : (0 < k)%nat -> star_line k d = true <-> line_ok k d.
Proof.
  intro Hk. unfold star_line, line_ok. destruct (drop_while_split is_blank d) as (ws & Ed & Hws). apply blanks_bool in Hws.
  destruct (drop_while is_blank d) as [|x r0] eqn:E.
  - rewrite app_nil_r in Ed. subst ws. split; [|reflexivity]. intros _. split; [now apply blanks_no_cr|now left].
  - set (r := x :: r0) in *. destruct (strip_prefix (stars k) r) as [rest|] eqn:Es.
    + apply strip_prefix_some in Es. rewrite no_cr_iff. split.
      * intro Hn. split.
        -- rewrite Ed, Es. intro Hin. apply in_app_or in Hin. destruct Hin as [Hin|Hin]; [now apply blanks_no_cr in Hin|].
           apply in_app_or in Hin. destruct Hin as [Hin|Hin]; [|contradiction].
           revert Hin. apply repeat_star_no. discriminate.
        -- right. exists ws, rest. split; [exact Hws|]. now rewrite Ed, Es.
      * intros [Hn _] Hin. apply Hn. rewrite Ed, Es. apply in_or_app. right. apply in_or_app. now right.
    + split; [discriminate|]. intros [_ [Hb|(ws' & r' & Hws' & Ed')]].
      * apply blanks_bool in Hb. apply drop_while_all in Hb. rewrite E in Hb. discriminate.
      * exfalso. apply strip_prefix_none in Es. apply Es. exists r'.
        rewrite <- E, Ed'. now apply drop_blanks_star.
Qed.

Lemma starred_exists k ws r : Forall blank ws -> exists c, starred k (ws ++ repeat star k ++ r) c.
Proof.
  intro Hws. destruct r as [|x r].
  - exists []. apply (st_intro k ws [] []); [exact Hws|]. left. split; [reflexivity|discriminate].
  - destruct (is_blank x) eqn:E.
    + exists r. apply (st_intro k ws [x] r); [exact Hws|]. right. exists x. split; [now apply is_blank_iff|reflexivity].
    + exists (x :: r). apply (st_intro k ws [] (x :: r)); [exact Hws|]. left. split; [reflexivity|].
      intros y r' Ey Hy. injection Ey as <- _. apply is_blank_iff in Hy. congruence.
Qed.

Lemma starred_shape k l c : starred k l c -> exists ws r, Forall blank ws /\ l = ws ++ repeat star k ++ r.
Proof. intros [ws b c' Hws _]. eauto. Qed.

Definition inner_line (k : nat) (l : list N) : Prop :=
  (exists c, starred k l c) \/ blank_line l.

Lemma last_line_iff k l : (0 < k)%nat -> line_ok k l <-> ~ In carriage_return l /\ inner_line k l.
Proof.
  intro Hk. unfold line_ok, inner_line. split.
  - intros [Hn H]. split; [exact Hn|]. destruct H as [H|(ws & r & Hws & ->)].
    + right. now left.
    + left. now apply starred_exists.
  - intros [Hn H]. split; [exact Hn|]. destruct H as [[c Hc]|Hb].
    + right. now apply starred_shape in Hc.
    + destruct Hb as [Hb|(l' & -> & _)]; [now left|]. exfalso. apply Hn. apply in_or_app. right. now left.
Qed.

Lemma mid_line_iff k l : (0 < k)%nat -> line_ok k (drop_cr l) <-> cr_at_end_only l /\ inner_line k l.
Proof.
  intro Hk. destruct (drop_cr_cases l) as [(l' & -> & ->)|[Hne ->]].
  - unfold line_ok, inner_line. split.
    + intros [Hn H]. split; [right; eauto|]. destruct H as [H|(ws & r & Hws & ->)].
      * right. right. eauto.
      * left. rewrite <- !app_assoc. now apply starred_exists.
    + intros [Hcr H]. split.
      * destruct Hcr as [Hcr|(l2 & E & Hcr)]; [exfalso; apply Hcr, in_or_app; right; now left|].
        apply app_inj_tail in E. destruct E as [-> _]. exact Hcr.
      * destruct H as [[c Hc]|Hb].
        -- right. apply starred_shape in Hc. destruct Hc as (ws & r & Hws & E).
           destruct (rev r) as [|y r'] eqn:Er.
           ++ apply (f_equal (@rev N)) in Er. rewrite rev_involutive in Er. cbn in Er. subst r.
              destruct k; [lia|]. rewrite app_nil_r in E.
              assert (Es : repeat star (S k) = repeat star k ++ [star]) by (apply repeat_cons).
              rewrite Es, app_assoc in E. apply app_inj_tail in E. destruct E as [_ E]. discriminate.
           ++ apply (f_equal (@rev N)) in Er. rewrite rev_involutive in Er. cbn in Er. subst r.
              rewrite !app_assoc in E. apply app_inj_tail in E. destruct E as [E _].
              exists ws, (rev r'). split; [exact Hws|]. now rewrite app_assoc.
        -- left. destruct Hb as [Hb|(l2 & E & Hb)].
           ++ exfalso. apply blanks_no_cr in Hb. apply Hb, in_or_app. right. now left.
           ++ apply app_inj_tail in E. destruct E as [-> _]. exact Hb.
  - rewrite (last_line_iff k l Hk). split; intros [H1 H2]; (split; [|exact H2]).
    + now left.
    + destruct H1 as [H1|(l' & -> & _)]; [exact H1|]. exfalso. eauto.
Qed.

Lemma star_lines_iff k ls : (0 < k)%nat -> star_lines k ls = true <-> clean_cr ls /\ Forall (inner_line k) ls.
Proof.
  intro Hk. induction ls as [|l ls IH]; [cbn; split; auto|].
  destruct ls as [|l2 ls].
  - cbn [star_lines clean_cr]. rewrite (star_line_iff k l Hk), (last_line_iff k l Hk).
    split; intros [H1 H2]; (split; [exact H1|]).
    + constructor; [exact H2|constructor].
    + now inversion H2.
  - change (star_lines k (l :: l2 :: ls)) with (star_line k (drop_cr l) && star_lines k (l2 :: ls)).
    change (clean_cr (l :: l2 :: ls)) with (cr_at_end_only l /\ clean_cr (l2 :: ls)).
    rewrite andb_true_iff, IH, (star_line_iff k _ Hk), (mid_line_iff k l Hk).
    split.
    + intros [[H1 H2] [H3 H4]]. repeat split; auto.
    + intros [[H1 H2] H3]. inversion H3; subst. repeat split; auto.
Qed.

Lemma inner_lines_contents k ls : Forall (inner_line k) ls <->
  exists cs, Forall2 (fun l c => starred k l c \/ blank_line l /\ c = l) ls cs.
Proof.
  split.
  - induction 1 as [|l ls [[c Hc]|Hb] H (cs & IH)].
    + exists []. constructor.
    + exists (c :: cs). constructor; auto.
    + exists (l :: cs). constructor; auto.
  - intros (cs & H). induction H as [|l c ls cs Hl H IH]; constructor; auto.
    destruct Hl as [Hl|[Hl _]]; [left; eauto|now right].
Qed.

Lemma starred_first k l : (0 < k)%nat -> (exists r, l = repeat star k ++ r) -> inner_line k l.
Proof. intros Hk (r & ->). left. apply (starred_exists k [] r). constructor. Qed.

Lemma star_validate_iff k t ls : (0 < k)%nat -> lines_of t ls ->
  star_validate k t = true <-> exists cs, decorated k ls cs.
Proof.
  intros Hk Ht. unfold star_validate. rewrite (lines_of_det _ _ Ht).
  destruct ls as [|first rest]; [exfalso; now apply lines_of_ne in Ht|]. clear Ht.
  assert (Hfirst : forall d, match strip_prefix (stars k) d with Some r => no_cr r = true | None => False end <->
                     line_ok k d /\ exists r, d = repeat star k ++ r).
  { intro d. destruct (strip_prefix (stars k) d) as [r|] eqn:E.
    - apply strip_prefix_some in E. rewrite no_cr_iff. split.
      + intro Hn. split; [|eauto]. split.
        * rewrite E. intro Hin. apply in_app_or in Hin. destruct Hin as [Hin|Hin]; [|contradiction].
          revert Hin. apply repeat_star_no. discriminate.
        * right. exists [], r. split; [constructor|exact E].
      + intros [[Hn _] _] Hin. apply Hn. rewrite E. apply in_or_app. now right.
    - split; [intros []|]. intros [_ Hr]. apply strip_prefix_none in E. contradiction. }
  assert (K : forall d b, (match strip_prefix (stars k) d with Some r => no_cr r && b | None => false end = true)
            <-> (line_ok k d /\ exists r, d = repeat star k ++ r) /\ b = true).
  { intros d b. rewrite <- Hfirst. destruct (strip_prefix (stars k) d); [apply andb_true_iff|].
    split; [discriminate|intros [[] _]]. }
  rewrite K. unfold decorated. destruct rest as [|l2 rest].
  - cbn [star_lines clean_cr]. rewrite (last_line_iff k first Hk). split.
    + intros [[[H1 H2] (r & Er)] _]. destruct (starred_exists k [] r) as [c Hc]; [constructor|].
      exists [c]. split; [exact H1|]. split; [eauto|]. split; [now rewrite Er|constructor].
    + intros (cs & H1 & H). destruct cs as [|c cs]; [destruct H|]. destruct H as (Hr & Hs & _).
      split; [|reflexivity]. split; [|exact Hr]. split; [exact H1|]. now apply starred_first.
  - change (clean_cr (first :: l2 :: rest)) with (cr_at_end_only first /\ clean_cr (l2 :: rest)).
    rewrite (mid_line_iff k first Hk), (star_lines_iff k _ Hk), inner_lines_contents.
    assert (Hfr : (exists r, drop_cr first = repeat star k ++ r) -> exists r, first = repeat star k ++ r).
    { intros (r & E). destruct (drop_cr_cases first) as [(l' & -> & E')|[_ E']]; rewrite E' in E.
      - subst. exists (r ++ [carriage_return]). now rewrite <- app_assoc.
      - eauto. }
    assert (Hfr' : (exists r, first = repeat star k ++ r) -> exists r, drop_cr first = repeat star k ++ r).
    { intros (r & E). destruct (drop_cr_cases first) as [(l' & E1 & E')|[_ E']]; rewrite E'; [|eauto].
      rewrite E1 in E. destruct (rev r) as [|y r'] eqn:Er.
      - apply (f_equal (@rev N)) in Er. rewrite rev_involutive in Er. cbn in Er. subst r.
        destruct k; [lia|]. rewrite app_nil_r in E.
        assert (Es : repeat star (S k) = repeat star k ++ [star]) by (apply repeat_cons).
        rewrite Es in E. apply app_inj_tail in E. destruct E as [_ E]. discriminate.
      - apply (f_equal (@rev N)) in Er. rewrite rev_involutive in Er. cbn in Er. subst r.
        rewrite !app_assoc in E. apply app_inj_tail in E. destruct E as [E _]. eauto. }
    split.
    + intros [[[H1 H2] H3] [H4 (cs & H5)]]. apply Hfr in H3. destruct H3 as (r & Er).
      destruct (starred_exists k [] r) as [c Hc]; [constructor|].
      exists (c :: cs). split; [split; assumption|]. split; [eauto|]. split; [now rewrite Er|exact H5].
    + intros (cs & [H1 H1'] & H). destruct cs as [|c cs]; [destruct H|]. destruct H as (Hr & Hs & H5).
      split; [split; [split; [exact H1|now apply starred_first]|now apply Hfr']|]. split; [exact H1'|eauto].
Qed.

Lemma strip_two t ls cs : lines_of t ls -> decorated 2 ls cs -> strip_indents t = join_nl cs.
Proof.
  intros Ht Hd. unfold strip_indents.
  assert (E : star_validate 2 t = true) by (apply (star_validate_iff 2 t ls); [lia|exact Ht|eauto]).
  rewrite E. apply (star_replace_decorated 2 t ls cs); auto.
Qed.

Lemma strip_one t ls cs : lines_of t ls -> (forall cs', ~ decorated 2 ls cs') -> decorated 1 ls cs ->
  strip_indents t = join_nl cs.
Proof.
  intros Ht Hn Hd. unfold strip_indents.
  assert (E : star_validate 1 t = true) by (apply (star_validate_iff 1 t ls); [lia|exact Ht|eauto]).
  assert (E2 : star_validate 2 t = false).
  { destruct (star_validate 2 t) eqn:E2; [|reflexivity].
    apply (star_validate_iff 2 t ls) in E2; [|lia|exact Ht]. destruct E2 as [cs' H]. exfalso. exact (Hn cs' H). }
  rewrite E, E2. apply (star_replace_decorated 1 t ls cs); auto.
Qed.

(** ** Common indentation *)
Lemma trim_nil_iff l : is_nil (trim l) = true <-> all_space l.
Proof.
  unfold trim, trim_end, trim_start. split.
  - intro E. destruct (drop_while_split is_whitespace l) as (a & El & Ha).
    set (m := drop_while is_whitespace l) in *.
    assert (Em : rev (drop_while is_whitespace (rev m)) = []) by (destruct (rev (drop_while is_whitespace (rev m))); [reflexivity|discriminate]).
    apply (f_equal (@rev N)) in Em. rewrite rev_involutive in Em. cbn in Em. apply drop_while_nil in Em.
    apply spaces_bool. rewrite El. apply Forall_app. split; [exact Ha|].
    rewrite <- (rev_involutive m). now apply Forall_rev.
  - intro H. apply spaces_bool in H. rewrite (drop_while_all _ _ H). reflexivity.
Qed.

Lemma take_drop p l : l = take_while p l ++ drop_while p l.
Proof. induction l as [|c l IH]; [reflexivity|]. cbn. destruct (p c); [cbn; congruence|reflexivity]. Qed.

Lemma space_prefix_take p l r : all_space p -> l = p ++ r -> exists s, take_while is_whitespace l = p ++ s.
Proof.
  intros Hp ->. induction Hp as [|c p Hc Hp IH]; [cbn; eauto|]. cbn. apply is_whitespace_iff in Hc. rewrite Hc.
  destruct IH as (s & ->). exists s. reflexivity.
Qed.

Lemma prefix_of_common q a b s1 s2 : a = q ++ s1 -> b = q ++ s2 -> exists s, common_prefix a b = q ++ s.
Proof.
  intros -> ->. induction q as [|x q IH]; [cbn; eauto|]. cbn. rewrite N.eqb_refl. destruct IH as (s & ->). exists s. reflexivity.
Qed.

Definition indents_cur (cur : option (list N)) (q : list N) : Prop :=
  match cur with Some c => exists s, c = q ++ s | None => True end.

Lemma common_indent_spec ls : forall cur,
  match common_indent ls cur with
  | Some p => indents_cur cur p /\ (all_space p -> indents ls p) /\
              (cur = None -> exists l, In l ls /\ ~ all_space l) /\
              forall q, indents_cur cur q -> indents ls q -> exists s, p = q ++ s
  | None => cur = None /\ Forall all_space ls
  end.
Proof.
  induction ls as [|l ls IH]; intro cur; cbn [common_indent].
  - destruct cur as [c|]; [|now split]. repeat split.
    + exists []. now rewrite app_nil_r.
    + assumption.
    + constructor.
    + discriminate.
    + intros q Hq _. exact Hq.
  - destruct (is_nil (trim l)) eqn:E.
    + apply trim_nil_iff in E. specialize (IH cur). destruct (common_indent ls cur) as [p|].
      * destruct IH as (H1 & H2 & H3 & H4). repeat split; auto.
        -- constructor; [now left|]. now apply H2.
        -- intro Hc. destruct (H3 Hc) as (l' & Hl & Hn). exists l'. split; [now right|exact Hn].
        -- intros q Hq [Hq1 Hq2]. apply H4; [exact Hq|]. split; [exact Hq1|]. now inversion Hq2.
      * destruct IH as [H1 H2]. split; [exact H1|]. now constructor.
    + assert (Hns : ~ all_space l) by (intro H; apply trim_nil_iff in H; congruence).
      set (ind := take_while is_whitespace l).
      set (cur' := match cur with None => ind | Some c => common_prefix c ind end).
      assert (Hcur' : (exists s, ind = cur' ++ s) /\ indents_cur cur cur').
      { unfold cur'. destruct cur as [c|]; cbn.
        - destruct (common_prefix_spec c ind) as (a' & b' & Ea & Eb & _). split; eauto.
        - split; [exists []; now rewrite app_nil_r|trivial]. }
      destruct Hcur' as [(s0 & Es0) Hic].
      specialize (IH (Some cur')). destruct (common_indent ls (Some cur')) as [p|].
      * destruct IH as ((s1 & Es1) & H2 & _ & H4). repeat split; auto.
        -- destruct cur as [c|]; [|trivial]. destruct Hic as (s & Hc). exists (s1 ++ s). now rewrite app_assoc, <- Es1.
        -- constructor; [|now apply H2]. right. exists (s1 ++ s0 ++ drop_while is_whitespace l).
           rewrite (take_drop is_whitespace l) at 1. change (take_while is_whitespace l) with ind.
           rewrite Es0, Es1. now rewrite <- !app_assoc.
        -- intros _. exists l. split; [now left|exact Hns].
        -- intros q Hq [Hq1 Hq2]. inversion Hq2 as [|x xs [Hx|(r & Er)] Hxs]; subst; [contradiction|].
           apply H4; [|split; assumption].
           destruct (space_prefix_take q (q ++ r) r Hq1 eq_refl) as (s & Es). cbn. unfold cur'.
           destruct cur as [c|]; [|exists s; exact Es]. destruct Hq as (s' & Ec).
           eapply prefix_of_common; [exact Ec|exact Es].
      * destruct IH as [H _]. discriminate.
Qed.

Lemma remove_indent_unindented p l : unindented p l (remove_indent p l).
Proof.
  unfold unindented, remove_indent. destruct (strip_prefix p l) as [r|] eqn:E.
  - left. now apply strip_prefix_some.
  - right. split; [now apply strip_prefix_none|reflexivity].
Qed.

Lemma all_space_drop_cr l : all_space (drop_cr l) <-> all_space l.
Proof.
  destruct (drop_cr_cases l) as [(l' & -> & ->)|[_ ->]]; [|reflexivity].
  unfold all_space. rewrite Forall_app. split; [intro H; split; [exact H|]|tauto].
  constructor; [|constructor]. unfold carriage_return; cbn; tauto.
Qed.

Lemma indents_drop_cr ls p : indents (map drop_cr ls) p <-> indents ls p.
Proof.
  unfold indents. rewrite Forall_map.
  assert (K : forall l, all_space p -> (all_space (drop_cr l) \/ (exists r, drop_cr l = p ++ r)) <-> (all_space l \/ exists r, l = p ++ r)).
  { intros l Hp. rewrite all_space_drop_cr. destruct (drop_cr_cases l) as [(l' & -> & ->)|[_ ->]]; [|reflexivity].
    split; (intros [H|(r & E)]; [now left|]).
    - right. exists (r ++ [carriage_return]). rewrite E. now rewrite <- app_assoc.
    - destruct (rev r) as [|y r'] eqn:Er.
      + left. apply (f_equal (@rev N)) in Er. rewrite rev_involutive in Er. cbn in Er. subst r. rewrite app_nil_r in E.
        rewrite E. exact Hp.
      + apply (f_equal (@rev N)) in Er. rewrite rev_involutive in Er. cbn in Er. subst r.
        rewrite app_assoc in E. apply app_inj_tail in E. destruct E as [E _]. right. eauto. }
  split; intros [Hp H]; (split; [exact Hp|]); (eapply Forall_impl; [|exact H]); intros l Hl; now apply K.
Qed.

Lemma common_indentation_drop_cr ls p : common_indentation (map drop_cr ls) p <-> common_indentation ls p.
Proof.
  unfold common_indentation. rewrite indents_drop_cr.
  assert (K : (exists l, In l (map drop_cr ls) /\ ~ all_space l) <-> (exists l, In l ls /\ ~ all_space l)).
  { split.
    - intros (l & Hl & Hn). apply in_map_iff in Hl. destruct Hl as (l' & <- & Hl'). exists l'. now rewrite all_space_drop_cr in Hn.
    - intros (l & Hl & Hn). exists (drop_cr l). rewrite all_space_drop_cr. split; [now apply in_map|exact Hn]. }
  rewrite K. split; intros (H1 & H2 & H3); repeat split; try apply H1; auto; intros q Hq; apply H3; now apply indents_drop_cr.
Qed.

(** The lines [str::lines] gives, up to a trailing empty one and carriage returns *)
Lemma drop_last_empty_spec ls : ls <> [] ->
  exists ls0 l, ls = ls0 ++ [l] /\ drop_last_empty ls = map drop_cr ls0 ++ match l with [] => [] | _ => [l] end.
Proof.
  induction ls as [|l ls IH]; [congruence|]. intros _. destruct ls as [|l2 ls].
  - exists [], l. split; [reflexivity|]. destruct l; reflexivity.
  - destruct IH as (ls0 & l' & E1 & E2); [discriminate|]. exists (l :: ls0), l'. split; [cbn; now rewrite E1|].
    change (drop_last_empty (l :: l2 :: ls)) with (drop_cr l :: drop_last_empty (l2 :: ls)). now rewrite E2.
Qed.

Lemma common_indentation_ext ls ls' p :
  (forall q, indents ls q <-> indents ls' q) ->
  ((exists l, In l ls /\ ~ all_space l) <-> (exists l, In l ls' /\ ~ all_space l)) ->
  common_indentation ls p <-> common_indentation ls' p.
Proof.
  intros Hi He. unfold common_indentation. rewrite Hi, He.
  split; intros (H1 & H2 & H3); repeat split; try apply H1; auto; intros q Hq; apply H3; now apply Hi.
Qed.

Lemma indents_app a b q : indents (a ++ b) q <-> indents a q /\ indents b q.
Proof. unfold indents. rewrite Forall_app. tauto. Qed.

Lemma str_lines_indentation first rest p :
  common_indentation (tl (drop_last_empty (first :: rest))) p <-> common_indentation rest p.
Proof.
  destruct rest as [|l2 rest].
  { cbn. destruct first; reflexivity. }
  change (drop_last_empty (first :: l2 :: rest)) with (drop_cr first :: drop_last_empty (l2 :: rest)). cbn [tl].
  destruct (drop_last_empty_spec (l2 :: rest)) as (ls0 & l & E1 & E2); [discriminate|].
  rewrite E2, E1. rewrite <- (common_indentation_drop_cr (ls0 ++ [l])). rewrite map_app.
  destruct l as [|c l].
  - apply common_indentation_ext.
    + intro q. rewrite app_nil_r, !indents_app. split; [intros H1; split; [exact H1|]|tauto].
      split; [apply H1|]. repeat constructor. 
    + split; intros (l & Hl & Hn); exists l; (split; [|exact Hn]).
      * rewrite app_nil_r in Hl. apply in_or_app. now left.
      * apply in_app_or in Hl. destruct Hl as [Hl|[<-|[]]]; [rewrite app_nil_r; exact Hl|].
        exfalso. apply Hn. constructor.
  - apply common_indentation_ext.
    + intro q. rewrite !indents_app, <- (indents_drop_cr [_]). reflexivity.
    + split; intros (x & Hx & Hn).
      * apply in_app_or in Hx. destruct Hx as [Hx|[<-|[]]].
        -- exists x. split; [apply in_or_app; now left|exact Hn].
        -- exists (drop_cr (c :: l)). split; [apply in_or_app; right; now left|]. now rewrite all_space_drop_cr.
      * apply in_app_or in Hx. destruct Hx as [Hx|[<-|[]]].
        -- exists x. split; [apply in_or_app; now left|exact Hn].
        -- exists (c :: l). split; [apply in_or_app; right; now left|]. now rewrite all_space_drop_cr in Hn.
Qed.

Lemma prefix_antisym {A} (p q s1 s2 : list A) : p = q ++ s1 -> q = p ++ s2 -> p = q.
Proof.
  intros E1 E2. rewrite E2, <- app_assoc in E1. rewrite <- (app_nil_r p) in E1 at 1. apply app_inv_head in E1.
  symmetry in E1. apply app_eq_nil in E1. destruct E1 as [-> _]. now rewrite app_nil_r in E2.
Qed.

Lemma common_indentation_unique ls p q : common_indentation ls p -> common_indentation ls q -> p = q.
Proof.
  intros (I1 & _ & M1) (I2 & _ & M2). destruct (M1 q I2) as (s1 & E1). destruct (M2 p I1) as (s2 & E2).
  eapply prefix_antisym; eauto.
Qed.

Lemma common_indent_computes ls p : common_indentation ls p <-> common_indent ls None = Some p.
Proof.
  pose proof (common_indent_spec ls None) as H. destruct (common_indent ls None) as [p'|] eqn:E.
  - assert (Hsp : all_space p') by (eapply common_indent_space; [|exact E]; discriminate).
    destruct H as (_ & H2 & H3 & H4).
    assert (Hc : common_indentation ls p') by (repeat split; [exact Hsp|now apply H2|now apply H3|intros q Hq; now apply H4]).
    split.
    + intro Hp. f_equal. eapply common_indentation_unique; eauto.
    + intro Ep. injection Ep as <-. exact Hc.
  - destruct H as [_ H]. split; [|discriminate]. intros (_ & (l & Hl & Hn) & _). rewrite Forall_forall in H. now apply H in Hl.
Qed.

Lemma ws_validate_iff t first rest : lines_of t (first :: rest) ->
  ws_indent_validate t = true <-> some_line_starts_blank rest.
Proof.
  intro Ht. unfold ws_indent_validate. rewrite (lines_of_det _ _ Ht), existsb_exists. unfold some_line_starts_blank.
  split.
  - intros ([|c l] & Hl & Hb); [discriminate|]. exists c, l. split; [exact Hl|now apply is_blank_iff].
  - intros (c & l & Hl & Hb). exists (c :: l). split; [exact Hl|now apply is_blank_iff].
Qed.

Lemma no_stars t ls : lines_of t ls -> (forall k cs, ~ decorated (S k) ls cs) ->
  star_validate 2 t = false /\ star_validate 1 t = false.
Proof.
  intros Ht Hn.
  split; [destruct (star_validate 2 t) eqn:E|destruct (star_validate 1 t) eqn:E]; try reflexivity;
    apply (star_validate_iff _ t ls) in E; try lia; try exact Ht; destruct E as [cs H]; exfalso; eapply Hn; exact H.
Qed.

Lemma strip_indentation t first rest p : lines_of t (first :: rest) ->
  (forall k cs, ~ decorated (S k) (first :: rest) cs) ->
  some_line_starts_blank rest -> common_indentation rest p ->
  exists rest', strip_indents t = join_nl (first :: rest') /\ Forall2 (unindented p) rest rest'.
Proof.
  intros Ht Hn Hb Hp. destruct (no_stars _ _ Ht Hn) as [E2 E1].
  unfold strip_indents. rewrite E2, E1. apply (ws_validate_iff _ _ _ Ht) in Hb. rewrite Hb.
  unfold try_strip_ws_indent, str_lines. rewrite (lines_of_det _ _ Ht).
  assert (F2 : Forall2 (unindented p) rest (map (remove_indent p) rest))
    by (apply Forall2_map_r; intro; apply remove_indent_unindented).
  pose proof (proj2 (str_lines_indentation first rest p) Hp) as Hq. apply common_indent_computes in Hq.
  destruct (drop_last_empty (first :: rest)) as [|x [|y more]] eqn:Ed; cbn [tl] in Hq; try discriminate.
  rewrite Hq. destruct p as [|a p]; [|eauto].
  exists rest. split.
  - rewrite <- (lines_of_det _ _ Ht). symmetry. apply join_split.
  - clear. induction rest; constructor; auto. now left.
Qed.

Lemma strip_nothing t first rest : lines_of t (first :: rest) ->
  (forall k cs, ~ decorated (S k) (first :: rest) cs) ->
  ~ some_line_starts_blank rest -> strip_indents t = t.
Proof.
  intros Ht Hn Hb. destruct (no_stars _ _ Ht Hn) as [E2 E1].
  unfold strip_indents. rewrite E2, E1. destruct (ws_indent_validate t) eqn:E; [|reflexivity].
  exfalso. apply Hb. now apply (ws_validate_iff _ _ _ Ht).
Qed.

(** ** Whole comments *)
Lemma drop_while_first p l : match drop_while p l with c :: _ => p c = false | [] => True end.
Proof. destruct (drop_while p l) eqn:E; [exact I|]. eapply drop_while_stop; exact E. Qed.

Lemma space_false c : ~ In c white_space -> is_whitespace c = false.
Proof. intro H. destruct (is_whitespace c) eqn:E; [|reflexivity]. now apply is_whitespace_iff in E. Qed.

Lemma trim_trimmed inner mid : trimmed inner mid -> mid <> [] -> trim inner = mid.
Proof.
  intros (a & b & -> & Ha & Hb & Hf & Hl) Hne. unfold trim, trim_end, trim_start.
  apply spaces_bool in Ha. rewrite drop_while_app by exact Ha.
  destruct mid as [|c r]; [congruence|].
  assert (E : drop_while is_whitespace ((c :: r) ++ b) = (c :: r) ++ b).
  { cbn. now rewrite (space_false _ (Hf c r eq_refl)). }
  rewrite E, rev_app_distr. apply spaces_bool in Hb. rewrite drop_while_app by now apply Forall_rev.
  destruct (@exists_last _ (c :: r)) as (r' & c' & E'); [congruence|]. rewrite E', rev_app_distr. cbn.
  rewrite (space_false _ (Hl c' r' E')). cbn. now rewrite rev_involutive.
Qed.

Lemma clean_doc_comment inner : clean_doc (comment_text inner) =
  (let t := trim inner in if is_nil t then None else Some (strip_indents t)).
Proof.
  unfold clean_doc, comment_text. change star with 42. rewrite (proj2 (strip_prefix_some [47; 42; 42] _ (inner ++ [42; 47])) eq_refl).
  assert (E : strip_suffix [42; 47] (inner ++ [42; 47]) = Some inner).
  { unfold strip_suffix. rewrite rev_app_distr. cbn. now rewrite rev_involutive. }
  now rewrite E.
Qed.

Lemma clean_doc_lines inner ls : comment_lines inner ls ->
  exists mid, lines_of mid ls /\ clean_doc (comment_text inner) = Some (strip_indents mid).
Proof.
  intros (mid & Ht & Hne & Hl). exists mid. split; [exact Hl|]. rewrite clean_doc_comment, (trim_trimmed _ _ Ht Hne).
  destruct mid; [congruence|reflexivity].
Qed.

Lemma clean_doc_empty inner : clean_doc (comment_text inner) = None <-> all_space inner.
Proof.
  rewrite clean_doc_comment, <- trim_nil_iff. cbn zeta. destruct (is_nil (trim inner)); split; congruence.
Qed.

Lemma starred_no_nl k l c : starred k l c -> ~ In newline l -> ~ In newline c.
Proof. intros [ws b c' _ _] H Hc. apply H. rewrite !in_app_iff. auto. Qed.

Lemma decorated_lines k ls cs : Forall (fun l => ~ In newline l) ls -> decorated k ls cs -> lines_of (join_nl cs) cs.
Proof.
  intros Hn [_ H]. destruct ls as [|l ls], cs as [|c cs]; try destruct H as []. destruct H0 as [Hs H2].
  inversion Hn as [|? ? Hl Hls]; subst. apply join_lines; [congruence|].
  constructor; [eapply starred_no_nl; eauto|]. clear -H2 Hls.
  induction H2 as [|x y xs ys Hxy H2 IH]; [constructor|]. inversion Hls; subst. constructor; [|auto].
  destruct Hxy as [Hxy|[_ ->]]; [eapply starred_no_nl; eauto|assumption].
Qed.

Lemma unindented_no_nl p l l' : unindented p l l' -> ~ In newline l -> ~ In newline l'.
Proof. intros [->|[_ ->]] H; [|exact H]. intro Hi. apply H, in_or_app. now right. Qed.

Lemma comment_kept inner ls : comment_lines inner ls ->
  exists t ls', clean_doc (comment_text inner) = Some t /\ lines_of t ls' /\
    Forall2 (fun l l' => exists p, l = p ++ l' /\ decoration p) ls ls'.
Proof.
  intro H. destruct (clean_doc_lines _ _ H) as (mid & Hl & E). destruct (strip_indents_lines _ _ Hl) as (ls' & H1 & H2).
  eauto.
Qed.

Lemma comment_two inner ls cs : comment_lines inner ls -> decorated 2 ls cs ->
  exists t, clean_doc (comment_text inner) = Some t /\ lines_of t cs.
Proof.
  intros H Hd. destruct (clean_doc_lines _ _ H) as (mid & Hl & E). exists (join_nl cs).
  split; [now rewrite E, (strip_two _ _ _ Hl Hd)|]. eapply decorated_lines; [eapply lines_no_nl; exact Hl|exact Hd].
Qed.

Lemma comment_one inner ls cs : comment_lines inner ls -> (forall cs', ~ decorated 2 ls cs') -> decorated 1 ls cs ->
  exists t, clean_doc (comment_text inner) = Some t /\ lines_of t cs.
Proof.
  intros H Hn Hd. destruct (clean_doc_lines _ _ H) as (mid & Hl & E). exists (join_nl cs).
  split; [now rewrite E, (strip_one _ _ _ Hl Hn Hd)|]. eapply decorated_lines; [eapply lines_no_nl; exact Hl|exact Hd].
Qed.

Lemma comment_indented inner first rest p : comment_lines inner (first :: rest) ->
  (forall k cs, ~ decorated (S k) (first :: rest) cs) ->
  some_line_starts_blank rest -> common_indentation rest p ->
  exists t rest', clean_doc (comment_text inner) = Some t /\ lines_of t (first :: rest') /\ Forall2 (unindented p) rest rest'.
Proof.
  intros H Hn Hb Hp. destruct (clean_doc_lines _ _ H) as (mid & Hl & E).
  destruct (strip_indentation _ _ _ _ Hl Hn Hb Hp) as (rest' & E' & H2). exists (strip_indents mid), rest'.
  split; [exact E|]. split; [|exact H2]. rewrite E'. pose proof (lines_no_nl _ _ Hl) as Hnl.
  inversion Hnl as [|? ? Hf Hr]; subst. apply join_lines; [congruence|]. constructor; [exact Hf|]. clear -H2 Hr.
  induction H2 as [|x y xs ys Hxy H2 IH]; [constructor|]. inversion Hr; subst. constructor; [|auto].
  eapply unindented_no_nl; eauto.
Qed.

Lemma comment_plain inner first rest : comment_lines inner (first :: rest) ->
  (forall k cs, ~ decorated (S k) (first :: rest) cs) -> ~ some_line_starts_blank rest ->
  exists t, clean_doc (comment_text inner) = Some t /\ lines_of t (first :: rest).
Proof.
  intros H Hn Hb. destruct (clean_doc_lines _ _ H) as (mid & Hl & E). exists mid. split; [|exact Hl].
  now rewrite E, (strip_nothing _ _ _ Hl Hn Hb).
Qed.
