(** The line-by-line checks of [Doc.v] are what the regular expressions match;
    and the search for a declaration's comment. *)
From Verif Require Import Doc SpecComment CommentProofs.
Local Open Scope N_scope.

Lemma match_chr p s : matches (Chr p) s <-> exists c, s = [c] /\ p c = true.
Proof. split; [intro H; inversion H; subst; eauto|intros (c & -> & H); now constructor]. Qed.
Lemma match_eps s : matches Eps s <-> s = [].
Proof. split; [intro H; now inversion H|intros ->; constructor]. Qed.
Lemma match_seq a b s : matches (Seq a b) s <-> exists u v, s = u ++ v /\ matches a u /\ matches b v.
Proof. split; [intro H; inversion H; subst; eauto 6|intros (u & v & -> & Hu & Hv); now constructor]. Qed.
Lemma match_alt a b s : matches (Alt a b) s <-> matches a s \/ matches b s.
Proof. split; [intro H; inversion H; auto|intros [H|H]; now constructor]. Qed.

Lemma match_rep_chr p s : matches (Rep (Chr p)) s <-> Forall (fun c => p c = true) s.
Proof.
  split.
  - remember (Rep (Chr p)) as r eqn:E. induction 1; try discriminate; [constructor|].
    injection E as ->. apply match_chr in H. destruct H as (c & -> & Hc). constructor; auto.
  - induction 1 as [|c s Hc Hs IH]; [constructor|]. apply (m_rep_cons _ [c] s); [now constructor|exact IH].
Qed.

Lemma match_stars k s : matches (star_times k) s <-> s = repeat star k.
Proof.
  revert s. induction k as [|k IH]; intro s; cbn [star_times repeat]; [apply match_eps|].
  rewrite match_seq. split.
  - intros (u & v & -> & Hu & Hv). apply match_chr in Hu. destruct Hu as (c & -> & Hc). apply N.eqb_eq in Hc.
    apply IH in Hv. now subst.
  - intros ->. exists [star], (repeat star k). split; [reflexivity|]. split; [now constructor|now apply IH].
Qed.

Definition break (s : list N) : Prop := s = [newline] \/ s = [carriage_return; newline].

Lemma match_break s : matches line_break s <-> break s.
Proof.
  unfold line_break, break. rewrite match_seq. split.
  - intros (u & v & -> & Hu & Hv). apply match_chr in Hv. destruct Hv as (c & -> & Hc). apply N.eqb_eq in Hc. subst c.
    apply match_alt in Hu. destruct Hu as [Hu|Hu].
    + apply match_chr in Hu. destruct Hu as (c & -> & Hc). apply N.eqb_eq in Hc. subst c. now right.
    + apply match_eps in Hu. subst u. now left.
  - intros [-> | ->].
    + exists [], [newline]. split; [reflexivity|]. split; [apply m_alt_r; constructor|now constructor].
    + exists [carriage_return], [newline]. split; [reflexivity|]. split; [apply m_alt_l; now constructor|now constructor].
Qed.

Lemma match_blanks s : matches (Rep tab_or_space) s <-> Forall blank s.
Proof.
  unfold tab_or_space. rewrite match_rep_chr. split; intro H; (eapply Forall_impl; [|exact H]); intros c Hc.
  - apply orb_true_iff in Hc. rewrite !N.eqb_eq in Hc. exact Hc.
  - apply orb_true_iff. rewrite !N.eqb_eq. exact Hc.
Qed.

Definition plain (s : list N) : Prop := ~ In newline s /\ ~ In carriage_return s.

Lemma match_plain s : matches (Rep not_break) s <-> plain s.
Proof.
  unfold not_break, plain. rewrite match_rep_chr, Forall_forall. split.
  - intro H. split; intro Hin; apply H in Hin; discriminate.
  - intros [H1 H2] c Hc. destruct (N.eqb_spec c carriage_return) as [->|]; [contradiction|].
    destruct (N.eqb_spec c newline) as [->|]; [contradiction|reflexivity].
Qed.

Section K.
Variable k : nat.
Hypothesis Hk : (0 < k)%nat.

(** One piece after a break: its content, without breaks *)
Definition piece (s : list N) : Prop := plain s /\ line_ok k s.

Inductive tail : list N -> Prop :=
| tail_nil : tail []
| tail_cons br s t : break br -> piece s -> tail t -> tail (br ++ s ++ t).

Lemma blanks_plain ws : Forall blank ws -> plain ws.
Proof.
  intro H. split; [|now apply blanks_no_cr]. intro Hin. rewrite Forall_forall in H. apply H in Hin. destruct Hin; discriminate.
Qed.
Lemma stars_plain n : plain (repeat star n).
Proof. split; apply repeat_star_no; discriminate. Qed.
Lemma plain_app a b : plain (a ++ b) <-> plain a /\ plain b.
Proof. unfold plain. rewrite !in_app_iff. tauto. Qed.

Lemma match_tail s : matches (Rep (Alt (Seq line_break (Seq (Rep tab_or_space) (Seq (star_times k) (Rep not_break))))
              (Seq line_break (Rep tab_or_space)))) s <-> tail s.
Proof.
  split.
  - match goal with |- matches ?r s -> _ => remember r as p eqn:E end.
    induction 1 as [| | | | | |a s t H1 _ H2 IH]; try discriminate; [constructor|].
    injection E as ->. specialize (IH eq_refl). apply match_alt in H1. destruct H1 as [H1|H1].
    + apply match_seq in H1. destruct H1 as (br & u & -> & Hb & H1). apply match_break in Hb.
      apply match_seq in H1. destruct H1 as (ws & u' & -> & Hws & H1). apply match_blanks in Hws.
      apply match_seq in H1. destruct H1 as (st & c & -> & Hst & Hc). apply match_stars in Hst. apply match_plain in Hc.
      subst st. rewrite <- (app_assoc br). apply tail_cons; [exact Hb| |exact IH].
      assert (P : plain (ws ++ repeat star k ++ c)).
      { rewrite !plain_app. auto using blanks_plain, stars_plain. }
      split; [exact P|]. split; [apply P|]. right. eauto.
    + apply match_seq in H1. destruct H1 as (br & ws & -> & Hb & Hws). apply match_break in Hb. apply match_blanks in Hws.
      rewrite <- (app_assoc br). apply tail_cons; [exact Hb| |exact IH].
      pose proof (blanks_plain _ Hws) as P. split; [exact P|]. split; [apply P|now left].
  - induction 1 as [|br s t Hb [Hp [_ Hs]] Ht IH]; [constructor|]. rewrite app_assoc. apply m_rep_cons; [|exact IH].
    destruct Hs as [Hs|(ws & r & Hws & ->)].
    + apply m_alt_r, m_seq; [now apply match_break|now apply match_blanks].
    + apply m_alt_l, m_seq; [now apply match_break|]. apply m_seq; [now apply match_blanks|].
      apply m_seq; [now apply match_stars|]. apply match_plain. rewrite !plain_app in Hp. tauto.
Qed.

Lemma match_pattern s : matches (star_pattern k) s <->
  exists c t, s = repeat star k ++ c ++ t /\ plain c /\ tail t.
Proof.
  unfold star_pattern. rewrite match_seq. split.
  - intros (u & v & -> & Hu & Hv). apply match_stars in Hu. apply match_seq in Hv.
    destruct Hv as (c & t & -> & Hc & Ht). apply match_plain in Hc. apply match_tail in Ht. subst u. eauto.
  - intros (c & t & -> & Hc & Ht). exists (repeat star k), (c ++ t). split; [reflexivity|].
    split; [now apply match_stars|]. apply match_seq. exists c, t. split; [reflexivity|].
    split; [now apply match_plain|now apply match_tail].
Qed.

(** Pieces and lines *)
Lemma split_plain s t : ~ In newline s -> split_nl (s ++ newline :: t) = s :: split_nl t.
Proof. intro H. apply lines_of_det. constructor; [exact H|apply split_nl_lines]. Qed.
Lemma split_last s : ~ In newline s -> split_nl s = [s].
Proof. intro H. apply lines_of_det. now constructor. Qed.

Lemma drop_cr_plain s : plain s -> drop_cr s = s.
Proof.
  intros [_ H]. destruct (drop_cr_cases s) as [(l' & -> & _)|[_ E]]; [|exact E].
  exfalso. apply H, in_or_app. right. now left.
Qed.
Lemma drop_cr_cr s : drop_cr (s ++ [carriage_return]) = s.
Proof.
  destruct (drop_cr_cases (s ++ [carriage_return])) as [(l' & E & E')|[H _]].
  - apply app_inj_tail in E. destruct E as [<- _]. exact E'.
  - exfalso. eauto.
Qed.

(** A plain piece followed by a tail, as lines *)
Lemma tail_lines t : tail t -> forall s, plain s ->
  exists first rest, split_nl (s ++ t) = first :: rest /\
    s = (match rest with [] => first | _ => drop_cr first end) /\ star_lines k rest = true.
Proof.
  induction 1 as [|br p t Hb [Hp Hok] Ht IH]; intros s Hs.
  - exists s, []. rewrite app_nil_r, split_last by apply Hs. now repeat split.
  - destruct (IH p Hp) as (first & rest & E1 & E2 & E3).
    assert (Hst : star_lines k (first :: rest) = true).
    { destruct rest as [|l2 rest].
      - cbn. subst p. now apply star_line_iff.
      - change (star_lines k (first :: l2 :: rest)) with (star_line k (drop_cr first) && star_lines k (l2 :: rest)).
        rewrite E3, <- E2, andb_true_r. now apply star_line_iff. }
    destruct Hb as [-> | ->].
    + exists s, (first :: rest). cbn [app]. rewrite split_plain by apply Hs. rewrite E1.
      repeat split; [now rewrite drop_cr_plain|exact Hst].
    + exists (s ++ [carriage_return]), (first :: rest).
      replace (s ++ [carriage_return; newline] ++ p ++ t) with ((s ++ [carriage_return]) ++ newline :: (p ++ t))
        by (rewrite <- app_assoc; reflexivity).
      rewrite split_plain.
      2:{ rewrite in_app_iff. intros [H|[H|[]]]; [now apply Hs in H|discriminate]. }
      rewrite E1. repeat split; [now rewrite drop_cr_cr|exact Hst].
Qed.

Lemma line_cases l : ~ In newline l -> line_ok k (drop_cr l) ->
  exists s cr, l = s ++ cr /\ (cr = [] \/ cr = [carriage_return]) /\ piece s.
Proof.
  intros Hn Hok. destruct (drop_cr_cases l) as [(l' & -> & E)|[_ E]]; rewrite E in Hok.
  - exists l', [carriage_return]. split; [reflexivity|]. split; [now right|]. split; [|exact Hok].
    split; [|apply Hok]. intro Hin. apply Hn, in_or_app. now left.
  - exists l, []. split; [now rewrite app_nil_r|]. split; [now left|]. split; [|exact Hok]. split; [exact Hn|apply Hok].
Qed.

Lemma lines_tail t ls : lines_of t ls -> star_lines k ls = true -> exists p u, t = p ++ u /\ piece p /\ tail u.
Proof.
  induction 1 as [l Hl|l t ls Hl Ht IH]; intro Hs.
  - cbn in Hs. apply star_line_iff in Hs; [|exact Hk]. exists l, []. rewrite app_nil_r. split; [reflexivity|].
    split; [|constructor]. split; [split; [exact Hl|apply Hs]|exact Hs].
  - pose proof (lines_of_ne _ _ Ht). destruct ls as [|l2 ls]; [congruence|].
    change (star_lines k (l :: l2 :: ls)) with (star_line k (drop_cr l) && star_lines k (l2 :: ls)) in Hs.
    apply andb_true_iff in Hs. destruct Hs as [Hs1 Hs2]. apply star_line_iff in Hs1; [|exact Hk].
    destruct (IH Hs2) as (p & u & -> & Hp & Hu).
    destruct (line_cases l Hl Hs1) as (s & cr & -> & Hcr & Hps).
    exists s, (cr ++ newline :: p ++ u). split; [now rewrite <- app_assoc|]. split; [exact Hps|].
    change (newline :: p ++ u) with ([newline] ++ p ++ u). rewrite app_assoc. apply tail_cons; [|exact Hp|exact Hu].
    destruct Hcr as [-> | ->]; [now left|now right].
Qed.

Lemma star_validate_pattern t : star_validate k t = true <-> matches (star_pattern k) t.
Proof.
  rewrite match_pattern. unfold star_validate. split.
  - destruct (split_nl_lines t) as [l Hl|l u ls Hl Hu].
    + destruct (strip_prefix (stars k) l) as [r|] eqn:E; [|discriminate]. apply strip_prefix_some in E.
      cbn [star_lines]. rewrite andb_true_r, no_cr_iff. intro Hn. exists r, []. rewrite app_nil_r. split; [exact E|].
      split; [|constructor]. split; [|exact Hn]. intro Hin. apply Hl. rewrite E. apply in_or_app. now right.
    + pose proof (lines_of_ne _ _ Hu). destruct ls as [|l2 ls]; [congruence|].
      destruct (strip_prefix (stars k) (drop_cr l)) as [r|] eqn:E; [|discriminate]. apply strip_prefix_some in E.
      rewrite andb_true_iff, no_cr_iff. intros [Hn Hs]. destruct (lines_tail _ _ Hu Hs) as (p & v & -> & Hp & Hv).
      assert (Hr : ~ In newline r).
      { intro Hin. apply Hl. destruct (drop_cr_cases l) as [(l' & -> & E')|[_ E']]; rewrite E' in E.
        - apply in_or_app. left. rewrite E. apply in_or_app. now right.
        - rewrite E. apply in_or_app. now right. }
      destruct (drop_cr_cases l) as [(l' & -> & E')|[_ E']]; rewrite E' in E; subst.
      * exists r, ([carriage_return; newline] ++ p ++ v). split; [rewrite stars_repeat, <- !app_assoc; reflexivity|].
        split; [now split|]. apply tail_cons; [now right|exact Hp|exact Hv].
      * exists r, ([newline] ++ p ++ v). split; [rewrite stars_repeat, <- !app_assoc; reflexivity|].
        split; [now split|]. apply tail_cons; [now left|exact Hp|exact Hv].
  - intros (c & t' & -> & Hc & Ht). rewrite app_assoc.
    assert (P : plain (repeat star k ++ c)) by (rewrite plain_app; auto using stars_plain).
    destruct (tail_lines _ Ht _ P) as (first & rest & E1 & E2 & E3). rewrite E1.
    assert (Es : forall d, d = repeat star k ++ c -> strip_prefix (stars k) d = Some c) by (intros d ->; now apply strip_prefix_some).
    rewrite (Es _ (eq_sym E2)), E3, andb_true_r. apply no_cr_iff, Hc.
Qed.
End K.

Lemma ws_validate_pattern t : ws_indent_validate t = true <-> found ws_indent_pattern t.
Proof.
  assert (Hb : forall s, matches tab_or_space s <-> exists c, s = [c] /\ blank c).
  { intro s. unfold tab_or_space. rewrite match_chr. split; intros (c & -> & Hc); exists c; (split; [reflexivity|]); now apply is_blank_iff. }
  assert (K : ws_indent_validate t = true <-> exists a c b, t = a ++ newline :: c :: b /\ blank c).
  { unfold ws_indent_validate. split.
    - pose proof (split_nl_lines t) as Ht. destruct (split_nl t) as [|first rest]; [discriminate|].
      rewrite existsb_exists. intros (l & Hin & Hl). destruct l as [|c l]; [discriminate|]. apply is_blank_iff in Hl.
      remember (first :: rest) as ls. revert first rest Heqls Hin.
      induction Ht as [l0 _|l0 u ls Hl0 Hu IH]; intros first rest E Hin.
      + injection E as -> <-. destruct Hin.
      + injection E as -> ->. destruct rest as [|r0 rest]; [destruct Hin|]. destruct Hin as [->|Hin].
        * inversion Hu; subst; [eauto 6|]. exists first, c. eexists. split; [reflexivity|exact Hl].
        * destruct (IH r0 rest eq_refl Hin) as (a & c' & b & -> & Hc'). exists (first ++ newline :: a), c', b.
          split; [now rewrite <- app_assoc|exact Hc'].
    - intros (a & c & b & -> & Hc). pose proof (split_nl_lines a) as Ha.
      assert (G : forall a ls, lines_of a ls -> exists ls0 l rest, ls = ls0 ++ [l] /\ split_nl (a ++ newline :: c :: b) = ls0 ++ l :: rest /\
                  exists r, In (c :: r) rest).
      { clear a Ha. intros a ls. induction 1 as [l Hl|l u ls Hl Hu IH].
        - exists [], l, (split_nl (c :: b)). split; [reflexivity|]. split; [cbn; apply lines_of_det; constructor; [exact Hl|apply split_nl_lines]|].
          cbn [split_nl]. destruct (N.eqb_spec c c_nl) as [->|n].
          + destruct Hc; discriminate.
          + destruct (split_nl b) as [|f r]; [exists []; now left|exists f; now left].
        - destruct IH as (ls0 & l' & rest & -> & E & r & Hr). exists (l :: ls0), l', rest. split; [reflexivity|].
          rewrite <- app_assoc. cbn [app]. split; [|eauto].
          rewrite (lines_of_det _ _ (lo_more l _ _ Hl (split_nl_lines (u ++ newline :: c :: b)))). now rewrite E. }
      destruct (G a _ Ha) as (ls0 & l & rest & _ & E & r & Hr). rewrite E.
      destruct ls0 as [|x ls0]; cbn [app]; apply existsb_exists; exists (c :: r); (split; [|now apply is_blank_iff]).
      + exact Hr.
      + apply in_or_app. right. now right. }
  rewrite K. unfold found, ws_indent_pattern. split.
  - intros (a & c & b & -> & Hc). exists a, [newline; c], b. split; [reflexivity|].
    apply (m_seq _ _ [] _); [constructor|]. apply (m_seq _ _ [newline] [c]); [apply match_break; now left|].
    apply (m_seq _ _ [c] []); [apply Hb; eauto|]. apply (m_seq _ _ [] []); constructor.
  - intros (a & m & b & -> & Hm). apply match_seq in Hm. destruct Hm as (u & v & -> & _ & Hv).
    apply match_seq in Hv. destruct Hv as (br & w & -> & Hbr & Hw). apply match_break in Hbr.
    apply match_seq in Hw. destruct Hw as (x & y & -> & Hx & _). apply Hb in Hx. destruct Hx as (c & -> & Hc).
    destruct Hbr as [-> | ->].
    + exists (a ++ u), c, (y ++ b). split; [|exact Hc]. rewrite <- !app_assoc. reflexivity.
    + exists (a ++ u ++ [carriage_return]), c, (y ++ b). split; [|exact Hc]. rewrite <- !app_assoc. reflexivity.
Qed.

(** ** Attaching *)
Lemma scan_doc_some before j text : scan_doc before = Some (j, text) ->
  exists skipped t rest, before = skipped ++ t :: rest /\ length rest = j /\ tk_kind t = TDocComment /\ tk_text t = text /\
    Forall (fun t => tk_kind t = TWhitespace \/ tk_kind t = TEmptyComment) skipped.
Proof.
  induction before as [|t rest IH]; cbn; [discriminate|]. destruct (tk_kind t) eqn:E.
  - intro H. injection H as <- <-. exists [], t, rest. repeat split; auto.
  - intro H. destruct (IH H) as (sk & t' & rest' & -> & H1 & H2 & H3 & H4). exists (t :: sk), t', rest'. repeat split; auto.
  - intro H. destruct (IH H) as (sk & t' & rest' & -> & H1 & H2 & H3 & H4). exists (t :: sk), t', rest'. repeat split; auto.
  - discriminate.
Qed.

Lemma scan_doc_found skipped t rest : tk_kind t = TDocComment ->
  Forall (fun t => tk_kind t = TWhitespace \/ tk_kind t = TEmptyComment) skipped ->
  scan_doc (skipped ++ t :: rest) = Some (length rest, tk_text t).
Proof.
  intros Ht H. induction H as [|s sk Hs Hsk IH]; cbn; [now rewrite Ht|]. destruct Hs as [-> | ->]; exact IH.
Qed.

Lemma rev_split {A} (l : list A) sk t rest : rev l = sk ++ t :: rest -> l = rev rest ++ t :: rev sk.
Proof. intro E. apply (f_equal (@rev A)) in E. rewrite rev_involutive, rev_app_distr in E. cbn in E. now rewrite <- app_assoc in E. Qed.

Lemma nth_error_firstn {A} (l : list A) i k : (k < i)%nat -> nth_error (firstn i l) k = nth_error l k.
Proof.
  revert i k. induction l as [|a l IH]; intros [|i] [|k] H; cbn; try lia; auto. apply IH. lia.
Qed.

Lemma extract_iff_bounded tokens i j : (i <= length tokens)%nat ->
  (exists d, extract_doc_comment tokens i = Some (j, d)) <-> immediately_precedes tokens j i.
Proof.
  intro Hi. unfold extract_doc_comment. split.
  - intros (d & H). destruct (scan_doc (rev (firstn i tokens))) as [[j' text]|] eqn:E; [|discriminate].
    injection H as -> _. apply scan_doc_some in E. destruct E as (sk & t & rest & E & Hj & Hk & _ & Hsk).
    apply rev_split in E. pose proof (firstn_length_le tokens Hi) as Hlen. rewrite E, app_length in Hlen. cbn in Hlen.
    rewrite !rev_length in Hlen.
    assert (Hnth : forall k, (k < i)%nat -> nth_error tokens k = nth_error (rev rest ++ t :: rev sk) k).
    { intros k Hki. rewrite <- E. symmetry. now apply nth_error_firstn. }
    split; [lia|]. split.
    + exists t. split; [|exact Hk]. rewrite Hnth by lia. rewrite nth_error_app2; rewrite rev_length; [|lia].
      now replace (j - length rest)%nat with O by lia.
    + intros k x Hkr. rewrite Hnth by lia. rewrite nth_error_app2; rewrite rev_length; [|lia].
      destruct (k - length rest)%nat as [|m] eqn:Em; [lia|]. cbn. intro Ex.
      apply nth_error_In in Ex. apply in_rev in Ex. rewrite Forall_forall in Hsk. now apply Hsk.
  - intros (Hji & (t & Et & Hk) & Hbetween).
    assert (E : firstn i tokens = firstn j tokens ++ t :: firstn (i - S j) (skipn (S j) tokens)).
    { apply nth_error_split in Et. destruct Et as (l1 & l2 & -> & Hl).
      rewrite firstn_app. subst j. rewrite firstn_all2 by lia. rewrite firstn_app, firstn_all, Nat.sub_diag. cbn [firstn].
      rewrite app_nil_r. f_equal. replace (i - length l1)%nat with (S (i - S (length l1))) by lia. cbn [firstn]. f_equal.
      f_equal. replace (S (length l1)) with (length (l1 ++ [t])) by (rewrite app_length; cbn; lia).
      replace (l1 ++ t :: l2) with ((l1 ++ [t]) ++ l2) by (rewrite <- app_assoc; reflexivity).
      rewrite skipn_app, skipn_all, Nat.sub_diag. reflexivity. }
    rewrite E, rev_app_distr. cbn [rev]. rewrite <- app_assoc. cbn [app].
    rewrite scan_doc_found.
    + rewrite rev_length, firstn_length_le by lia. eauto.
    + exact Hk.
    + apply Forall_rev, Forall_forall. intros x Hx. apply In_nth_error in Hx. destruct Hx as (m & Hm).
      assert (Hmi : (m < i - S j)%nat).
      { assert (m < length (firstn (i - S j) (skipn (S j) tokens)))%nat by (apply nth_error_Some; congruence).
        rewrite firstn_length in H. lia. }
      rewrite nth_error_firstn in Hm by exact Hmi.
      assert (Hm' : nth_error tokens (S j + m) = Some x).
      { rewrite <- Hm. clear. revert tokens. generalize (S j). intro n. induction n as [|n IH]; intros [|a l]; cbn; auto.
        destruct m; reflexivity. }
      apply (Hbetween (S j + m)%nat x); [lia|exact Hm'].
Qed.

Lemma extract_iff tokens i j :
  (exists d, extract_doc_comment tokens i = Some (j, d)) <-> immediately_precedes tokens j i.
Proof.
  destruct (Nat.le_gt_cases i (length tokens)) as [Hi|Hi]; [now apply extract_iff_bounded|].
  replace (extract_doc_comment tokens i) with (extract_doc_comment tokens (length tokens)).
  2:{ unfold extract_doc_comment. rewrite firstn_all, firstn_all2 by lia. reflexivity. }
  rewrite extract_iff_bounded by lia. unfold immediately_precedes. split; intros (H1 & (t & H2 & Hk) & H3); split.
  - lia.
  - split; [eauto|]. intros k x Hk' Hx. apply (H3 k x); [|exact Hx]. split; [lia|]. apply nth_error_Some. congruence.
  - apply nth_error_Some. congruence.
  - split; [eauto|]. intros k x Hk' Hx. apply (H3 k x); [lia|exact Hx].
Qed.

Lemma extract_text tokens i j d : extract_doc_comment tokens i = Some (j, d) ->
  exists t, nth_error tokens j = Some t /\ d = option_map of_chars (clean_doc (chars (tk_text t))).
Proof.
  unfold extract_doc_comment. destruct (scan_doc (rev (firstn i tokens))) as [[j' text]|] eqn:E; [|discriminate].
  intro H. injection H as -> <-. apply scan_doc_some in E. destruct E as (sk & t & rest & E & Hj & Hk & Ht & Hsk).
  apply rev_split in E. exists t. split; [|now rewrite Ht].
  assert (Hn : nth_error (firstn i tokens) j = Some t).
  { rewrite E, nth_error_app2; rewrite rev_length; [|lia]. now replace (j - length rest)%nat with O by lia. }
  assert (Hji : (j < length (firstn i tokens))%nat) by (apply nth_error_Some; congruence).
  rewrite firstn_length in Hji. rewrite nth_error_firstn in Hn by lia. exact Hn.
Qed.

Lemma precedes_unique tokens i j j' : immediately_precedes tokens j i -> immediately_precedes tokens j' i -> j = j'.
Proof.
  intros (H1 & (t & Et & Hk) & H2) (H1' & (t' & Et' & Hk') & H2').
  destruct (Nat.lt_trichotomy j j') as [H|[H|H]]; [|exact H|].
  - destruct (H2 j' t') as [Hx|Hx]; [lia|exact Et'| |]; rewrite Hk' in Hx; discriminate.
  - destruct (H2' j t) as [Hx|Hx]; [lia|exact Et| |]; rewrite Hk in Hx; discriminate.
Qed.

Lemma precedes_one_owner tokens j i i' t :
  immediately_precedes tokens j i -> immediately_precedes tokens j i' -> (i < i')%nat ->
  nth_error tokens i = Some t -> tk_kind t <> TOther.
Proof.
  intros (H1 & _ & _) (_ & _ & H2) Hlt Et E. destruct (H2 i t) as [Hx|Hx]; [lia|exact Et| |]; rewrite E in Hx; discriminate.
Qed.

Lemma orphaned_iff tokens consumed i : In i (orphaned_doc_comments tokens consumed) <->
  is_doc_token tokens i /\ ~ In i consumed.
Proof.
  unfold orphaned_doc_comments, is_doc_token. rewrite filter_In, in_seq.
  assert (K : existsb (Nat.eqb i) consumed = true <-> In i consumed).
  { rewrite existsb_exists. split; [intros (x & Hx & E); apply Nat.eqb_eq in E; now subst|intro H; exists i; split; [exact H|apply Nat.eqb_refl]]. }
  split.
  - intros [_ H]. destruct (nth_error tokens i) as [t|] eqn:E; [|discriminate].
    destruct (tk_kind t) eqn:Ek; try discriminate. split; [eauto|]. apply negb_true_iff in H. intro Hin. apply K in Hin. congruence.
  - intros [(t & Et & Hk) Hn]. split.
    + split; [lia|]. apply nth_error_Some. congruence.
    + rewrite Et, Hk. apply negb_true_iff. destruct (existsb (Nat.eqb i) consumed) eqn:E; [|reflexivity]. exfalso. now apply Hn, K.
Qed.

Lemma orphaned_nodup tokens consumed : NoDup (orphaned_doc_comments tokens consumed).
Proof. unfold orphaned_doc_comments. apply NoDup_filter, seq_NoDup. Qed.
