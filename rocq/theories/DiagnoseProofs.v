(** Proofs about token lists. *)
From Verif Require Import SpecDiagnose CommentProofs.

(** ** Parity *)
Fixpoint parity (q : bool) (l : text) : bool :=
  match l with [] => q | c :: r => parity (if (c =? quote)%N then negb q else q) r end.
Lemma parity_app q a b : parity q (a ++ b) = parity (parity q a) b.
Proof. revert q. induction a as [|c a IH]; intro q; [reflexivity|]. cbn. apply IH. Qed.
Lemma parity_neg q l : parity (negb q) l = negb (parity q l).
Proof. revert q. induction l as [|c l IH]; intro q; [reflexivity|]. cbn. destruct (c =? quote)%N; rewrite <- ?IH; [|reflexivity]. reflexivity. Qed.
Lemma parity_even l : parity false l = negb (Nat.even (count_occ N.eq_dec l quote)).
Proof.
  induction l as [|c l IH]; [reflexivity|]. cbn [parity count_occ]. destruct (N.eq_dec c quote) as [->|Hn].
  - rewrite N.eqb_refl, parity_neg, IH, Nat.even_succ, negb_involutive. now rewrite Nat.negb_odd.
  - apply N.eqb_neq in Hn. now rewrite Hn.
Qed.
Lemma even_parity l : even_quotes l <-> parity false l = false.
Proof. unfold even_quotes. rewrite parity_even. destruct (Nat.even _); cbn; split; congruence. Qed.
Lemma unquoted_parity c l : unquoted c l <-> exists a b, l = a ++ c :: b /\ parity false a = false.
Proof. unfold unquoted. split; intros (a & b & E & P); exists a, b; (split; [exact E|]); now apply even_parity. Qed.

(** ** Commas *)
Fixpoint cut (q : bool) (l : text) : list text :=
  match l with
  | [] => [[]]
  | c :: r =>
      let onto ps := match ps with p :: ps => (c :: p) :: ps | [] => [[c]] end in
      if (c =? quote)%N then onto (cut (negb q) r)
      else if (c =? comma)%N && negb q then [] :: cut q r
      else onto (cut q r)
  end.
Definition nonempty (l : text) : bool := match l with [] => false | _ => true end.
Lemma cut_nonnil q l : exists p ps, cut q l = p :: ps.
Proof. destruct l as [|c l]; cbn; [eauto|]. destruct (c =? quote)%N; [destruct (cut (negb q) l); eauto|]. destruct (_ && _); [eauto|]. destruct (cut q l); eauto. Qed.
Lemma split_tokens_cut l : forall q start,
  split_tokens q start l = filter nonempty (map trim (match cut q l with p :: ps => (rev start ++ p) :: ps | [] => [] end)).
Proof.
  assert (E : forall x rest, match trim x with [] => rest | tok => tok :: rest end = (if nonempty (trim x) then [trim x] else []) ++ rest).
  { intros x rest. destruct (trim x); reflexivity. }
  assert (F : forall x ps, filter nonempty (map trim (x :: ps)) = (if nonempty (trim x) then [trim x] else []) ++ filter nonempty (map trim ps)).
  { intros x ps. cbn. destruct (nonempty (trim x)); reflexivity. }
  induction l as [|c l IH]; intros q start.
  { cbn [split_tokens cut]. rewrite E, F, (app_nil_r (rev start)). reflexivity. }
  cbn [split_tokens cut]. destruct (c =? quote)%N eqn:Eq.
  - rewrite IH. destruct (cut_nonnil (negb q) l) as (p & ps & ->). cbn [rev]. now rewrite <- app_assoc.
  - destruct ((c =? comma)%N && negb q) eqn:Ec.
    + rewrite E, F, IH, (app_nil_r (rev start)). f_equal. destruct (cut_nonnil q l) as (p & ps & ->). reflexivity.
    + rewrite IH. destruct (cut_nonnil q l) as (p & ps & ->). cbn [rev]. now rewrite <- app_assoc.
Qed.
Lemma split_token_set_cut l : split_token_set l = filter nonempty (map trim (cut false l)).
Proof. unfold split_token_set. rewrite split_tokens_cut. destruct (cut_nonnil false l) as (p & ps & ->). reflexivity. Qed.

(** no comma where the quotes seen so far, with [q], are closed *)
Definition quiet_from (q : bool) (p : text) : Prop := forall a b, p = a ++ comma :: b -> parity q a = true.
Lemma quiet_unquoted p : quiet_from false p <-> ~ unquoted comma p.
Proof.
  rewrite unquoted_parity. split.
  - intros Q (a & b & E & P). specialize (Q a b E). congruence.
  - intros Hn a b E. destruct (parity false a) eqn:P; [reflexivity|]. exfalso. apply Hn. eauto.
Qed.
Lemma quiet_tail q c p : quiet_from q (c :: p) -> quiet_from (if (c =? quote)%N then negb q else q) p.
Proof. intros Q a b E. specialize (Q (c :: a) b). cbn in Q. apply Q. now rewrite E. Qed.
Lemma cut_piece p : forall q, quiet_from q p -> cut q p = [p].
Proof.
  induction p as [|c p IH]; intros q Q; [reflexivity|]. cbn [cut]. pose proof (quiet_tail _ _ _ Q) as Q'.
  destruct (c =? quote)%N eqn:Eq; [now rewrite (IH _ Q')|]. destruct (c =? comma)%N eqn:Ec; cbn.
  - apply N.eqb_eq in Ec. subst. pose proof (Q [] p eq_refl) as Hq. cbn in Hq. subst q. cbn. now rewrite (IH _ Q').
  - now rewrite (IH _ Q').
Qed.
Lemma cut_piece_comma p r : forall q, quiet_from q p -> parity q p = false -> cut q (p ++ comma :: r) = p :: cut false r.
Proof.
  induction p as [|c p IH]; intros q Q P; cbn [app cut].
  - cbn in P. subst q. reflexivity.
  - pose proof (quiet_tail _ _ _ Q) as Q'. cbn in P. destruct (c =? quote)%N eqn:Eq; [now rewrite (IH _ Q' P)|].
    destruct (c =? comma)%N eqn:Ec; cbn.
    + apply N.eqb_eq in Ec. subst. pose proof (Q [] p eq_refl) as Hq. cbn in Hq. subst q. cbn. now rewrite (IH _ Q' P).
    + now rewrite (IH _ Q' P).
Qed.
Lemma cut_unique ps : ps <> [] -> Forall (fun p => ~ unquoted comma p) ps -> Forall even_quotes (removelast ps) -> cut false (join [comma] ps) = ps.
Proof.
  induction ps as [|p ps IH]; intros Hn Hu He; [congruence|]. inversion Hu as [|? ? Hp Hu']; subst. destruct ps as [|p2 ps].
  - cbn. apply cut_piece. now apply quiet_unquoted.
  - change (join [comma] (p :: p2 :: ps)) with (p ++ comma :: join [comma] (p2 :: ps)).
    change (removelast (p :: p2 :: ps)) with (p :: removelast (p2 :: ps)) in He. inversion He as [|? ? Hep He']; subst.
    rewrite cut_piece_comma; [|now apply quiet_unquoted|now apply even_parity]. now rewrite IH.
Qed.
Lemma cut_join q l : l = join [comma] (cut q l).
Proof.
  revert q. induction l as [|c l IH]; intro q; [reflexivity|]. cbn [cut].
  assert (G : forall ps, ps <> [] -> join [comma] (match ps with p :: ps => (c :: p) :: ps | [] => [[c]] end) = c :: join [comma] ps).
  { intros [|p [|p2 ps]] Hp; [congruence|reflexivity|reflexivity]. }
  destruct (c =? quote)%N; [rewrite G, <- IH; [reflexivity|]; destruct (cut_nonnil (negb q) l) as (p & ps & ->); discriminate|].
  destruct ((c =? comma)%N && negb q) eqn:Ec.
  - apply andb_true_iff in Ec. destruct Ec as [Ec _]. apply N.eqb_eq in Ec. subst. destruct (cut_nonnil q l) as (p & ps & E). rewrite (IH q) at 1. rewrite E. reflexivity.
  - rewrite G, <- IH; [reflexivity|]. destruct (cut_nonnil q l) as (p & ps & ->); discriminate.
Qed.
Lemma cut_good l : forall q, match cut q l with
  | [] => False
  | p :: ps => quiet_from q p /\ (ps <> [] -> parity q p = false) /\ Forall (quiet_from false) ps /\ Forall even_quotes (removelast ps)
  end.
Proof.
  assert (N0 : forall q, quiet_from q []) by (intros q [|x a] b E; discriminate).
  assert (C : forall q c p, quiet_from (if (c =? quote)%N then negb q else q) p -> ((c =? comma)%N = true -> q = true) -> quiet_from q (c :: p)).
  { intros q c p Q Hc [|x a] b E; injection E as -> E; [apply Hc; reflexivity|]. cbn. apply (Q a b E). }
  induction l as [|c l IH]; intro q; cbn [cut]; [split; [apply N0|split; [intro X; now destruct X|split; constructor]]|].
  destruct (c =? quote)%N eqn:Eq.
  - specialize (IH (negb q)). destruct (cut (negb q) l) as [|p ps]; [contradiction|]. destruct IH as (A & B & D & E). split; [|split; [|split; assumption]].
    + apply C; [now rewrite Eq|]. intro Ec. apply N.eqb_eq in Ec, Eq. subst c. discriminate.
    + intro Hp. cbn. rewrite Eq. auto.
  - destruct ((c =? comma)%N && negb q) eqn:Ec.
    + apply andb_true_iff in Ec. destruct Ec as [Ec Hq]. apply negb_true_iff in Hq. subst q. specialize (IH false).
      destruct (cut false l) as [|p ps]; [contradiction|]. destruct IH as (A & B & D & E). split; [apply N0|]. split; [reflexivity|]. split; [constructor; assumption|].
      destruct ps as [|p2 ps]; [constructor|]. change (removelast (p :: p2 :: ps)) with (p :: removelast (p2 :: ps)). constructor; [|exact E]. apply even_parity, B. discriminate.
    + specialize (IH q). destruct (cut q l) as [|p ps]; [contradiction|]. destruct IH as (A & B & D & E). split; [|split; [|split; assumption]].
      * apply C; [now rewrite Eq|]. intro Hc. rewrite Hc in Ec. cbn in Ec. now apply negb_false_iff in Ec.
      * intro Hp. cbn. rewrite Eq. auto.
Qed.

Lemma cut_exists l : exists ps, cut_at_commas l ps.
Proof.
  exists (cut false l). pose proof (cut_good l false) as G. pose proof (cut_join false l) as J. unfold cut_at_commas. destruct (cut false l) as [|p ps]; [contradiction|].
  destruct G as (A & B & D & E). split; [exact J|]. split; [discriminate|]. split.
  - constructor; [now apply quiet_unquoted|]. eapply Forall_impl; [|exact D]. intros x. apply quiet_unquoted.
  - destruct ps as [|p2 ps]; [constructor|]. change (removelast (p :: p2 :: ps)) with (p :: removelast (p2 :: ps)). constructor; [|exact E]. apply even_parity, B. discriminate.
Qed.
Lemma split_token_set_spec l ps : cut_at_commas l ps -> split_token_set l = filter (fun p => match p with [] => false | _ => true end) (map trim ps).
Proof. intros (-> & Hn & Hu & He). now rewrite split_token_set_cut, cut_unique. Qed.

(** ** Rejoining *)
Lemma trim_space l : trim l = l -> trim (32%N :: l) = l.
Proof. intro E. unfold trim, trim_start in *. cbn [drop_while]. change (is_whitespace 32) with true. cbn iota. exact E. Qed.
Lemma unquoted_space l : unquoted comma (32%N :: l) -> unquoted comma l.
Proof.
  rewrite !unquoted_parity. intros ([|x a] & b & E & P); [discriminate|]. injection E as <- E. exists a, b. split; [exact E|]. exact P.
Qed.
Lemma even_space l : even_quotes (32%N :: l) <-> even_quotes l.
Proof. rewrite !even_parity. reflexivity. Qed.
Lemma rejoin toks : Forall token_text toks -> split_token_set (join [comma; 32%N] toks) = toks.
Proof.
  intro H. destruct toks as [|tok toks]; [reflexivity|].
  assert (J : join [comma; 32%N] (tok :: toks) = join [comma] (tok :: map (cons 32%N) toks)).
  { clear H. revert tok. induction toks as [|t2 toks IH]; intro tok; [reflexivity|].
    change (join [comma; 32%N] (tok :: t2 :: toks)) with (tok ++ comma :: 32%N :: join [comma; 32%N] (t2 :: toks)). rewrite IH.
    change (join [comma] (tok :: map (cons 32%N) (t2 :: toks))) with (tok ++ comma :: join [comma] ((32%N :: t2) :: map (cons 32%N) toks)). f_equal. f_equal.
    destruct toks; reflexivity. }
  rewrite J. inversion H as [|? ? (Hn & Ht & He & Hu) Hr]; subst.
  rewrite (split_token_set_spec _ (tok :: map (cons 32%N) toks)).
  - cbn [map filter]. rewrite Ht. destruct tok as [|c tok]; [congruence|]. f_equal. clear -Hr. induction Hr as [|x toks (Hn & Ht & _ & _) _ IH]; [reflexivity|].
    cbn [map filter]. rewrite trim_space by exact Ht. destruct x; [congruence|]. now rewrite IH.
  - split; [reflexivity|]. split; [discriminate|]. split.
    + constructor; [exact Hu|]. clear -Hr. induction Hr as [|x toks (_ & _ & _ & Hx) _ IH]; constructor; [|exact IH]. intro X. now apply Hx, unquoted_space.
    + assert (A : Forall even_quotes (tok :: map (cons 32%N) toks)).
      { constructor; [exact He|]. clear -Hr. induction Hr as [|x toks (_ & _ & Hx & _) _ IH]; constructor; [|exact IH]. now apply even_space. }
      clear -A. rewrite Forall_forall in A |- *. intros x Hx. apply A. revert Hx. generalize (tok :: map (cons 32%N) toks). intro L. induction L as [|y L IH]; [trivial|].
      destruct L as [|z L]; [contradiction|]. change (removelast (y :: z :: L)) with (y :: removelast (z :: L)). intros [->|Hx]; [now left|right; auto].
Qed.

(** ** Braces *)
Lemma closing_brace_iff l : forall q a b,
  closing_brace q l = Some (a, b) <-> l = a ++ close_brace :: b /\ parity q a = false /\ forall a1 a2, a = a1 ++ close_brace :: a2 -> parity q a1 = true.
Proof.
  induction l as [|c l IH]; intros q a b; cbn [closing_brace].
  { split; [discriminate|]. intros (E & _). destruct a; discriminate. }
  assert (K : forall q', q' = (if (c =? quote)%N then negb q else q) -> ((c =? close_brace)%N = true -> q = true) ->
    (match closing_brace q' l with Some (a, b) => Some (c :: a, b) | None => None end = Some (a, b) <->
     c :: l = a ++ close_brace :: b /\ parity q a = false /\ forall a1 a2, a = a1 ++ close_brace :: a2 -> parity q a1 = true)).
  { intros q' Eq' Hc. split.
    - destruct (closing_brace q' l) as [[a' b']|] eqn:E; [|discriminate]. intro Hx. injection Hx as <- <-. apply IH in E. destruct E as (-> & P & Q).
      split; [reflexivity|]. cbn [parity]. rewrite <- Eq'. split; [exact P|]. intros [|x a1] a2 Ea; injection Ea as -> Ea; [exact (Hc eq_refl)|].
      cbn [parity]. rewrite <- Eq'. exact (Q a1 a2 Ea).
    - intros (E & P & Q). destruct a as [|x a].
      + injection E as -> _. cbn in P. rewrite (Hc eq_refl) in P. discriminate.
      + injection E as -> E. cbn [parity] in P. rewrite <- Eq' in P.
        assert (closing_brace q' l = Some (a, b)) as ->; [|reflexivity]. apply IH. split; [exact E|]. split; [exact P|].
        intros a1 a2 Ea. specialize (Q (x :: a1) a2). cbn [parity] in Q. rewrite <- Eq' in Q. apply Q. now rewrite Ea. }
  destruct (c =? quote)%N eqn:Eq.
  - apply K; [reflexivity|]. intro X. apply N.eqb_eq in X, Eq. subst. discriminate.
  - destruct ((c =? close_brace)%N && negb q) eqn:Ec.
    + apply andb_true_iff in Ec. destruct Ec as [Ec Hq]. apply N.eqb_eq in Ec. apply negb_true_iff in Hq. subst. split.
      * intro X. injection X as <- <-. split; [reflexivity|]. split; [reflexivity|]. intros [|? ?] a2 E; discriminate.
      * intros (E & P & Q). destruct a as [|x a]; [injection E as <-; reflexivity|]. injection E as <- _. specialize (Q [] a eq_refl). discriminate.
    + apply K; [reflexivity|]. intro Hc. rewrite Hc in Ec. now apply negb_false_iff in Ec.
Qed.
Lemma find_closing_brace_iff l a b :
  find_closing_brace l = Some (a, b) <-> l = a ++ close_brace :: b /\ even_quotes a /\ ~ unquoted close_brace a.
Proof.
  unfold find_closing_brace. rewrite closing_brace_iff, even_parity, unquoted_parity. split; intros (E & P & Q); (split; [exact E|]); (split; [exact P|]).
  - intros (a1 & a2 & Ea & P1). specialize (Q a1 a2 Ea). congruence.
  - intros a1 a2 Ea. destruct (parity false a1) eqn:P1; [reflexivity|]. exfalso. apply Q. eauto.
Qed.
Lemma find_closing_brace_none l : find_closing_brace l = None <-> ~ unquoted close_brace l.
Proof.
  split.
  - intros E (a & b & -> & Ev). revert E. assert (G : forall a b, even_quotes a -> find_closing_brace (a ++ close_brace :: b) <> None); [|now apply G].
    clear. intros a b. rewrite even_parity. unfold find_closing_brace.
    cut (forall q, parity q a = false -> closing_brace q (a ++ close_brace :: b) <> None); [auto|]. revert b.
    induction a as [|c a IH]; intros b q P; cbn [app closing_brace].
    + cbn in P. subst. discriminate.
    + cbn [parity] in P. destruct (c =? quote)%N.
      * specialize (IH b _ P). destruct (closing_brace (negb q) _) as [[? ?]|]; [discriminate|congruence].
      * destruct (_ && _); [discriminate|]. specialize (IH b _ P). destruct (closing_brace q _) as [[? ?]|]; [discriminate|congruence].
  - intro Hn. destruct (find_closing_brace l) as [[a b]|] eqn:E; [|reflexivity]. apply find_closing_brace_iff in E. destruct E as (-> & Ev & _).
    exfalso. apply Hn. exists a, b. auto.
Qed.

(** ** The other way of cutting *)
Lemma split_once_no c l a b : split_once [c] l = Some (a, b) -> ~ In c a.
Proof.
  revert a b. induction l as [|x l IH]; intros a b; cbn [split_once strip_prefix]; [discriminate|]. destruct (c =? x)%N eqn:E.
  - intro H. injection H as <- <-. intros [].
  - destruct (split_once [c] l) as [[a' b']|]; [|discriminate]. intro H. injection H as <- <-. intros [->|Hin]; [now rewrite N.eqb_refl in E|]. exact (IH _ _ eq_refl Hin).
Qed.
Lemma text_eqb_eq a b : text_eqb a b = true <-> a = b.
Proof.
  revert b. induction a as [|x a IH]; intros [|y b]; cbn; try (split; congruence). rewrite andb_true_iff, N.eqb_eq, IH. split; [intros [-> ->]; reflexivity|].
  intro E. injection E as -> ->. auto.
Qed.
Lemma drop_while_in p l c : In c (drop_while p l) -> In c l.
Proof. induction l as [|x l IH]; cbn; [trivial|]. destruct (p x); [auto|trivial]. Qed.
Lemma trim_in l c : In c (trim l) -> In c l.
Proof.
  unfold trim, trim_end, trim_start. intro H. apply in_rev in H. apply drop_while_in in H. apply in_rev in H. now apply drop_while_in in H.
Qed.
Lemma cut_in q l p c : In p (cut q l) -> In c p -> In c l.
Proof.
  revert q p. induction l as [|x l IH]; intros q p; cbn [cut].
  { intros [<-|[]] []. }
  assert (G : forall q', In p (match cut q' l with p :: ps => (x :: p) :: ps | [] => [[x]] end) -> In c p -> c = x \/ In c l).
  { intros q' Hp Hc. specialize (IH q'). destruct (cut q' l) as [|p0 ps].
    - destruct Hp as [<-|[]]. destruct Hc as [<-|[]]. auto.
    - destruct Hp as [<-|Hp]; [|right; apply (IH p); [now right|exact Hc]]. destruct Hc as [<-|Hc]; [auto|]. right. apply (IH p0); [now left|exact Hc]. }
  assert (S : c = x \/ In c l -> In c (x :: l)) by (intros [->|Hx]; [now left|now right]).
  destruct (x =? quote)%N; [intros Hp Hc; apply S; eapply G; eassumption|]. destruct (_ && _).
  - intros [<-|Hp] Hc; [destruct Hc|]. right. eapply IH; eassumption.
  - intros Hp Hc. apply S. eapply G; eassumption.
Qed.
Lemma close_brace_never msg tokens : extract_expecting_tokens msg = Some tokens -> expects_close_brace tokens = false.
Proof.
  unfold extract_expecting_tokens. destruct (split_once _ msg) as [[x r]|]; [|discriminate]. destruct (split_once [close_brace] r) as [[set y]|] eqn:E; [|discriminate].
  intro H. injection H as <-. apply split_once_no in E. unfold expects_close_brace. destruct (text_mem _ _) eqn:M; [|reflexivity]. exfalso.
  unfold text_mem in M. apply existsb_exists in M. destruct M as (tok & Hi & Et). apply text_eqb_eq in Et. rewrite split_token_set_cut in Hi.
  apply filter_In in Hi. destruct Hi as [Hi _]. apply in_map_iff in Hi. destruct Hi as (p & Hp & Hi). apply E. eapply cut_in; [exact Hi|]. apply trim_in. rewrite Hp, <- Et.
  vm_compute. auto.
Qed.

(** ** Whole messages *)
Lemma strip_prefix_app p l r : strip_prefix p l = Some r <-> l = p ++ r.
Proof.
  revert l. induction p as [|x p IH]; intros l; cbn [strip_prefix app]; [split; congruence|]. destruct l as [|y l]; [split; discriminate|].
  destruct (N.eqb_spec x y) as [->|Hn]; [|split; [discriminate|congruence]]. rewrite IH. split; congruence.
Qed.
Lemma split_once_sound p l a b : split_once p l = Some (a, b) -> l = a ++ p ++ b.
Proof.
  revert a b. induction l as [|x l IH]; intros a b; cbn [split_once]; destruct (strip_prefix p _) as [r|] eqn:E.
  - intro H. injection H as <- <-. now apply strip_prefix_app in E.
  - discriminate.
  - intro H. injection H as <- <-. now apply strip_prefix_app in E.
  - destruct (split_once p l) as [[a' b']|]; [|discriminate]. intro H. injection H as <- <-. cbn. now rewrite (IH _ _ eq_refl).
Qed.
Lemma split_once_first p l : forall a b,
  l = a ++ p ++ b -> (forall a' b', l = a' ++ p ++ b' -> length a <= length a') -> split_once p l = Some (a, b).
Proof.
  induction l as [|x l IH]; intros a b E F; cbn [split_once]; destruct (strip_prefix p _) as [r|] eqn:S.
  - apply strip_prefix_app in S. specialize (F [] r S). destruct a; [|cbn in F; lia]. cbn in E. assert (p ++ r = p ++ b) as X by congruence. apply app_inv_head in X. congruence.
  - destruct a; [|discriminate]. change ([] = p ++ b) in E. apply strip_prefix_app in E. congruence.
  - apply strip_prefix_app in S. specialize (F [] r S). destruct a; [|cbn in F; lia]. cbn in E. assert (p ++ r = p ++ b) as X by congruence. apply app_inv_head in X. congruence.
  - destruct a as [|y a]; [change (x :: l = p ++ b) in E; apply strip_prefix_app in E; congruence|].
    injection E as <- E. rewrite (IH a b E); [reflexivity|]. intros a' b' E'. specialize (F (x :: a') b'). cbn in F. rewrite E' in F. specialize (F eq_refl). lia.
Qed.
Lemma expecting_found before rest : (forall a b, before <> a ++ expecting ++ b) -> split_once expecting (before ++ expecting ++ rest) = Some (before, rest).
Proof.
  intro Hn. apply split_once_first; [reflexivity|]. intros a' b' E. destruct (le_lt_dec (length before) (length a')) as [|Hl]; [assumption|exfalso].
  destruct (le_lt_dec (length a' + 11) (length before)) as [Hw|Ho].
  - apply (Hn a' (firstn (length before - (length a' + 11)) b')).
    transitivity (firstn (length before) (before ++ expecting ++ rest)); [rewrite firstn_app, Nat.sub_diag, firstn_all; cbn; symmetry; apply app_nil_r|].
    rewrite E, app_assoc, firstn_app, firstn_all2 by (rewrite app_length; change (length expecting) with 11; lia).
    rewrite app_length. change (length expecting) with 11. now rewrite <- app_assoc.
  - assert (X : nth_error (before ++ expecting ++ rest) (length a' + 10) = Some open_brace).
    { rewrite E, nth_error_app2 by lia. replace (length a' + 10 - length a') with 10 by lia. reflexivity. }
    rewrite nth_error_app2 in X by lia. remember (length a' + 10 - length before) as k. assert (k < 10) by lia.
    rewrite nth_error_app1 in X by (change (length expecting) with 11; lia).
    do 10 (destruct k as [|k]; [discriminate X|]). lia.
Qed.

Lemma text_mem_in x l : text_mem x l = true <-> In x l.
Proof.
  unfold text_mem. rewrite existsb_exists. split.
  - intros (y & Hy & E). apply text_eqb_eq in E. now subst.
  - intro H. exists x. split; [exact H|]. now apply text_eqb_eq.
Qed.
Lemma text_mem_out x l : text_mem x l = false <-> ~ In x l.
Proof. rewrite <- text_mem_in. destruct (text_mem x l); split; congruence. Qed.
Lemma firsts_spec names : forall seen, without_repetition seen names (firsts seen names).
Proof.
  induction names as [|x names IH]; intro seen; cbn [firsts]; [constructor|]. destruct (text_mem x seen) eqn:E.
  - apply wr_seen; [now apply text_mem_in|apply IH].
  - apply wr_new; [now apply text_mem_out|apply IH].
Qed.
Definition human (tok : text) : text := if text_eqb tok (chars "<EOF>") then chars "end of file" else humanize_token_name tok.
Lemma text_eqb_refl a : text_eqb a a = true.
Proof. now apply text_eqb_eq. Qed.
Lemma human_called tok : called tok (human tok).
Proof.
  unfold human, humanize_token_name.
  destruct (text_eqb tok (chars "<EOF>")) eqn:E1; [apply text_eqb_eq in E1; subst tok; apply called_special; left; reflexivity|].
  destruct (text_eqb tok (chars "IdentifierToken")) eqn:E2; [apply text_eqb_eq in E2; subst tok; apply called_special; right; left; reflexivity|].
  destruct (text_eqb tok (chars "StringLiteral")) eqn:E3; [apply text_eqb_eq in E3; subst tok; apply called_special; do 2 right; left; reflexivity|].
  destruct (text_eqb tok (chars "IntegerLiteral")) eqn:E4; [apply text_eqb_eq in E4; subst tok; apply called_special; do 3 right; left; reflexivity|].
  destruct (text_eqb tok (chars "FloatingPointLiteral")) eqn:E5; [apply text_eqb_eq in E5; subst tok; apply called_special; do 4 right; left; reflexivity|].
  apply called_itself. unfold token_names. cbn [map fst In].
  intros [X|[X|[X|[X|[X|[]]]]]]; subst tok; [rewrite text_eqb_refl in E1|rewrite text_eqb_refl in E2|rewrite text_eqb_refl in E3|rewrite text_eqb_refl in E4|rewrite text_eqb_refl in E5]; discriminate.
Qed.
Lemma shown_tokens_listed set toks : split_token_set set = toks -> listed toks (shown_tokens set).
Proof.
  intros <-. unfold shown_tokens. exists (map human (filter (fun tok => negb (text_mem tok [chars "DocComment"; chars "'\u001A'"])) (split_token_set set))).
  split; [|apply firsts_spec]. induction (split_token_set set) as [|tok toks IH]; cbn [filter map]; [constructor|].
  destruct (text_mem tok _) eqn:E; cbn [negb].
  - apply names_hidden; [|exact IH]. apply text_mem_in in E. destruct E as [<-|[<-|[]]]; [now left|now right].
  - cbn [map]. apply names_shown; [|apply human_called|exact IH]. apply text_mem_out in E. intros [->| ->]; apply E; cbn; auto.
Qed.
Lemma enumerate_words shown : shown <> [] -> in_words shown (enumerate shown).
Proof.
  destruct shown as [|a [|b [|c r]]]; intro H; [congruence|apply words_one|apply words_two|].
  unfold enumerate. rewrite (app_removelast_last [] H) at 1. apply words_more. cbn [removelast]. destruct (match r with [] => _ | _ => _ end); cbn; lia.
Qed.
Lemma sanitize_shown before toks after :
  (forall a b, before <> a ++ expecting ++ b) -> Forall token_text toks -> Forall (fun tok => ~ unquoted close_brace tok) toks ->
  forall shown, listed toks shown ->
  sanitize_antlr_message (before ++ expecting ++ join [comma; 32%N] toks ++ [close_brace] ++ after)
  = rewrite_antlr_jargon match shown with [] => trim_end before ++ after | _ => before ++ chars "expected " ++ enumerate shown ++ after end.
Proof.
  intros Hb Ht Hc shown (names & Hn & Hs).
  assert (B : find_closing_brace (join [comma; 32%N] toks ++ [close_brace] ++ after) = Some (join [comma; 32%N] toks, after)).
  { apply find_closing_brace_iff. split; [reflexivity|]. rewrite even_parity, unquoted_parity.
    assert (K : forall x y, parity false x = false -> ~ unquoted close_brace x -> (parity false y = false /\ ~ unquoted close_brace y) ->
      parity false (x ++ [comma; 32%N] ++ y) = false /\ ~ unquoted close_brace (x ++ [comma; 32%N] ++ y)).
    { intros x y Px Ux [Py Uy]. split; [now rewrite parity_app, Px|]. rewrite unquoted_parity. intros (a & b & E & P).
      destruct (le_lt_dec (S (length a)) (length x)) as [Hl|Hl].
      - apply Ux. apply unquoted_parity. exists a, (skipn (S (length a)) x). split; [|exact P].
        assert (X : firstn (S (length a)) x = a ++ [close_brace]).
        { transitivity (firstn (S (length a)) (x ++ [comma; 32%N] ++ y)); [rewrite firstn_app; replace (S (length a) - length x) with 0 by lia; cbn; now rewrite app_nil_r|].
          rewrite E, firstn_app, firstn_all2 by lia. replace (S (length a) - length a) with 1 by lia. reflexivity. }
        rewrite <- (firstn_skipn (S (length a)) x) at 1. rewrite X, <- app_assoc. reflexivity.
      - assert (X : a = x ++ skipn (length x) a).
        { rewrite <- (firstn_skipn (length x) a) at 1. f_equal. transitivity (firstn (length x) (a ++ close_brace :: b)).
          - rewrite firstn_app. replace (length x - length a) with 0 by lia. cbn. now rewrite app_nil_r.
          - rewrite <- E, firstn_app, Nat.sub_diag, firstn_all. cbn. apply app_nil_r. }
        rewrite X in E, P. rewrite <- app_assoc in E. apply app_inv_head in E. rewrite parity_app, Px in P.
        destruct (skipn (length x) a) as [|c1 [|c2 a2]]; [discriminate E|discriminate E|]. injection E as <- <- E. apply Uy. apply unquoted_parity. exists a2, b. split; [exact E|exact P]. }
    assert (G : parity false (join [comma; 32%N] toks) = false /\ ~ unquoted close_brace (join [comma; 32%N] toks)).
    { clear -Ht Hc K. induction toks as [|x toks IH]; [cbn; split; [reflexivity|]; intros ([|? ?] & ? & ? & _); discriminate|].
      inversion Ht as [|? ? (_ & _ & Ex & _) Ht']; inversion Hc as [|? ? Cx Hc']; subst. apply even_parity in Ex. destruct toks as [|y toks]; [split; [exact Ex|exact Cx]|].
      change (join [comma; 32%N] (x :: y :: toks)) with (x ++ [comma; 32%N] ++ join [comma; 32%N] (y :: toks)). apply K; auto. }
    rewrite unquoted_parity in G. exact G. }
  assert (L : listed toks (shown_tokens (join [comma; 32%N] toks))) by (apply shown_tokens_listed, rejoin, Ht).
  destruct L as (names' & Hn' & Hs').
  assert (names' = names) as ->.
  { clear -Hn Hn'. revert names' Hn'. induction Hn as [|tok toks names Hh Hn IH|tok name toks names Hh Hc Hn IH]; intros names' Hn'; inversion Hn'; subst; try reflexivity; try contradiction; auto.
    f_equal; [|auto]. assert (U : NoDup (map fst token_names)).
    { vm_compute. repeat constructor; cbn; intuition discriminate. }
    match goal with H : called tok _, H' : called tok _ |- _ => destruct H as [? I|I]; destruct H' as [? I'|I'] end; try reflexivity.
    - clear -U I I'. revert U I I'. induction token_names as [|[k v] l IH]; intros U I I'; [destruct I|]. inversion U as [|? ? Hk U']; subst.
      destruct I as [I|I], I' as [I'|I']; try congruence; auto.
      + injection I as -> ->. exfalso. apply Hk. apply in_map_iff. eexists (_, _). split; [|exact I']. reflexivity.
      + injection I' as -> ->. exfalso. apply Hk. apply in_map_iff. eexists (_, _). split; [|exact I]. reflexivity.
    - exfalso. apply I'. apply in_map_iff. eexists (_, _). split; [|exact I]. reflexivity.
    - exfalso. apply I. apply in_map_iff. eexists (_, _). split; [|exact I']. reflexivity. }
  assert (shown_tokens (join [comma; 32%N] toks) = shown) as Es.
  { clear -Hs Hs'. revert Hs'. generalize (shown_tokens (join [comma; 32%N] toks)). induction Hs as [|seen x names shown Hi Hs IH|seen x names shown Hi Hs IH]; intros s Hs'; inversion Hs'; subst; auto; try contradiction.
    f_equal. auto. }
  unfold sanitize_antlr_message. change (chars "expecting {") with expecting. rewrite expecting_found by exact Hb. rewrite B, Es. destruct shown; reflexivity.
Qed.
Lemma sanitize_tokens before toks after :
  (forall a b, before <> a ++ expecting ++ b) -> Forall token_text toks -> Forall (fun tok => ~ unquoted close_brace tok) toks ->
  forall shown, listed toks shown -> shown <> [] ->
  exists words, in_words shown words
    /\ sanitize_antlr_message (before ++ expecting ++ join [comma; 32%N] toks ++ [close_brace] ++ after)
       = rewrite_antlr_jargon (before ++ chars "expected " ++ words ++ after).
Proof.
  intros Hb Ht Hc shown Hl Hne. exists (enumerate shown). split; [now apply enumerate_words|].
  rewrite (sanitize_shown _ _ _ Hb Ht Hc _ Hl). destruct shown; [congruence|reflexivity].
Qed.
Lemma sanitize_no_tokens before toks after :
  (forall a b, before <> a ++ expecting ++ b) -> Forall token_text toks -> Forall (fun tok => ~ unquoted close_brace tok) toks ->
  listed toks [] ->
  sanitize_antlr_message (before ++ expecting ++ join [comma; 32%N] toks ++ [close_brace] ++ after) = rewrite_antlr_jargon (trim_end before ++ after).
Proof. intros Hb Ht Hc Hl. exact (sanitize_shown _ _ _ Hb Ht Hc _ Hl). Qed.
Lemma cut_at_commas_unique set ps qs : cut_at_commas set ps -> cut_at_commas set qs -> ps = qs.
Proof. intros (E & Hn & Hu & He) (E' & Hn' & Hu' & He'). rewrite <- (cut_unique ps Hn Hu He), <- (cut_unique qs Hn' Hu' He'). congruence. Qed.

(** ** Deciding the hypotheses, for samples *)
Fixpoint quietb (c : N) (q : bool) (l : text) : bool :=
  match l with
  | [] => true
  | x :: r => negb ((x =? c)%N && negb q) && quietb c (if (x =? quote)%N then negb q else q) r
  end.
Lemma quietb_spec c l : quietb c false l = true -> ~ unquoted c l.
Proof.
  intro H. rewrite unquoted_parity. intros (a & b & -> & P). revert H P. generalize false at 1 2 as q. induction a as [|x a IH]; intros q H P; cbn in H.
  - cbn in P. subst q. now rewrite N.eqb_refl in H.
  - apply andb_true_iff in H. destruct H as [_ H]. exact (IH _ H P).
Qed.
Definition token_textb (tok : text) : bool :=
  nonempty tok && text_eqb (trim tok) tok && negb (parity false tok) && quietb comma false tok.
Lemma token_textb_spec toks : forallb token_textb toks = true -> Forall token_text toks.
Proof.
  intro H. rewrite forallb_forall in H. apply Forall_forall. intros tok Hi. specialize (H tok Hi). unfold token_textb in H.
  repeat (apply andb_true_iff in H; destruct H as [H ?]). split; [destruct tok; discriminate|]. split; [now apply text_eqb_eq|].
  split; [apply even_parity; now apply negb_true_iff|now apply quietb_spec].
Qed.
Lemma no_braceb_spec toks : forallb (quietb close_brace false) toks = true -> Forall (fun tok => ~ unquoted close_brace tok) toks.
Proof. intro H. rewrite forallb_forall in H. apply Forall_forall. intros tok Hi. apply quietb_spec. auto. Qed.

(** ** Long lists *)
Lemma nowhere_split p l : nowhere p l -> split_once p l = None.
Proof. intro Hn. destruct (split_once p l) as [[a b]|] eqn:E; [|reflexivity]. apply split_once_sound in E. now elim (Hn a b). Qed.
Lemma split_once_char c l r : ~ In c l -> split_once [c] (l ++ [c] ++ r) = Some (l, r).
Proof.
  intro Hn. apply split_once_first; [reflexivity|]. intros a b E. destruct (le_lt_dec (length l) (length a)) as [|Hl]; [assumption|exfalso].
  apply Hn. assert (X : nth_error (l ++ [c] ++ r) (length a) = Some c) by (rewrite E, nth_error_app2, Nat.sub_diag by lia; reflexivity).
  rewrite nth_error_app1 in X by lia. eapply nth_error_In; exact X.
Qed.
Lemma split_at_piece c l r : ~ In c l -> split_at c (l ++ c :: r) = l :: split_at c r.
Proof.
  induction l as [|x l IH]; intro Hn; cbn [app split_at]; [now rewrite N.eqb_refl|].
  destruct (x =? c)%N eqn:E; [apply N.eqb_eq in E; elim Hn; now left|]. rewrite IH by (intro; apply Hn; now right). reflexivity.
Qed.
Lemma split_at_one c l : ~ In c l -> split_at c l = [l].
Proof.
  induction l as [|x l IH]; intro Hn; cbn [split_at]; [reflexivity|].
  destruct (x =? c)%N eqn:E; [apply N.eqb_eq in E; elim Hn; now left|]. rewrite IH by (intro; apply Hn; now right). reflexivity.
Qed.
Lemma split_at_space r : split_at comma (32%N :: r) = match split_at comma r with p :: ps => (32%N :: p) :: ps | [] => [[32%N]] end.
Proof. reflexivity. Qed.
Lemma split_at_joined toks : toks <> [] -> Forall (fun tok => ~ In comma tok) toks ->
  split_at comma (join [comma; 32%N] toks) = hd [] toks :: map (cons 32%N) (tl toks).
Proof.
  induction toks as [|x toks IH]; intros Hn Hc; [congruence|]. inversion Hc as [|? ? Hx Hr]; subst. destruct toks as [|y toks]; [now apply split_at_one|].
  change (join [comma; 32%N] (x :: y :: toks)) with (x ++ comma :: 32%N :: join [comma; 32%N] (y :: toks)).
  rewrite split_at_piece by exact Hx. rewrite split_at_space, IH by (congruence || exact Hr). reflexivity.
Qed.
Lemma trim_lead l : trim (32%N :: l) = trim l.
Proof. reflexivity. Qed.
Lemma drop_while_no p (l : text) : (forall c, In c l -> p c = false) -> drop_while p l = l.
Proof. destruct l as [|c l]; intro Hn; [reflexivity|]. cbn. rewrite (Hn c) by now left. reflexivity. Qed.
Lemma bare_trim tok b : bare tok b -> trim_quotes tok = b.
Proof.
  assert (G : forall l, ~ In quote l -> forall c, In c l -> N.eqb quote c = false).
  { intros l Hl c Hc. apply N.eqb_neq. intros <-. contradiction. }
  intros [b' Hb|tok' Hb]; unfold trim_quotes.
  - assert (E : drop_while (N.eqb quote) ([quote] ++ b' ++ [quote]) = drop_while (N.eqb quote) (b' ++ [quote])) by reflexivity. rewrite E.
    destruct b' as [|c b']; [reflexivity|]. cbn [app drop_while]. rewrite (G _ Hb c) by now left.
    change (c :: b' ++ [quote]) with ((c :: b') ++ [quote]). rewrite rev_app_distr. cbn [rev app drop_while]. rewrite N.eqb_refl.
    change (rev b' ++ [c]) with (rev (c :: b')). rewrite drop_while_no; [apply rev_involutive|]. intros x Hx. apply (G _ Hb). now apply in_rev.
  - rewrite (drop_while_no _ tok') by (apply G, Hb). rewrite drop_while_no; [apply rev_involutive|]. intros x Hx. apply (G _ Hb). now apply in_rev.
Qed.
Lemma called_human b : b <> chars "<EOF>" -> forall name, called b name -> humanize_token_name b = name.
Proof.
  intros Hb name Hc. assert (E : humanize_token_name b = human b).
  { unfold human. destruct (text_eqb b _) eqn:E; [apply text_eqb_eq in E; contradiction|reflexivity]. }
  rewrite E. pose proof (human_called b) as Hh. assert (U : NoDup (map fst token_names)).
  { vm_compute. repeat constructor; cbn; intuition discriminate. }
  destruct Hh as [n1 I|I]; destruct Hc as [n2 I'|I']; try reflexivity.
  - clear -U I I'. revert U I I'. induction token_names as [|[k v] l IH]; intros U I I'; [destruct I|]. inversion U as [|? ? Hk U']; subst.
    destruct I as [I|I], I' as [I'|I']; try congruence; auto.
    + injection I as -> ->. exfalso. apply Hk. apply in_map_iff. eexists (_, _). split; [|exact I']. reflexivity.
    + injection I' as -> ->. exfalso. apply Hk. apply in_map_iff. eexists (_, _). split; [|exact I]. reflexivity.
  - exfalso. apply I'. apply in_map_iff. eexists (_, _). split; [|exact I]. reflexivity.
  - exfalso. apply I. apply in_map_iff. eexists (_, _). split; [|exact I']. reflexivity.
Qed.
Lemma firsts_unique names : forall seen shown, without_repetition seen names shown -> firsts seen names = shown.
Proof.
  induction names as [|x names IH]; intros seen shown Hw; inversion Hw; subst; cbn [firsts]; [reflexivity| |].
  - match goal with H : In x seen |- _ => apply text_mem_in in H; rewrite H end. auto.
  - match goal with H : ~ In x seen |- _ => apply text_mem_out in H; rewrite H end. f_equal. auto.
Qed.
Lemma trim_tokens toks : toks <> [] -> Forall (fun tok => trim tok = tok) toks -> map trim (hd [] toks :: map (cons 32%N) (tl toks)) = toks.
Proof.
  destruct toks as [|x toks]; [congruence|]. intros _ Ht. inversion Ht as [|? ? Hx Hr]; subst. cbn [hd tl map]. rewrite Hx. f_equal.
  rewrite map_map. clear -Hr. induction Hr as [|y l Hy Hl IH]; [reflexivity|]. cbn [map]. rewrite trim_lead, Hy, IH. reflexivity.
Qed.
Lemma no_empty toks : Forall (fun tok : text => tok <> []) toks -> filter (fun tok => match tok with [] => false | _ => true end) toks = toks.
Proof. induction 1 as [|x l Hx Hl IH]; [reflexivity|]. cbn [filter]. destruct x; [congruence|]. now rewrite IH. Qed.
Lemma help_text toks shown : toks <> [] -> Forall (fun tok => tok <> [] /\ trim tok = tok /\ ~ In comma tok /\ ~ In close_brace tok) toks ->
  help_list toks shown -> format_expected_help (join [comma; 32%N] toks) = match shown with [] => None | _ => Some (chars "expected one of: " ++ join (chars ", ") shown) end.
Proof.
  intros Hn Ht (names & Hnm & Hw). unfold format_expected_help.
  rewrite split_at_joined by first [exact Hn | eapply Forall_impl; [|exact Ht]; cbn; tauto].
  rewrite trim_tokens by first [exact Hn | eapply Forall_impl; [|exact Ht]; cbn; tauto].
  rewrite no_empty by (eapply Forall_impl; [|exact Ht]; cbn; tauto). apply firsts_unique in Hw.
  assert (E : map (fun tok => humanize_token_name (trim_quotes tok)) (filter (fun tok => negb (text_mem tok [chars "DocComment"; chars "'\u001A'"; chars "<EOF>"])) toks) = names).
  { clear -Hnm. induction Hnm as [|tok toks names Hh Hnm IH|tok b name toks names Hh He Hb Hbe Hc Hnm IH]; [reflexivity| |]; cbn [filter].
    - assert (M : text_mem tok [chars "DocComment"; chars "'\u001A'"; chars "<EOF>"] = true) by (apply text_mem_in; destruct Hh as [[-> | ->]| ->]; [left|right; left|right; right; left]; reflexivity).
      rewrite M. exact IH.
    - assert (M : text_mem tok [chars "DocComment"; chars "'\u001A'"; chars "<EOF>"] = false).
      { apply text_mem_out. intros [X|[X|[X|[]]]]; [apply Hh; left|apply Hh; right|apply He]; now symmetry. }
      rewrite M. cbn [negb map]. rewrite (bare_trim _ _ Hb), (called_human _ Hbe _ Hc), IH. reflexivity. }
  rewrite E, Hw. destruct shown; reflexivity.
Qed.
Lemma join_no_brace toks : Forall (fun tok => ~ In close_brace tok) toks -> ~ In close_brace (join [comma; 32%N] toks).
Proof.
  induction 1 as [|x l Hx Hl IH]; [intros []|]. destruct l as [|y l]; [exact Hx|].
  change (join [comma; 32%N] (x :: y :: l)) with (x ++ [comma; 32%N] ++ join [comma; 32%N] (y :: l)). intro Hi. apply in_app_or in Hi as [Hi|Hi]; [contradiction|].
  destruct Hi as [Hi|[Hi|Hi]]; [discriminate|discriminate|contradiction].
Qed.
Lemma extract_set kind off toks : plain_message kind off toks -> extract_expecting_tokens (unexpected kind off toks) = Some (join [comma; 32%N] toks).
Proof.
  intros (_ & _ & He & _ & _ & Ht). unfold extract_expecting_tokens. change (chars "expecting {") with expecting. unfold unexpected.
  rewrite expecting_found by exact He. assert (Hn : ~ In close_brace (join [comma; 32%N] toks)) by (apply join_no_brace; eapply Forall_impl; [|exact Ht]; cbn; tauto).
  pose proof (split_once_char close_brace _ [] Hn) as S. rewrite app_nil_r in S. rewrite S. reflexivity.
Qed.
Lemma split_once_start p r : p <> [] -> split_once p (p ++ r) = Some ([], r).
Proof. intro Hp. apply split_once_first; [reflexivity|]. intros. cbn. lia. Qed.
Lemma quoted_token kind off toks : plain_message kind off toks ->
  extract_quoted_token (unexpected kind off toks) kind = Some off.
Proof.
  intros (Hk & Ho & _). unfold extract_quoted_token, unexpected. rewrite <- !app_assoc. rewrite split_once_start by (destruct Hk as [-> |[-> _]]; discriminate).
  cbn [app]. rewrite N.eqb_refl. change (quote :: 32%N :: expecting ++ join [comma; 32%N] toks ++ [close_brace]) with ([quote] ++ 32%N :: expecting ++ join [comma; 32%N] toks ++ [close_brace]).
  now rewrite split_once_char by exact Ho.
Qed.
Lemma no_pattern kind off toks : plain_message kind off toks -> enrich_antlr_error (unexpected kind off toks) = simplify_large_expecting_set (unexpected kind off toks).
Proof.
  intros (_ & _ & _ & Hv & Hx & _). unfold enrich_antlr_error, extract_no_viable_input. rewrite (nowhere_split _ _ Hv).
  unfold contains. rewrite (nowhere_split _ _ Hx). reflexivity.
Qed.
Lemma count_joined toks : toks <> [] -> Forall (fun tok => tok <> [] /\ trim tok = tok /\ ~ In comma tok /\ ~ In close_brace tok) toks ->
  count_tokens_in_set (join [comma; 32%N] toks) = length toks.
Proof.
  intros Hn Ht. unfold count_tokens_in_set.
  assert (L : length (split_at comma (join [comma; 32%N] toks)) = length toks).
  { rewrite split_at_joined by first [exact Hn | eapply Forall_impl; [|exact Ht]; cbn; tauto]. cbn. rewrite map_length. destruct toks; [congruence|reflexivity]. }
  destruct (trim (join [comma; 32%N] toks)) eqn:E; [|exact L].
  exfalso. destruct toks as [|x toks]; [congruence|]. inversion Ht as [|? ? (Hx & Hxt & _) Hr]; subst.
  assert (G : forall c l, is_whitespace c = false -> trim (c :: l) <> []).
  { intros c l Hc Hl. unfold trim, trim_start in Hl. cbn [drop_while] in Hl. rewrite Hc in Hl. unfold trim_end, trim_start in Hl.
    apply (f_equal (@rev N)) in Hl. rewrite rev_involutive in Hl. cbn [rev] in Hl.
    assert (In c (drop_while is_whitespace (rev l ++ [c]))) as Hi; [|rewrite Hl in Hi; destruct Hi].
    clear -Hc. induction (rev l) as [|y m IH]; cbn [app drop_while]; [rewrite Hc; now left|]. destruct (is_whitespace y); [exact IH|]. right. apply in_or_app. right. now left. }
  destruct x as [|c x]; [congruence|]. assert (Hc : is_whitespace c = false).
  { destruct (is_whitespace c) eqn:Hc; [|reflexivity]. exfalso. unfold trim, trim_start in Hxt. cbn [drop_while] in Hxt. rewrite Hc in Hxt.
    apply (f_equal (@length N)) in Hxt. cbn [length] in Hxt. unfold trim_end, trim_start in Hxt. rewrite rev_length in Hxt.
    assert (D : forall p (l : text), length (drop_while p l) <= length l) by (intros p l; induction l as [|y m IHl]; cbn; [lia|]; destruct (p y); cbn; lia).
    pose proof (D is_whitespace (rev (drop_while is_whitespace x))) as D1. rewrite rev_length in D1. pose proof (D is_whitespace x). lia. }
  destruct toks as [|y toks]; [exact (G c x Hc E)|]. exact (G c _ Hc E).
Qed.
Lemma short_list kind off toks : plain_message kind off toks -> toks <> [] -> length toks <= 5 ->
  displayed (unexpected kind off toks) = mkEnriched (humanize_antlr_message (sanitize_antlr_message (unexpected kind off toks))) None None.
Proof.
  intros Hp Hn Hl. unfold displayed. rewrite (no_pattern _ _ _ Hp). unfold simplify_large_expecting_set. rewrite (extract_set _ _ _ Hp).
  pose proof Hp as (_ & _ & _ & _ & _ & Ht). rewrite (count_joined _ Hn Ht).
  match goal with |- context[Nat.leb ?a 5] => replace (Nat.leb a 5) with true by (symmetry; apply Nat.leb_le; exact Hl) end. reflexivity.
Qed.
Lemma long_list kind off toks shown : plain_message kind off toks -> 5 < length toks -> help_list toks shown ->
  let help := match shown with [] => None | _ => Some (chars "expected one of: " ++ join (chars ", ") shown) end in
  (off = chars "<EOF>" -> displayed (unexpected kind off toks) = mkEnriched (chars "unexpected end of file") (Some (chars "unexpected end of file")) help)
  /\ ((exists c, In c off /\ word_char c = false) -> off <> chars "<EOF>" ->
      displayed (unexpected kind off toks) = mkEnriched (chars "unexpected token `" ++ off ++ chars "`") (Some (chars "unexpected `" ++ off ++ chars "`")) help).
Proof.
  intros Hp Hl Hh help. assert (Hn : toks <> []) by (intros ->; cbn in Hl; lia). pose proof Hp as (Hk & _ & _ & _ & _ & Ht).
  assert (E : displayed (unexpected kind off toks) = build_unexpected_token_error off help (expects_string_literal (join [comma; 32%N] toks)) false).
  { unfold displayed. rewrite (no_pattern _ _ _ Hp). unfold simplify_large_expecting_set. rewrite (extract_set _ _ _ Hp).
    rewrite (count_joined _ Hn Ht). match goal with |- context[Nat.leb ?a 5] => replace (Nat.leb a 5) with false by (symmetry; apply Nat.leb_gt; exact Hl) end.
    rewrite (close_brace_never _ _ (extract_set _ _ _ Hp)), (help_text _ _ Hn Ht Hh).
    pose proof (quoted_token _ _ _ Hp) as Q. destruct Hk as [Ek|[Ek Hno]].
    - rewrite <- Ek, Q. reflexivity.
    - assert (N1 : extract_quoted_token (unexpected kind off toks) (chars "extraneous input ") = None) by (unfold extract_quoted_token; now rewrite (nowhere_split _ _ Hno)).
      rewrite N1, <- Ek, Q. reflexivity. }
  rewrite E. unfold build_unexpected_token_error. split.
  - intros ->. rewrite text_eqb_refl. reflexivity.
  - intros (c & Hc & Hw) Ho. destruct (text_eqb off (chars "<EOF>")) eqn:Eo; [apply text_eqb_eq in Eo; contradiction|].
    assert (B : looks_like_bare_identifier off = false).
    { unfold looks_like_bare_identifier. destruct off as [|x r]; [reflexivity|]. destruct Hc as [->|Hc].
      - unfold word_char in Hw. apply orb_false_iff in Hw as [Hw1 Hw2]. apply orb_false_iff in Hw1 as [Hw1 _]. rewrite Hw1, Hw2, andb_false_r. reflexivity.
      - assert (F : forallb word_char r = false).
        { destruct (forallb word_char r) eqn:F; [|reflexivity]. rewrite forallb_forall in F. rewrite (F c Hc) in Hw. discriminate. }
        rewrite F, andb_false_r. reflexivity. }
    rewrite B, andb_false_r. reflexivity.
Qed.
