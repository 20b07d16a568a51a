(** The lexer takes a text apart as SpecLexer says, and in no other way. *)
From Verif Require Import SpecLexer LexerProofs ShapeProofs.
From Coq Require Import Lia.

Lemma shaped_rule k t : shaped k t <-> exists r, In (k, r) lexer_rules /\ lang r t.
Proof.
  unfold shaped. generalize rules_shapes. generalize lexer_rules, shapes. intros l l' H. induction H as [|[k1 r] [k2 P] l l' [E S] H IH]; cbn in *.
  - split; intros (x & [] & _).
  - subst k2. split.
    + intros (Q & [X|X] & HQ); [injection X as <- <-; exists r; split; [auto|apply S, HQ]|].
      destruct (proj1 IH) as (r' & Hr & Hl); [eauto|]. eauto.
    + intros (q & [X|X] & Hq); [injection X as <- <-; exists P; split; [auto|apply S, Hq]|].
      destruct (proj2 IH) as (Q & HQ & Hl); [eauto|]. eauto.
Qed.

Lemma kinds_nodup : NoDup (map fst shapes).
Proof.
  assert (D : forall l : list token_type, (fix ok l := match l with [] => true | k :: l => negb (existsb (same_type k) l) && ok l end) l = true -> NoDup l).
  { induction l as [|k l IH]; [constructor|]. intro H. apply andb_true_iff in H as [A B]. constructor; [|exact (IH B)].
    intro Hi. apply negb_true_iff in A. assert (existsb (same_type k) l = true); [|congruence].
    apply existsb_exists. exists k. split; [exact Hi|]. unfold same_type. destruct (token_type_dec k k); congruence. }
  apply D. vm_compute. reflexivity.
Qed.
Lemma rules_kinds : map fst lexer_rules = map fst shapes.
Proof. generalize rules_shapes. generalize lexer_rules, shapes. induction 1 as [|x y l l' [E _] _ IH]; cbn; [reflexivity|]. rewrite E, IH. reflexivity. Qed.

Lemma split_unique {A} (a b a' b' : list A) x : NoDup (a ++ x :: b) -> a ++ x :: b = a' ++ x :: b' -> a = a' /\ b = b'.
Proof.
  revert a'. induction a as [|y a IH]; intros [|y' a'] H E; cbn in *.
  - injection E as <-. auto.
  - injection E as <- ->. inversion H as [|? ? Hn _]; subst. exfalso. apply Hn, in_app_iff. right. left. reflexivity.
  - injection E as -> <-. inversion H as [|? ? Hn _]; subst. exfalso. apply Hn, in_app_iff. right. left. reflexivity.
  - injection E as <- E. inversion H as [|? ? _ Hd]; subst. destruct (IH a' Hd E) as [-> ->]. auto.
Qed.

Lemma first_shape t k : first_match lexer_rules t = Some k -> shaped k t /\ forall k', comes_before k' k -> ~ shaped k' t.
Proof.
  intro H. apply first_match_some in H as (a & r & b & E & Hr & Ha). split.
  - apply shaped_rule. exists r. rewrite E. split; [apply in_app_iff; right; left; reflexivity|exact Hr].
  - intros k' (x & y & z & Ek) Hs. apply shaped_rule in Hs as (r' & Hi & Hl).
    pose proof rules_kinds as K. rewrite E, map_app in K. cbn [map fst] in K. pose proof kinds_nodup as D.
    rewrite <- K in Ek, D.
    assert (E2 : map fst a ++ k :: map fst b = (x ++ k' :: y) ++ k :: z) by (rewrite <- app_assoc; exact Ek).
    apply split_unique in E2 as [Ex _]; [|exact D].
    assert (Hk' : In k' (map fst a)) by (rewrite Ex; apply in_app_iff; right; left; reflexivity).
    rewrite E in Hi. apply in_app_iff in Hi as [Hi|Hi]; [exact (Ha _ _ Hi Hl)|].
    assert (In k' (k :: map fst b)) by exact (in_map fst _ _ Hi).
    apply in_split in Hk' as (u & v & Hu). rewrite Hu, <- app_assoc in D. cbn in D. apply NoDup_remove_2 in D. apply D, in_app_iff. right. apply in_app_iff. right. assumption.
Qed.
Lemma no_shape t : first_match lexer_rules t = None <-> forall k, ~ shaped k t.
Proof.
  rewrite first_match_none. split.
  - intros H k Hs. apply shaped_rule in Hs as (r & Hi & Hl). exact (H _ _ Hi Hl).
  - intros H k r Hi Hl. apply (H k), shaped_rule. eauto.
Qed.
Lemma viable_shape u : viable lexer_rules u <-> exists k more, shaped k (u ++ more).
Proof.
  split.
  - intros (k & r & more & Hi & Hl). exists k, more. apply shaped_rule. eauto.
  - intros (k & more & Hs). apply shaped_rule in Hs as (r & Hi & Hl). exists k, r, more. auto.
Qed.

Lemma states_start : states lexer_rules [] = lexer_rules.
Proof.
  unfold states. rewrite (map_ext _ (fun kr => kr)) by (intros [k r]; reflexivity). rewrite map_id.
  assert (F : forall l : list (token_type * regex), forallb (fun kr => negb (dead (snd kr))) l = true -> filter (fun kr => negb (dead (snd kr))) l = l).
  { induction l as [|x l IH]; [reflexivity|]. cbn. destruct (negb (dead (snd x))); [|discriminate]. cbn. intro H. rewrite (IH H). reflexivity. }
  apply F. vm_compute. reflexivity.
Qed.

Lemma app_both (t rest t' rest' : list N) : t ++ rest = t' ++ rest' -> length t = length t' -> t = t' /\ rest = rest'.
Proof.
  revert t'. induction t as [|c t IH]; intros [|c' t'] E H; try discriminate; [auto|]. cbn in E, H. injection E as <- E. destruct (IH t' E) as [-> ->]; [lia|]. auto.
Qed.
(** Of two starts of a text, the shorter starts the longer *)
Lemma start_of (t rest t' rest' : list N) : t ++ rest = t' ++ rest' -> length t <= length t' -> exists m, t' = t ++ m.
Proof.
  revert t'. induction t as [|c t IH]; intros t' E H; [exists t'; reflexivity|]. destruct t' as [|c' t']; [cbn in H; lia|].
  cbn in E, H. injection E as <- E. destruct (IH t' E) as [m ->]; [lia|]. exists m. reflexivity.
Qed.

Lemma step_spec s best m : s <> [] -> scan lexer_rules None 0 s = (best, m) ->
  match best with
  | Some (n, k) => firstn n s <> [] /\ longest k (firstn n s) (skipn n s)
  | None => firstn m s <> [] /\ spoilt (firstn m s) (skipn m s)
  end.
Proof.
  intros Hs E. rewrite <- states_start in E. change 0 with (length (@nil N)) in E. apply scan_spec in E as [F S].
  destruct F as [(p & q & k & -> & Hp & Hk & -> & Hm)|[-> Hm]]; cbn [app] in *.
  - rewrite firstn_app, firstn_all, Nat.sub_diag, firstn_O, app_nil_r, skipn_app, skipn_all, Nat.sub_diag, skipn_O, app_nil_l. split; [exact Hp|].
    destruct (first_shape p k Hk) as [A B]. repeat split; [exact A| |exact B].
    intros k' t' rest' X Ht. destruct (Nat.le_gt_cases (length t') (length p)) as [L|L]; [exact L|]. exfalso.
    specialize (Hm t' rest' X L). apply no_shape with (k := k') in Hm. auto.
  - assert (N1 : forall k t' rest', s = t' ++ rest' -> t' <> [] -> ~ shaped k t') by (intros k t' rest' X Ht; apply no_shape; exact (Hm t' rest' X Ht)).
    assert (N0 : forall k, ~ shaped k []).
    { intros k H. apply shaped_rule in H as (r & Hi & Hl). apply lang_accepting in Hl.
      assert (A : existsb (fun kr => accepting (snd kr)) lexer_rules = true) by (apply existsb_exists; exists (k, r); auto). vm_compute in A. discriminate A. }
    assert (N : forall k t' rest', s = t' ++ rest' -> ~ shaped k t') by (intros k [|c t'] rest' X; [apply N0|apply (N1 k _ rest' X); discriminate]).
    destruct S as [(begun & c & q & -> & -> & Hb & Hn)|[-> Hv]]; cbn [app] in *.
    + replace (begun ++ c :: q) with ((begun ++ [c]) ++ q) in * by (rewrite <- app_assoc; reflexivity).
      rewrite firstn_app, firstn_all, Nat.sub_diag, firstn_O, app_nil_r, skipn_app, skipn_all, Nat.sub_diag, skipn_O, app_nil_l.
      split; [destruct begun; discriminate|]. split; [exact N|]. left. exists begun, c. split; [reflexivity|]. split.
      * destruct Hb as [Hb|Hb]; [auto|right; apply viable_shape, Hb].
      * intros k more H. apply Hn, viable_shape. eauto.
    + rewrite firstn_all, skipn_all. split; [exact Hs|]. split; [rewrite app_nil_r; exact N|]. right. split; [reflexivity|].
      destruct Hv as [Hv|Hv]; [congruence|]. apply viable_shape, Hv.
Qed.

Lemma pieces_spec fuel : forall s, length s <= fuel -> taken_apart s (pieces fuel s).
Proof.
  induction fuel as [|fuel IH]; intros s L.
  - destruct s; [constructor|cbn in L; lia].
  - destruct s as [|c s]; [constructor|]. cbn [pieces]. destruct (scan lexer_rules None 0 (c :: s)) as [[[n k]|] m] eqn:E;
      (pose proof (step_spec (c :: s) _ _ ltac:(discriminate) E) as [Hn H]).
    + rewrite <- (firstn_skipn n (c :: s)) at 1. constructor; [exact Hn|exact H|]. apply IH. rewrite skipn_length.
      destruct n; [cbn in Hn; congruence|]. clear E. cbn [length] in *. lia.
    + rewrite <- (firstn_skipn m (c :: s)) at 1. constructor; [exact Hn|exact H|]. apply IH. rewrite skipn_length.
      destruct m; [cbn in Hn; congruence|]. clear E. cbn [length] in *. lia.
Qed.
Lemma cut_spec s : taken_apart s (cut s).
Proof. apply pieces_spec, le_n. Qed.

Lemma before_total k k' : In k (map fst shapes) -> In k' (map fst shapes) -> k = k' \/ comes_before k k' \/ comes_before k' k.
Proof.
  intros H H'. apply in_split in H as (a & b & E). unfold comes_before. rewrite E in *. apply in_app_iff in H' as [H'|[->|H']]; [| auto|].
  - right. right. apply in_split in H' as (x & y & ->). exists x, y, b. rewrite <- app_assoc. reflexivity.
  - right. left. apply in_split in H' as (x & y & ->). exists a, x, y. reflexivity.
Qed.
Lemma shaped_kind k t : shaped k t -> In k (map fst shapes).
Proof. intros (P & H & _). exact (in_map fst _ _ H). Qed.

Lemma longest_unique k t rest k' t' rest' : longest k t rest -> longest k' t' rest' -> t ++ rest = t' ++ rest' -> k = k' /\ t = t' /\ rest = rest'.
Proof.
  intros (S & M & F) (S' & M' & F') E. assert (L : length t = length t').
  { apply Nat.le_antisymm; [exact (M' _ _ _ (eq_sym E) S)|exact (M _ _ _ E S')]. }
  destruct (app_both _ _ _ _ E L) as [-> ->]. split; [|auto].
  destruct (before_total k k' (shaped_kind _ _ S) (shaped_kind _ _ S')) as [H|[H|H]]; [exact H| |]; exfalso.
  - exact (F' k H S).
  - exact (F k' H S').
Qed.
Lemma longest_not_spoilt k t rest t' rest' : longest k t rest -> spoilt t' rest' -> t ++ rest <> t' ++ rest'.
Proof. intros (S & _) (N & _) E. exact (N k t rest (eq_sym E) S). Qed.

Lemma spoilt_short t rest t' rest' : spoilt t rest -> spoilt t' rest' -> t ++ rest = t' ++ rest' -> t <> [] -> length t' <= length t.
Proof.
  intros (_ & [(begun & c & -> & _ & Hn)|[-> _]]) (_ & S') E Ht.
  - destruct (Nat.le_gt_cases (length t') (length (begun ++ [c]))) as [L|L]; [exact L|]. exfalso.
    destruct S' as [(begun' & c' & -> & [->|(k & more & Hb)] & _)|[-> (k & more & Hv)]].
    + rewrite !app_length in L. cbn in L. lia.
    + rewrite <- (app_assoc begun') in E. apply start_of in E as [m ->]; [|rewrite (app_length begun') in L; cbn in L; lia].
      apply (Hn k (m ++ more)). rewrite app_assoc. exact Hb.
    + apply start_of in E as [m ->]; [|lia]. apply (Hn k (m ++ more)). rewrite app_assoc. exact Hv.
  - apply (f_equal (@length N)) in E. rewrite !app_length in E. cbn in E. lia.
Qed.

Lemma taken_apart_unique s l : taken_apart s l -> forall l', taken_apart s l' -> l = l'.
Proof.
  induction 1 as [|k t rest l Ht Hl H IH|t rest l Ht Hl H IH]; intros l' H'.
  - remember [] as w eqn:E. destruct H' as [|k' t' rest' l2 Ht' Hl' H2|t' rest' l2 Ht' Hl' H2]; [reflexivity| |]; apply app_eq_nil in E as [-> _]; congruence.
  - remember (t ++ rest) as w eqn:E. destruct H' as [|k' t' rest' l2 Ht' Hl' H2|t' rest' l2 Ht' Hl' H2].
    + symmetry in E. apply app_eq_nil in E as [-> _]. congruence.
    + destruct (longest_unique _ _ _ _ _ _ Hl' Hl E) as (-> & -> & ->). rewrite (IH _ H2). reflexivity.
    + exfalso. exact (longest_not_spoilt _ _ _ _ _ Hl Hl' (eq_sym E)).
  - remember (t ++ rest) as w eqn:E. destruct H' as [|k' t' rest' l2 Ht' Hl' H2|t' rest' l2 Ht' Hl' H2].
    + symmetry in E. apply app_eq_nil in E as [-> _]. congruence.
    + exfalso. exact (longest_not_spoilt _ _ _ _ _ Hl' Hl E).
    + assert (L : length t' = length t) by (apply Nat.le_antisymm; [exact (spoilt_short _ _ _ _ Hl Hl' (eq_sym E) Ht)|exact (spoilt_short _ _ _ _ Hl' Hl E Ht')]).
      destruct (app_both _ _ _ _ E L) as [-> ->]. rewrite (IH _ H2). reflexivity.
Qed.

Lemma cut_iff s l : cut s = l <-> taken_apart s l.
Proof. split; [intros <-; apply cut_spec|]. intro H. exact (taken_apart_unique _ _ (cut_spec s) _ H). Qed.

(** Nothing is lost *)
Lemma cut_whole s : concat (map snd (cut s)) = s.
Proof. generalize (cut_spec s). generalize (cut s). induction 1; cbn; congruence. Qed.
