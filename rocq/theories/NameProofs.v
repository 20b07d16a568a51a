(** Lemmas about splitting and joining full names. *)
From Verif Require Import BaseProofs Schema SpecMeaning.

Lemma split_make n ns :
  contains_dot n = false -> str_is_empty ns = false ->
  split_full_name (make_full_name n (Some ns)) = (n, Some ns).
Proof.
  intros Hn Hns. unfold make_full_name, split_full_name. rewrite Hns. cbn [negb].
  destruct (rsplit_once_dot (ns ++ "." ++ n)) as [[a b]|] eqn:E.
  - assert (E2 : rsplit_once_dot (ns ++ "." ++ n) = Some (ns, n)) by (apply rsplit_Some; auto).
    rewrite E2 in E. injection E as <- <-. reflexivity.
  - apply rsplit_None in E. rewrite contains_dot_app in E. cbn in E. rewrite orb_true_r in E. discriminate.
Qed.

Lemma split_make_none n ns :
  contains_dot n = false -> ns_empty ns = true -> split_full_name (make_full_name n ns) = (n, None).
Proof.
  intros Hn Hns. unfold make_full_name, split_full_name.
  assert (E : match ns with Some x => if negb (str_is_empty x) then (x ++ "." ++ n)%string else n | None => n end = n).
  { destruct ns as [x|]; [|reflexivity]. unfold ns_empty, nsof in Hns. rewrite Hns. reflexivity. }
  rewrite E. apply rsplit_None in Hn. rewrite Hn. reflexivity.
Qed.

Lemma make_split s :
  (forall n, s = ("." ++ n)%string -> contains_dot n = true) ->
  make_full_name (fst (split_full_name s)) (snd (split_full_name s)) = s.
Proof.
  intro Hs. unfold split_full_name. destruct (rsplit_once_dot s) as [[a b]|] eqn:E; [|reflexivity].
  cbn. apply rsplit_Some in E. destruct E as [-> Hb]. destruct (str_is_empty a) eqn:Ea; [|reflexivity].
  apply str_is_empty_eq in Ea. subst a. specialize (Hs b eq_refl). congruence.
Qed.

Lemma split_simple s : contains_dot (fst (split_full_name s)) = false.
Proof.
  unfold split_full_name. destruct (rsplit_once_dot s) as [[a b]|] eqn:E; cbn.
  - apply rsplit_Some in E. apply E.
  - apply rsplit_None. exact E.
Qed.
