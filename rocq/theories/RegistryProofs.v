(** Lemmas about the registry and name validation. *)
From Verif Require Import BaseProofs SpecNames.

Section Valid.
  Context `{Unicode}.

  Lemma valid_name_iff s : is_valid_avro_name s = true <-> valid_name s.
  Proof.
    unfold is_valid_avro_name, valid_name_chars, valid_name, name_start, name_part.
    destruct (chars s) as [|c r].
    - split; [discriminate | intros (c & r & E & _); discriminate].
    - rewrite andb_true_iff, orb_true_iff, N.eqb_eq, forallb_forall. split.
      + intros [Hc Hr]. exists c, r. repeat split; [exact Hc|]. apply Forall_forall. intros x Hx.
        specialize (Hr x Hx). rewrite orb_true_iff, N.eqb_eq in Hr. exact Hr.
      + intros (c' & r' & E & Hc & Hr). injection E as <- <-. split; [exact Hc|].
        intros x Hx. rewrite orb_true_iff, N.eqb_eq. rewrite Forall_forall in Hr. exact (Hr x Hx).
  Qed.

  Lemma split_dot_nonnil s : split_dot s <> [].
  Proof. destruct s; cbn; [discriminate|]. destruct (is_dot a); [discriminate|].
    destruct (split_dot s); discriminate. Qed.

  Lemma join_split s : join_dot (split_dot s) = s.
  Proof.
    induction s as [|c s IH]; [reflexivity|]. cbn. destruct (is_dot c) eqn:E.
    - unfold is_dot in E. apply Ascii.eqb_eq in E. subst c. cbn.
      pose proof (split_dot_nonnil s) as Hn. destruct (split_dot s); [contradiction|].
      rewrite IH. reflexivity.
    - pose proof (split_dot_nonnil s) as Hn. destruct (split_dot s) as [|p [|q ps]]; [contradiction| |].
      + cbn in *. congruence.
      + cbn in *. rewrite <- IH. reflexivity.
  Qed.

  Lemma split_dot_free s : contains_dot s = false -> split_dot s = [s].
  Proof.
    induction s as [|c s IH]; cbn; [reflexivity|]. intro E. apply orb_false_iff in E.
    destruct E as [-> E]. rewrite (IH E). reflexivity.
  Qed.

  Lemma split_dot_app p s : contains_dot p = false -> split_dot (p ++ "." ++ s)%string = p :: split_dot s.
  Proof.
    induction p as [|c p IH]; cbn; [reflexivity|]. intro E. apply orb_false_iff in E.
    destruct E as [-> E]. cbn in IH. rewrite (IH E). reflexivity.
  Qed.

  Lemma split_join segs :
    segs <> [] -> Forall (fun s => contains_dot s = false) segs -> split_dot (join_dot segs) = segs.
  Proof.
    intros Hn Hf. induction Hf as [|x l Hx Hl IH]; [contradiction|].
    destruct l as [|y l].
    - cbn. apply split_dot_free, Hx.
    - cbn [join_dot]. rewrite split_dot_app by exact Hx. f_equal. apply IH. discriminate.
  Qed.

  (** Bytes below 128 survive decoding. *)
  Lemma decode_ascii b l : (b < 128)%N -> In b l -> In b (utf8_decode_bytes l).
  Proof.
    intro Hb. remember (length l) as n eqn:En. revert l En.
    induction n as [n IHn] using lt_wf_ind. intros l En Hin.
    destruct l as [|b0 r0]; [destruct Hin|]. cbn [utf8_decode_bytes].
    assert (IH : forall l', length l' < n -> In b l' -> In b (utf8_decode_bytes l'))
      by (intros l' Hl Hi; exact (IHn _ Hl l' eq_refl Hi)).
    cbn [length] in En.
    destruct (b0 <? 128)%N eqn:E0.
    { destruct Hin as [->|Hin]; [left; reflexivity|right; apply IH; [lia|exact Hin]]. }
    apply N.ltb_ge in E0.
    assert (H0 : In b r0) by (destruct Hin as [->|Hin]; [lia|exact Hin]).
    assert (Hc : forall x, is_cont x = true -> x <> b).
    { intros x Hx ->. unfold is_cont in Hx. apply andb_true_iff in Hx. destruct Hx as [Hx _].
      apply N.leb_le in Hx. lia. }
    destruct r0 as [|b1 r1]; [destruct H0|]. cbn [length] in En.
    destruct ((194 <=? b0)%N && (b0 <? 224)%N && is_cont b1) eqn:E1.
    { rewrite !andb_true_iff in E1. destruct E1 as [_ E1]. right. apply IH; [lia|].
      destruct H0 as [<-|H0]; [exfalso; exact (Hc _ E1 eq_refl)|exact H0]. }
    destruct r1 as [|b2 r2].
    { right. apply IH; [cbn; lia|exact H0]. }
    cbn [length] in En.
    destruct ((224 <=? b0)%N && (b0 <? 240)%N && is_cont b1 && is_cont b2) eqn:E2.
    { rewrite !andb_true_iff in E2. destruct E2 as [[_ E2] E2']. right. apply IH; [lia|].
      destruct H0 as [<-|[<-|H0]]; [exfalso; exact (Hc _ E2 eq_refl)|exfalso; exact (Hc _ E2' eq_refl)|exact H0]. }
    destruct r2 as [|b3 r3].
    { right. apply IH; [cbn; lia|exact H0]. }
    cbn [length] in En.
    destruct ((240 <=? b0)%N && (b0 <? 245)%N && is_cont b1 && is_cont b2 && is_cont b3) eqn:E3.
    { rewrite !andb_true_iff in E3. destruct E3 as [[[_ E3] E3'] E3'']. right. apply IH; [lia|].
      destruct H0 as [<-|[<-|[<-|H0]]];
        [exfalso; exact (Hc _ E3 eq_refl)|exfalso; exact (Hc _ E3' eq_refl)
        |exfalso; exact (Hc _ E3'' eq_refl)|exact H0]. }
    right. apply IH; [cbn; lia|exact H0].
  Qed.

  Lemma contains_dot_bytes s : contains_dot s = true -> In 46%N (bytes_of s).
  Proof.
    induction s as [|c s IH]; cbn; [discriminate|]. intro E. apply orb_true_iff in E. destruct E as [E|E].
    - left. unfold is_dot in E. apply Ascii.eqb_eq in E. subst c. reflexivity.
    - right. apply IH, E.
  Qed.

  Lemma valid_name_no_dot s : valid_name s -> contains_dot s = false.
  Proof.
    intros (c & r & E & Hc & Hr). destruct (contains_dot s) eqn:Hd; [|reflexivity]. exfalso.
    apply contains_dot_bytes in Hd. apply (decode_ascii 46 _ ltac:(lia)) in Hd.
    fold (chars s) in Hd. rewrite E in Hd. destruct Hd as [->|Hd].
    - destruct Hc as [Hc|Hc]; [|discriminate]. cbn in Hc. discriminate.
    - rewrite Forall_forall in Hr. destruct (Hr _ Hd) as [Hp|Hp]; [|discriminate]. cbn in Hp. discriminate.
  Qed.

  Lemma valid_name_nonempty s : valid_name s -> s <> "".
  Proof. intros (c & r & E & _) ->. discriminate. Qed.

  Lemma valid_namespace_iff ns :
    match ns with
    | None => true
    | Some n => if str_is_empty n then true else forallb is_valid_avro_name (split_dot n)
    end = true <-> valid_namespace (nsof ns).
  Proof.
    unfold valid_namespace, nsof. destruct ns as [n|]; [|tauto].
    destruct (str_is_empty n) eqn:E.
    - apply str_is_empty_eq in E. tauto.
    - rewrite forallb_forall. split.
      + intro Hv. right. exists (split_dot n). repeat split.
        * apply split_dot_nonnil.
        * symmetry. apply join_split.
        * apply Forall_forall. intros x Hx. apply valid_name_iff, Hv, Hx.
      + intros [->|(segs & Hn & -> & Hs)]; [discriminate|]. rewrite split_join; [|exact Hn|].
        * intros x Hx. apply valid_name_iff. rewrite Forall_forall in Hs. exact (Hs x Hx).
        * eapply Forall_impl; [|exact Hs]. intros a. apply valid_name_no_dot.
  Qed.

  Lemma validate_schema_name_iff n ns :
    validate_schema_name n ns = true <-> valid_name n /\ valid_namespace (nsof ns).
  Proof.
    unfold validate_schema_name. rewrite andb_true_iff, valid_name_iff, valid_namespace_iff. reflexivity.
  Qed.

  Lemma make_full_name_fullname n ns : make_full_name n ns = fullname n ns.
  Proof. unfold make_full_name, fullname, qualify, nsof. destruct ns as [x|]; [|reflexivity].
    destruct (str_is_empty x); reflexivity. Qed.

  Lemma registrable_fun s f g : registrable s f -> registrable s g -> f = g.
  Proof.
    intros (n & ns & D & -> & _) (n' & ns' & D' & -> & _).
    destruct D; inversion D'; subst; reflexivity.
  Qed.

  (** [register] decides [registrable] and freshness. *)
  Lemma register_cases r s :
    match register r s with
    | Ok r' => exists full, registrable s full /\ ~ In full (keys r) /\ r' = r ++ [(full, s)]
    | Err (DuplicateName full) => registrable s full /\ In full (keys r)
    | Err _ => forall full, ~ registrable s full
    end.
  Proof.
    unfold register.
    assert (Hv : forall n ns, defines s n ns -> full_name s = Some (fullname n ns)).
    { intros n ns D. destruct D; cbn [full_name]; rewrite make_full_name_fullname; reflexivity. }
    assert (Hcase : (exists n ns, defines s n ns) \/ (forall n ns, ~ defines s n ns)).
    { destruct s; try (right; intros n' ns' D; inversion D; fail); left; do 2 eexists; constructor. }
    destruct Hcase as [(n & ns & D)|Hnone].
    - rewrite (Hv n ns D).
      assert (Hif : validate_schema_name n ns = true <-> registrable s (fullname n ns)).
      { rewrite validate_schema_name_iff. split.
        - intros [A B]. exists n, ns. auto.
        - intros (n' & ns' & D' & _ & A & B). destruct D; inversion D'; subst; auto. }
      assert (Hf : validate_schema_name n ns = false -> forall full, ~ registrable s full).
      { intros E full (n' & ns' & D' & _ & A & B).
        assert (validate_schema_name n ns = true); [|congruence].
        apply validate_schema_name_iff. destruct D; inversion D'; subst; auto. }
      destruct D; destruct (validate_schema_name n ns) eqn:E;
        try (exact (Hf eq_refl));
        (destruct (assoc (fullname n ns) r) eqn:Ea;
         [ split; [apply Hif; reflexivity | apply assoc_Some_In_keys in Ea; exact Ea]
         | exists (fullname n ns); split; [apply Hif; reflexivity|]; split;
           [apply assoc_None in Ea; exact Ea | reflexivity] ]).
    - assert (Hn : forall full, ~ registrable s full).
      { intros full (n & ns & D & _). exact (Hnone n ns D). }
      destruct s; cbn [full_name]; try exact Hn; exfalso; eapply Hnone; constructor.
  Qed.

  Lemma register_ignoring_cases r s :
    (exists full, registrable s full /\ ~ In full (keys r)
                  /\ register r s = Ok (r ++ [(full, s)]) /\ register_ignoring r s = r ++ [(full, s)])
    \/ ((forall full, registrable s full -> In full (keys r))
        /\ (exists e, register r s = Err e) /\ register_ignoring r s = r).
  Proof.
    pose proof (register_cases r s) as Hc. unfold register_ignoring.
    destruct (register r s) as [r'|e].
    - left. destruct Hc as (full & A & B & ->). exists full. auto.
    - right. split; [|split; [exists e; reflexivity|reflexivity]]. destruct e; try (intros f Hf; exfalso; exact (Hc f Hf)).
      destruct Hc as [A B]. intros f Hf. rewrite (registrable_fun _ _ _ Hf A). exact B.
  Qed.

  Lemma keys_app {A} (a b : list (string * A)) : keys (a ++ b) = keys a ++ keys b.
  Proof. apply map_app. Qed.

  Lemma registry_after_NoDup r l : NoDup (keys r) -> NoDup (keys (registry_after r l)).
  Proof.
    unfold registry_after. revert r. induction l as [|s l IH]; intros r Hr; [exact Hr|]. cbn. apply IH.
    destruct (register_ignoring_cases r s) as [(full & _ & Hn & _ & ->)|(_ & _ & ->)]; [|exact Hr].
    rewrite keys_app. cbn.
    apply (Permutation.Permutation_NoDup (Permutation.Permutation_cons_append (keys r) full)).
    constructor; assumption.
  Qed.

  Lemma registry_after_assoc r l full s :
    assoc full (registry_after r l) = Some s <->
    assoc full r = Some s \/ (assoc full r = None /\ first_registrable l full s).
  Proof.
    unfold registry_after. revert r. induction l as [|x l IH]; intros r; cbn [fold_left].
    - split; [auto|]. intros [E|[_ (b & a & E & _)]]; [exact E|]. destruct b; discriminate.
    - rewrite IH. destruct (register_ignoring_cases r x) as [(f & Hx & Hn & _ & ->)|(Hx & _ & ->)].
      + apply assoc_None in Hn. rewrite assoc_app. cbn [assoc].
        destruct (assoc full r) eqn:Er.
        * split; [intros [E|[E _]]; [left; exact E|discriminate]|].
          intros [E|[E _]]; [left; exact E|discriminate].
        * destruct (String.eqb full f) eqn:Ef.
          -- apply String.eqb_eq in Ef. subst f. split.
             ++ intros [E|[E _]]; [|discriminate]. injection E as <-. right. split; [reflexivity|].
                exists [], l. split; [reflexivity|]. split; [exact Hx|]. intros s' [].
             ++ intros [E|[_ (b & a & E & Hs & Hb)]]; [discriminate|]. left.
                destruct b as [|y b]; injection E as <- _; [reflexivity|].
                exfalso. exact (Hb _ (or_introl eq_refl) Hx).
          -- apply String.eqb_neq in Ef. split.
             ++ intros [E|[_ (b & a & -> & Hs & Hb)]]; [discriminate|]. right. split; [reflexivity|].
                exists (x :: b), a. split; [reflexivity|]. split; [exact Hs|].
                intros s' [<-|Hin]; [|exact (Hb _ Hin)]. intro Hy. apply Ef. exact (registrable_fun _ _ _ Hy Hx).
             ++ intros [E|[_ (b & a & E & Hs & Hb)]]; [discriminate|]. right. split; [reflexivity|].
                destruct b as [|y b]; injection E as E1 E2.
                ** subst x. exfalso. apply Ef. exact (registrable_fun _ _ _ Hs Hx).
                ** exists b, a. split; [exact E2|]. split; [exact Hs|]. intros s' Hin. apply Hb. right. exact Hin.
      + split.
        * intros [E|[E (b & a & -> & Hs & Hb)]]; [left; exact E|right]. split; [exact E|].
          exists (x :: b), a. split; [reflexivity|]. split; [exact Hs|].
          intros s' [<-|Hin]; [|exact (Hb _ Hin)]. intro Hy. apply Hx in Hy. apply assoc_None in E. contradiction.
        * intros [E|[E (b & a & E2 & Hs & Hb)]]; [left; exact E|right]. split; [exact E|].
          destruct b as [|y b]; injection E2 as E2 E3.
          -- subst x. exfalso. apply Hx in Hs. apply assoc_None in E. contradiction.
          -- exists b, a. split; [exact E3|]. split; [exact Hs|]. intros s' Hin. apply Hb. right. exact Hin.
  Qed.

  Lemma registry_after_shape r l :
    exists new, registry_after r l = r ++ new /\ sublist (map snd new) l
                /\ Forall (fun kv => registrable (snd kv) (fst kv)) new.
  Proof.
    unfold registry_after. revert r. induction l as [|x l IH]; intros r; cbn [fold_left].
    - exists []. rewrite app_nil_r. repeat constructor.
    - destruct (IH (register_ignoring r x)) as (new & E & Hs & Hf). rewrite E.
      destruct (register_ignoring_cases r x) as [(f & Hx & _ & _ & ->)|(_ & _ & ->)].
      + exists ((f, x) :: new). rewrite <- app_assoc. split; [reflexivity|]. split.
        * cbn. apply sub_keep. exact Hs.
        * constructor; assumption.
      + exists new. split; [reflexivity|]. split; [apply sub_skip; exact Hs|exact Hf].
  Qed.

  (** Of two registered types the one registered first comes first. *)
  Lemma registry_after_split r l1 l2 :
    registry_after r (l1 ++ l2) = registry_after (registry_after r l1) l2.
  Proof. apply fold_left_app. Qed.

  Lemma register_fail_stable r s e l :
    register r s = Err e -> exists e', register (registry_after r l) s = Err e'.
  Proof.
    intro E. destruct (registry_after_shape r l) as (new & -> & _).
    destruct (register_ignoring_cases r s) as [(f & _ & _ & E' & _)|(Hx & _ & _)]; [congruence|].
    destruct (register_ignoring_cases (r ++ new) s) as [(f & Hf & Hn & _)|(_ & (e' & E') & _)]; [|exists e'; exact E'].
    exfalso. apply Hn. rewrite keys_app. apply in_or_app. left. exact (Hx f Hf).
  Qed.
End Valid.
