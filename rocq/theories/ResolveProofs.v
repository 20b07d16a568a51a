(** When resolution for default validation gives up, and that its result does
    not depend on the fuel. *)
From Verif Require Import BaseProofs Defaults SpecDefaults DefaultsProofs.

(** ** More fuel, same result *)

Lemma map_visit_ext {A B} (f g : A -> list string -> option (option B * list string)) l vis r :
  (forall x v r, In x l -> f x v = Some r -> g x v = Some r) ->
  map_visit f l vis = Some r -> map_visit g l vis = Some r.
Proof.
  revert vis r. induction l as [|x l IH]; cbn; intros vis r Hfg E; [auto|].
  destruct (f x vis) as [[y v]|] eqn:Ef; [|discriminate].
  rewrite (Hfg _ _ _ (or_introl eq_refl) Ef). destruct y as [y|]; auto.
  destruct (map_visit f l v) as [p|] eqn:Em; [|discriminate].
  rewrite (IH _ _ (fun x v r Hi => Hfg x v r (or_intror Hi)) Em). exact E.
Qed.

Lemma resolve_more_fuel env fuel : forall fuel' s vis r,
  resolve_inner fuel env s vis = Some r -> fuel <= fuel' -> resolve_inner fuel' env s vis = Some r.
Proof.
  induction fuel as [|fuel IH]; intros fuel' s vis r E L; [discriminate|].
  destruct fuel' as [|fuel']; [lia|]. apply le_S_n in L.
  destruct s; try exact E.
  - rewrite resolve_record in *.
    destruct (map_visit (field_step env fuel) fields _) as [p|] eqn:Em; [|discriminate].
    rewrite (map_visit_ext _ (field_step env fuel') _ _ _ ) with (2 := Em); auto.
    intros f v q _ Es. unfold field_step in *.
    destruct (resolve_inner fuel env (f_schema f) v) as [[t w]|] eqn:Et; [|discriminate].
    rewrite (IH _ _ _ _ Et L). exact Es.
  - cbn in *. destruct (resolve_inner fuel env s vis) as [p|] eqn:Et; [|discriminate].
    rewrite (IH _ _ _ _ Et L). exact E.
  - cbn in *. destruct (resolve_inner fuel env s vis) as [p|] eqn:Et; [|discriminate].
    rewrite (IH _ _ _ _ Et L). exact E.
  - rewrite resolve_union in *.
    destruct (map_visit (resolve_inner fuel env) types _) as [p|] eqn:Em; [|discriminate].
    rewrite (map_visit_ext _ (resolve_inner fuel' env) _ _ _ ) with (2 := Em); eauto.
  - cbn in *. destruct (str_mem _ vis); auto. destruct (env _); eauto.
Qed.

Lemma resolve_for_validation_more env fuel fuel' s r :
  resolve_for_validation fuel s env = Some r -> fuel <= fuel' ->
  resolve_for_validation fuel' s env = Some r.
Proof.
  unfold resolve_for_validation. intros E L.
  destruct (resolve_inner fuel env s []) as [[t v]|] eqn:Et; [|discriminate].
  rewrite (resolve_more_fuel _ _ _ _ _ _ Et L). exact E.
Qed.

(** ** Giving up means a name is missing *)

Lemma map_visit_None {A B} (f : A -> list string -> option (option B * list string)) l vis v :
  map_visit f l vis = Some (None, v) -> exists x w w', In x l /\ f x w = Some (None, w').
Proof.
  revert vis. induction l as [|x l IH]; cbn; intros vis E; [discriminate|].
  destruct (f x vis) as [[[y|] v']|] eqn:Ef; try discriminate.
  - destruct (map_visit f l v') as [[[ys|] v'']|] eqn:Em; try discriminate.
    injection E as <-. destruct (IH _ Em) as (z & w & w' & Hz & Ez). eauto 6.
  - eauto 6.
Qed.

Lemma resolve_None env fuel : forall s vis v,
  resolve_inner fuel env s vis = Some (None, v) ->
  exists full, mentions env s full /\ env full = None.
Proof.
  induction fuel as [|fuel IH]; intros s vis v E; [discriminate|].
  destruct s; try discriminate.
  - rewrite resolve_record in E.
    destruct (map_visit (field_step env fuel) fields _) as [[[fs'|] v']|] eqn:Em; try discriminate.
    apply map_visit_None in Em. destruct Em as (f & w & w' & Hf & Es). unfold field_step in Es.
    destruct (resolve_inner fuel env (f_schema f) w) as [[[t|] u]|] eqn:Et; try discriminate.
    destruct (IH _ _ _ Et) as (full & Hm & Hn). exists full. split; auto. eapply me_record; eauto.
  - cbn in E. destruct (resolve_inner fuel env s vis) as [[[t|] u]|] eqn:Et; try discriminate.
    destruct (IH _ _ _ Et) as (full & Hm & Hn). exists full. split; auto. constructor; auto.
  - cbn in E. destruct (resolve_inner fuel env s vis) as [[[t|] u]|] eqn:Et; try discriminate.
    destruct (IH _ _ _ Et) as (full & Hm & Hn). exists full. split; auto. constructor; auto.
  - rewrite resolve_union in E.
    destruct (map_visit (resolve_inner fuel env) types _) as [[[ts'|] v']|] eqn:Em; try discriminate.
    apply map_visit_None in Em. destruct Em as (t & w & w' & Ht & Es).
    destruct (IH _ _ _ Es) as (full & Hm & Hn). exists full. split; auto. eapply me_union; eauto.
  - cbn in E. destruct (str_mem _ vis); [discriminate|].
    destruct (env (make_full_name name ns)) as [t|] eqn:En.
    + destruct (IH _ _ _ E) as (full & Hm & Hn). exists full. split; auto. eapply me_follow; eauto.
    + exists (make_full_name name ns). split; auto. constructor.
Qed.

(** ** A missing name is never overlooked *)

Section Complete.
  Variable reg : registry.
  Hypothesis Hreg : flat_registry reg.
  Let env := fun n => assoc n reg.

  (** [mentions] with the number of references followed. *)
  Inductive mentions_n : nat -> schema -> string -> Prop :=
  | mn_ref n ns ps sp : mentions_n 0 (SRef n ns ps sp) (make_full_name n ns)
  | mn_follow k n ns ps sp t full :
      env (make_full_name n ns) = Some t -> mentions_n k t full -> mentions_n (S k) (SRef n ns ps sp) full
  | mn_record k n ns d fs e al ps f full :
      In f fs -> mentions_n k (f_schema f) full -> mentions_n k (SRecord n ns d fs e al ps) full
  | mn_array k i ps full : mentions_n k i full -> mentions_n k (SArray i ps) full
  | mn_map k i ps full : mentions_n k i full -> mentions_n k (SMap i ps) full
  | mn_union k ts b t full : In t ts -> mentions_n k t full -> mentions_n k (SUnion ts b) full.

  (** [mentions] along references that avoid [vis] and do not repeat. *)
  Inductive mentions_av : list string -> schema -> string -> Prop :=
  | ma_ref vis n ns ps sp :
      ~ In (make_full_name n ns) vis -> mentions_av vis (SRef n ns ps sp) (make_full_name n ns)
  | ma_follow vis n ns ps sp t full :
      ~ In (make_full_name n ns) vis -> env (make_full_name n ns) = Some t ->
      mentions_av (make_full_name n ns :: vis) t full -> mentions_av vis (SRef n ns ps sp) full
  | ma_record vis n ns d fs e al ps f full :
      In f fs -> mentions_av vis (f_schema f) full -> mentions_av vis (SRecord n ns d fs e al ps) full
  | ma_array vis i ps full : mentions_av vis i full -> mentions_av vis (SArray i ps) full
  | ma_map vis i ps full : mentions_av vis i full -> mentions_av vis (SMap i ps) full
  | ma_union vis ts b t full : In t ts -> mentions_av vis t full -> mentions_av vis (SUnion ts b) full.

  Lemma mentions_count s full : mentions env s full -> exists k, mentions_n k s full.
  Proof.
    induction 1 as [| ? ? ? ? ? ? ? ? [k IH] | ? ? ? ? ? ? ? ? ? ? ? [k IH] | ? ? ? ? [k IH]
                   | ? ? ? ? [k IH] | ? ? ? ? ? ? [k IH]];
      eexists; econstructor; eauto.
  Qed.

  Lemma simple_path full : env full = None -> forall k s vis,
    (forall n, In n vis -> env n <> None) ->
    mentions_n k s full ->
    mentions_av vis s full
    \/ exists n t k', In n vis /\ env n = Some t /\ k' < k /\ mentions_n k' t full.
  Proof.
    intros Hnone k. induction k as [k IHk] using lt_wf_ind. intros s vis Hvis Hm.
    induction Hm as [n ns ps sp|k n ns ps sp t full En Hm _|k n ns d fs e al ps f full Hf Hm IHm
                    |k i ps full Hm IHm|k i ps full Hm IHm|k ts b t full Ht Hm IHm].
    - left. constructor. intro Hi. exact (Hvis _ Hi Hnone).
    - destruct (in_dec string_dec (make_full_name n ns) vis) as [Hi|Hn].
      + right. exists (make_full_name n ns), t, k. auto.
      + assert (Q : forall k', k' <= k -> mentions_n k' t full ->
          mentions_av (make_full_name n ns :: vis) t full
          \/ exists m u k'', In m vis /\ env m = Some u /\ k'' < S k /\ mentions_n k'' u full).
        { intro k'. induction k' as [k' IHk'] using lt_wf_ind. intros Hle Hm'.
          destruct (IHk k') with (s := t) (vis := make_full_name n ns :: vis) as [Ha|(m & u & k'' & Hi & Eu & Hl & Hu)].
          - lia.
          - intros m [<-|Hi]; [rewrite En; discriminate|auto].
          - exact Hm'.
          - auto.
          - destruct Hi as [<-|Hi].
            + rewrite En in Eu. injection Eu as <-. apply (IHk' k''); auto. lia.
            + right. exists m, u, k''. repeat split; auto. lia. }
        destruct (Q k (le_n _) Hm) as [Ha|Hr]; [left; eapply ma_follow; eauto|right; auto].
    - destruct (IHm Hnone IHk) as [Ha|Hr]; [left; eapply ma_record; eauto|auto].
    - destruct (IHm Hnone IHk) as [Ha|Hr]; [left; constructor; auto|auto].
    - destruct (IHm Hnone IHk) as [Ha|Hr]; [left; constructor; auto|auto].
    - destruct (IHm Hnone IHk) as [Ha|Hr]; [left; eapply ma_union; eauto|auto].
  Qed.

  Lemma resolve_restores fuel : forall s vis r vis',
    no_inline s = true -> resolve_inner fuel env s vis = Some (Some r, vis') -> vis' = vis.
  Proof.
    intros s vis r vis' Hs E.
    destruct (resolve_terminates reg Hreg (S (fuel + (schema_height s + waiting reg vis *
        S (fold_right (fun kv n => Nat.max (schema_height (snd kv)) n) 0 reg)))) s vis) as ([t v] & Et & Hv).
    - left. split; [auto|lia].
    - apply resolve_more_fuel with (fuel' := S (fuel + (schema_height s + waiting reg vis *
        S (fold_right (fun kv n => Nat.max (schema_height (snd kv)) n) 0 reg)))) in E; [|lia].
      fold env in Et. rewrite Et in E. injection E as -> ->. cbn in Hv. eauto.
  Qed.

  Lemma resolve_sees fuel : forall s vis r vis' full,
    no_inline s = true -> resolve_inner fuel env s vis = Some (Some r, vis') ->
    mentions_av vis s full -> env full <> None.
  Proof.
    induction fuel as [fuel IHf] using lt_wf_ind. intros s vis r vis' full Hs E Hm.
    destruct fuel as [|fuel]; [discriminate|].
    assert (IH : forall s vis r vis' full,
      no_inline s = true -> resolve_inner fuel env s vis = Some (Some r, vis') ->
      mentions_av vis s full -> env full <> None) by (intros; eapply (IHf fuel); eauto).
    destruct s; try (inversion Hm; fail).
    - discriminate.
    - cbn in E, Hs. destruct (resolve_inner fuel env s vis) as [[[t|] u]|] eqn:Et; try discriminate.
      inversion Hm; subst. eauto.
    - cbn in E, Hs. destruct (resolve_inner fuel env s vis) as [[[t|] u]|] eqn:Et; try discriminate.
      inversion Hm; subst. eauto.
    - rewrite resolve_union in E. cbn in Hs. rewrite forallb_forall in Hs.
      destruct (map_visit (resolve_inner fuel env) types _) as [[[ts'|] v']|] eqn:Em; try discriminate.
      inversion Hm as [| | | | |? ? ? t ? Ht Hmt]; subst.
      apply (map_visit_inv _ (fun t _ => forall full, mentions_av vis t full -> env full <> None)
               (fun v => v = vis)) in Em; auto.
      + destruct Em as [F _]. destruct (Forall2_in_l _ _ _ _ F Ht) as (t' & _ & Hx). auto.
      + intros x v y v'' Hx -> Ex. split; [intros g Hg; exact (IH _ _ _ _ _ (Hs _ Hx) Ex Hg)|exact (resolve_restores fuel _ _ _ _ (Hs _ Hx) Ex)].
    - cbn in E. destruct (str_mem (make_full_name name ns) vis) eqn:Hv.
      + apply str_mem_In in Hv. inversion Hm; subst; contradiction.
      + destruct (env (make_full_name name ns)) as [t|] eqn:En; [|discriminate].
        inversion Hm as [|? ? ? ? ? t' ? Hn En' Hmt| | | |]; subst; [congruence|].
        assert (t' = t) by congruence. subst t'.
        destruct (Hreg _ _ En) as [Hfl Hfn].
        destruct t; try discriminate Hfl; try (inversion Hmt; fail).
        destruct fuel as [|fuel]; [discriminate|]. rewrite resolve_record in E.
        cbn in Hfn. injection Hfn as Hfn. rewrite Hfn in E.
        assert (Hvi : vis_insert (make_full_name name ns) vis = make_full_name name ns :: vis).
        { unfold vis_insert. rewrite Hv. reflexivity. }
        rewrite Hvi in E.
        destruct (map_visit (field_step env fuel) fields _) as [[[fs'|] v']|] eqn:Em; try discriminate.
        inversion Hmt as [| |? ? ? ? ? ? ? ? f ? Hf Hmf| | |]; subst. cbn in Hfl. rewrite forallb_forall in Hfl.
        apply (map_visit_inv _ (fun f _ => forall full, mentions_av (make_full_name name ns :: vis) (f_schema f) full
                 -> env full <> None) (fun v => v = make_full_name name ns :: vis)) in Em; auto.
        * destruct Em as [F _]. destruct (Forall2_in_l _ _ _ _ F Hf) as (t' & _ & Hx). auto.
        * intros x v y v'' Hx -> Ex. apply field_step_Some in Ex. destruct Ex as (u & Eu & ->).
          split; [|exact (resolve_restores fuel _ _ _ _ (Hfl _ Hx) Eu)].
          intros g Hg. refine (IHf fuel _ _ _ _ _ _ (Hfl _ Hx) Eu Hg). lia.
  Qed.

  (** Resolution gives up exactly if some mentioned name is not registered. *)
  Lemma resolve_gives_up_iff s fuel :
    no_inline s = true -> resolve_fuel reg s <= fuel ->
    (resolve_for_validation fuel s env = Some None
     <-> exists full, mentions env s full /\ env full = None).
  Proof.
    intros Hs Hf. unfold resolve_for_validation.
    destruct (resolve_fuel_enough reg Hreg s fuel Hs Hf) as [r Er].
    unfold resolve_for_validation in Er. fold env in Er.
    destruct (resolve_inner fuel env s []) as [[t v]|] eqn:Et; [|discriminate].
    injection Er as ->. split.
    - intros [= ->]. eapply resolve_None; eauto.
    - intros (full & Hm & Hn). destruct r as [r|]; auto. exfalso.
      destruct (mentions_count _ _ Hm) as [k Hk].
      destruct (simple_path full Hn k s []) as [Ha|(n & t & k' & [] & _)]; auto.
      eapply resolve_sees; eauto.
  Qed.
End Complete.

(** ** What the record check reports *)

Lemma field_errors_in fuel env fs errs :
  field_default_errors fuel env fs = Some errs ->
  forall n reason, In (n, reason) errs <->
    exists f d t, In f fs /\ f_name f = n /\ f_default f = Some d
      /\ resolve_for_validation fuel (f_schema f) env = Some (Some t)
      /\ validate_default d t = Some reason.
Proof.
  revert errs. induction fs as [|f fs IH]; cbn; intros errs E n reason.
  - injection E as <-. split; [intros []|]. intros (f & d & t & [] & _).
  - destruct (field_default_errors fuel env fs) as [b|] eqn:Eb; [|destruct (f_default f) as [dv|];
      [destruct (resolve_for_validation fuel (f_schema f) env) as [[t|]|]; try destruct (validate_default dv t)|];
      discriminate].
    specialize (IH b eq_refl n reason).
    destruct (f_default f) as [dv|] eqn:Ed.
    + destruct (resolve_for_validation fuel (f_schema f) env) as [[t|]|] eqn:Er; [| |discriminate].
      * destruct (validate_default dv t) as [m|] eqn:Ev; injection E as <-.
        -- cbn. rewrite IH. split.
           ++ intros [[= <- <-]|(g & d & u & Hg & R)]; [exists f, dv, t; auto|exists g, d, u; tauto].
           ++ intros (g & d & u & [<-|Hg] & <- & Hd & Hu & Hv); [left; congruence|right; eauto 8].
        -- cbn. rewrite IH. split.
           ++ intros (g & d & u & Hg & R). exists g, d, u; tauto.
           ++ intros (g & d & u & [<-|Hg] & <- & Hd & Hu & Hv); [congruence|eauto 8].
      * injection E as <-. cbn. rewrite IH. split.
        -- intros (g & d & u & Hg & R). exists g, d, u; tauto.
        -- intros (g & d & u & [<-|Hg] & <- & Hd & Hu & Hv); [congruence|eauto 8].
    + injection E as <-. cbn. rewrite IH. split.
      * intros (g & d & u & Hg & R). exists g, d, u; tauto.
      * intros (g & d & u & [<-|Hg] & <- & Hd & Hu & Hv); [congruence|eauto 8].
Qed.
