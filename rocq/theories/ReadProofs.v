(** Consequences of what a file denotes, as the properties need them. *)
From Verif Require Import SpecFile BaseProofs NameProofs ReaderProofs TypeProofs PatternProofs DeclProofs FileProofs AnnotProofs AttrProofs DenoteProofs ObjectProofs.

Section Consequences.
  Context `{Unicode} `{Floats}.

  Lemma declares_tree start l (ident : located) its n ns : declares ident l None n ns -> tree_namespace (TreeProtocol start l ident its) ns.
  Proof. intro Hd. econstructor; eauto. Qed.

  Lemma items_types tokens ns its items :
    Forall2 (item_denotes tokens ns) (filter (fun it => match it with ItMessage _ => false | _ => true end) its) items ->
    Forall2 (named_denotes tokens ns) (flat_map (fun it => match it with ItNamed d _ => [d] | _ => [] end) its) (declared_types items).
  Proof.
    revert items. induction its as [|it its IH]; intros items Hf; [inversion Hf; constructor|].
    destruct it as [k path|d|m]; cbn in *.
    - inversion Hf as [|x y l l' Hi Hr]; subst. inversion Hi; subst. cbn. auto.
    - inversion Hf as [|x y l l' Hi Hr]; subst. inversion Hi; subst. cbn. constructor; auto.
    - auto.
  Qed.
  Lemma file_types tokens t file items : file_denotes tokens t file items ->
    exists ns, tree_namespace t ns /\ Forall2 (named_denotes tokens ns) (tree_types t) (declared_types items).
  Proof.
    intro Hd. inversion Hd; subst.
    - exists (p_namespace p). split; [econstructor; eauto|]. now apply items_types.
    - exists ns. split; [assumption|]. now apply items_types.
    - exists ns. split; [assumption|]. now apply items_types.
  Qed.
  Lemma file_messages tokens t p items : file_denotes tokens t (IProtocol p) items ->
    tree_namespace t (p_namespace p) /\ forall name msg, In (name, msg) (p_messages p) ->
      exists m, last_message t name m /\ message_denotes tokens (p_namespace p) m msg.
  Proof. intro Hd. inversion Hd; subst. split; [econstructor; eauto|assumption]. Qed.

  Lemma tree_namespace_det t ns ns' : tree_namespace t ns -> tree_namespace t ns' -> ns = ns'.
  Proof.
    intros H1 H2. destruct H1 as [start l ident its n ns D1|main its|ident main its]; inversion H2; subst; try reflexivity.
    match goal with D2 : declares _ _ _ _ _ |- _ => rename D2 into D2' end.
    inversion D1 as [q a Q1|s Q1 A1|Q1 A1]; inversion D2' as [q' a' Q2|s' Q2 A2|Q2 A2]; subst; try reflexivity; try congruence.
    - apply rsplit_qualified in Q1, Q2. congruence.
    - apply rsplit_qualified in Q1. apply rsplit_None in Q2. congruence.
    - apply rsplit_qualified in Q1. apply rsplit_None in Q2. congruence.
    - apply rsplit_qualified in Q2. apply rsplit_None in Q1. congruence.
    - pose proof (annotated_det _ _ _ _ A1 A2) as E. injection E as ->. reflexivity.
    - exfalso. apply A2. eapply annotated_mentioned; eauto.
    - apply rsplit_qualified in Q2. apply rsplit_None in Q1. congruence.
    - exfalso. apply A1. eapply annotated_mentioned; eauto.
  Qed.

  (** ** References *)
  Lemma annotated_as_refs l s s' : annotated_as l s s' -> schema_refs s' = schema_refs s.
  Proof.
    induction 1 as [s Hl|s s' Ha IH|ts|s s' Hs _|]; try reflexivity.
    - cbn. now rewrite IH.
    - inversion Hs as [a b p C1 C2|i ps ps'|i ps ps']; subst; try reflexivity.
      destruct s; try discriminate; destruct s'; try discriminate; reflexivity.
  Qed.
  Lemma denotes_refs :
    (forall t ns s, denotes ns t s -> Forall2 (refers ns) (type_idents t) (schema_refs s)) /\
    (forall p ns s, denotes_plain ns p s -> Forall2 (refers ns) (plain_idents p) (schema_refs s)).
  Proof.
    apply types_ind.
    - intros pl l p IH ns s Hd. inversion Hd as [pl' l' p' s0 s' Hp Hl Hr Ha]; subst. cbn. rewrite (annotated_as_refs _ _ _ Ha). auto.
    - intros t IH ns s Hd. inversion Hd; subst. cbn. auto.
    - intros t IH ns s Hd. inversion Hd; subst. cbn. auto.
    - intros ts IH ns s Hd. inversion Hd as [| | | | | | | |ts' ss Hts Hl]; subst. cbn [plain_idents schema_refs]. clear Hd Hl.
      induction Hts as [|t s ts ss Ht Hts IHts]; [constructor|]. inversion IH; subst. cbn [flat_map]. apply Forall2_app; auto.
    - intros b o ns s Hd. destruct o.
      + inversion Hd as [| | | | |b' s0 Hd0 Hn| | |]; subst. cbn. rewrite app_nil_r. destruct b as [k kp|i sp].
        * inversion Hd0; subst; constructor.
        * inversion Hd0; subst. cbn. constructor; [assumption|constructor].
      + destruct b as [k kp|i sp]; inversion Hd; subst; cbn; constructor; [assumption|constructor].
  Qed.
  Lemma variable_refs ns v ft s : variable_type ns v ft s -> Forall2 (refers ns) (type_idents ft) (schema_refs s).
  Proof.
    intro Hv. inversion Hv as [pl l b s0 Hd Hn|pl l b s0 Hd Hn|pl l p s0 Hp Hd]; subst.
    - apply (proj1 denotes_refs) in Hd. cbn in *. now rewrite app_nil_r.
    - apply (proj1 denotes_refs) in Hd. cbn in *. now rewrite app_nil_r.
    - now apply (proj1 denotes_refs) in Hd.
  Qed.
  Lemma Forall2_flat_map {A B C D} (R : C -> D -> Prop) (Q : A -> B -> Prop) (f : A -> list C) (g : B -> list D) l m :
    (forall x y, Q x y -> Forall2 R (f x) (g y)) -> Forall2 Q l m -> Forall2 R (flat_map f l) (flat_map g m).
  Proof. intros Hq. induction 1; cbn; [constructor|]. apply Forall2_app; auto. Qed.
  Lemma message_refs tokens ns m msg : message_denotes tokens ns m msg ->
    Forall2 (refers ns) (message_idents m) (message_schema_refs msg).
  Proof.
    intro Hd. unfold message_idents, message_schema_refs. apply Forall2_app; [|apply Forall2_app].
    - eapply Forall2_flat_map; [|apply (me_request _ _ _ _ Hd)]. intros p f Hf. apply (variable_refs ns (pa_variable p)). exact (vd_type _ _ _ _ _ _ Hf).
    - pose proof (me_response _ _ _ _ Hd) as Hr. inversion Hr as [E1 E2|p s Hp E1 E2].
      + cbn. constructor.
      + apply (proj2 denotes_refs) in Hp. exact Hp.
    - pose proof (me_errors _ _ _ _ Hd) as He. inversion He as [E1 E2|e es ss Hf E1 E2]; [constructor|].
      clear -Hf. induction Hf as [|x s l ss (n & q & Hr & ->) Hf IH]; cbn; constructor; auto.
  Qed.

  (** ** Doc comments *)
  Lemma file_docs `{Parser} label src tokens t file items ws : reads label src tokens t file items ws ->
    forall i, In (OrphanedDoc i) ws <->
      is_doc_token tokens i /\ forall s, In s (tree_starts t) -> ~ immediately_precedes tokens i s.
  Proof.
    intros Hr i. apply reads_walk in Hr. destruct Hr as (evs & lw & Hw & ->).
    pose proof (walk_idl_file_consumes tokens t _ _ Hw i) as Hc.
    rewrite !in_app_iff.
    assert (E1 : ~ In (OrphanedDoc i) (map LexerWarning lw)) by (intro Hi; apply in_map_iff in Hi; destruct Hi as (x & Hx & _); discriminate).
    assert (E2 : ~ In (OrphanedDoc i) (map WalkWarning (warned_of evs))) by (intro Hi; apply in_map_iff in Hi; destruct Hi as (x & Hx & _); discriminate).
    assert (E3 : In (OrphanedDoc i) (map OrphanedDoc (orphaned_doc_comments tokens (consumed_of evs))) <->
                 In i (orphaned_doc_comments tokens (consumed_of evs))).
    { rewrite in_map_iff. split; [intros (x & Hx & Hi); congruence|eauto]. }
    rewrite E3, orphaned_iff, Hc. split.
    - intros [Hi|[[Hd Hn]|Hi]]; [contradiction| |contradiction]. split; [exact Hd|]. intros s Hs Hp. apply Hn. eauto.
    - intros [Hd Hn]. right. left. split; [exact Hd|]. intros (s & Hs & Hp). exact (Hn s Hs Hp).
  Qed.
End Consequences.
