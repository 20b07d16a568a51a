(** Proofs about whole files: what is read for each declaration. *)
From Verif Require Import SpecReader BaseProofs NameProofs ReaderProofs TypeProofs PatternProofs DeclProofs.

Lemma Forall2_in_r {A B} (R : A -> B -> Prop) l m y : Forall2 R l m -> In y m -> exists x, In x l /\ R x y.
Proof. induction 1 as [|a b l m Hab H IH]; intros []; [subst; exists a; split; [now left|exact Hab]|]. destruct IH as (x & Hx & Hr); [assumption|]. exists x. split; [now right|exact Hr]. Qed.
Lemma Forall2_in_l {A B} (R : A -> B -> Prop) l m x : Forall2 R l m -> In x l -> exists y, In y m /\ R x y.
Proof. induction 1 as [|a b l m Hab H IH]; intros []; [subst; exists b; split; [now left|exact Hab]|]. destruct IH as (y & Hy & Hr); [assumption|]. exists y. split; [now right|exact Hr]. Qed.
Lemma Forall2_imp {A B} (R R' : A -> B -> Prop) l m : (forall x y, R x y -> R' x y) -> Forall2 R l m -> Forall2 R' l m.
Proof. intros Hi. induction 1; constructor; auto. Qed.

Lemma assoc_In_iff {A} k (v : A) l : NoDup (keys l) -> assoc k l = Some v <-> In (k, v) l.
Proof. intro Hn. split; [apply assoc_In|now apply In_assoc_NoDup]. Qed.
Lemma hm_extend_keys {A} k (l m : list (string * A)) : In k (keys l) \/ In k (keys m) <-> In k (keys (hm_extend m l)).
Proof.
  unfold hm_extend. revert m. induction l as [|[k' v] l IH]; intro m; cbn [fold_left]; [split; [intros [[]|Hk]; exact Hk|auto]|]. rewrite <- IH.
  cbn [fst snd]. rewrite keys_hm_insert. change (keys ((k', v) :: l)) with (k' :: keys l). cbn [In].
  destruct (existsb (String.eqb k') (keys m)) eqn:E.
  - apply existsb_exists in E. destruct E as (x & Hx & Ex). apply String.eqb_eq in Ex. subst x.
    split; [intros [[<-|Hk]|Hk]; auto|tauto].
  - rewrite in_app_iff. cbn. tauto.
Qed.

(** What [until_sub] keeps *)
Lemma append_empty s : (s ++ "")%string = s.
Proof. induction s as [|c s IH]; cbn; [reflexivity|now rewrite IH]. Qed.
Lemma visible_until src visible : visible_part src visible -> until_sub src = visible.
Proof.
  intros [Hv Hs]. assert (E : forall x, until_sub (visible ++ x) = (visible ++ until_sub x)%string).
  { intro x. clear Hs. induction visible as [|c v IH]; [reflexivity|]. cbn in *. inversion Hv as [|? ? Hc Hr]; subst.
    destruct (Ascii.eqb c (ascii_of_nat 26)) eqn:E; [elim Hc; apply Ascii.eqb_eq in E; exact E|]. cbn in E. rewrite E, IH by exact Hr. reflexivity. }
  destruct Hs as [->|(c & hidden & Hc & ->)].
  - specialize (E ""). now rewrite !append_empty in E.
  - rewrite E. red in Hc. subst c. cbn. now rewrite append_empty.
Qed.
Lemma until_visible src : visible_part src (until_sub src).
Proof.
  induction src as [|c s IH]; cbn; [split; [constructor|now left]|].
  destruct (Ascii.eqb c _) eqn:E.
  - apply Ascii.eqb_eq in E. split; [constructor|]. right. exists c, s. split; [exact E|reflexivity].
  - destruct IH as [H1 H2]. split.
    + cbn. constructor; [|exact H1]. intro X. red in X. subst c. cbn in E. discriminate.
    + destruct H2 as [H2|(c' & h & Hc & H2)]; [left; now rewrite <- H2|right]. exists c', h. split; [exact Hc|]. cbn. now rewrite <- H2.
Qed.
Lemma accepted_reads `{Unicode} `{Floats} `{Parser} label src file items ws :
  parse_idl label src = Ok (file, items, ws) -> exists tokens t, reads label src tokens t file items ws.
Proof.
  intro Hp. pose proof Hp as Hp'. unfold parse_idl in Hp. destruct (antlr_parse label (until_sub src)) as [[tokens t lw]|] eqn:E; [|discriminate].
  exists tokens, t, (until_sub src), lw. split; [apply until_visible|]. auto.
Qed.

Lemma after_end_ignored `{Unicode} `{Floats} `{Parser} label visible c hidden :
  Forall (fun x => ~ ends_source x) (list_ascii_of_string visible) -> ends_source c ->
  parse_idl label (visible ++ String c hidden) = parse_idl label visible.
Proof.
  intros Hv Hc. unfold parse_idl. rewrite (visible_until (visible ++ String c hidden) visible) by (split; [exact Hv|right; eauto]).
  now rewrite (visible_until visible visible) by (split; [exact Hv|now left]).
Qed.

Section Files.
  Context `{Unicode} `{Floats}.
  Variable tokens : list token.

  (** What each item of the source becomes *)
  Inductive item_read (ns : option string) : item -> decl_item -> Prop :=
  | ir_import k path p : item_read ns (ItImport k path p) (DImport k (get_string_from_literal path) p)
  | ir_named d s e p : walk_named tokens d ns = Ok (s, e) -> item_read ns (ItNamed d p) (DType s p (field_places d)).

  Definition not_message (it : item) : bool := match it with ItMessage _ => false | _ => true end.

  Lemma items_read l ns ds ms evs : walk_items tokens l ns = Ok ((ds, ms), evs) ->
    Forall2 (item_read ns) (filter not_message l) ds /\
    Forall2 (fun m nm => exists e, walk_message tokens m ns = Ok (nm, e))
      (flat_map (fun it => match it with ItMessage m => [m] | _ => [] end) l) ms /\
    Forall2 (fun d s => exists e, walk_named tokens d ns = Ok (s, e))
      (flat_map (fun it => match it with ItNamed d _ => [d] | _ => [] end) l) (declared_types ds).
  Proof.
    intro Hx. apply walk_items_spec in Hx. destruct Hx as [(parts & Hf & -> & ->) _].
    induction Hf as [|it part l parts Hi Hf IH]; [repeat split; constructor|]. destruct IH as (I1 & I2 & I3).
    destruct part as [ds ms]. cbn [fst snd flat_map] in *. unfold declared_types in *. rewrite flat_map_app.
    inversion Hi; subst; cbn; repeat split; try assumption; constructor; eauto; econstructor; eauto.
  Qed.

  Lemma fold_messages (ms : list (string * message)) nm :
    In nm (fold_left (fun m nm => hm_insert (fst nm) (snd nm) m) ms []) <->
    exists before after, ms = before ++ nm :: after /\ forall x, In x after -> fst x <> fst nm.
  Proof.
    induction ms as [|x ms IH] using rev_ind; cbn.
    - split; [intros []|]. intros (b & a & E & _). destruct b; discriminate.
    - rewrite fold_left_app. cbn. set (m := fold_left _ ms []) in *.
      assert (Nd : NoDup (keys m)).
      { subst m. change (NoDup (keys (hm_extend [] ms))). apply hm_extend_NoDup. constructor. }
      assert (K : In nm (hm_insert (fst x) (snd x) m) <-> nm = x \/ (fst nm <> fst x /\ In nm m)).
      { pose proof (hm_insert_NoDup (fst x) (snd x) m Nd) as Nd'. destruct nm as [k v]. rewrite <- (assoc_In_iff _ _ _ Nd').
        rewrite assoc_hm_insert. rewrite <- (assoc_In_iff _ _ _ Nd). destruct (String.eqb_spec k (fst x)) as [->|n]; cbn.
        - split; [intro E; injection E as <-; left; now destruct x|]. intros [<-|[Hc _]]; [reflexivity|congruence].
        - split; [auto|]. intros [<-|[_ Hi]]; [now destruct n|exact Hi]. }
      rewrite K, IH. split.
      + intros [->|(Hn & b & a & -> & Ha)].
        * exists ms, []. split; [reflexivity|intros y []].
        * exists b, (a ++ [x]). split; [now rewrite <- app_assoc|]. intros y Hy. apply in_app_or in Hy. destruct Hy as [Hy|[<-|[]]]; [auto|congruence].
      + intros (b & a & E & Ha). destruct (@exists_last _ (nm :: a)) as (a' & y & Ey); [congruence|].
        assert (E' : ms ++ [x] = (b ++ a') ++ [y]) by (rewrite E, Ey, app_assoc; reflexivity).
        apply app_inj_tail in E'. destruct E' as [-> ->]. destruct a' as [|z a'].
        * injection Ey as -> _. now left.
        * injection Ey as <- ->. right. split; [apply not_eq_sym, Ha, in_or_app; right; now left|].
          exists b, a'. split; [reflexivity|]. intros w Hw. apply Ha, in_or_app. now left.
  Qed.

  Lemma Forall2_split_r {A B} (R : A -> B -> Prop) l m1 y m2 : Forall2 R l (m1 ++ y :: m2) ->
    exists l1 x l2, l = l1 ++ x :: l2 /\ Forall2 R l1 m1 /\ R x y /\ Forall2 R l2 m2.
  Proof.
    intro Hf. apply Forall2_app_inv_r in Hf. destruct Hf as (l1 & l' & H1 & H2 & ->). inversion H2; subst. eauto 8.
  Qed.
  Lemma Forall2_split_l {A B} (R : A -> B -> Prop) l1 x l2 m : Forall2 R (l1 ++ x :: l2) m ->
    exists m1 y m2, m = m1 ++ y :: m2 /\ Forall2 R l1 m1 /\ R x y /\ Forall2 R l2 m2.
  Proof.
    intro Hf. apply Forall2_app_inv_l in Hf. destruct Hf as (m1 & m' & H1 & H2 & ->). inversion H2; subst. eauto 8.
  Qed.

  Lemma walk_message_name m ns nm e : walk_message tokens m ns = Ok (nm, e) -> fst nm = identifier_text (md_name m).
  Proof. intro Hx. apply walk_message_spec in Hx. tauto. Qed.

  (** Protocol header *)
  Definition protocol_read (t : idl_tree) (ns : option string) (p : protocol) : Prop :=
    exists start l ident items, t = TreeProtocol start l ident items /\
      declares ident l None (p_name p) (p_namespace p) /\ p_namespace p = ns /\ is_invalid_type_name (p_name p) = false /\
      doc_at tokens start (p_doc p) /\ holds_annotations OnProtocol l (p_props p) /\ p_types p = [] /\ NoDup (keys (p_messages p)) /\
      (forall nm, In nm (p_messages p) -> exists m e, last_message t (fst nm) m /\ walk_message tokens m ns = Ok (nm, e)) /\
      (forall m, In m (tree_messages t) -> In (identifier_text (md_name m)) (keys (p_messages p)) /\
         exists nm e, walk_message tokens m ns = Ok (nm, e)).

  Lemma walk_file_read t file items evs : walk_idl_file tokens t = Ok ((file, items), evs) ->
    exists ns, tree_namespace t ns /\
      Forall2 (item_read ns) (filter not_message (tree_items t)) items /\
      Forall2 (fun d s => exists e, walk_named tokens d ns = Ok (s, e)) (tree_types t) (declared_types items) /\
      consumes tokens evs (tree_starts t) /\
      match file with
      | IProtocol p => protocol_read t ns p
      | ISchema s => exists nsd ft is e, t = TreeSchema nsd (Some ft) is /\ walk_full_type ft ns = Ok (s, e)
      | INamed l => l = declared_types items /\ exists nsd is, t = TreeSchema nsd None is
      end.
  Proof.
    intro Hx. pose proof (walk_idl_file_consumes tokens t _ _ Hx) as Hc.
    destruct t as [start l ident is|nsd main is]; unfold walk_idl_file in Hx.
    - winv Hx. winv Hx. set (ns := compute_namespace (identifier_text ident) (sp_namespace a0)) in *.
      set (n := extract_name (identifier_text ident)) in *.
      destruct (is_invalid_type_name n) eqn:Ei; [discriminate|]. winv Hx. winv Hx.
      injection H1 as -> ->. destruct a1 as [ds ms]. cbn [fst snd] in *.
      pose proof (compute_declares OnProtocol ident _ None _ _ (or_introl eq_refl) E0) as Hn.
      assert (En : opt_or (compute_namespace (identifier_text ident) (sp_namespace a0)) None = ns).
      { subst ns. destruct (compute_namespace _ _); reflexivity. }
      rewrite En in Hn. fold n in Hn.
      destruct (items_read _ _ _ _ _ E1) as (I1 & I2 & I3).
      exists ns. split; [econstructor; exact Hn|]. split; [exact I1|]. split; [exact I3|]. split; [exact Hc|].
      destruct (walk_doc_spec _ _ _ _ E) as [Hd _].
      apply (walk_schema_properties_inv OnProtocol) in E0. destruct E0 as (Hh & _).
      exists start, l, ident, is. cbn [p_name p_namespace p_doc p_props p_messages p_types].
      repeat (split; [first [reflexivity|assumption]|]). split; [|split].
      + change (NoDup (keys (hm_extend [] ms))). apply hm_extend_NoDup. constructor.
      + intros nm Hi. apply fold_messages in Hi. destruct Hi as (b & af & -> & Ha).
        apply Forall2_split_r in I2. destruct I2 as (lb & m & la & Et & _ & (e & Hm) & H2). exists m, e. split; [|exact Hm].
        exists lb, la. split; [exact Et|]. split; [symmetry; eapply walk_message_name; eauto|].
        intros m' Hm'. destruct (Forall2_in_l _ _ _ _ H2 Hm') as (nm' & Hi' & e' & He'). apply walk_message_name in He'.
        rewrite <- He'. now apply Ha.
      + intros m Hm. destruct (Forall2_in_l _ _ _ _ I2 Hm) as (nm & Hi & e & He). split; [|eauto]. apply walk_message_name in He. rewrite <- He.
        clear -Hi. change (In (fst nm) (keys (hm_extend [] ms))). apply hm_extend_keys. left. now apply in_map.
    - winv Hx. destruct a as [ds ms]. cbn [fst snd] in *. destruct (items_read _ _ _ _ _ E) as (I1 & I2 & I3).
      assert (Hn : tree_namespace (TreeSchema nsd main is) (option_map identifier_text nsd)) by (destruct nsd; constructor).
      exists (option_map identifier_text nsd). split; [exact Hn|]. destruct main as [ft|].
      + winv Hx. winv Hx. injection H1 as -> ->. split; [exact I1|]. split; [exact I3|]. split; [exact Hc|]. eauto 8.
      + winv Hx. injection H1 as -> ->. split; [exact I1|]. split; [exact I3|]. split; [exact Hc|]. eauto.
  Qed.

  Lemma reads_walk `{Parser} label src t file items ws : reads label src tokens t file items ws ->
    exists evs lw, walk_idl_file tokens t = Ok ((file, items), evs) /\
      ws = map LexerWarning lw ++ map OrphanedDoc (orphaned_doc_comments tokens (consumed_of evs)) ++ map WalkWarning (warned_of evs).
  Proof.
    intros (v & lw & Hv & Hp & Hr). unfold parse_idl in Hr. rewrite (visible_until _ _ Hv), Hp in Hr. cbn in Hr.
    destruct (walk_idl_file tokens t) as [[[f is] evs]|[e pl]] eqn:E; [|discriminate]. injection Hr as -> -> <-. exists evs, lw. auto.
  Qed.
End Files.
