(** Proofs about properties in the output. *)
From Verif Require Import SpecFile Serialize BaseProofs SerializeProofs MeaningProofs NameProofs ReaderProofs TypeProofs PatternProofs DeclProofs FileProofs AnnotProofs AttrProofs DenoteProofs.

Lemma some_pair_eq {A B} (a a' : A) (b b' : B) : Some (a, b) = Some (a', b') -> a = a' /\ b = b'.
Proof. intro E. split; congruence. Qed.

Lemma extend_with o0 ps : NoDup (keys ps) -> with_props o0 ps (bt_extend o0 ps).
Proof.
  intros Hn k v. rewrite assoc_bt_extend_NoDup by exact Hn. destruct (assoc k ps) as [w|] eqn:E.
  - split; [auto|]. intros [Hv|[Hk _]]; [exact Hv|]. exfalso. apply Hk. eapply assoc_Some_In_keys; eauto.
  - split.
    + intro Hv. right. split; [|exact Hv]. intro Hk. apply In_keys_assoc in Hk. destruct Hk as [w Hw]. congruence.
    + intros [Hc|[_ Hv]]; [discriminate|exact Hv].
Qed.
Lemma insert_with o0 ps o k v : with_props o0 ps o -> ~ In k (keys ps) -> with_props (bt_insert k v o0) ps (bt_insert k v o).
Proof.
  intros Hw Hk x w. rewrite !assoc_bt_insert. destruct (String.eqb_spec x k) as [->|n]; [|apply Hw].
  split; [intro E; right; split; [exact Hk|exact E]|]. intros [Hc|[_ E]]; [|exact E]. exfalso. apply Hk. eapply assoc_Some_In_keys; eauto.
Qed.
Lemma opt_insert_with o0 ps o k v : with_props o0 ps o -> ~ In k (keys ps) -> with_props (opt_insert k v o0) ps (opt_insert k v o).
Proof. destruct v; [apply insert_with|auto]. Qed.

Lemma finish_with o ps al ns : props_avoid ["aliases"] ps -> with_props (finish_named_type o [] al ns) ps (finish_named_type o ps al ns).
Proof.
  intros [Hn Hk]. unfold finish_named_type. change (bt_extend o []) with o.
  destruct al as [|a al]; [now apply extend_with|]. apply insert_with; [now apply extend_with|].
  intro Hi. apply (Hk _ Hi). now left.
Qed.

Lemma avoid_incl ks ks' ps : props_avoid ks ps -> incl ks' ks -> props_avoid ks' ps.
Proof. intros [Hn Hk] Hi. split; [exact Hn|]. intros k Hx Hc. apply (Hk k Hx). now apply Hi. Qed.

Lemma ser_with lk n u enc known o k' : (forall a b c d, u <> SRef a b c d) -> props_avoid (structural u) (props_of u) ->
  ser lk n u enc known = Some (JObj o, k') ->
  exists o0, ser lk n (without_props u) enc known = Some (JObj o0, k') /\ with_props o0 (props_of u) o.
Proof.
  intros Hr Ha Hs. destruct u as [p|nm ns d fs er al ps|nm ns d sy df al ps|nm ns d sz al ps|i ps|i ps|ts b|k ps|lt ps|a b c d];
    cbn [without_props props_of structural] in *.
  - rewrite ser_prim in Hs. discriminate.
  - rewrite ser_record in *. destruct (named_type_preamble _ _ _ _ _ _) as [bare|[o1 k1]] eqn:Ep.
    + apply some_pair_eq in Hs. destruct Hs as [Hb _]. unfold named_type_preamble in Ep. destruct (str_mem _ _); [|discriminate].
      injection Ep as <-. discriminate.
    + destruct (map_st _ _ _) as [[js k2]|]; [|discriminate]. apply some_pair_eq in Hs. destruct Hs as [Ho <-]. eexists. split; [reflexivity|].
      assert (E : o = finish_named_type (bt_insert "fields" (JArr js) o1) ps al ns) by congruence. rewrite E. apply finish_with. eapply avoid_incl; [exact Ha|].
      intros x [<-|[]]. cbn. tauto.
  - rewrite ser_enum in *. destruct (named_type_preamble _ _ _ _ _ _) as [bare|[o1 k1]] eqn:Ep.
    + apply some_pair_eq in Hs. destruct Hs as [Hb _]. unfold named_type_preamble in Ep. destruct (str_mem _ _); [|discriminate].
      injection Ep as <-. discriminate.
    + apply some_pair_eq in Hs. destruct Hs as [Ho <-]. eexists. split; [reflexivity|]. unfold enum_obj in Ho.
      assert (E : forall a b, JObj a = JObj b -> a = b) by congruence. apply E in Ho. rewrite <- Ho. apply finish_with. eapply avoid_incl; [exact Ha|].
      intros x [<-|[]]. cbn. tauto.
  - rewrite ser_fixed in *. destruct (named_type_preamble _ _ _ _ _ _) as [bare|[o1 k1]] eqn:Ep.
    + apply some_pair_eq in Hs. destruct Hs as [Hb _]. unfold named_type_preamble in Ep. destruct (str_mem _ _); [|discriminate].
      injection Ep as <-. discriminate.
    + apply some_pair_eq in Hs. destruct Hs as [Ho <-]. eexists. split; [reflexivity|]. unfold fixed_obj in Ho.
      assert (E : forall a b, JObj a = JObj b -> a = b) by congruence. apply E in Ho. rewrite <- Ho. apply finish_with. eapply avoid_incl; [exact Ha|].
      intros x [<-|[]]. cbn. tauto.
  - rewrite ser_array in *. destruct (ser _ _ _ _ _) as [[j k1]|]; [|discriminate]. apply some_pair_eq in Hs. destruct Hs as [Ho <-].
    eexists. split; [reflexivity|]. assert (E : forall a b, JObj a = JObj b -> a = b) by congruence. apply E in Ho. rewrite <- Ho.
    apply extend_with. exact (proj1 Ha).
  - rewrite ser_map in *. destruct (ser _ _ _ _ _) as [[j k1]|]; [|discriminate]. apply some_pair_eq in Hs. destruct Hs as [Ho <-].
    eexists. split; [reflexivity|]. assert (E : forall a b, JObj a = JObj b -> a = b) by congruence. apply E in Ho. rewrite <- Ho.
    apply extend_with. exact (proj1 Ha).
  - rewrite ser_union in Hs. destruct (map_st _ _ _) as [[js k1]|]; discriminate.
  - rewrite ser_annot in *. apply some_pair_eq in Hs. destruct Hs as [Ho <-].
    eexists. split; [reflexivity|]. assert (E : forall a b, JObj a = JObj b -> a = b) by congruence. apply E in Ho. rewrite <- Ho.
    apply extend_with. exact (proj1 Ha).
  - rewrite ser_logical in *. apply some_pair_eq in Hs. destruct Hs as [Ho <-].
    eexists. split; [reflexivity|]. unfold logical_obj in Ho. assert (E : forall a b, JObj a = JObj b -> a = b) by congruence. apply E in Ho. rewrite <- Ho.
    apply extend_with. exact (proj1 Ha).
  - exfalso. eapply Hr. reflexivity.
Qed.

Lemma field_with (f : field) j : NoDup (keys (f_props f)) ->
  exists o0 o, field_obj (bare_field f) j = JObj o0 /\ field_obj f j = JObj o /\ with_props o0 (f_props f) o.
Proof.
  intro Hn. unfold field_obj. do 2 eexists. split; [reflexivity|]. split; [reflexivity|]. cbn [bare_field f_name f_doc f_default f_order f_aliases f_props].
  now apply extend_with.
Qed.

Lemma message_with lk n m enc known o k' : props_avoid message_keys (m_props m) ->
  ser_message lk n m enc known = Some (JObj o, k') ->
  exists o0, ser_message lk n (bare_message m) enc known = Some (JObj o0, k') /\ with_props o0 (m_props m) o.
Proof.
  intros [Hn Hk] Hs. unfold ser_message in *. cbn [bare_message m_doc m_props m_request m_response m_errors m_one_way] in *.
  assert (Ha : forall k, In k message_keys -> ~ In k (keys (m_props m))) by (intros k H1 H2; exact (Hk k H2 H1)).
  destruct (map_st _ (m_request m) known) as [[req k1]|]; [|discriminate].
  destruct (ser lk n (m_response m) enc k1) as [[resp k2]|]; [|discriminate].
  set (b := opt_insert "doc" (option_map JStr (m_doc m)) []) in *. change (bt_extend b []) with b.
  assert (W : with_props (bt_insert "response" resp (bt_insert "request" (JArr req) b)) (m_props m)
                (bt_insert "response" resp (bt_insert "request" (JArr req) (bt_extend b (m_props m))))).
  { apply insert_with; [apply insert_with; [now apply extend_with|]|]; apply Ha; cbn; tauto. }
  set (w0 := bt_insert "response" resp (bt_insert "request" (JArr req) b)) in *.
  set (w := bt_insert "response" resp (bt_insert "request" (JArr req) (bt_extend b (m_props m)))) in *. clearbody w0 w.
  assert (E : forall a b, JObj a = JObj b -> a = b) by congruence.
  destruct (m_errors m) as [es|].
  - destruct (map_st _ es k2) as [[js k3]|]; [|discriminate]. apply some_pair_eq in Hs. destruct Hs as [Ho <-]. apply E in Ho. rewrite <- Ho.
    eexists. split; [reflexivity|]. destruct (m_one_way m); repeat apply insert_with; try exact W; apply Ha; cbn; tauto.
  - apply some_pair_eq in Hs. destruct Hs as [Ho <-]. apply E in Ho. rewrite <- Ho. eexists. split; [reflexivity|].
    destruct (m_one_way m); repeat apply insert_with; try exact W; apply Ha; cbn; tauto.
Qed.

Lemma protocol_with p j : props_avoid protocol_keys (p_props p) -> protocol_to_json p = Some j ->
  exists o0 o, protocol_to_json (bare_protocol p) = Some (JObj o0) /\ j = JObj o /\ with_props o0 (p_props p) o.
Proof.
  intros [Hn Hk] Hs. unfold protocol_to_json in *.
  change (types_to_json (bare_protocol p)) with (types_to_json p). destruct (types_to_json p) as [[ts k]|]; [|discriminate].
  change (messages_to_json (bare_protocol p) k) with (messages_to_json p k). destruct (messages_to_json p k) as [[ms k']|]; [|discriminate].
  assert (E : forall a b : json, Some a = Some b -> a = b) by congruence. apply E in Hs. subst j.
  do 2 eexists. split; [reflexivity|]. split; [reflexivity|].
  apply insert_with; [apply insert_with|]; [|intro Hi; apply (Hk _ Hi); cbn; tauto|intro Hi; apply (Hk _ Hi); cbn; tauto].
  unfold protocol_header. cbn [bare_protocol p_name p_namespace p_doc p_props]. now apply extend_with.
Qed.

(** ** What is read from a file *)
Section FromFile.
  Context `{Unicode} `{Floats}.

  Lemma holds_avoid p l ps ks : holds_annotations p l ps -> incl ks (forbidden p ++ special p) -> props_avoid ks ps.
  Proof.
    intros (Hh & Hn & Hf) Hi. split; [exact Hn|]. intros k Hk Hc. apply Hi in Hc. apply In_keys_assoc in Hk. destruct Hk as [v Hv].
    apply Hh in Hv. destruct Hv as [Hv Hs]. apply in_app_or in Hc. destruct Hc as [Hc|Hc]; [|contradiction].
    apply (Hf k); [|exact Hc]. eapply annotated_mentioned; eauto.
  Qed.
  Lemma good_avoid ps u : good_props ps -> incl (structural u) (forbidden OnType) -> props_avoid (structural u) ps.
  Proof. intros [Hn Hk] Hi. split; [exact Hn|]. intros k Hx Hc. apply (Hk k Hx). now apply Hi. Qed.
  Lemma avoid_nil ks : props_avoid ks [].
  Proof. split; [constructor|intros k []]. Qed.

  Lemma shape_occurs ns s u : shape ns s -> occurs u s -> shape ns u.
  Proof.
    intros Hs Ho. revert Hs. induction Ho as [s|u n q d fs e al ps f Hf Ho IH|u i ps Ho IH|u i ps Ho IH|u ts b t Ht Ho IH]; intro Hs; auto.
    - contradiction.
    - apply IH. exact (proj2 Hs).
    - apply IH. exact (proj2 Hs).
    - apply IH. apply shape_union in Hs. rewrite Forall_forall in Hs. auto.
  Qed.
  Lemma shape_avoid ns u : shape ns u -> props_avoid (structural u) (props_of u).
  Proof.
    destruct u; cbn [shape props_of]; intro Hs; try contradiction; try apply avoid_nil.
    - apply good_avoid; [exact (proj1 Hs)|]. intros x Hx. cbn in *. tauto.
    - apply good_avoid; [exact (proj1 Hs)|]. intros x Hx. cbn in *. tauto.
    - apply good_avoid; [exact Hs|]. intros x Hx. cbn in *. tauto.
    - apply good_avoid; [exact Hs|]. intros x Hx. cbn in *. tauto.
    - destruct Hs as [-> _]. apply avoid_nil.
  Qed.

  Variable tokens : list token.
  Lemma named_avoid d ns s e : walk_named tokens d ns = Ok (s, e) -> props_avoid (structural s) (props_of s).
  Proof.
    intro Hx. apply walk_named_denotes in Hx.
    inversion Hx as [r n q doc al ps fs Hh|en n q doc al ps Hh|x n q doc al ps size Hh]; subst; apply nh_props in Hh; cbn [props_of structural].
    - apply (holds_avoid OnRecord _ _ _ Hh). intros k Hk. cbn in *. tauto.
    - apply (holds_avoid OnEnum _ _ _ Hh). intros k Hk. cbn in *. tauto.
    - apply (holds_avoid OnFixed _ _ _ Hh). intros k Hk. cbn in *. tauto.
  Qed.

  Lemma file_avoid t file items evs s u : walk_idl_file tokens t = Ok ((file, items), evs) -> gives file items s -> occurs u s ->
    props_avoid (structural u) (props_of u).
  Proof.
    intros Hw Hg Ho. destruct (gives_cases tokens _ _ _ _ _ Hw Hg) as (ns & _ & [(d & e & _ & Hd)|Ht]).
    - pose proof (named_avoid _ _ _ _ Hd) as Hs. apply walk_named_cases in Hd.
      destruct Hd as [(n & q & doc & fs & er & al & ps & -> & Hf)|[(n & q & doc & sy & df & al & ps & ->)|(n & q & doc & sz & al & ps & ->)]].
      + apply occurs_record in Ho. destruct Ho as [->|(f & Hi & Ho)]; [exact Hs|]. rewrite Forall_forall in Hf.
        specialize (Hf f Hi). apply typed_shape in Hf. eapply shape_avoid, shape_occurs; eauto.
      + inversion Ho; subst. exact Hs.
      + inversion Ho; subst. exact Hs.
    - apply typed_shape in Ht. eapply shape_avoid, shape_occurs; eauto.
  Qed.

  Lemma variable_avoid ns ft start v f : variable_denotes tokens ns ft start v f -> props_avoid field_keys (f_props f).
  Proof. intro Hd. apply vd_props in Hd. apply (holds_avoid OnField _ _ _ Hd). intros k Hk. cbn in *. tauto. Qed.
  Lemma message_avoid ns m msg : message_denotes tokens ns m msg -> props_avoid message_keys (m_props msg).
  Proof. intro Hd. apply me_props in Hd. apply (holds_avoid OnMessage _ _ _ Hd). intros k Hk. cbn in *. tauto. Qed.
End FromFile.
