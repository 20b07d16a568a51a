(** A type called like a word of Avro is written in full. *)
From Verif Require Export Serialize SpecWords.
From Verif Require Import BaseProofs MeaningProofs SerializeProofs SimProofs ProtocolProofs RegistryProofs ImportProofs
  ImportDocProofs DocProofs SpecNames.
From Verif Require Import RoundTripProofs TypeProofs.

Lemma kind_plain x : In x kind_words -> contains_dot x = false.
Proof. intro Hx. cbn in Hx. decompose [or] Hx; subst; try reflexivity; contradiction. Qed.

(** The name written for a reference is a word only if that is its full name. *)
Lemma ref_word nm ns enc x : contains_dot nm = false -> schema_ref_name nm ns enc = x -> In x kind_words -> fullname nm ns = x.
Proof.
  intros Hd E Hx. rewrite <- fullname_make. unfold schema_ref_name in E.
  destruct (ostr_eqb ns enc); [|exact E]. destruct (is_schema_type_name nm) eqn:Ew; [exact E|]. subst nm. exfalso.
  unfold is_schema_type_name in Ew. apply orb_false_iff in Ew. destruct Ew as [_ Ew]. rewrite <- not_true_iff_false in Ew. apply Ew.
  apply str_mem_In. exact Hx.
Qed.

Section Words.
  Variable lk : lookup_table.
  Variable names : list string.
  Definition covered (s : schema) : Prop := incl (refs_of s) names /\ (def_ok s = true -> In (type_name s) names).
  Hypothesis Hlk : forall k t, assoc k lk = Some t -> def_ok t = true /\ covered t.
  Definition wordless (j : json) : Prop := forall x, names_in j x -> In x kind_words -> In x names.

  Lemma name_wordless nm ns enc : contains_dot nm = false -> In (fullname nm ns) names -> wordless (JStr (schema_ref_name nm ns enc)).
  Proof.
    intros Hd Hi x Hx Hw. inversion Hx; subst. rewrite <- (ref_word nm ns enc _ Hd eq_refl Hw). exact Hi.
  Qed.
  Lemma prim_wordless p : wordless (JStr (prim_str p)).
  Proof. intros x Hx Hw. inversion Hx; subst. exfalso. destruct p; cbn in Hw; intuition discriminate. Qed.
  (** an object that is neither array, map nor record has no types inside *)
  Lemma leaf_wordless o k : assoc "type" o = Some (JStr k) -> ~ In k ["array"; "map"; "record"; "error"] -> wordless (JObj o).
  Proof.
    intros Et Hk x Hx _. exfalso. inversion Hx; subst.
    - match goal with E : assoc "type" o = _ |- _ => rewrite Et in E; injection E as -> end. apply Hk. cbn. tauto.
    - match goal with E : assoc "type" o = _ |- _ => rewrite Et in E; injection E as -> end. apply Hk. cbn. tauto.
    - match goal with E : assoc "type" o = Some (JStr ?k') |- _ => rewrite Et in E; injection E as -> end. apply Hk. cbn in *. tauto.
  Qed.
  Definition field_wordless (j : json) : Prop := forall fo t, j = JObj fo -> assoc "type" fo = Some t -> wordless t.

  Lemma field_words (f : field) j : free_of ["name"; "type"; "doc"; "default"; "order"; "aliases"] (f_props f) = true -> wordless j ->
    field_wordless (field_obj f j).
  Proof.
    intros Hf Hj fo t E Et. destruct (field_obj_reads f j Hf) as (o & Eo & _ & Ht & _). rewrite Eo in E. injection E as ->.
    rewrite Ht in Et. injection Et as <-. exact Hj.
  Qed.

  Lemma type_of_preamble ty nm ns d enc : assoc "type" (preamble_obj ty nm ns d enc) = Some (JStr ty).
  Proof. rewrite preamble_get. reflexivity. Qed.

  Lemma words n : forall s enc known j known',
    emittable s -> covered s -> ser lk n s enc known = Some (j, known') -> wordless j.
  Proof.
    induction n as [n IHn] using lt_wf_ind. intro s.
    induction s as [p|nm ns d fs e al ps IH|nm ns d sy df al ps|nm ns d sz al ps|i ps IH|i ps IH
                   |ts b IH|k ps|l ps|nm ns ps sp] using schema_ind';
      intros enc known j known' Hem [Hrf Hnm] E.
    - rewrite ser_prim in E. inversion E; subst. apply prim_wordless.
    - (* record *)
      destruct Hem as [(b & Hem)|Hem]; [discriminate|]. specialize (Hnm Hem). cbn [def_ok] in Hem. rewrite !andb_true_iff in Hem.
      destruct Hem as [[[Hname _] Hfree] Hfs]. unfold name_ok in Hname. apply andb_true_iff in Hname.
      destruct Hname as [Hdot _]. apply negb_true_iff in Hdot.
      rewrite ser_record in E. unfold named_type_preamble in E.
      destruct (str_mem (make_full_name nm ns) known).
      { inversion E; subst. now apply name_wordless. }
      fold (preamble_obj (if e then "error" else "record") nm ns d enc) in E.
      destruct (map_st _ fs _) as [[js k2]|] eqn:Em in E; [|discriminate]. apply some_pair_inj in E; destruct E as [<- _].
      apply free_of_spec in Hfree. destruct Hfree as [Hn Hr].
      set (o := finish_named_type _ ps al ns).
      assert (Hget : forall k, k <> "aliases" -> In k ["type"; "name"; "namespace"; "doc"; "fields"; "aliases"] ->
                 assoc k o = assoc k (bt_insert "fields" (JArr js) (preamble_obj (if e then "error" else "record") nm ns d enc))).
      { intros k Hk Hin. apply finish_get; auto. }
      assert (Hty : assoc "type" o = Some (JStr (if e then "error" else "record"))).
      { rewrite Hget by (try discriminate; cbn; tauto). rewrite assoc_bt_insert. cbn [String.eqb Ascii.eqb Bool.eqb]. apply type_of_preamble. }
      assert (Hfl : assoc "fields" o = Some (JArr js)).
      { rewrite Hget by (try discriminate; cbn; tauto). rewrite assoc_bt_insert. reflexivity. }
      assert (Hall : Forall field_wordless js).
      { eapply emitted_map; [|exact Em]. intros f k0 j0 k0' Hf Ef. cbv beta in Ef. unfold ser_field in Ef.
        destruct (ser lk n (f_schema f) (opt_or ns enc) k0) as [[jf kf]|] eqn:Es; [|discriminate].
        apply some_pair_inj in Ef; destruct Ef as [<- _]. rewrite forallb_forall in Hfs. pose proof (Hfs f Hf) as Hfo.
        unfold field_ok in Hfo. apply andb_true_iff in Hfo. destruct Hfo as [Hf1 Hf2].
        apply field_words; [exact Hf1|]. rewrite Forall_forall in IH.
        refine (IH f Hf _ _ _ _ _ _ Es); [left; eexists; exact Hf2|]. split.
        - intros x Hx. apply Hrf. cbn [refs_of]. apply in_flat_map. eauto.
        - intro Hd. destruct (f_schema f); discriminate. }
      intros x Hx Hw. inversion Hx; subst.
      + destruct e; congruence.
      + destruct e; congruence.
      + match goal with E : assoc "fields" o = _ |- _ => rewrite Hfl in E; injection E as <- end. rewrite Forall_forall in Hall.
        match goal with Hi : In (JObj _) js, Ht : assoc "type" _ = Some j, Hn' : names_in j x |- _ => exact (Hall _ Hi _ _ eq_refl Ht x Hn' Hw) end.
    - (* enum *)
      destruct Hem as [(b & Hem)|Hem]; [discriminate|]. specialize (Hnm Hem). cbn [def_ok] in Hem. rewrite !andb_true_iff in Hem.
      destruct Hem as [[Hname _] Hfree]. unfold name_ok in Hname. apply andb_true_iff in Hname.
      destruct Hname as [Hdot _]. apply negb_true_iff in Hdot.
      rewrite ser_enum in E. unfold named_type_preamble in E.
      destruct (str_mem (make_full_name nm ns) known).
      { inversion E; subst. now apply name_wordless. }
      fold (preamble_obj "enum" nm ns d enc) in E. unfold enum_obj in E. apply some_pair_inj in E; destruct E as [<- _].
      apply free_of_spec in Hfree. destruct Hfree as [Hn Hr].
      apply (leaf_wordless _ "enum"); [|cbn; intuition discriminate].
      rewrite finish_get; [|exact Hn|discriminate|apply Hr; cbn; tauto].
      rewrite assoc_opt_insert. destruct df; cbn [option_map String.eqb Ascii.eqb Bool.eqb]; rewrite assoc_bt_insert;
        cbn [String.eqb Ascii.eqb Bool.eqb]; apply type_of_preamble.
    - (* fixed *)
      destruct Hem as [(b & Hem)|Hem]; [discriminate|]. specialize (Hnm Hem). cbn [def_ok] in Hem. rewrite !andb_true_iff in Hem.
      destruct Hem as [[Hname _] Hfree]. unfold name_ok in Hname. apply andb_true_iff in Hname.
      destruct Hname as [Hdot _]. apply negb_true_iff in Hdot.
      rewrite ser_fixed in E. unfold named_type_preamble in E.
      destruct (str_mem (make_full_name nm ns) known).
      { inversion E; subst. now apply name_wordless. }
      fold (preamble_obj "fixed" nm ns d enc) in E. unfold fixed_obj in E. apply some_pair_inj in E; destruct E as [<- _].
      apply free_of_spec in Hfree. destruct Hfree as [Hn Hr].
      apply (leaf_wordless _ "fixed"); [|cbn; intuition discriminate].
      rewrite finish_get; [|exact Hn|discriminate|apply Hr; cbn; tauto].
      rewrite assoc_bt_insert. cbn [String.eqb Ascii.eqb Bool.eqb]. apply type_of_preamble.
    - (* array *)
      destruct Hem as [(b & Hem)|Hem]; [|discriminate]. cbn [ty_ok] in Hem. apply andb_true_iff in Hem. destruct Hem as [Hfree Hi].
      rewrite ser_array in E. destruct (ser lk n i enc known) as [[ji k1]|] eqn:Ei; [|discriminate].
      apply some_pair_inj in E; destruct E as [<- _]. apply free_of_spec in Hfree. destruct Hfree as [Hn Hr].
      assert (W : wordless ji).
      { refine (IH _ _ _ _ _ _ Ei); [left; eexists; exact Hi|]. split; [exact Hrf|]. intro Hd. destruct i; discriminate. }
      set (o := bt_extend _ ps).
      assert (Et : assoc "type" o = Some (JStr "array")) by (unfold o; rewrite assoc_bt_extend_NoDup, Hr by (exact Hn || (cbn; tauto)); reflexivity).
      assert (Eit : assoc "items" o = Some ji) by (unfold o; rewrite assoc_bt_extend_NoDup, Hr by (exact Hn || (cbn; tauto)); reflexivity).
      intros x Hx Hw. inversion Hx; subst; try congruence; [|match goal with Hk : In ?k ["record"; "error"] |- _ => rewrite Et in *; cbn in Hk; intuition congruence end].
      match goal with E : assoc "items" o = Some j, Hj : names_in j x |- _ => rewrite Eit in E; injection E as ->; exact (W x Hj Hw) end.
    - (* map *)
      destruct Hem as [(b & Hem)|Hem]; [|discriminate]. cbn [ty_ok] in Hem. apply andb_true_iff in Hem. destruct Hem as [Hfree Hi].
      rewrite ser_map in E. destruct (ser lk n i enc known) as [[ji k1]|] eqn:Ei; [|discriminate].
      apply some_pair_inj in E; destruct E as [<- _]. apply free_of_spec in Hfree. destruct Hfree as [Hn Hr].
      assert (W : wordless ji).
      { refine (IH _ _ _ _ _ _ Ei); [left; eexists; exact Hi|]. split; [exact Hrf|]. intro Hd. destruct i; discriminate. }
      set (o := bt_extend _ ps).
      assert (Et : assoc "type" o = Some (JStr "map")) by (unfold o; rewrite assoc_bt_extend_NoDup, Hr by (exact Hn || (cbn; tauto)); reflexivity).
      assert (Eit : assoc "values" o = Some ji) by (unfold o; rewrite assoc_bt_extend_NoDup, Hr by (exact Hn || (cbn; tauto)); reflexivity).
      intros x Hx Hw. inversion Hx; subst; try congruence; [|match goal with Hk : In ?k ["record"; "error"] |- _ => rewrite Et in *; cbn in Hk; intuition congruence end].
      match goal with E : assoc "values" o = Some j, Hj : names_in j x |- _ => rewrite Eit in E; injection E as ->; exact (W x Hj Hw) end.
    - (* union *)
      destruct Hem as [(b' & Hem)|Hem]; [|discriminate]. cbn [ty_ok] in Hem. rewrite forallb_forall in Hem.
      rewrite ser_union in E. destruct (map_st _ ts known) as [[js k1]|] eqn:Em in E; [|discriminate].
      apply some_pair_inj in E; destruct E as [<- _].
      assert (Hall : Forall wordless js).
      { eapply emitted_map; [|exact Em]. intros t k0 j0 k0' Ht Et. cbv beta in Et. rewrite Forall_forall in IH.
        refine (IH t Ht _ _ _ _ _ _ Et); [left; eexists; exact (Hem t Ht)|]. split.
        - intros x Hx. apply Hrf. cbn [refs_of]. apply in_flat_map. eauto.
        - intro Hd. specialize (Hem t Ht). destruct t; discriminate. }
      intros x Hx Hw. inversion Hx; subst. rewrite Forall_forall in Hall. eapply Hall; eassumption.
    - (* annotated primitive *)
      destruct Hem as [(b & Hem)|Hem]; [|discriminate]. cbn [ty_ok] in Hem.
      rewrite ser_annot in E. apply some_pair_inj in E; destruct E as [<- _]. apply free_of_spec in Hem. destruct Hem as [Hn Hr].
      apply (leaf_wordless _ (prim_str k)); [|destruct k; cbn; intuition discriminate].
      rewrite assoc_bt_extend_NoDup, Hr by (exact Hn || (cbn; tauto)). reflexivity.
    - (* logical *)
      destruct Hem as [(b & Hem)|Hem]; [|discriminate]. cbn [ty_ok] in Hem.
      rewrite ser_logical in E. apply some_pair_inj in E; destruct E as [<- _]. apply free_of_spec in Hem. destruct Hem as [Hn Hr].
      unfold logical_obj.
      apply (leaf_wordless _ (prim_str (expected_base_type l))); [|destruct l; cbn; intuition discriminate].
      rewrite assoc_bt_extend_NoDup, Hr by (exact Hn || (cbn; tauto)). destruct l; reflexivity.
    - (* reference *)
      destruct Hem as [(b & Hem)|Hem]; [|discriminate]. cbn [ty_ok] in Hem. apply andb_true_iff in Hem. destruct Hem as [Hname _].
      unfold name_ok in Hname. apply andb_true_iff in Hname. destruct Hname as [Hdot _]. apply negb_true_iff in Hdot.
      assert (Hin : In (fullname nm ns) names) by (apply Hrf; cbn; now left).
      rewrite ser_ref in E. destruct (str_mem (make_full_name nm ns) known).
      { inversion E; subst. now apply name_wordless. }
      destruct (assoc (make_full_name nm ns) lk) as [t|] eqn:Et.
      + destruct n as [|n']; [discriminate|]. destruct (Hlk _ _ Et) as [Hd Hp].
        refine (IHn n' _ t _ _ _ _ _ Hp E); [lia|]. right. exact Hd.
      + inversion E; subst. now apply name_wordless.
  Qed.

  Lemma message_words n msg enc known j known' b :
    message_ok b msg = true -> incl (message_refs msg) names ->
    ser_message lk n msg enc known = Some (j, known') -> forall x, message_names j x -> In x kind_words -> In x names.
  Proof.
    unfold message_ok, message_refs. rewrite !andb_true_iff. intros [[[Hf Hrq] Hrs] Her] Hi E.
    apply free_of_spec in Hf. destruct Hf as [Hn Hr]. unfold ser_message in E.
    destruct (map_st _ (m_request msg) known) as [[rq k1]|] eqn:E1 in E; [|discriminate].
    destruct (ser lk n (m_response msg) enc k1) as [[rs k2]|] eqn:E2; [|discriminate].
    set (base := bt_extend (opt_insert "doc" (option_map JStr (m_doc msg)) []) (m_props msg)) in *.
    assert (Hbe : assoc "errors" base = None).
    { unfold base. rewrite assoc_bt_extend_NoDup, Hr by (exact Hn || (cbn; tauto)). destruct (m_doc msg); reflexivity. }
    assert (Crq : Forall field_wordless rq).
    { rewrite forallb_forall in Hrq. eapply emitted_map; [|exact E1]. intros f k0 j0 k0' Hf Ef. cbv beta in Ef. unfold ser_field in Ef.
      destruct (ser lk n (f_schema f) enc k0) as [[jf kf]|] eqn:Es; [|discriminate].
      apply some_pair_inj in Ef; destruct Ef as [<- _]. pose proof (Hrq f Hf) as Hfo.
      unfold field_ok in Hfo. apply andb_true_iff in Hfo. destruct Hfo as [Hf1 Hf2].
      apply field_words; [exact Hf1|]. refine (words n _ _ _ _ _ _ _ Es); [left; eexists; exact Hf2|]. split.
      - intros x Hx. apply Hi. apply in_or_app. left. apply in_flat_map. eauto.
      - intro Hd. destruct (f_schema f); discriminate. }
    assert (Crs : wordless rs).
    { refine (words n _ _ _ _ _ _ _ E2); [left; eexists; exact Hrs|]. split.
      - intros x Hx. apply Hi. apply in_or_app. right. apply in_or_app. now left.
      - intro Hd. destruct (m_response msg); discriminate. }
    set (o2 := bt_insert "response" rs (bt_insert "request" (JArr rq) base)) in *.
    assert (Hfin : forall o, assoc "request" o = Some (JArr rq) -> assoc "response" o = Some rs ->
              (forall es, assoc "errors" o = Some (JArr es) -> Forall wordless es) ->
              forall x, message_names (JObj o) x -> In x kind_words -> In x names).
    { intros o H1 H2 H3 x Hx Hw. inversion Hx; subst.
      - match goal with E' : assoc "request" o = _ |- _ => rewrite H1 in E'; injection E' as <- end. rewrite Forall_forall in Crq.
        match goal with Hi' : In (JObj _) rq, Ht : assoc "type" _ = Some ?t, Hn' : names_in ?t x |- _ => exact (Crq _ Hi' _ _ eq_refl Ht x Hn' Hw) end.
      - match goal with E' : assoc "response" o = Some ?t, Hn' : names_in ?t x |- _ => rewrite H2 in E'; injection E' as <-; exact (Crs x Hn' Hw) end.
      - match goal with E' : assoc "errors" o = Some (JArr ?es) |- _ => specialize (H3 es E'); rewrite Forall_forall in H3 end.
        match goal with Hi' : In ?t es, Hn' : names_in ?t x |- _ => exact (H3 _ Hi' x Hn' Hw) end. }
    destruct (m_errors msg) as [es|].
    - destruct (map_st _ es k2) as [[ej k3]|] eqn:E3 in E; [|discriminate]. apply some_pair_inj in E; destruct E as [<- _].
      assert (Cer : Forall wordless ej).
      { rewrite forallb_forall in Her. eapply emitted_map; [|exact E3]. intros t k0 j0 k0' Ht Et. cbv beta in Et.
        refine (words n _ _ _ _ _ _ _ Et); [left; eexists; exact (Her t Ht)|]. split.
        - intros x Hx. apply Hi. apply in_or_app. right. apply in_or_app. right. apply in_flat_map. eauto.
        - intro Hd. specialize (Her t Ht). destruct t; discriminate. }
      apply Hfin; destruct (m_one_way msg); unfold o2; rewrite ?assoc_bt_insert; cbn [String.eqb Ascii.eqb Bool.eqb]; auto;
        intros es'; rewrite ?assoc_bt_insert; cbn [String.eqb Ascii.eqb Bool.eqb]; intro X; injection X as <-; exact Cer.
    - apply some_pair_inj in E; destruct E as [<- _].
      apply Hfin; destruct (m_one_way msg); unfold o2; rewrite ?assoc_bt_insert; cbn [String.eqb Ascii.eqb Bool.eqb]; auto;
        intros es'; rewrite ?assoc_bt_insert; cbn [String.eqb Ascii.eqb Bool.eqb]; rewrite Hbe; discriminate.
  Qed.
End Words.

Lemma document_words types s j known x : registry_ok types = true ->
  In s types \/ (ty_ok true s = true /\ subset (refs_of s) (map type_name types) = true) ->
  schema_to_json s [] None (build_lookup types None) = Some (j, known) ->
  names_in j x -> In x kind_words -> In x (map type_name types).
Proof.
  intros Hok Hs E. unfold registry_ok in Hok. rewrite !andb_true_iff in Hok. destruct Hok as [[Hdo Hnames] Hsub].
  rewrite forallb_forall in Hdo, Hsub.
  assert (Hc : forall t, In t types -> covered (map type_name types) t).
  { intros t Ht. split; [apply subset_incl, Hsub, Ht|]. intros _. now apply in_map. }
  unfold schema_to_json in E. apply (words _ (map type_name types)) in E.
  - intros Hx Hw. exact (E x Hx Hw).
  - intros k t Ek. apply flat_assoc_inv in Ek; [|now apply forallb_forall|reflexivity]. destruct Ek as [Hin _]. auto.
  - destruct Hs as [Hs|[Hs _]]; [right; auto|left; eexists; exact Hs].
  - destruct Hs as [Hs|[Hs Hi]]; [auto|]. split; [now apply subset_incl|]. intro Hd. destruct s; discriminate.
Qed.

Lemma bt_extend_in {x : string * json} l : forall acc, In x (bt_extend acc l) -> In x acc \/ In x l.
Proof.
  induction l as [|[k v] l IH]; intros acc H; [auto|]. cbn in H. apply IH in H. destruct H as [H|H]; [|right; right; exact H].
  assert (Hins : forall (o : list (string * json)), In x (bt_insert k v o) -> x = (k, v) \/ In x o).
  { induction o as [|[k' v'] o IHo]; cbn; [intros [<-|[]]; auto|].
    destruct (String.compare k k'); cbn.
    - intros [<-|Hin]; auto.
    - intros [<-|Hin]; auto.
    - intros [<-|Hin]; [auto|]. destruct (IHo Hin); auto. }
  apply Hins in H. destruct H as [->|H]; [right; left; reflexivity|auto].
Qed.

Lemma protocol_words p j x : protocol_ok p = true -> protocol_to_json p = Some j ->
  protocol_names j x -> In x kind_words -> In x (map type_name (p_types p)).
Proof.
  intros Hok E Hx Hw. destruct (protocol_ok_facts p Hok) as (Hdefs & Hns & Hnames & Hrefs & Hprops & Hmn & Hms).
  unfold protocol_to_json, types_to_json, messages_to_json, schema_to_json in E.
  set (lk := build_lookup (p_types p) (p_namespace p)) in *. set (names := map type_name (p_types p)).
  assert (Hc : forall t, In t (p_types p) -> covered names t).
  { intros t Ht. split; [exact (Hrefs t Ht)|]. intros _. now apply in_map. }
  assert (Hlk : forall k t, assoc k lk = Some t -> def_ok t = true /\ covered names t).
  { intros k t Ek. apply flat_assoc_inv in Ek; auto. destruct Ek as [Hin _]. rewrite forallb_forall in Hdefs. auto. }
  destruct (map_st _ (p_types p) []) as [[js known]|] eqn:Et in E; [|discriminate].
  destruct (map_st _ (p_messages p) known) as [[es k2]|] eqn:Em in E; [|discriminate]. inversion E; subst j. clear E.
  inversion Hx as [o ts jt y Ea Hi Hn|o ms k jm y Ea Hi Hn]; subst; rewrite !assoc_bt_insert in Ea; cbn [String.eqb Ascii.eqb Bool.eqb] in Ea; injection Ea as <-.
  - assert (Hall : Forall (wordless names) js).
    { eapply emitted_map; [|exact Et]. intros t k0 j0 k0' Ht Et'. cbv beta in Et'.
      refine (words lk names Hlk _ _ _ _ _ _ _ (Hc t Ht) Et'). right. rewrite forallb_forall in Hdefs. auto. }
    apply filter_In in Hi. rewrite Forall_forall in Hall. exact (Hall _ (proj1 Hi) x Hn Hw).
  - apply bt_extend_in in Hi. destruct Hi as [[]|Hi].
    assert (Hgen : forall ml, incl ml (p_messages p) -> forall es known k2,
        map_st (fun (nm : string * message) (k : list string) =>
                match ser_message lk (lookup_fuel lk) (snd nm) (p_namespace p) k with
                | Some (j, k1) => Some (fst nm, j, k1) | None => None end) ml known = Some (es, k2) ->
        forall e, In e es -> forall x, message_names (snd e) x -> In x kind_words -> In x names).
    { clear - Hlk Hms. induction ml as [|nm ml IH]; intros Hi es known k2 Em e He.
      - rewrite map_st_nil in Em. inversion Em; subst. destruct He.
      - rewrite map_st_cons in Em.
        destruct (ser_message lk (lookup_fuel lk) (snd nm) (p_namespace p) known) as [[mj k1]|] eqn:E1; [|discriminate].
        destruct (map_st _ ml k1) as [[es1 k3]|] eqn:E2 in Em; [|discriminate]. inversion Em; subst.
        destruct He as [<-|He].
        + assert (Hnm : In nm (p_messages p)) by (apply Hi; left; reflexivity). destruct (Hms nm Hnm) as [M1 M2].
          exact (message_words lk names Hlk _ _ _ _ _ _ _ M1 M2 E1).
        + eapply IH; [intros y Hy; apply Hi; right; exact Hy|exact E2|exact He]. }
    exact (Hgen (p_messages p) (incl_refl _) es known k2 Em _ Hi x Hn Hw).
Qed.
