(** Emitted documents are documents the importer understands. *)
From Verif Require Import BaseProofs MeaningProofs SerializeProofs SimProofs ProtocolProofs RegistryProofs ImportProofs
  ImportDocProofs DocProofs SpecNames.
From Verif Require Export SpecImport.
From Coq Require Import Permutation Sorted.

Lemma sorted_sortedb (o : list (string * json)) : sorted o -> sortedb o = true.
Proof.
  intro Hs. apply StronglySorted_Sorted in Hs. induction Hs as [|[k v] o Hs IH Hd]; [reflexivity|].
  destruct o as [|[k' v'] o]; [reflexivity|]. cbn [sortedb]. inversion Hd as [|? ? Hlt]; subst.
  unfold key_lt, str_lt in Hlt. cbn in Hlt. rewrite Hlt. exact IH.
Qed.

Ltac sorted_obj :=
  repeat first [apply bt_extend_sorted|apply bt_insert_sorted|apply opt_insert_sorted|apply sorted_nil|apply preamble_sorted].

Lemma finish_sorted o ps al ns : sorted o -> sorted (finish_named_type o ps al ns).
Proof. intro Ho. unfold finish_named_type. destruct al; sorted_obj; exact Ho. Qed.

Lemma leading_dot_simple n : contains_dot n = false -> leading_dot n = false.
Proof. intro E. unfold leading_dot. apply rsplit_None in E. rewrite E. reflexivity. Qed.

Lemma leading_dot_full n ns : contains_dot n = false -> leading_dot (make_full_name n ns) = false.
Proof.
  intro E. rewrite <- fullname_make. unfold fullname, qualify. destruct (str_is_empty (nsof ns)) eqn:En.
  - apply leading_dot_simple. exact E.
  - unfold leading_dot. assert (Hr : rsplit_once_dot (nsof ns ++ "." ++ n)%string = Some (nsof ns, n))
      by (apply rsplit_Some; auto).
    rewrite Hr. exact En.
Qed.

Lemma leading_dot_ref n ns enc : contains_dot n = false -> leading_dot (schema_ref_name n ns enc) = false.
Proof.
  intro E. unfold schema_ref_name. destruct (ostr_eqb ns enc); [destruct (is_schema_type_name n)|];
    auto using leading_dot_simple, leading_dot_full.
Qed.

Lemma leading_dot_prim p : leading_dot (prim_str p) = false.
Proof. destruct p; reflexivity. Qed.

Lemma clean_string n s : leading_dot s = false -> clean n (JStr s) = true.
Proof. intro E. destruct n; [reflexivity|]. cbn. rewrite E. reflexivity. Qed.

Lemma clean_prim_obj n o p :
  sorted o -> sget "type" o = Some (prim_str p) -> clean_primitive (prim_str p) o = true -> clean n (JObj o) = true.
Proof.
  intros Ho Ht Hc. destruct n; [reflexivity|]. cbn [clean]. rewrite (sorted_sortedb o Ho), Ht. destruct p; exact Hc.
Qed.

(** Well-formed: a type expression or a definition. *)
Definition emittable (s : schema) : Prop := (exists b, ty_ok b s = true) \/ def_ok s = true.

Lemma jobj_inj a b : JObj a = JObj b -> a = b.
Proof. intro E. injection E. auto. Qed.

Lemma clean_field_obj (f : field) j n :
  free_of ["name"; "type"; "doc"; "default"; "order"; "aliases"] (f_props f) = true ->
  (forall m, clean m j = true) ->
  match field_obj f j with
  | JObj fo => clean_field_attrs fo && match assoc "type" fo with Some t => clean n t | None => true end
  | _ => true
  end = true.
Proof.
  intros Hf Hj. destruct (field_obj_reads f j Hf) as (o & Eo & _ & Ht & _). pose proof Eo as Eo'.
  apply free_of_spec in Hf. destruct Hf as [Hn Hr]. rewrite Eo, Ht, Hj, andb_true_r.
  unfold field_obj in Eo'. apply jobj_inj in Eo'. rewrite <- Eo'.
  unfold clean_field_attrs, string_or_absent.
  match goal with |- context [sortedb ?x] => assert (Hs : sorted x); [destruct (f_aliases f); sorted_obj|] end.
  rewrite (sorted_sortedb _ Hs).
  rewrite !assoc_bt_extend_NoDup, !Hr by (exact Hn || (cbn; tauto)).
  destruct (f_aliases f) as [|a al]; destruct (f_order f) as [[]|];
      destruct (f_default f) as [dv|]; destruct (f_doc f) as [doc|];
      cbn [order_json option_map opt_insert]; rewrite ?assoc_bt_insert; cbn; try reflexivity;
      rewrite all_strings_map; reflexivity.
Qed.

Section Emitted.
  Variable lk : lookup_table.
  Hypothesis Hlk : forall k t, assoc k lk = Some t -> def_ok t = true /\ portable t = true.

  Lemma emitted_map {A} (f : A -> list string -> option (json * list string)) (P : json -> Prop) l :
    (forall x k j k', In x l -> f x k = Some (j, k') -> P j) ->
    forall k js k', map_st f l k = Some (js, k') -> Forall P js.
  Proof.
    induction l as [|x l IH]; intros Hf k js k' E.
    - rewrite map_st_nil in E. inversion E; subst. constructor.
    - rewrite map_st_cons in E. destruct (f x k) as [[j k1]|] eqn:E1; [|discriminate].
      destruct (map_st f l k1) as [[js1 k2]|] eqn:E2; [|discriminate]. inversion E; subst. constructor.
      + eapply Hf; [left; reflexivity|exact E1].
      + eapply IH; [|exact E2]. intros y ky jy ky' Hy. apply Hf. right. exact Hy.
  Qed.

  Lemma clean_named o (ty name : string) ns doc enc :
    sorted o ->
    (forall k, In k ["type"; "name"; "namespace"; "doc"] -> assoc k o = assoc k (preamble_obj ty name ns doc enc)) ->
    contains_dot name = false ->
    clean_name o = true /\ string_or_absent "doc" o = true /\ sget "type" o = Some ty /\ sortedb o = true.
  Proof.
    intros Ho Hk Hn.
    assert (E1 : assoc "name" o = Some (JStr name)) by (rewrite Hk, preamble_get by (cbn; tauto); reflexivity).
    assert (E2 : assoc "doc" o = option_map JStr doc) by (rewrite Hk, preamble_get by (cbn; tauto); reflexivity).
    assert (E3 : assoc "type" o = Some (JStr ty)) by (rewrite Hk, preamble_get by (cbn; tauto); reflexivity).
    repeat split.
    - unfold clean_name, sget. rewrite E1, Hn, (leading_dot_simple name Hn). reflexivity.
    - unfold string_or_absent. rewrite E2. destruct doc; reflexivity.
    - unfold sget. rewrite E3. reflexivity.
    - apply sorted_sortedb. exact Ho.
  Qed.

  Lemma emitted_clean n : forall s enc known j known',
    emittable s -> portable s = true -> ser lk n s enc known = Some (j, known') -> forall m, clean m j = true.
  Proof.
    induction n as [n IHn] using lt_wf_ind. intro s.
    induction s as [p|nm ns d fs e al ps IH|nm ns d sy df al ps|nm ns d sz al ps|i ps IH|i ps IH
                   |ts b IH|k ps|l ps|nm ns ps sp] using schema_ind';
      intros enc known j known' Hem Hpo E m.
    - rewrite ser_prim in E. inversion E; subst. apply clean_string, leading_dot_prim.
    - (* record *)
      destruct Hem as [(b & Hem)|Hem]; [discriminate|]. cbn [def_ok] in Hem. rewrite !andb_true_iff in Hem.
      destruct Hem as [[[Hname _] Hfree] Hfs]. unfold name_ok in Hname. apply andb_true_iff in Hname.
      destruct Hname as [Hdot _]. apply negb_true_iff in Hdot.
      rewrite ser_record in E. unfold named_type_preamble in E.
      destruct (str_mem (make_full_name nm ns) known).
      { inversion E; subst. apply clean_string, leading_dot_ref, Hdot. }
      fold (preamble_obj (if e then "error" else "record") nm ns d enc) in E.
      destruct (map_st _ fs _) as [[js k2]|] eqn:Em in E; [|discriminate]. apply some_pair_inj in E; destruct E as [<- _].
      apply free_of_spec in Hfree. destruct Hfree as [Hn Hr].
      set (o := finish_named_type _ ps al ns).
      assert (Ho : sorted o) by (apply finish_sorted; sorted_obj).
      assert (Hget : forall k, k <> "aliases" -> In k ["type"; "name"; "namespace"; "doc"; "fields"; "aliases"] ->
                 assoc k o = assoc k (bt_insert "fields" (JArr js) (preamble_obj (if e then "error" else "record") nm ns d enc))).
      { intros k Hk Hin. apply finish_get; auto. }
      destruct (clean_named o (if e then "error" else "record") nm ns d enc Ho) as (C1 & C2 & C3 & C4).
      { intros k Hk. rewrite Hget.
        - rewrite assoc_bt_insert. destruct (String.eqb_spec k "fields"); [subst; cbn in Hk; intuition discriminate|reflexivity].
        - intros ->. cbn in Hk. intuition discriminate.
        - cbn in *. tauto. }
      { exact Hdot. }
      destruct m as [|m]; [reflexivity|]. cbn [clean]. rewrite C4, C3.
      assert (Hty : str_mem (if e then "error" else "record") ["record"; "error"] = true) by (destruct e; reflexivity).
      rewrite Hty, C1, C2. rewrite (Hget "fields") by (try discriminate; cbn; tauto). rewrite assoc_bt_insert. cbn [String.eqb].
      cbn [Ascii.eqb Bool.eqb andb jarr]. apply forallb_forall. intros fj Hfj.
      assert (Hall : Forall (fun fj => match fj with
                                      | JObj fo => clean_field_attrs fo
                                          && match assoc "type" fo with Some t => clean m t | None => true end
                                      | _ => true
                                      end = true) js).
      { eapply emitted_map; [|exact Em]. intros f k0 j0 k0' Hf Ef. cbv beta in Ef. unfold ser_field in Ef.
        destruct (ser lk n (f_schema f) (opt_or ns enc) k0) as [[jf kf]|] eqn:Es; [|discriminate].
        apply some_pair_inj in Ef; destruct Ef as [<- _]. rewrite forallb_forall in Hfs. pose proof (Hfs f Hf) as Hfo.
        unfold field_ok in Hfo. apply andb_true_iff in Hfo. destruct Hfo as [Hf1 Hf2].
        apply clean_field_obj; [exact Hf1|]. intro m'. rewrite Forall_forall in IH.
        refine (IH f Hf _ _ _ _ _ _ Es m'); [left; eexists; exact Hf2|].
        cbn [portable] in Hpo. rewrite forallb_forall in Hpo. exact (Hpo f Hf). }
      rewrite Forall_forall in Hall. exact (Hall fj Hfj).
    - (* enum *)
      destruct Hem as [(b & Hem)|Hem]; [discriminate|]. cbn [def_ok] in Hem. rewrite !andb_true_iff in Hem.
      destruct Hem as [[Hname _] Hfree]. unfold name_ok in Hname. apply andb_true_iff in Hname.
      destruct Hname as [Hdot _]. apply negb_true_iff in Hdot.
      rewrite ser_enum in E. unfold named_type_preamble in E.
      destruct (str_mem (make_full_name nm ns) known).
      { inversion E; subst. apply clean_string, leading_dot_ref, Hdot. }
      fold (preamble_obj "enum" nm ns d enc) in E. unfold enum_obj in E. apply some_pair_inj in E; destruct E as [<- _].
      apply free_of_spec in Hfree. destruct Hfree as [Hn Hr].
      set (o := finish_named_type _ ps al ns).
      assert (Ho : sorted o) by (apply finish_sorted; sorted_obj).
      assert (Hget : forall k, k <> "aliases" -> In k ["type"; "name"; "namespace"; "doc"; "symbols"; "default"; "aliases"] ->
                 assoc k o = assoc k (opt_insert "default" (option_map JStr df)
                    (bt_insert "symbols" (JArr (map JStr sy)) (preamble_obj "enum" nm ns d enc)))).
      { intros k Hk Hin. apply finish_get; auto. }
      destruct (clean_named o "enum" nm ns d enc Ho) as (C1 & C2 & C3 & C4).
      { intros k Hk. rewrite Hget.
        - rewrite assoc_opt_insert, assoc_bt_insert. destruct df; cbn [option_map]; eqb_cases; try reflexivity; cbn in Hk; intuition discriminate.
        - intros ->. cbn in Hk. intuition discriminate.
        - cbn in *. tauto. }
      { exact Hdot. }
      destruct m as [|m]; [reflexivity|]. cbn [clean]. rewrite C4, C3.
      change (str_mem "enum" ["record"; "error"]) with false. change (String.eqb "enum" "enum") with true. cbv iota.
      rewrite C1, C2. unfold string_or_absent. rewrite (Hget "default") by (try discriminate; cbn; tauto).
      rewrite assoc_opt_insert. destruct df; cbn [option_map]; [reflexivity|].
      rewrite assoc_bt_insert, preamble_get. reflexivity.
    - (* fixed *)
      destruct Hem as [(b & Hem)|Hem]; [discriminate|]. cbn [def_ok] in Hem. rewrite !andb_true_iff in Hem.
      destruct Hem as [[Hname _] Hfree]. unfold name_ok in Hname. apply andb_true_iff in Hname.
      destruct Hname as [Hdot _]. apply negb_true_iff in Hdot.
      rewrite ser_fixed in E. unfold named_type_preamble in E.
      destruct (str_mem (make_full_name nm ns) known).
      { inversion E; subst. apply clean_string, leading_dot_ref, Hdot. }
      fold (preamble_obj "fixed" nm ns d enc) in E. unfold fixed_obj in E. apply some_pair_inj in E; destruct E as [<- _].
      apply free_of_spec in Hfree. destruct Hfree as [Hn Hr].
      set (o := finish_named_type _ ps al ns).
      assert (Ho : sorted o) by (apply finish_sorted; sorted_obj).
      assert (Hget : forall k, k <> "aliases" -> In k ["type"; "name"; "namespace"; "doc"; "size"; "aliases"] ->
                 assoc k o = assoc k (bt_insert "size" (JNum (NPos sz)) (preamble_obj "fixed" nm ns d enc))).
      { intros k Hk Hin. apply finish_get; auto. }
      destruct (clean_named o "fixed" nm ns d enc Ho) as (C1 & C2 & C3 & C4).
      { intros k Hk. rewrite Hget.
        - rewrite assoc_bt_insert. eqb_cases; try reflexivity; cbn in Hk; intuition discriminate.
        - intros ->. cbn in Hk. intuition discriminate.
        - cbn in *. tauto. }
      { exact Hdot. }
      destruct m as [|m]; [reflexivity|]. cbn [clean]. rewrite C4, C3.
      change (str_mem "fixed" ["record"; "error"]) with false. change (String.eqb "fixed" "enum") with false.
      change (String.eqb "fixed" "fixed") with true. cbv iota.
      rewrite C1, C2. rewrite (Hget "size") by (try discriminate; cbn; tauto).
      rewrite assoc_bt_insert. change (String.eqb "size" "size") with true. cbv iota. unfold u32_attr.
      cbn [portable] in Hpo. rewrite Hpo. cbn [andb]. rewrite ?andb_true_r. apply N.leb_le. lia.
    - (* array *)
      destruct Hem as [(b & Hem)|Hem]; [|discriminate]. cbn [ty_ok] in Hem. apply andb_true_iff in Hem. destruct Hem as [Hfree Hi].
      rewrite ser_array in E. destruct (ser lk n i enc known) as [[ji k1]|] eqn:Ei; [|discriminate].
      apply some_pair_inj in E; destruct E as [<- _]. apply free_of_spec in Hfree. destruct Hfree as [Hn Hr].
      set (o := bt_extend _ ps). assert (Ho : sorted o) by sorted_obj.
      destruct m as [|m]; [reflexivity|]. cbn [clean]. rewrite (sorted_sortedb o Ho). unfold sget, o.
      rewrite !assoc_bt_extend_NoDup, (Hr "type"), (Hr "items") by (exact Hn || (cbn; tauto)). cbn.
      refine (IH _ _ _ _ _ Hpo Ei m). left. eexists. exact Hi.
    - (* map *)
      destruct Hem as [(b & Hem)|Hem]; [|discriminate]. cbn [ty_ok] in Hem. apply andb_true_iff in Hem. destruct Hem as [Hfree Hi].
      rewrite ser_map in E. destruct (ser lk n i enc known) as [[ji k1]|] eqn:Ei; [|discriminate].
      apply some_pair_inj in E; destruct E as [<- _]. apply free_of_spec in Hfree. destruct Hfree as [Hn Hr].
      set (o := bt_extend _ ps). assert (Ho : sorted o) by sorted_obj.
      destruct m as [|m]; [reflexivity|]. cbn [clean]. rewrite (sorted_sortedb o Ho). unfold sget, o.
      rewrite !assoc_bt_extend_NoDup, (Hr "type"), (Hr "values") by (exact Hn || (cbn; tauto)). cbn.
      refine (IH _ _ _ _ _ Hpo Ei m). left. eexists. exact Hi.
    - (* union *)
      destruct Hem as [(b' & Hem)|Hem]; [|discriminate]. cbn [ty_ok portable] in Hem, Hpo. rewrite forallb_forall in Hem, Hpo.
      rewrite ser_union in E. destruct (map_st _ ts known) as [[js k1]|] eqn:Em in E; [|discriminate].
      apply some_pair_inj in E; destruct E as [<- _]. destruct m as [|m]; [reflexivity|]. cbn [clean]. apply forallb_forall.
      assert (Hall : Forall (fun x => clean m x = true) js).
      { eapply emitted_map; [|exact Em]. intros t k0 j0 k0' Ht Et. cbv beta in Et. rewrite Forall_forall in IH.
        refine (IH t Ht _ _ _ _ _ (Hpo t Ht) Et m). left. eexists. exact (Hem t Ht). }
      rewrite Forall_forall in Hall. exact Hall.
    - (* annotated primitive *)
      destruct Hem as [(b & Hem)|Hem]; [|discriminate]. cbn [ty_ok portable] in Hem, Hpo.
      rewrite ser_annot in E. apply some_pair_inj in E; destruct E as [<- _]. apply free_of_spec in Hem. destruct Hem as [Hn Hr].
      set (o := bt_extend _ ps). assert (Ho : sorted o) by sorted_obj.
      apply (clean_prim_obj m o k Ho).
      + unfold sget, o. rewrite assoc_bt_extend_NoDup, Hr by (exact Hn || (cbn; tauto)). reflexivity.
      + assert (Hg : forall x, x <> "type" -> assoc x o = assoc x ps).
        { intros x Hx. unfold o. rewrite assoc_bt_extend_NoDup by exact Hn. destruct (assoc x ps); [reflexivity|].
          rewrite assoc_bt_insert. destruct (String.eqb_spec x "type"); [contradiction|reflexivity]. }
        revert Hpo. unfold clean_primitive, sget, absent.
        rewrite (Hg "logicalType"), (Hg "precision"), (Hg "scale") by discriminate. auto.
    - (* logical *)
      destruct Hem as [(b & Hem)|Hem]; [|discriminate]. cbn [ty_ok portable] in Hem, Hpo.
      apply andb_true_iff in Hpo. destruct Hpo as [Hfr Hpo]. apply free_of_spec in Hfr. destruct Hfr as [_ Hr'].
      rewrite ser_logical in E. apply some_pair_inj in E; destruct E as [<- _]. apply free_of_spec in Hem. destruct Hem as [Hn Hr].
      unfold logical_obj. set (o := bt_extend _ ps). assert (Ho : sorted o) by (unfold o; destruct l; sorted_obj).
      apply (clean_prim_obj m o (expected_base_type l) Ho).
      + unfold sget, o. rewrite assoc_bt_extend_NoDup, Hr by (exact Hn || (cbn; tauto)). destruct l; reflexivity.
      + unfold clean_primitive, sget, absent, o.
        rewrite !assoc_bt_extend_NoDup, (Hr' "logicalType"), (Hr' "precision"), (Hr' "scale") by (exact Hn || (cbn; tauto)).
        destruct l; try reflexivity. rewrite !andb_true_iff in Hpo. destruct Hpo as [[P1 P2] P3].
        cbn. rewrite P1, P2, P3. cbn [andb]. rewrite andb_true_r. apply N.leb_le. lia.
    - (* reference *)
      destruct Hem as [(b & Hem)|Hem]; [|discriminate]. cbn [ty_ok] in Hem. apply andb_true_iff in Hem. destruct Hem as [Hname _].
      unfold name_ok in Hname. apply andb_true_iff in Hname. destruct Hname as [Hdot _]. apply negb_true_iff in Hdot.
      rewrite ser_ref in E. destruct (str_mem (make_full_name nm ns) known).
      { inversion E; subst. apply clean_string, leading_dot_ref, Hdot. }
      destruct (assoc (make_full_name nm ns) lk) as [t|] eqn:Et.
      + destruct n as [|n']; [discriminate|]. destruct (Hlk _ _ Et) as [Hd Hp].
        refine (IHn n' _ t _ _ _ _ _ Hp E m); [lia|]. right. exact Hd.
      + inversion E; subst. apply clean_string, leading_dot_ref, Hdot.
  Qed.

  Lemma emitted_message_clean n msg enc known j known' b :
    message_ok b msg = true -> portable_message msg = true ->
    ser_message lk n msg enc known = Some (j, known') -> forall m, clean_message m j = true.
  Proof.
    unfold message_ok, portable_message. rewrite !andb_true_iff. intros [[[Hf Hrq] Hrs] Her] [[Prq Prs] Per] E m.
    apply free_of_spec in Hf. destruct Hf as [Hn Hr]. unfold ser_message in E.
    destruct (map_st _ (m_request msg) known) as [[rq k1]|] eqn:E1 in E; [|discriminate].
    destruct (ser lk n (m_response msg) enc k1) as [[rs k2]|] eqn:E2; [|discriminate].
    set (base := bt_extend (opt_insert "doc" (option_map JStr (m_doc msg)) []) (m_props msg)) in *.
    assert (Hbase : sorted base) by (unfold base; sorted_obj).
    assert (Hbd : string_or_absent "doc" base = true).
    { unfold string_or_absent, base. rewrite assoc_bt_extend_NoDup, Hr by (exact Hn || (cbn; tauto)).
      destruct (m_doc msg); reflexivity. }
    assert (Hbe : assoc "errors" base = None).
    { unfold base. rewrite assoc_bt_extend_NoDup, Hr by (exact Hn || (cbn; tauto)). destruct (m_doc msg); reflexivity. }
    assert (Crq : forallb (clean_field m) rq = true).
    { apply forallb_forall. rewrite forallb_forall in Hrq, Prq.
      assert (Hall : Forall (fun x => clean_field m x = true) rq).
      { eapply emitted_map; [|exact E1]. intros f k0 j0 k0' Hf Ef. cbv beta in Ef. unfold ser_field in Ef.
        destruct (ser lk n (f_schema f) enc k0) as [[jf kf]|] eqn:Es; [|discriminate].
        apply some_pair_inj in Ef; destruct Ef as [<- _]. pose proof (Hrq f Hf) as Hfo.
        unfold field_ok in Hfo. apply andb_true_iff in Hfo. destruct Hfo as [Hf1 Hf2].
        unfold clean_field. apply clean_field_obj; [exact Hf1|]. intro m'.
        refine (emitted_clean n _ _ _ _ _ _ (Prq f Hf) Es m'). left. eexists. exact Hf2. }
      rewrite Forall_forall in Hall. exact Hall. }
    assert (Crs : clean m rs = true).
    { refine (emitted_clean n _ _ _ _ _ _ Prs E2 m). left. eexists. exact Hrs. }
    set (o2 := bt_insert "response" rs (bt_insert "request" (JArr rq) base)) in *.
    assert (Ho2 : sorted o2) by (unfold o2; sorted_obj; exact Hbase).
    assert (Hfin : forall o, sorted o -> assoc "doc" o = assoc "doc" base -> assoc "request" o = Some (JArr rq) ->
              assoc "response" o = Some rs -> forallb (clean m) (jarr (assoc "errors" o)) = true ->
              clean_message m (JObj o) = true).
    { intros o Ho H1 H2 H3 H4. cbn [clean_message]. unfold string_or_absent in *. rewrite (sorted_sortedb o Ho), H1, H2, H3, Crs, H4, Hbd.
      cbn [jarr]. rewrite Crq. reflexivity. }
    destruct (m_errors msg) as [es|].
    - destruct (map_st _ es k2) as [[ej k3]|] eqn:E3 in E; [|discriminate]. apply some_pair_inj in E; destruct E as [<- _].
      assert (Cer : forallb (clean m) ej = true).
      { apply forallb_forall. rewrite forallb_forall in Her, Per.
        assert (Hall : Forall (fun x => clean m x = true) ej).
        { eapply emitted_map; [|exact E3]. intros t k0 j0 k0' Ht Et. cbv beta in Et.
          refine (emitted_clean n _ _ _ _ _ _ (Per t Ht) Et m). left. eexists. exact (Her t Ht). }
        rewrite Forall_forall in Hall. exact Hall. }
      apply Hfin; destruct (m_one_way msg); try (sorted_obj; exact Hbase);
        unfold o2; rewrite ?assoc_bt_insert; cbn; auto.
    - apply some_pair_inj in E; destruct E as [<- _].
      apply Hfin; destruct (m_one_way msg); try (sorted_obj; exact Hbase);
        unfold o2; rewrite ?assoc_bt_insert; cbn; auto; rewrite Hbe; reflexivity.
  Qed.
End Emitted.

Lemma emitted_protocol_clean p j :
  protocol_ok p = true -> forallb portable (p_types p) = true ->
  forallb (fun nm => portable_message (snd nm)) (p_messages p) = true ->
  protocol_to_json p = Some j -> forall m, clean_protocol m j = true.
Proof.
  intros Hok Hpt Hpm E m. destruct (protocol_ok_facts p Hok) as (Hdefs & Hns & Hnames & Hrefs & Hprops & Hmn & Hms).
  rewrite forallb_forall in Hpt, Hpm. unfold protocol_to_json, types_to_json, messages_to_json, schema_to_json in E.
  set (lk := build_lookup (p_types p) (p_namespace p)) in *.
  assert (Hlk : forall k t, assoc k lk = Some t -> def_ok t = true /\ portable t = true).
  { intros k t Ek. apply flat_assoc_inv in Ek; auto. destruct Ek as [Hin _]. rewrite forallb_forall in Hdefs. auto. }
  destruct (map_st _ (p_types p) []) as [[js known]|] eqn:Et in E; [|discriminate].
  destruct (map_st _ (p_messages p) known) as [[es k2]|] eqn:Em in E; [|discriminate]. inversion E; subst j. clear E.
  cbn [clean_protocol]. rewrite !assoc_bt_insert. cbn [String.eqb Ascii.eqb Bool.eqb jarr].
  apply andb_true_iff. split.
  - apply forallb_forall. intros x Hx. apply filter_In in Hx. destruct Hx as [Hx _].
    assert (Hall : Forall (fun x => clean m x = true) js).
    { eapply emitted_map; [|exact Et]. intros t k0 j0 k0' Ht Et'. cbv beta in Et'.
      refine (emitted_clean lk Hlk _ _ _ _ _ _ _ (Hpt t Ht) Et' m). right. rewrite forallb_forall in Hdefs. auto. }
    rewrite Forall_forall in Hall. auto.
  - apply forallb_forall. intros x Hx.
    assert (Hin : In x es).
    { clear - Hx. assert (G : forall l acc, In x (bt_extend acc l) -> In x acc \/ In x l).
      { induction l as [|[k v] l IH]; intros acc H; [auto|]. cbn in H. apply IH in H. destruct H as [H|H]; [|right; right; exact H].
        assert (Hins : forall (o : list (string * json)), In x (bt_insert k v o) -> x = (k, v) \/ In x o).
        { induction o as [|[k' v'] o IHo]; cbn; [intros [<-|[]]; auto|].
          destruct (String.compare k k'); cbn.
          - intros [<-|Hin]; auto.
          - intros [<-|Hin]; auto.
          - intros [<-|Hin]; [auto|]. destruct (IHo Hin); auto. }
        apply Hins in H. destruct H as [->|H]; [right; left; reflexivity|auto]. }
      destruct (G es [] Hx) as [[]|H]; exact H. }
    assert (Hall : forall e, In e es -> clean_message m (snd e) = true).
    { clear Hx Hin.
      assert (Hgen : forall ml, incl ml (p_messages p) -> forall es known k2,
        map_st (fun (nm : string * message) (k : list string) =>
                match ser_message lk (lookup_fuel lk) (snd nm) (p_namespace p) k with
                | Some (j, k1) => Some (fst nm, j, k1) | None => None end) ml known = Some (es, k2) ->
        forall e, In e es -> clean_message m (snd e) = true).
      { clear es known Et k2 Em. induction ml as [|nm ml IH]; intros Hi es0 known k2 Em e He.
        - rewrite map_st_nil in Em. inversion Em; subst. destruct He.
        - rewrite map_st_cons in Em.
          destruct (ser_message lk (lookup_fuel lk) (snd nm) (p_namespace p) known) as [[mj k1]|] eqn:E1; [|discriminate].
          destruct (map_st _ ml k1) as [[es1 k3]|] eqn:E2 in Em; [|discriminate]. inversion Em; subst.
          destruct He as [<-|He].
          + cbn. assert (Hnm : In nm (p_messages p)) by (apply Hi; left; reflexivity).
            refine (emitted_message_clean lk Hlk _ _ _ _ _ _ _ (proj1 (Hms nm Hnm)) (Hpm nm Hnm) E1 m).
          + eapply IH; [intros y Hy; apply Hi; right; exact Hy|exact E2|exact He]. }
      exact (Hgen (p_messages p) (incl_refl _) es known k2 Em). }
    exact (Hall x Hin).
Qed.

Section RoundTrip.
  Context `{Unicode}.

  Lemma read_types_of_protocol n j ap :
    read_protocol n j = Some ap ->
    exists defs rest, read_types n j = Some defs /\ ap_defs ap = defs ++ rest
      /\ Permutation (keys rest) (messages_defined n j).
  Proof.
    destruct j as [| | | | |o]; try discriminate. cbn [read_protocol read_types messages_defined]. unfold protocol_ns.
    set (ns := match sget "namespace" o with Some s => s | None => "" end).
    destruct (sget "protocol" o); [|discriminate].
    destruct (assoc "types" o) as [[| | | |tjs|]|]; try discriminate.
    destruct (assoc "messages" o) as [[| | | | |mjs]|]; try discriminate. cbn [jarr].
    destruct (map_st (fun tj st => read n tj ns st) tjs ([], [])) as [[ts st1]|]; [|discriminate].
    set (gm := fun (nm : string * json) (st : rstate) => _).
    destruct (map_st gm mjs st1) as [[ms st2]|] eqn:E; [|discriminate]. intro H0. injection H0 as <-. cbn [ap_defs].
    exists (snd st1).
    assert (Ha : adds (flat_map (fun nm => message_defined n ns (snd nm)) mjs) st1 st2).
    { eapply map_st_adds; [|exact E]. intros x s1 y s2 _ Ex. unfold gm in Ex.
      destruct (read_message n (snd x) ns s1) as [[m s3]|] eqn:Em; [|discriminate]. inversion Ex; subst.
      eapply read_message_adds. exact Em. }
    destruct Ha as (_ & (new & En & Hp) & _). exists new. split; [reflexivity|]. split; [exact En|exact Hp].
  Qed.

  Lemma round_trip p r :
    protocol_ok p = true -> forallb portable (p_types p) = true ->
    forallb (fun nm => portable_message (snd nm)) (p_messages p) = true ->
    Forall (fun t => valid_full (type_name t)) (p_types p) ->
    (forall t, In t (p_types p) -> ~ In (type_name t) (keys r)) ->
    exists j new ms, protocol_to_json p = Some j
      /\ import_protocol j r = (r ++ new, Ok ms)
      /\ Permutation (keys new) (map type_name (p_types p))
      /\ (forall t, In t (p_types p) -> exists t', assoc (type_name t) new = Some t'
              /\ named_meaning t' = named_meaning t /\ flat_definition t' = true)
      /\ Permutation (map (fun nm => (fst nm, message_meaning (snd nm))) ms)
                     (map (fun nm => (fst nm, message_meaning (snd nm))) (p_messages p)).
  Proof.
    intros Hok Hpt Hpm Hv Hr. destruct (protocol_faithful p Hok) as (j & ap & Ej & Er & _ & _ & _ & Hnd & Hdefs & Hmsgs & _ & Hmd & _).
    destruct (protocol_ok_facts p Hok) as (Hdo & _ & Hnames & _).
    destruct (read_types_of_protocol _ _ _ Er) as (defs & rest & Et & Eap & Hrest). rewrite Hmd in Hrest.
    apply Permutation_sym, Permutation_nil in Hrest.
    assert (rest = []) as -> by (destruct rest; [reflexivity|discriminate]). clear Hrest.
    rewrite app_nil_r in Eap. rewrite Eap in *.
    assert (Hnm : forall t, In t (p_types p) -> exists d, named_meaning t = Some (type_name t, d)).
    { intros t Ht. rewrite forallb_forall in Hdo. specialize (Hdo t Ht). destruct t; try discriminate; eexists; reflexivity. }
    assert (Hk : Permutation (keys defs) (map type_name (p_types p))).
    { apply (Permutation_map (fun o => match o with Some (f, _) => f | None => "" end)) in Hdefs.
      rewrite !map_map in Hdefs. unfold keys.
      erewrite map_ext; [|intro a]. 1: rewrite Hdefs. 1: erewrite map_ext_in; [reflexivity|].
      - intros t Ht. destruct (Hnm t Ht) as (d & ->). reflexivity.
      - destruct a. reflexivity. }
    destruct (import_protocol_reads (jdepth j) j ap defs r) as (r' & ms & Ei & (new & -> & Kn & Mn & Fn) & Hms); auto.
    - apply (emitted_protocol_clean p); auto.
    - apply Forall_forall. intros [f d] Hin. cbn.
      assert (Hf : In f (map type_name (p_types p))).
      { eapply Permutation_in; [exact Hk|]. apply (in_map fst) in Hin. exact Hin. }
      apply in_map_iff in Hf. destruct Hf as (t & <- & Ht). rewrite Forall_forall in Hv. auto.
    - intros f Hf. apply (Permutation_in _ Hk) in Hf. apply in_map_iff in Hf. destruct Hf as (t & <- & Ht). auto.
    - exists j, new, ms. split; [exact Ej|]. split; [exact Ei|]. split; [rewrite Kn; exact Hk|]. split.
      + intros t Ht. destruct (Hnm t Ht) as (d & Ed).
        assert (Hin : In (type_name t, d) defs).
        {
          assert (Hx : In (Some (type_name t, d)) (map (fun fd => Some fd) defs)).
          { eapply Permutation_in; [symmetry; exact Hdefs|]. rewrite <- Ed. apply in_map. exact Ht. }
          apply in_map_iff in Hx. destruct Hx as (x & Ex & Hx). injection Ex as ->. exact Hx. }
        assert (Hgen : forall (new : registry) defs, keys new = keys defs -> map named_meaning (map snd new) = map Some defs ->
                  In (type_name t, d) defs -> exists t', In (type_name t, t') new /\ named_meaning t' = Some (type_name t, d)).
        { clear. induction new as [|[k s] new IH]; intros [|[f e] defs] H1 H2 H3; try discriminate; [destruct H3|].
          cbn in H1, H2. injection H1 as -> H1. injection H2 as H2 H2'. destruct H3 as [E|H3].
          - injection E as -> ->. exists s. split; [left; reflexivity|exact H2].
          - destruct (IH defs H1 H2' H3) as (t' & A & B). exists t'. split; [right; exact A|exact B]. }
        destruct (Hgen new defs Kn Mn Hin) as (t' & Hin' & Em). exists t'. split.
        * apply In_assoc_NoDup; [|exact Hin']. rewrite Kn. exact Hnd.
        * split; [congruence|]. rewrite Forall_forall in Fn. apply (Fn _ Hin').
      + rewrite Hms. exact Hmsgs.
  Qed.

  (** A single type and everything it needs, through a .avsc document. *)
  Lemma round_trip_schema types s r :
    registry_ok types = true -> forallb portable types = true -> portable s = true ->
    In s types \/ (ty_ok true s = true /\ subset (refs_of s) (map type_name types) = true) ->
    Forall (fun t => valid_full (type_name t)) types ->
    (forall t, In t types -> ~ In (type_name t) (keys r)) ->
    exists j known new, schema_to_json s [] None (build_lookup types None) = Some (j, known)
      /\ import_schema j r = (r ++ new, Ok tt)
      /\ NoDup (keys new)
      /\ (forall f, In f (keys new) <-> exists x, In x (roots s) /\ reaches types x f)
      /\ (forall f t', assoc f new = Some t' -> flat_definition t' = true
            /\ exists t, In t types /\ type_name t = f /\ named_meaning t' = named_meaning t).
  Proof.
    intros Hok Hpt Hps Hs Hv Hr.
    destruct (document_faithful types s Hok Hs) as (j & known & defs & Ej & Er & Hnd & Hdefs & Hreach).
    unfold registry_ok in Hok. rewrite !andb_true_iff in Hok. destruct Hok as [[Hdo Hnames] _].
    rewrite forallb_forall in Hpt.
    assert (Hlk : forall k t, assoc k (build_lookup types None) = Some t -> def_ok t = true /\ portable t = true).
    { intros k t Ek. apply flat_assoc_inv in Ek; auto. destruct Ek as [Hin _]. rewrite forallb_forall in Hdo. auto. }
    assert (Hem : emittable s).
    { destruct Hs as [Hs|[Hs _]]; [right|left; eexists; exact Hs]. rewrite forallb_forall in Hdo. auto. }
    assert (Hname : forall f d t, In t types -> named_meaning t = Some (f, d) -> type_name t = f).
    { intros f d t Ht E. rewrite forallb_forall in Hdo. specialize (Hdo t Ht). destruct t; try discriminate; inversion E; reflexivity. }
    assert (Hkt : forall f, In f (keys defs) -> exists t, In t types /\ type_name t = f).
    { intros f Hf. apply In_keys_assoc in Hf. destruct Hf as (d & Hd). apply assoc_In in Hd.
      destruct (Hdefs f d Hd) as (t & Ht & E). exists t. split; [exact Ht|]. eapply Hname; eassumption. }
    destruct (import_schema_reads (jdepth j) j (meaning s) defs r) as (r' & Ei & (new & -> & Kn & Mn & Fn)).
    - unfold schema_to_json in Ej. exact (emitted_clean _ Hlk _ _ _ _ _ _ Hem Hps Ej _).
    - exact Er.
    - apply Forall_forall. intros [f d] Hin. cbn. apply (in_map fst) in Hin. apply Hkt in Hin. cbn in Hin.
      destruct Hin as (t & Ht & <-). rewrite Forall_forall in Hv. auto.
    - intros f Hf. apply Hkt in Hf. destruct Hf as (t & Ht & <-). auto.
    - exists j, known, new. split; [exact Ej|]. split; [exact Ei|]. split; [rewrite Kn; exact Hnd|].
      split; [intro f; rewrite Kn; apply Hreach|]. intros f t' Ha. apply assoc_In in Ha. split.
      { rewrite Forall_forall in Fn. apply (Fn _ Ha). }
      assert (Hgen : forall (new : registry) defs, keys new = keys defs -> map named_meaning (map snd new) = map Some defs ->
                  In (f, t') new -> exists d, In (f, d) defs /\ named_meaning t' = Some (f, d)).
        { clear. induction new as [|[k s] new IH]; intros [|[g e] defs] H1 H2 H3; try discriminate; [destruct H3|].
          cbn in H1, H2. injection H1 as -> H1. injection H2 as H2 H2'. destruct H3 as [E|H3].
          - injection E as -> ->. exists e. split; [left; reflexivity|exact H2].
          - destruct (IH defs H1 H2' H3) as (d & A & B). exists d. split; [right; exact A|exact B]. }
      destruct (Hgen new defs Kn Mn Ha) as (d & Hin & Em). destruct (Hdefs f d Hin) as (t & Ht & Et).
      exists t. split; [exact Ht|]. split; [eapply Hname; eassumption|congruence].
  Qed.
End RoundTrip.
