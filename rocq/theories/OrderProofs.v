(** Independence of hash-map iteration order, and of the amount of fuel. *)
From Verif Require Export ProtocolProofs SpecOrder.
From Coq Require Import Permutation.

(** ** More fuel gives the same result *)

Lemma ser_mono lk n : forall m s enc known r,
  n <= m -> ser lk n s enc known = Some r -> ser lk m s enc known = Some r.
Proof.
  induction n as [n IHn] using lt_wf_ind. intros m s.
  induction s as [p|nm ns d fs e al ps IH|nm ns d sy df al ps|nm ns d sz al ps|i ps IH|i ps IH
                 |ts b IH|k ps|l ps|nm ns ps sp] using schema_ind'; intros enc known r Hle E.
  - rewrite ser_prim in *. exact E.
  - rewrite ser_record in *. destruct (named_type_preamble _ nm ns d known enc) as [bare|[o k1]]; [exact E|].
    destruct (map_st (fun f k => ser_field lk n f (opt_or ns enc) k) fs k1) as [[js k2]|] eqn:Em; [|discriminate].
    assert (Em' : map_st (fun f k => ser_field lk m f (opt_or ns enc) k) fs k1 = Some (js, k2)).
    { eapply map_st_mono; [|exact Em].
      intros f st r' Hin Ef. rewrite Forall_forall in IH. unfold ser_field in *.
      destruct (ser lk n (f_schema f) (opt_or ns enc) st) as [[tj k3]|] eqn:Es; [|discriminate].
      rewrite (IH f Hin _ _ _ Hle Es). exact Ef. }
    rewrite Em'. exact E.
  - rewrite ser_enum in *. exact E.
  - rewrite ser_fixed in *. exact E.
  - rewrite ser_array in *. destruct (ser lk n i enc known) as [[ij k1]|] eqn:Ei; [|discriminate].
    rewrite (IH _ _ _ Hle Ei). exact E.
  - rewrite ser_map in *. destruct (ser lk n i enc known) as [[ij k1]|] eqn:Ei; [|discriminate].
    rewrite (IH _ _ _ Hle Ei). exact E.
  - rewrite ser_union in *.
    destruct (map_st (fun t k => ser lk n t enc k) ts known) as [[js k2]|] eqn:Em; [|discriminate].
    assert (Em' : map_st (fun t k => ser lk m t enc k) ts known = Some (js, k2)).
    { eapply map_st_mono; [|exact Em].
      intros t st r' Hin Et. rewrite Forall_forall in IH. apply IH; assumption. }
    rewrite Em'. exact E.
  - rewrite ser_annot in *. exact E.
  - rewrite ser_logical in *. exact E.
  - rewrite ser_ref in *. destruct (str_mem (make_full_name nm ns) known); [exact E|].
    destruct (assoc (make_full_name nm ns) lk) as [t|]; [|exact E].
    destruct n as [|n']; [discriminate|]. destruct m as [|m']; [lia|].
    apply (IHn n'); [lia|lia|exact E].
Qed.

(** ** Property order *)

Lemma bt_extend_canon (o ps : list (string * json)) :
  sorted o -> NoDup (keys ps) -> bt_extend o (canon ps) = bt_extend o ps.
Proof.
  intros Ho Hn. apply bt_extend_Permutation; [exact Ho| |].
  - apply sorted_NoDup. apply bt_extend_sorted, sorted_nil.
  - apply bt_extend_perm. exact Hn.
Qed.

Lemma field_obj_sort srt (f : field) j :
  NoDup (keys (f_props f)) -> field_obj (sort_field srt f) j = field_obj f j.
Proof.
  intro Hn. unfold field_obj, sort_field. cbn [f_name f_schema f_doc f_default f_order f_aliases f_props].
  f_equal. apply bt_extend_canon; [|exact Hn].
  destruct (f_aliases f); repeat first [apply bt_insert_sorted|apply opt_insert_sorted]; apply sorted_nil.
Qed.

Lemma preamble_sorted_result ty nm ns d known enc o k1 :
  named_type_preamble ty nm ns d known enc = inr (o, k1) -> sorted o.
Proof.
  intro H. destruct (str_mem (make_full_name nm ns) known) eqn:E.
  - unfold named_type_preamble in H. rewrite E in H. discriminate.
  - apply str_mem_not_In in E. rewrite preamble_new in H by exact E. inversion H; subst.
    apply preamble_sorted.
Qed.

Lemma finish_sort o ps al ns :
  sorted o -> NoDup (keys ps) -> finish_named_type o (canon ps) al ns = finish_named_type o ps al ns.
Proof. intros Ho Hn. unfold finish_named_type. rewrite bt_extend_canon by assumption. reflexivity. Qed.

Lemma map_st_map {A A' B S} (f : A -> A') (g : A' -> S -> option (B * S)) l st :
  map_st g (map f l) st = map_st (fun x st => g (f x) st) l st.
Proof.
  revert st. induction l as [|x l IH]; intro st; [reflexivity|]. cbn [map]. rewrite !map_st_cons.
  destruct (g (f x) st) as [[y st1]|]; [|reflexivity]. rewrite IH. reflexivity.
Qed.

Lemma map_st_ext_in {A B S} (f g : A -> S -> option (B * S)) l :
  (forall x st, In x l -> f x st = g x st) -> forall st, map_st f l st = map_st g l st.
Proof.
  induction l as [|x l IH]; intros H st; [reflexivity|]. rewrite !map_st_cons.
  rewrite H by (left; reflexivity). destruct (g x st) as [[y st1]|]; [|reflexivity].
  rewrite IH; [reflexivity|]. intros y' st' Hin. apply H. right. exact Hin.
Qed.

Definition sort_table (lk : lookup_table) : lookup_table := map (fun kt => (fst kt, sort_props (snd kt))) lk.

Lemma assoc_map {A B} (f : A -> B) k l :
  assoc k (map (fun kv => (fst kv, f (snd kv))) l) = option_map f (assoc k l).
Proof.
  induction l as [|[k' v] l IH]; simpl; [reflexivity|]. destruct (String.eqb k k'); [reflexivity|exact IH].
Qed.

Section Sorted.
  Variable lk : lookup_table.
  Hypothesis Hlk : forall k t, assoc k lk = Some t -> maps_ok t = true.

  Lemma ser_sort n : forall s enc known,
    maps_ok s = true -> ser (sort_table lk) n (sort_props s) enc known = ser lk n s enc known.
  Proof.
    induction n as [n IHn] using lt_wf_ind. intros s.
    induction s as [p|nm ns d fs e al ps IH|nm ns d sy df al ps|nm ns d sz al ps|i ps IH|i ps IH
                   |ts b IH|k ps|l ps|nm ns ps sp] using schema_ind'; intros enc known Hok;
      cbn [sort_props maps_ok] in *; rewrite ?andb_true_iff, ?nodupb_NoDup in Hok.
    - rewrite !ser_prim. reflexivity.
    - rewrite !ser_record. destruct Hok as [Hn Hfs].
      destruct (named_type_preamble _ nm ns d known enc) as [bare|[o k1]] eqn:Ep; [reflexivity|].
      apply preamble_sorted_result in Ep.
      rewrite map_st_map.
      assert (Hf : forall st, map_st (fun f k => ser_field (sort_table lk) n (sort_field sort_props f) (opt_or ns enc) k) fs st
                   = map_st (fun f k => ser_field lk n f (opt_or ns enc) k) fs st).
      { intro st. apply map_st_ext_in. intros f st' Hin. rewrite forallb_forall in Hfs.
        specialize (Hfs f Hin). rewrite andb_true_iff, nodupb_NoDup in Hfs. destruct Hfs as [Hfn Hft].
        unfold ser_field. rewrite Forall_forall in IH. cbn [sort_field f_schema].
        rewrite (IH f Hin) by exact Hft. destruct (ser lk n (f_schema f) (opt_or ns enc) st') as [[tj k2]|]; [|reflexivity].
        rewrite field_obj_sort by exact Hfn. reflexivity. }
      rewrite Hf. destruct (map_st _ fs k1) as [[js k2]|]; [|reflexivity].
      rewrite finish_sort; [reflexivity| |exact Hn]. apply bt_insert_sorted. exact Ep.
    - rewrite !ser_enum. destruct (named_type_preamble _ nm ns d known enc) as [bare|[o k1]] eqn:Ep; [reflexivity|].
      apply preamble_sorted_result in Ep. unfold enum_obj. rewrite finish_sort; [reflexivity| |exact Hok].
      apply opt_insert_sorted, bt_insert_sorted. exact Ep.
    - rewrite !ser_fixed. destruct (named_type_preamble _ nm ns d known enc) as [bare|[o k1]] eqn:Ep; [reflexivity|].
      apply preamble_sorted_result in Ep. unfold fixed_obj. rewrite finish_sort; [reflexivity| |exact Hok].
      apply bt_insert_sorted. exact Ep.
    - destruct Hok as [Hn Hi]. rewrite !ser_array, IH by exact Hi.
      destruct (ser lk n i enc known) as [[ij k1]|]; [|reflexivity].
      rewrite bt_extend_canon; [reflexivity| |exact Hn]. repeat apply bt_insert_sorted. apply sorted_nil.
    - destruct Hok as [Hn Hi]. rewrite !ser_map, IH by exact Hi.
      destruct (ser lk n i enc known) as [[ij k1]|]; [|reflexivity].
      rewrite bt_extend_canon; [reflexivity| |exact Hn]. repeat apply bt_insert_sorted. apply sorted_nil.
    - rewrite !ser_union, map_st_map.
      rewrite (map_st_ext_in _ (fun t k => ser lk n t enc k)); [reflexivity|].
      intros t st Hin. rewrite Forall_forall in IH. apply (IH t Hin).
      rewrite forallb_forall in Hok. apply Hok. exact Hin.
    - rewrite !ser_annot, bt_extend_canon; [reflexivity| |exact Hok]. apply bt_insert_sorted, sorted_nil.
    - rewrite !ser_logical. unfold logical_obj. rewrite bt_extend_canon; [reflexivity| |exact Hok].
      destruct l; repeat apply bt_insert_sorted; apply sorted_nil.
    - rewrite !ser_ref. destruct (str_mem (make_full_name nm ns) known); [reflexivity|].
      unfold sort_table at 1. rewrite assoc_map.
      destruct (assoc (make_full_name nm ns) lk) as [t|] eqn:Et; simpl; [|reflexivity].
      destruct n as [|n']; [reflexivity|]. apply (IHn n' ltac:(lia)). exact (Hlk _ _ Et).
  Qed.

  Lemma ser_field_sort n f enc known :
    field_maps_ok f = true ->
    ser_field (sort_table lk) n (sort_field sort_props f) enc known = ser_field lk n f enc known.
  Proof.
    unfold field_maps_ok. rewrite andb_true_iff, nodupb_NoDup. intros [Hn Ht]. unfold ser_field.
    cbn [sort_field f_schema]. rewrite ser_sort by exact Ht.
    destruct (ser lk n (f_schema f) enc known) as [[tj k]|]; [|reflexivity].
    rewrite field_obj_sort by exact Hn. reflexivity.
  Qed.

  Lemma ser_message_sort n m enc known :
    message_maps_ok m = true ->
    ser_message (sort_table lk) n (sort_message m) enc known = ser_message lk n m enc known.
  Proof.
    unfold message_maps_ok. rewrite !andb_true_iff, nodupb_NoDup. intros [[[Hn Hrq] Hrs] Her].
    unfold ser_message, sort_message. cbn [m_doc m_props m_request m_response m_errors m_one_way].
    rewrite bt_extend_canon by (try exact Hn; apply opt_insert_sorted, sorted_nil).
    rewrite map_st_map.
    rewrite (map_st_ext_in _ (fun f k => ser_field lk n f enc k)).
    2: { intros f st Hin. apply ser_field_sort. rewrite forallb_forall in Hrq. apply Hrq. exact Hin. }
    destruct (map_st (fun f k => ser_field lk n f enc k) (m_request m) known) as [[rq k1]|]; [|reflexivity].
    rewrite ser_sort by exact Hrs. destruct (ser lk n (m_response m) enc k1) as [[rs k2]|]; [|reflexivity].
    destruct (m_errors m) as [es|]; cbn [option_map]; [|reflexivity].
    rewrite map_st_map. rewrite (map_st_ext_in _ (fun e k => ser lk n e enc k)); [reflexivity|].
    intros e st Hin. apply ser_sort. rewrite forallb_forall in Her. apply Her. exact Hin.
  Qed.
End Sorted.

Lemma collect_sort s : forall dns lk,
  collect_named_types (sort_props s) dns (sort_table lk) = sort_table (collect_named_types s dns lk).
Proof.
  induction s as [p|nm ns d fs e al ps IH|nm ns d sy df al ps|nm ns d sz al ps|i ps IH|i ps IH
                 |ts b IH|k ps|l ps|nm ns ps sp] using schema_ind'; intros dns lk; cbn [sort_props collect_named_types];
    try reflexivity; try apply IH.
  - change ((make_full_name nm (opt_or ns dns), SRecord nm ns d (map (sort_field sort_props) fs) e al (canon ps)) :: sort_table lk)
      with (sort_table ((make_full_name nm (opt_or ns dns), SRecord nm ns d fs e al ps) :: lk)).
    generalize ((make_full_name nm (opt_or ns dns), SRecord nm ns d fs e al ps) :: lk). clear lk.
    induction IH as [|f l Hf Hl IHl]; intro lk; [reflexivity|]. cbn [map fold_left sort_field f_schema].
    rewrite Hf. apply IHl.
  - revert lk. induction IH as [|f l Hf Hl IHl]; intro lk; [reflexivity|]. cbn [map fold_left].
    rewrite Hf. apply IHl.
Qed.

Lemma build_lookup_sort types dns : build_lookup (map sort_props types) dns = sort_table (build_lookup types dns).
Proof.
  unfold build_lookup. change (@nil (string * schema)) with (sort_table []) at 1.
  generalize (@nil (string * schema)). induction types as [|t l IH]; intro lk; [reflexivity|].
  cbn [map fold_left]. rewrite collect_sort. apply IH.
Qed.

Definition table_maps_ok (lk : lookup_table) : Prop := Forall (fun kv => maps_ok (snd kv) = true) lk.

Lemma collect_maps_ok s : forall dns lk, maps_ok s = true -> table_maps_ok lk -> table_maps_ok (collect_named_types s dns lk).
Proof.
  induction s as [p|nm ns d fs e al ps IH|nm ns d sy df al ps|nm ns d sz al ps|i ps IH|i ps IH
                 |ts b IH|k ps|l ps|nm ns ps sp] using schema_ind'; intros dns lk Hok H; cbn [collect_named_types];
    try exact H; try (constructor; [exact Hok|exact H]).
  - assert (H1 : table_maps_ok ((make_full_name nm (opt_or ns dns), SRecord nm ns d fs e al ps) :: lk))
      by (constructor; [exact Hok|exact H]).
    cbn [maps_ok] in Hok. apply andb_true_iff in Hok. destruct Hok as [_ Hfs].
    revert H1. generalize ((make_full_name nm (opt_or ns dns), SRecord nm ns d fs e al ps) :: lk).
    clear H. induction IH as [|f l Hf Hl IHl]; intros t Ht; simpl; [exact Ht|].
    cbn [forallb] in Hfs. rewrite !andb_true_iff in Hfs. destruct Hfs as [[_ Hfo] Hfs].
    apply IHl; [exact Hfs|]. apply Hf; assumption.
  - cbn [maps_ok] in Hok. apply andb_true_iff in Hok. apply IH; [apply Hok|exact H].
  - cbn [maps_ok] in Hok. apply andb_true_iff in Hok. apply IH; [apply Hok|exact H].
  - cbn [maps_ok] in Hok. revert lk H. induction IH as [|f l Hf Hl IHl]; intros t Ht; simpl; [exact Ht|].
    cbn [forallb] in Hok. apply andb_true_iff in Hok. apply IHl; [apply Hok|]. apply Hf; [apply Hok|exact Ht].
Qed.

Lemma build_lookup_maps_ok types dns :
  forallb maps_ok types = true -> table_maps_ok (build_lookup types dns).
Proof.
  intro Hok. unfold build_lookup. assert (H : table_maps_ok []) by constructor. revert H.
  generalize (@nil (string * schema)). induction types as [|t types IH]; intros lk H; simpl; [exact H|].
  cbn [forallb] in Hok. apply andb_true_iff in Hok. apply IH; [apply Hok|].
  apply collect_maps_ok; [apply Hok|exact H].
Qed.

Definition sort_protocol (p : protocol) : protocol :=
  mkProtocol (p_name p) (p_namespace p) (p_doc p) (canon (p_props p)) (map sort_props (p_types p))
             (map (fun nm => (fst nm, sort_message (snd nm))) (p_messages p)).

Lemma protocol_sort p :
  protocol_maps_ok p = true -> protocol_to_json (sort_protocol p) = protocol_to_json p.
Proof.
  unfold protocol_maps_ok. rewrite !andb_true_iff, nodupb_NoDup. intros [[[Hn Ht] _] Hm].
  assert (Hhdr : protocol_header (sort_protocol p) = protocol_header p).
  { unfold protocol_header, sort_protocol. cbn [p_name p_namespace p_doc p_props].
    apply bt_extend_canon; [|exact Hn]. apply opt_insert_sorted.
    destruct (p_namespace p) as [x|]; [destruct (negb (str_is_empty x))|]; repeat apply bt_insert_sorted; apply sorted_nil. }
  unfold protocol_to_json, types_to_json, messages_to_json. rewrite Hhdr.
  cbn [sort_protocol p_types p_namespace p_messages]. rewrite build_lookup_sort.
  pose proof (build_lookup_maps_ok (p_types p) (p_namespace p) Ht) as Hlk0.
  set (lk := build_lookup (p_types p) (p_namespace p)) in *.
  assert (Hlk : forall k t, assoc k lk = Some t -> maps_ok t = true).
  { intros k t E. apply assoc_In in E. unfold table_maps_ok in Hlk0. rewrite Forall_forall in Hlk0. exact (Hlk0 _ E). }
  assert (Hfuel : lookup_fuel (sort_table lk) = lookup_fuel lk)
    by (unfold lookup_fuel, sort_table; rewrite map_length; reflexivity).
  rewrite map_st_map. unfold schema_to_json. rewrite Hfuel.
  rewrite (map_st_ext_in _ (fun s k => ser lk (lookup_fuel lk) s (p_namespace p) k)).
  2: { intros s st Hin. apply ser_sort; [exact Hlk|]. rewrite forallb_forall in Ht. apply Ht. exact Hin. }
  destruct (map_st _ (p_types p) []) as [[js known]|]; [|reflexivity].
  rewrite map_st_map. cbn [fst snd].
  rewrite (map_st_ext_in _ (fun (nm : string * message) k =>
                  match ser_message lk (lookup_fuel lk) (snd nm) (p_namespace p) k with
                  | None => None
                  | Some (j, k1) => Some ((fst nm, j), k1)
                  end)); [reflexivity|].
  intros nm st Hin. rewrite ser_message_sort; [reflexivity|exact Hlk|].
  rewrite forallb_forall in Hm. apply (Hm nm). exact Hin.
Qed.

(** ** Message order *)

Lemma ser_flat lk n s : forall enc known, flat s = true -> incl (refs_of s) known ->
  exists j, ser lk n s enc known = Some (j, known).
Proof.
  induction s as [p|nm ns d fs e al ps IH|nm ns d sy df al ps|nm ns d sz al ps|i ps IH|i ps IH
                 |ts b' IH|k ps|l ps|nm ns ps sp] using schema_ind'; intros enc known Hok Hr;
    try discriminate; cbn [flat refs_of] in *.
  - rewrite ser_prim. eauto.
  - rewrite ser_array. destruct (IH enc known Hok Hr) as (j & ->). eauto.
  - rewrite ser_map. destruct (IH enc known Hok Hr) as (j & ->). eauto.
  - rewrite ser_union.
    destruct (map_st_total (fun t k => ser lk n t enc k) (fun k => k = known) ts)
      with (st := known) as (js & k & E & Hk); [|reflexivity|].
    + intros t st Hin ->. rewrite Forall_forall in IH. rewrite forallb_forall in Hok.
      destruct (IH t Hin enc known (Hok t Hin)) as (j & E).
      * intros x Hx. apply Hr. apply in_flat_map. eauto.
      * rewrite E. eauto.
    + rewrite E. subst. eauto.
  - rewrite ser_annot. eauto.
  - rewrite ser_logical. eauto.
  - rewrite ser_ref, <- fullname_make.
    assert (H : In (fullname nm ns) known) by (apply Hr; left; reflexivity).
    apply str_mem_In in H. rewrite H. eauto.
Qed.

Lemma ser_message_flat lk n m enc known names :
  message_closed names m = true -> incl names known ->
  exists j, ser_message lk n m enc known = Some (j, known).
Proof.
  unfold message_closed. rewrite !andb_true_iff. intros [[[Hrq Hrs] Her] Hsub] Hi.
  apply subset_incl in Hsub. assert (Hr : incl (message_refs m) known) by (eapply incl_tran; eassumption).
  unfold message_refs in Hr. unfold ser_message.
  destruct (map_st_total (fun f k => ser_field lk n f enc k) (fun k => k = known) (m_request m))
    with (st := known) as (rq & k & E & Hk); [|reflexivity|].
  { intros f st Hin ->. rewrite forallb_forall in Hrq.
    destruct (ser_flat lk n (f_schema f) enc known (Hrq f Hin)) as (j & E).
    - intros x Hx. apply Hr. apply in_or_app. left. apply in_flat_map. eauto.
    - unfold ser_field. rewrite E. eauto. }
  rewrite E. subst k.
  destruct (ser_flat lk n (m_response m) enc known Hrs) as (rs & Ers).
  { intros x Hx. apply Hr. apply in_or_app. right. apply in_or_app. left. exact Hx. }
  rewrite Ers. destruct (m_errors m) as [es|]; [|eauto].
  destruct (map_st_total (fun e k => ser lk n e enc k) (fun k => k = known) es)
    with (st := known) as (ej & k & E2 & Hk); [|reflexivity|].
  { intros e st Hin ->. rewrite forallb_forall in Her.
    destruct (ser_flat lk n e enc known (Her e Hin)) as (j & E2).
    - intros x Hx. apply Hr. apply in_or_app. right. apply in_or_app. right. apply in_flat_map. eauto.
    - rewrite E2. eauto. }
  rewrite E2. subst k. eauto.
Qed.

(** A named type is known once it has been serialised. *)
Lemma ser_named_known lk n t enc known j known' :
  table_named lk ->
  is_named t = true -> ser lk n t enc known = Some (j, known') -> incl known known' /\ In (type_name t) known'.
Proof.
  intros Hlk Ht E.
  assert (Hlk' : forall k t, assoc k lk = Some t -> is_named t = true) by (intros k t'; apply table_named_assoc; exact Hlk).
  assert (Hincl : forall s enc known j known', ser lk n s enc known = Some (j, known') -> incl known known').
  { intros s enc0 k0 j0 k1 E0. destruct (ser_total_n lk Hlk' (S (Nat.max n (length (pending lk k0)))) s enc0 k0) as (j' & k' & E' & Hi); [lia|].
    apply ser_mono with (m := S (Nat.max n (length (pending lk k0)))) in E0; [|lia].
    rewrite E0 in E'. inversion E'; subst. exact Hi. }
  split; [eapply Hincl; exact E|].
  destruct t as [ | nm ns d fs e al ps | nm ns d sy df al ps | nm ns d sz al ps | | | | | | ];
    try discriminate; cbn [type_name]; rewrite fullname_make;
    [rewrite ser_record in E|rewrite ser_enum in E|rewrite ser_fixed in E].
  - destruct (preamble_cases (if e then "error" else "record") nm ns d known enc) as [[Hk Ep]|[Hk [o Ep]]]; rewrite Ep in E.
    + apply some_pair_inj in E; destruct E as [_ <-]. exact Hk.
    + destruct (map_st _ fs _) as [[js k2]|] eqn:Em in E; [|discriminate].
      apply some_pair_inj in E; destruct E as [_ <-].
      assert (Hi : incl (make_full_name nm ns :: known) k2); [|apply Hi; left; reflexivity].
      clear - Em Hincl. revert Em. generalize (make_full_name nm ns :: known). revert js k2.
      induction fs as [|f fs IH]; intros js k2 k Em.
      * rewrite map_st_nil in Em. inversion Em; subst. apply incl_refl.
      * rewrite map_st_cons in Em. unfold ser_field in Em at 1.
        destruct (ser lk n (f_schema f) (opt_or ns enc) k) as [[tj k1]|] eqn:Es; [|discriminate].
        destruct (map_st _ fs k1) as [[js' k3]|] eqn:Em' in Em; [|discriminate]. inversion Em; subst.
        eapply incl_tran; [eapply Hincl; exact Es|]. eapply IH. exact Em'.
  - destruct (preamble_cases "enum" nm ns d known enc) as [[Hk Ep]|[Hk [o Ep]]]; rewrite Ep in E;
      apply some_pair_inj in E; destruct E as [_ <-]; [exact Hk|left; reflexivity].
  - destruct (preamble_cases "fixed" nm ns d known enc) as [[Hk Ep]|[Hk [o Ep]]]; rewrite Ep in E;
      apply some_pair_inj in E; destruct E as [_ <-]; [exact Hk|left; reflexivity].
Qed.

Lemma types_all_known lk n enc types known js known' :
  table_named lk -> (forall t, In t types -> is_named t = true) ->
  map_st (fun s k => ser lk n s enc k) types known = Some (js, known') ->
  incl known known' /\ incl (map type_name types) known'.
Proof.
  intros Hlk. revert known js known'. induction types as [|t l IH]; intros known js known' Ht E.
  - rewrite map_st_nil in E. inversion E; subst. split; [apply incl_refl|intros x []].
  - rewrite map_st_cons in E. destruct (ser lk n t enc known) as [[j k1]|] eqn:E1; [|discriminate].
    destruct (map_st _ l k1) as [[js' k2]|] eqn:E2 in E; [|discriminate]. inversion E; subst.
    destruct (ser_named_known lk n t enc known j k1 Hlk (Ht t (or_introl eq_refl)) E1) as [I1 N1].
    destruct (IH k1 js' known' (fun x Hx => Ht x (or_intror Hx)) E2) as [I2 N2].
    split; [eapply incl_tran; eassumption|]. intros x [<-|Hx]; [apply I2; exact N1|apply N2; exact Hx].
Qed.

Lemma messages_order p q :
  p_name p = p_name q -> p_namespace p = p_namespace q -> p_doc p = p_doc q -> p_props p = p_props q ->
  p_types p = p_types q -> Permutation (p_messages p) (p_messages q) -> NoDup (keys (p_messages p)) ->
  (forall t, In t (p_types p) -> is_named t = true) -> messages_closed p = true ->
  protocol_to_json p = protocol_to_json q.
Proof.
  intros H1 H2 H3 H4 H5 Hperm Hn Hnamed Hcl.
  unfold protocol_to_json, types_to_json, messages_to_json, protocol_header. rewrite <- H1, <- H2, <- H3, <- H4, <- H5.
  pose proof (build_lookup_named (p_types p) (p_namespace p)) as Hlk.
  set (lk := build_lookup (p_types p) (p_namespace p)) in *. unfold schema_to_json.
  destruct (map_st _ (p_types p) []) as [[js known]|] eqn:Et; [|reflexivity].
  destruct (types_all_known lk (lookup_fuel lk) (p_namespace p) (p_types p) [] js known Hlk Hnamed Et) as [_ Hknown].
  set (fm := fun (nm : string * message) (k : list string) => _).
  set (jm := fun nm : string * message => match fm nm known with Some (e, _) => e | None => (fst nm, JNull) end).
  assert (Hm : forall nm, In nm (p_messages p) -> fm nm known = Some (jm nm, known) /\ fst (jm nm) = fst nm).
  { intros nm Hin. unfold messages_closed in Hcl. rewrite forallb_forall in Hcl.
    destruct (ser_message_flat lk (lookup_fuel lk) (snd nm) (p_namespace p) known _ (Hcl nm Hin) Hknown) as (j & E).
    unfold jm, fm. rewrite E. auto. }
  rewrite (map_st_const fm jm (p_messages p) known) by (intros nm Hin; apply Hm; exact Hin).
  rewrite (map_st_const fm jm (p_messages q) known).
  2: { intros nm Hin. apply Hm. eapply Permutation_in; [symmetry; exact Hperm|exact Hin]. }
  rewrite (bt_extend_Permutation [] (map jm (p_messages p)) (map jm (p_messages q))); [reflexivity| | |].
  - apply sorted_nil.
  - assert (Hk : keys (map jm (p_messages p)) = keys (p_messages p)).
    { unfold keys. rewrite map_map. apply map_ext_in. intros nm Hin. apply Hm. exact Hin. }
    rewrite Hk. exact Hn.
  - apply Permutation_map. exact Hperm.
Qed.

Lemma type_name_sort t : type_name (sort_props t) = type_name t.
Proof. destruct t; reflexivity. Qed.

Lemma is_named_sort t : is_named (sort_props t) = is_named t.
Proof. destruct t; reflexivity. Qed.

Lemma refs_sort s : refs_of (sort_props s) = refs_of s.
Proof.
  induction s as [p|nm ns d fs e al ps IH|nm ns d sy df al ps|nm ns d sz al ps|i ps IH|i ps IH
                 |ts b' IH|k ps|l ps|nm ns ps sp] using schema_ind'; cbn [sort_props refs_of]; try reflexivity; try exact IH.
  - induction IH as [|f l Hf Hl IHl]; [reflexivity|]. cbn [map flat_map sort_field f_schema]. rewrite Hf, IHl. reflexivity.
  - induction IH as [|f l Hf Hl IHl]; [reflexivity|]. cbn [map flat_map]. rewrite Hf, IHl. reflexivity.
Qed.

Lemma flat_sort s : flat (sort_props s) = flat s.
Proof.
  induction s as [p|nm ns d fs e al ps IH|nm ns d sy df al ps|nm ns d sz al ps|i ps IH|i ps IH
                 |ts b' IH|k ps|l ps|nm ns ps sp] using schema_ind'; cbn [sort_props flat]; try reflexivity; try exact IH.
  induction IH as [|f l Hf Hl IHl]; [reflexivity|]. cbn [map forallb]. rewrite Hf, IHl. reflexivity.
Qed.

Lemma forallb_map {A B} (f : A -> B) (p : B -> bool) l : forallb p (map f l) = forallb (fun x => p (f x)) l.
Proof. induction l as [|x l IH]; simpl; [reflexivity|]. rewrite IH. reflexivity. Qed.

Lemma forallb_ext {A} (p q : A -> bool) l : (forall x, p x = q x) -> forallb p l = forallb q l.
Proof. intro H. induction l as [|x l IH]; simpl; [reflexivity|]. rewrite H, IH. reflexivity. Qed.

Lemma flat_map_map {A B C} (f : A -> B) (g : B -> list C) l : flat_map g (map f l) = flat_map (fun x => g (f x)) l.
Proof. induction l as [|x l IH]; simpl; [reflexivity|]. rewrite IH. reflexivity. Qed.

Lemma message_closed_sort names m : message_closed names (sort_message m) = message_closed names m.
Proof.
  unfold message_closed, message_refs, sort_message. cbn [m_request m_response m_errors].
  rewrite forallb_map, flat_map_map, flat_sort, refs_sort.
  rewrite (forallb_ext _ (fun f => flat (f_schema f))) by (intro f; apply flat_sort).
  rewrite (flat_map_ext _ (fun f => refs_of (f_schema f))) by (intro f; apply refs_sort).
  destruct (m_errors m) as [es|]; cbn [option_map]; [|reflexivity].
  rewrite forallb_map, flat_map_map.
  rewrite (forallb_ext _ flat) by (intro f; apply flat_sort).
  rewrite (flat_map_ext _ refs_of) by (intro f; apply refs_sort). reflexivity.
Qed.

Lemma order_independent p q :
  protocol_maps_ok p = true -> protocol_maps_ok q = true ->
  (forall t, In t (p_types p) -> is_named t = true) -> messages_closed p = true ->
  same_protocol p q -> protocol_to_json p = protocol_to_json q.
Proof.
  intros Hp Hq Hnamed Hcl (H1 & H2 & H3 & H4 & H5 & H6).
  rewrite <- (protocol_sort p Hp), <- (protocol_sort q Hq).
  assert (Hkp : NoDup (keys (p_messages (sort_protocol p)))).
  { unfold protocol_maps_ok in Hp. rewrite !andb_true_iff in Hp. destruct Hp as [[_ Hp] _].
    apply nodupb_NoDup in Hp. cbn [sort_protocol p_messages]. unfold keys. rewrite map_map. exact Hp. }
  assert (Hkq : NoDup (keys (p_messages (sort_protocol q)))).
  { unfold protocol_maps_ok in Hq. rewrite !andb_true_iff in Hq. destruct Hq as [[_ Hq] _].
    apply nodupb_NoDup in Hq. cbn [sort_protocol p_messages]. unfold keys. rewrite map_map. exact Hq. }
  apply messages_order; try assumption.
  - apply bt_extend_perm in Hkp. apply bt_extend_perm in Hkq.
    rewrite <- Hkp, <- Hkq. cbn [sort_protocol p_messages]. rewrite H6. reflexivity.
  - cbn [sort_protocol p_types]. intros t Hin. apply in_map_iff in Hin. destruct Hin as (t' & <- & Hin).
    rewrite is_named_sort. apply Hnamed. exact Hin.
  - unfold messages_closed in *. cbn [sort_protocol p_messages p_types]. rewrite forallb_map. cbn [snd].
    rewrite map_map. rewrite (map_ext _ type_name) by apply type_name_sort.
    rewrite <- Hcl. apply forallb_ext. intro nm. apply message_closed_sort.
Qed.
