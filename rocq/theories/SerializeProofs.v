(** Proofs about the serialiser: unfolding equations and termination. *)
From Verif Require Export BaseProofs Serialize.

(** ** Unfolding equations *)

Section Unfold.
  Variable lk : lookup_table.

  Lemma ser_prim n p enc known : ser lk n (SPrim p) enc known = Some (JStr (prim_str p), known).
  Proof. destruct n; reflexivity. Qed.

  Lemma ser_annot n k ps enc known :
    ser lk n (SAnnot k ps) enc known
    = Some (JObj (bt_extend (bt_insert "type" (JStr (prim_str k)) []) ps), known).
  Proof. destruct n; reflexivity. Qed.

  Lemma ser_logical n l ps enc known :
    ser lk n (SLogical l ps) enc known = Some (logical_obj l ps, known).
  Proof. destruct n; reflexivity. Qed.

  Lemma ser_record n name ns doc fields is_error aliases ps enc known :
    ser lk n (SRecord name ns doc fields is_error aliases ps) enc known
    = match named_type_preamble (if is_error then "error" else "record") name ns doc known enc with
      | inl bare => Some (bare, known)
      | inr (o, known1) =>
          match map_st (fun f k => ser_field lk n f (opt_or ns enc) k) fields known1 with
          | None => None
          | Some (fields_json, known2) =>
              Some (JObj (finish_named_type (bt_insert "fields" (JArr fields_json) o) ps aliases ns),
                    known2)
          end
      end.
  Proof. destruct n; reflexivity. Qed.

  Lemma ser_enum n name ns doc symbols default aliases ps enc known :
    ser lk n (SEnum name ns doc symbols default aliases ps) enc known
    = match named_type_preamble "enum" name ns doc known enc with
      | inl bare => Some (bare, known)
      | inr (o, known1) => Some (enum_obj o symbols default ps aliases ns, known1)
      end.
  Proof. destruct n; reflexivity. Qed.

  Lemma ser_fixed n name ns doc size aliases ps enc known :
    ser lk n (SFixed name ns doc size aliases ps) enc known
    = match named_type_preamble "fixed" name ns doc known enc with
      | inl bare => Some (bare, known)
      | inr (o, known1) => Some (fixed_obj o size ps aliases ns, known1)
      end.
  Proof. destruct n; reflexivity. Qed.

  Lemma ser_array n i ps enc known :
    ser lk n (SArray i ps) enc known
    = match ser lk n i enc known with
      | None => None
      | Some (j, known1) =>
          Some (JObj (bt_extend (bt_insert "items" j (bt_insert "type" (JStr "array") [])) ps), known1)
      end.
  Proof. destruct n; reflexivity. Qed.

  Lemma ser_map n i ps enc known :
    ser lk n (SMap i ps) enc known
    = match ser lk n i enc known with
      | None => None
      | Some (j, known1) =>
          Some (JObj (bt_extend (bt_insert "values" j (bt_insert "type" (JStr "map") [])) ps), known1)
      end.
  Proof. destruct n; reflexivity. Qed.

  Lemma ser_union n ts b enc known :
    ser lk n (SUnion ts b) enc known
    = match map_st (fun t k => ser lk n t enc k) ts known with
      | None => None
      | Some (js, known1) => Some (JArr js, known1)
      end.
  Proof. destruct n; reflexivity. Qed.

  Lemma ser_ref n name ns ps sp enc known :
    ser lk n (SRef name ns ps sp) enc known
    = if str_mem (make_full_name name ns) known
      then Some (JStr (schema_ref_name name ns enc), known)
      else match assoc (make_full_name name ns) lk with
           | Some resolved =>
               match n with
               | O => None
               | S n' => ser lk n' resolved enc known
               end
           | None => Some (JStr (schema_ref_name name ns enc), known)
           end.
  Proof. destruct n; reflexivity. Qed.
End Unfold.

(** ** Fuel: references are inlined at most once per own name *)

Definition is_named (s : schema) : bool :=
  match s with
  | SRecord _ _ _ _ _ _ _ | SEnum _ _ _ _ _ _ _ | SFixed _ _ _ _ _ _ => true
  | _ => false
  end.

Definition own_name (s : schema) : string :=
  match full_name s with Some f => f | None => "" end.

Definition own_names (lk : lookup_table) : list string := map (fun kv => own_name (snd kv)) lk.

(** Names that inlining can still add. *)
Definition pending (lk : lookup_table) (known : list string) : list string :=
  filter (fun f => negb (str_mem f known)) (own_names lk).

Lemma pending_le lk known known' :
  incl known known' -> length (pending lk known') <= length (pending lk known).
Proof.
  intro Hi. unfold pending. induction (own_names lk) as [|x l IH]; [simpl; lia|].
  cbn [filter]. destruct (str_mem x known) eqn:E; destruct (str_mem x known') eqn:E'; cbn [negb length]; try lia.
  exfalso. apply str_mem_In in E. apply str_mem_not_In in E'. apply E'. apply Hi. exact E.
Qed.

Lemma pending_lt lk known f :
  In f (own_names lk) -> ~ In f known ->
  length (pending lk (f :: known)) < length (pending lk known).
Proof.
  intros Hin Hf. unfold pending.
  assert (Hle : forall l, length (filter (fun g => negb (str_mem g (f :: known))) l)
                          <= length (filter (fun g => negb (str_mem g known)) l)).
  { intro l. induction l as [|y l IH]; [simpl; lia|]. cbn [filter].
    destruct (str_mem y known) eqn:E.
    - assert (E' : str_mem y (f :: known) = true)
        by (apply str_mem_In; right; apply str_mem_In; exact E).
      rewrite E'. exact IH.
    - destruct (str_mem y (f :: known)); cbn [negb length]; lia. }
  induction (own_names lk) as [|x l IH]; [destruct Hin|]. cbn [filter].
  destruct Hin as [->|Hin].
  - assert (E : str_mem f known = false) by (apply str_mem_not_In; exact Hf).
    assert (E' : str_mem f (f :: known) = true) by (apply str_mem_In; left; reflexivity).
    rewrite E, E'. cbn [negb length]. specialize (Hle l). lia.
  - specialize (IH Hin). destruct (str_mem x known) eqn:E.
    + assert (E' : str_mem x (f :: known) = true)
        by (apply str_mem_In; right; apply str_mem_In; exact E).
      rewrite E'. exact IH.
    + destruct (str_mem x (f :: known)); cbn [negb length]; lia.
Qed.

Lemma map_st_total {A B S} (f : A -> S -> option (B * S)) (I : S -> Prop) l :
  (forall x st, In x l -> I st -> exists y st', f x st = Some (y, st') /\ I st') ->
  forall st, I st -> exists ys st', map_st f l st = Some (ys, st') /\ I st'.
Proof.
  induction l as [|x l IH]; intros Hf st Hi.
  - rewrite map_st_nil. eauto.
  - rewrite map_st_cons. destruct (Hf x st (or_introl eq_refl) Hi) as (y & st1 & E & Hi1). rewrite E.
    destruct (IH (fun x' st' Hin => Hf x' st' (or_intror Hin)) st1 Hi1) as (ys & st2 & E2 & Hi2).
    rewrite E2. eauto.
Qed.

Lemma preamble_cases ty name ns doc known enc :
  (In (make_full_name name ns) known /\
   named_type_preamble ty name ns doc known enc = inl (JStr (schema_ref_name name ns enc)))
  \/ (~ In (make_full_name name ns) known /\
      exists o, named_type_preamble ty name ns doc known enc
                = inr (o, make_full_name name ns :: known)).
Proof.
  unfold named_type_preamble. destruct (str_mem (make_full_name name ns) known) eqn:E.
  - left. apply str_mem_In in E. auto.
  - right. apply str_mem_not_In in E. eauto.
Qed.

Section Total.
  Variable lk : lookup_table.
  Hypothesis lk_named : forall k t, assoc k lk = Some t -> is_named t = true.

  Lemma ser_total_n n :
    forall s enc known,
      length (pending lk known) < n ->
      exists j known', ser lk n s enc known = Some (j, known') /\ incl known known'.
  Proof.
    induction n as [n IHn] using lt_wf_ind. intro s.
    induction s as [p|nm ns d fs e al ps IH|nm ns d sy df al ps|nm ns d sz al ps|i ps IH|i ps IH
                   |ts b IH|k ps|l ps|nm ns ps sp] using schema_ind'; intros enc known Hlt.
    - rewrite ser_prim. eauto using incl_refl.
    - rewrite ser_record.
      destruct (preamble_cases (if e then "error" else "record") nm ns d known enc)
        as [[Hk E]|[Hk [o E]]]; rewrite E; [eauto using incl_refl|].
      set (K := make_full_name nm ns :: known).
      destruct (map_st_total (fun f k => ser_field lk n f (opt_or ns enc) k) (fun k => incl K k) fs)
        with (st := K) as (ys & st' & E2 & Hi).
      + intros f st Hin Hi. rewrite Forall_forall in IH.
        destruct (IH f Hin (opt_or ns enc) st) as (j & k' & E2 & Hi2).
        * eapply Nat.le_lt_trans; [apply pending_le|exact Hlt].
          intros x Hx. apply Hi. right. exact Hx.
        * unfold ser_field. rewrite E2. do 2 eexists. split; [reflexivity|].
          eapply incl_tran; eassumption.
      + apply incl_refl.
      + rewrite E2. do 2 eexists. split; [reflexivity|]. intros x Hx. apply Hi. right. exact Hx.
    - rewrite ser_enum.
      destruct (preamble_cases "enum" nm ns d known enc) as [[Hk E]|[Hk [o E]]]; rewrite E;
        eauto using incl_refl, incl_tl.
    - rewrite ser_fixed.
      destruct (preamble_cases "fixed" nm ns d known enc) as [[Hk E]|[Hk [o E]]]; rewrite E;
        eauto using incl_refl, incl_tl.
    - rewrite ser_array. destruct (IH enc known Hlt) as (j & k' & E & Hi). rewrite E. eauto.
    - rewrite ser_map. destruct (IH enc known Hlt) as (j & k' & E & Hi). rewrite E. eauto.
    - rewrite ser_union.
      destruct (map_st_total (fun t k => ser lk n t enc k) (fun k => incl known k) ts)
        with (st := known) as (ys & st' & E & Hi).
      + intros t st Hin Hi. rewrite Forall_forall in IH.
        destruct (IH t Hin enc st) as (j & k' & E & Hi2).
        * eapply Nat.le_lt_trans; [apply pending_le; exact Hi|exact Hlt].
        * rewrite E. do 2 eexists. split; [reflexivity|]. eapply incl_tran; eassumption.
      + apply incl_refl.
      + rewrite E. eauto.
    - rewrite ser_annot. eauto using incl_refl.
    - rewrite ser_logical. eauto using incl_refl.
    - rewrite ser_ref.
      destruct (str_mem (make_full_name nm ns) known) eqn:Ek; [eauto using incl_refl|].
      destruct (assoc (make_full_name nm ns) lk) as [t|] eqn:El; [|eauto using incl_refl].
      destruct n as [|n]; [lia|].
      pose proof (lk_named _ _ El) as Ht.
      assert (Hown : In (own_name t) (own_names lk)).
      { apply assoc_In in El. apply (in_map (fun kv => own_name (snd kv))) in El. exact El. }
      destruct t as [ | rn rns rd rfs re ral rps | rn rns rd rsy rdf ral rps
                    | rn rns rd rsz ral rps | | | | | | ]; try discriminate;
        unfold own_name in Hown; cbn [full_name] in Hown.
      + rewrite ser_record.
        destruct (preamble_cases (if re then "error" else "record") rn rns rd known enc)
          as [[Hk E]|[Hk [o E]]]; rewrite E; [eauto using incl_refl|].
        set (K := make_full_name rn rns :: known).
        assert (HK : length (pending lk K) < n).
        { pose proof (pending_lt lk known _ Hown Hk). unfold K. lia. }
        destruct (map_st_total (fun f k => ser_field lk n f (opt_or rns enc) k)
                               (fun k => incl K k) rfs)
          with (st := K) as (ys & st' & E2 & Hi).
        * intros f st Hin Hi.
          destruct (IHn n (Nat.lt_succ_diag_r n) (f_schema f) (opt_or rns enc) st)
            as (j & k' & E2 & Hi2).
          -- eapply Nat.le_lt_trans; [apply pending_le; exact Hi|exact HK].
          -- unfold ser_field. rewrite E2. do 2 eexists. split; [reflexivity|].
             eapply incl_tran; eassumption.
        * apply incl_refl.
        * rewrite E2. do 2 eexists. split; [reflexivity|]. intros x Hx. apply Hi. right. exact Hx.
      + rewrite ser_enum.
        destruct (preamble_cases "enum" rn rns rd known enc) as [[Hk E]|[Hk [o E]]]; rewrite E;
          eauto using incl_refl, incl_tl.
      + rewrite ser_fixed.
        destruct (preamble_cases "fixed" rn rns rd known enc) as [[Hk E]|[Hk [o E]]]; rewrite E;
          eauto using incl_refl, incl_tl.
  Qed.

  Lemma pending_fuel known : length (pending lk known) < lookup_fuel lk.
  Proof.
    unfold lookup_fuel, pending. 
    assert (H : length (filter (fun f => negb (str_mem f known)) (own_names lk)) <= length (own_names lk)).
    { induction (own_names lk) as [|x l IH]; simpl; [lia|]. destruct (negb (str_mem x known)); simpl; lia. }
    unfold own_names in *. rewrite map_length in H. lia.
  Qed.

  Lemma ser_total s enc known :
    exists j known', schema_to_json s known enc lk = Some (j, known') /\ incl known known'.
  Proof. apply ser_total_n. apply pending_fuel. Qed.

  Lemma ser_message_total m enc known :
    exists j known', ser_message lk (lookup_fuel lk) m enc known = Some (j, known').
  Proof.
    unfold ser_message.
    destruct (map_st_total (fun f k => ser_field lk (lookup_fuel lk) f enc k) (fun _ => True)
                (m_request m)) with (st := known) as (rq & k1 & E1 & _); [|trivial|].
    { intros f st _ _. unfold ser_field. destruct (ser_total (f_schema f) enc st) as (j & k' & E & _).
      unfold schema_to_json in E. rewrite E. eauto. }
    rewrite E1. destruct (ser_total (m_response m) enc k1) as (j2 & k2 & E2 & _).
    unfold schema_to_json in E2. rewrite E2. destruct (m_errors m) as [es|]; [|eauto].
    destruct (map_st_total (fun e k => ser lk (lookup_fuel lk) e enc k) (fun _ => True) es)
      with (st := k2) as (ej & k3 & E3 & _); [|trivial|].
    { intros t st _ _. destruct (ser_total t enc st) as (j & k' & E & _).
      unfold schema_to_json in E. rewrite E. eauto. }
    rewrite E3. eauto.
  Qed.
End Total.

(** Tables made by [build_lookup] hold named types only. *)
Definition table_named (lk : lookup_table) : Prop := Forall (fun kv => is_named (snd kv) = true) lk.

Lemma collect_named s : forall dns lk, table_named lk -> table_named (collect_named_types s dns lk).
Proof.
  induction s as [p|nm ns d fs e al ps IH|nm ns d sy df al ps|nm ns d sz al ps|i ps IH|i ps IH
                 |ts b IH|k ps|l ps|nm ns ps sp] using schema_ind'; intros dns lk H; simpl;
    try exact H; try (constructor; [reflexivity|exact H]); try (apply IH; exact H).
  - assert (H1 : table_named ((make_full_name nm (opt_or ns dns), SRecord nm ns d fs e al ps) :: lk))
      by (constructor; [reflexivity|exact H]).
    revert H1. generalize ((make_full_name nm (opt_or ns dns), SRecord nm ns d fs e al ps) :: lk).
    clear H. induction IH as [|f l Hf Hl IHl]; intros t Ht; simpl; [exact Ht|].
    apply IHl. apply Hf. exact Ht.
  - revert lk H. induction IH as [|f l Hf Hl IHl]; intros t Ht; simpl; [exact Ht|].
    apply IHl. apply Hf. exact Ht.
Qed.

Lemma build_lookup_named types dns : table_named (build_lookup types dns).
Proof.
  unfold build_lookup. assert (H : table_named []) by constructor. revert H.
  generalize (@nil (string * schema)). induction types as [|t types IH]; intros lk H; simpl; [exact H|].
  apply IH. apply collect_named. exact H.
Qed.

Lemma table_named_assoc lk k t : table_named lk -> assoc k lk = Some t -> is_named t = true.
Proof.
  intros H E. apply assoc_In in E. unfold table_named in H. rewrite Forall_forall in H.
  exact (H _ E).
Qed.

Lemma protocol_to_json_total p : exists j, protocol_to_json p = Some j.
Proof.
  unfold protocol_to_json, types_to_json, messages_to_json.
  pose proof (build_lookup_named (p_types p) (p_namespace p)) as Hn.
  set (lk := build_lookup (p_types p) (p_namespace p)) in *.
  assert (Hlk : forall k t, assoc k lk = Some t -> is_named t = true)
    by (intros k t; apply table_named_assoc; exact Hn).
  destruct (map_st_total (fun s k => schema_to_json s k (p_namespace p) lk) (fun _ => True) (p_types p))
    with (st := @nil string) as (js & k1 & E1 & _); [|trivial|].
  { intros s st _ _. destruct (ser_total lk Hlk s (p_namespace p) st) as (j & k' & E & _). eauto. }
  rewrite E1.
  destruct (map_st_total
              (fun (nm : string * message) k =>
                 match ser_message lk (lookup_fuel lk) (snd nm) (p_namespace p) k with
                 | None => None
                 | Some (j, k1) => Some ((fst nm, j), k1)
                 end) (fun _ => True) (p_messages p)) with (st := k1) as (ms & k2 & E2 & _); [|trivial|].
  { intros nm st _ _.
    destruct (ser_message_total lk Hlk (snd nm) (p_namespace p) st) as (j & k' & E). rewrite E. eauto. }
  rewrite E2. eauto.
Qed.

(** More fuel never changes a result. *)
Lemma map_st_mono {A B S} (f g : A -> S -> option (B * S)) l st r :
  (forall x st r, In x l -> f x st = Some r -> g x st = Some r) ->
  map_st f l st = Some r -> map_st g l st = Some r.
Proof.
  revert st r. induction l as [|x l IH]; intros st r Hfg; [trivial|]. rewrite !map_st_cons.
  destruct (f x st) as [[y st1]|] eqn:E; [|discriminate].
  rewrite (Hfg x st _ (or_introl eq_refl) E).
  destruct (map_st f l st1) as [[ys st2]|] eqn:E2; [|discriminate].
  rewrite (IH st1 _ (fun x' st' r' Hin => Hfg x' st' r' (or_intror Hin)) E2). trivial.
Qed.
