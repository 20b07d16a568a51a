(** Documents made of files are tidy. *)
From Coq Require Import Lia.
From Verif Require Import JsonFile SpecJsonFile JsonReadProofs JsonWriteProofs.
From Verif Require Import SpecPipeline SpecImport SpecFile RegistryProofs MeaningProofs ImportProofs ImportDocProofs.
From Verif Require Import SpecRefs RefsProofs ReaderProofs TypeProofs AnnotProofs DeclProofs FileProofs DenoteProofs ObjectProofs.
From Verif Require Import DefaultsProofs CompileProofs LoadProofs BuildProofs ProtocolProofs CliProofs PipelineProofs BaseProofs SerializeProofs.

(** ** Numbers *)
Lemma ranged_ok (lo hi z r : Z) : (if ((lo <=? z) && (z <=? hi))%Z then Some z else None) = Some r -> (lo <= r <= hi)%Z.
Proof. destruct ((lo <=? z) && (z <=? hi))%Z eqn:E; [|discriminate]. intro X. injection X as <-. apply andb_true_iff in E. lia. Qed.
Lemma radix_range base sg lo hi s z : from_str_radix base sg lo hi s = Some z -> (lo <= z <= hi)%Z.
Proof.
  unfold from_str_radix. destruct s as [|c r]; [discriminate|]. destruct (Ascii.eqb c "+").
  - destruct r; [discriminate|]. destruct (digits_value _ _ _); [|discriminate]. apply ranged_ok.
  - destruct (sg && Ascii.eqb c "-").
    + destruct r; [discriminate|]. destruct (digits_value _ _ _); [|discriminate]. apply ranged_ok.
    + destruct (digits_value _ _ _); [|discriminate]. apply ranged_ok.
Qed.
Lemma u32_fits text n : parse_integer_as_u32 text = Some n -> (n <= 4294967295)%N.
Proof.
  unfold parse_integer_as_u32. destruct (prefix "-" _); [discriminate|].
  match goal with |- match ?x with _ => _ end = _ -> _ => destruct x as [z|] eqn:E; [|discriminate] end. intro X. injection X as <-.
  assert (R : (0 <= z <= 4294967295)%Z). { destruct (_ || _); [|destruct (_ && _)]; exact (radix_range _ _ _ _ _ _ E). } lia.
Qed.

Section Tidy.
  Context `{JsonNumbers}.
  Definition tidy_props (ps : list (string * json)) : Prop := forall k v, In (k, v) ps -> tidy v.
  Definition tidy_obj (o : list (string * json)) : Prop := by_key o /\ tidy_props o.
  Definition fits (n : N) : Prop := (n <= 4294967295)%N.
  Definition fits_logical (l : logical) : Prop := match l with LDecimal p s => fits p /\ fits s | _ => True end.
  Definition tidy_default (d : option json) : Prop := forall j, d = Some j -> tidy j.
  Fixpoint kept (s : schema) : Prop :=
    match s with
    | SPrim _ | SRef _ _ _ _ => True
    | SAnnot _ ps => tidy_props ps
    | SLogical l ps => fits_logical l /\ tidy_props ps
    | SArray i ps | SMap i ps => tidy_props ps /\ kept i
    | SUnion ts _ => fold_right (fun t P => kept t /\ P) True ts
    | SRecord _ _ _ fs _ _ ps =>
        tidy_props ps /\ fold_right (fun f P => (tidy_props (f_props f) /\ tidy_default (f_default f) /\ kept (f_schema f)) /\ P) True fs
    | SEnum _ _ _ _ _ _ ps => tidy_props ps
    | SFixed _ _ _ size _ ps => fits size /\ tidy_props ps
    end.
  Definition kept_field (f : field) : Prop := tidy_props (f_props f) /\ tidy_default (f_default f) /\ kept (f_schema f).
  Definition kept_message (m : message) : Prop :=
    tidy_props (m_props m) /\ (forall f, In f (m_request m) -> kept_field f) /\ (forall t, message_type m t -> kept t).

  (** ** Objects *)
  Lemma tidy_of o : tidy_obj o -> tidy (JObj o).
  Proof. intros [B T]. now constructor. Qed.
  Lemma tidy_none : tidy_obj [].
  Proof. split; [constructor|intros k v []]. Qed.
  Lemma tidy_insert k v o : tidy v -> tidy_obj o -> tidy_obj (bt_insert k v o).
  Proof.
    intros V [B T]. split; [exact (bt_insert_sorted k v o B)|]. intros k0 v0 I.
    assert (F : Forall (fun kv => tidy (snd kv)) (bt_insert k v o)) by (apply bt_insert_Forall; [exact V|]; apply Forall_forall; intros [a b] Hi; exact (T a b Hi)).
    rewrite Forall_forall in F. exact (F (k0, v0) I).
  Qed.
  Lemma tidy_opt k v o : (forall j, v = Some j -> tidy j) -> tidy_obj o -> tidy_obj (opt_insert k v o).
  Proof. destruct v as [j|]; cbn; [|auto]. intros V T. apply tidy_insert; auto. Qed.
  Lemma tidy_opt_str k v o : tidy_obj o -> tidy_obj (opt_insert k (option_map JStr v) o).
  Proof. apply tidy_opt. destruct v; cbn; intros j E; [injection E as <-; constructor|discriminate]. Qed.
  Lemma tidy_extend ps : forall o, tidy_props ps -> tidy_obj o -> tidy_obj (bt_extend o ps).
  Proof.
    unfold bt_extend. induction ps as [|[k v] ps IH]; intros o P T; cbn; [exact T|]. apply IH; [intros a b Hi; eapply P; right; exact Hi|]. apply tidy_insert; [eapply P; now left|exact T].
  Qed.
  Lemma tidy_strings (f : string -> string) l : tidy (JArr (map (fun a => JStr (f a)) l)).
  Proof. constructor. intros v I. apply in_map_iff in I as (a & <- & _). constructor. Qed.
  Lemma tidy_number n : fits n -> tidy (JNum (NPos n)).
  Proof. unfold fits. intro. constructor. lia. Qed.

  (** ** Serializing *)
  Lemma preamble_tidy ty name ns doc known enc : match named_type_preamble ty name ns doc known enc with inl j => tidy j | inr (o, _) => tidy_obj o end.
  Proof.
    unfold named_type_preamble. destruct (str_mem _ _); [constructor|]. apply tidy_opt_str, tidy_opt_str. repeat (apply tidy_insert; [constructor|]). apply tidy_none.
  Qed.
  Lemma finish_tidy o ps al ns : tidy_obj o -> tidy_props ps -> tidy (JObj (finish_named_type o ps al ns)).
  Proof.
    intros T P. apply tidy_of. unfold finish_named_type. pose proof (tidy_extend _ _ P T) as E. destruct al as [|a al]; [exact E|].
    apply tidy_insert; [|exact E]. exact (tidy_strings (fun a => alias_ref_name a ns) (a :: al)).
  Qed.
  Lemma field_tidy (f : field) j : tidy_props (f_props f) -> tidy_default (f_default f) -> tidy j -> tidy (field_obj f j).
  Proof.
    intros P D J. apply tidy_of, tidy_extend; [exact P|].
    assert (T : tidy_obj (opt_insert "order" (order_json (f_order f)) (opt_insert "default" (f_default f) (opt_insert "doc" (option_map JStr (f_doc f)) (bt_insert "type" j (bt_insert "name" (JStr (f_name f)) [])))))).
    { apply tidy_opt; [destruct (f_order f) as [[]|]; cbn; intros v E; try discriminate E; injection E as <-; constructor|].
      apply tidy_opt; [exact D|]. apply tidy_opt_str. apply tidy_insert; [exact J|]. apply tidy_insert; [constructor|apply tidy_none]. }
    destruct (f_aliases f) as [|a al]; [exact T|]. apply tidy_insert; [|exact T]. exact (tidy_strings (fun x => x) (a :: al)).
  Qed.
  Lemma map_st_each {A B S} (f : A -> S -> option (B * S)) (P : B -> Prop) l : (forall x k y k', In x l -> f x k = Some (y, k') -> P y) ->
    forall st ys st', map_st f l st = Some (ys, st') -> forall y, In y ys -> P y.
  Proof.
    induction l as [|x l IH]; intros F st ys st' E y Hy.
    - rewrite map_st_nil in E. apply some_pair_eq in E as [<- _]. destruct Hy.
    - rewrite map_st_cons in E. destruct (f x st) as [[a st1]|] eqn:Ex; [|discriminate]. destruct (map_st f l st1) as [[b st2]|] eqn:El; [|discriminate]. apply some_pair_eq in E as [<- _].
      destruct Hy as [<-|Hy]; [eapply F; [now left|exact Ex]|]. eapply IH; [|exact El|exact Hy]. intros z k y0 k' Hz. apply F. now right.
  Qed.
  Section Lookup.
    Variable lk : lookup_table.
    Hypothesis Hlk : forall k s, In (k, s) lk -> kept s.
    Lemma ser_tidy n : forall s enc known j k, kept s -> ser lk n s enc known = Some (j, k) -> tidy j.
    Proof.
      induction n as [n IHn] using (well_founded_induction Wf_nat.lt_wf). intro s.
      induction s as [p|nm ns d fs e al ps Hfs|nm ns d sy df al ps|nm ns d sz al ps|i ps IHi|i ps IHi
                      |ts b Hts|kd ps|l ps|nm ns ps sp] using schema_ind'; intros enc known j k K E; cbn [kept] in K.
      - rewrite ser_prim in E. apply some_pair_eq in E as [<- _]. constructor.
      - rewrite ser_record in E. pose proof (preamble_tidy (if e then "error" else "record") nm ns d known enc) as T.
        destruct (named_type_preamble _ nm ns d known enc) as [bare|[o k1]]; [apply some_pair_eq in E as [<- _]; exact T|].
        destruct (map_st _ fs k1) as [[js k2]|] eqn:M; [|discriminate]. apply some_pair_eq in E as [<- _]. destruct K as [P K]. rewrite fold_and in K. rewrite Forall_forall in Hfs.
        apply finish_tidy; [|exact P]. apply tidy_insert; [|exact T]. constructor.
        eapply (map_st_each _ tidy); [|exact M]. intros f st y st' Hf Hy. unfold ser_field in Hy. destruct (ser lk n (f_schema f) _ st) as [[x ?]|] eqn:Ex; [|discriminate Hy]. injection Hy as <- _. destruct (K f Hf) as (Kp & Kd & Ks). exact (field_tidy f x Kp Kd (Hfs f Hf _ _ _ _ Ks Ex)).
      - rewrite ser_enum in E. pose proof (preamble_tidy "enum" nm ns d known enc) as T. destruct (named_type_preamble _ nm ns d known enc) as [bare|[o k1]]; apply some_pair_eq in E as [<- _]; [exact T|].
        apply finish_tidy; [|exact K]. apply tidy_opt_str, tidy_insert; [exact (tidy_strings (fun x => x) sy)|exact T].
      - rewrite ser_fixed in E. pose proof (preamble_tidy "fixed" nm ns d known enc) as T. destruct (named_type_preamble _ nm ns d known enc) as [bare|[o k1]]; apply some_pair_eq in E as [<- _]; [exact T|].
        apply finish_tidy; [|apply K]. apply tidy_insert; [apply tidy_number, K|exact T].
      - rewrite ser_array in E. destruct (ser lk n i enc known) as [[x k1]|] eqn:Ex; [|discriminate]. apply some_pair_eq in E as [<- _].
        apply tidy_of, tidy_extend; [apply K|]. apply tidy_insert; [exact (IHi _ _ _ _ (proj2 K) Ex)|]. apply tidy_insert; [constructor|apply tidy_none].
      - rewrite ser_map in E. destruct (ser lk n i enc known) as [[x k1]|] eqn:Ex; [|discriminate]. apply some_pair_eq in E as [<- _].
        apply tidy_of, tidy_extend; [apply K|]. apply tidy_insert; [exact (IHi _ _ _ _ (proj2 K) Ex)|]. apply tidy_insert; [constructor|apply tidy_none].
      - rewrite ser_union in E. destruct (map_st _ ts known) as [[js k1]|] eqn:M; [|discriminate]. apply some_pair_eq in E as [<- _]. rewrite fold_and in K. rewrite Forall_forall in Hts. constructor.
        eapply (map_st_each _ tidy); [|exact M]. intros t st y st' Ht Hy. exact (Hts t Ht _ _ _ _ (K t Ht) Hy).
      - rewrite ser_annot in E. apply some_pair_eq in E as [<- _]. apply tidy_of, tidy_extend; [exact K|]. apply tidy_insert; [constructor|apply tidy_none].
      - rewrite ser_logical in E. apply some_pair_eq in E as [<- _]. destruct K as [F K]. apply tidy_of, tidy_extend; [exact K|].
        assert (T : tidy_obj (bt_insert "logicalType" (JStr (logical_name l)) (bt_insert "type" (JStr (prim_str (expected_base_type l))) []))) by (repeat (apply tidy_insert; [constructor|]); apply tidy_none).
        destruct l; try exact T. destruct F as [F1 F2]. apply tidy_insert; [now apply tidy_number|]. apply tidy_insert; [now apply tidy_number|exact T].
      - rewrite ser_ref in E. destruct (str_mem _ _); [apply some_pair_eq in E as [<- _]; constructor|]. destruct (assoc _ lk) as [r|] eqn:A; [|apply some_pair_eq in E as [<- _]; constructor].
        destruct n as [|n]; [discriminate|]. eapply (IHn n); [lia| |exact E]. apply assoc_In in A. eapply Hlk; exact A.
    Qed.
    Lemma ser_field_tidy n f enc known j k : kept_field f -> ser_field lk n f enc known = Some (j, k) -> tidy j.
    Proof.
      intros (Kp & Kd & Ks) E. unfold ser_field in E. destruct (ser lk n (f_schema f) enc known) as [[x k1]|] eqn:Ex; [|discriminate]. apply some_pair_eq in E as [<- _].
      apply field_tidy; auto. exact (ser_tidy _ _ _ _ _ _ Ks Ex).
    Qed.
    Lemma ser_message_tidy n m enc known j k : kept_message m -> ser_message lk n m enc known = Some (j, k) -> tidy j.
    Proof.
      intros (Kp & Kr & Kt) E. unfold ser_message in E.
      destruct (map_st _ (m_request m) known) as [[req k1]|] eqn:M; [|discriminate].
      destruct (ser lk n (m_response m) enc k1) as [[resp k2]|] eqn:R; [|discriminate].
      assert (T : tidy_obj (bt_insert "response" resp (bt_insert "request" (JArr req) (bt_extend (opt_insert "doc" (option_map JStr (m_doc m)) []) (m_props m))))).
      { apply tidy_insert; [exact (ser_tidy _ _ _ _ _ _ (Kt _ (mt_response m)) R)|]. apply tidy_insert.
        - constructor. eapply (map_st_each _ tidy); [|exact M]. intros f st y st' Hf Hy. exact (ser_field_tidy n f enc st y st' (Kr f Hf) Hy).
        - apply tidy_extend; [exact Kp|]. apply tidy_opt_str, tidy_none. }
      set (o := bt_insert "response" _ _) in *. clearbody o.
      assert (B : forall (b : bool) o, tidy_obj o -> tidy (JObj (if b then bt_insert "one-way" (JBool true) o else o))).
      { intros [] o0 T0; apply tidy_of; [|exact T0]. apply tidy_insert; [constructor|exact T0]. }
      destruct (m_errors m) as [es|] eqn:Ee.
      - destruct (map_st _ es k2) as [[js k3]|] eqn:Me; [|discriminate]. apply some_pair_eq in E as [<- _]. apply B. apply tidy_insert; [|exact T]. constructor.
        eapply (map_st_each _ tidy); [|exact Me]. intros t st y st' Ht Hy. exact (ser_tidy n t enc st y st' (Kt t (mt_error m es t Ee Ht)) Hy).
      - apply some_pair_eq in E as [<- _]. apply B, T.
    Qed.
  End Lookup.

  Lemma collect_kept s : kept s -> forall dns lk, (forall k t, In (k, t) lk -> kept t) -> forall k t, In (k, t) (collect_named_types s dns lk) -> kept t.
  Proof.
    induction s as [p|nm ns d fs e al ps Hfs|nm ns d sy df al ps|nm ns d sz al ps|i ps IHi|i ps IHi
                      |ts b Hts|kd ps|l ps|nm ns ps sp] using schema_ind'; intros K dns lk L; try exact L.
    - cbn [collect_named_types]. pose proof K as K0. cbn [kept] in K. destruct K as [_ K]. rewrite fold_and in K. rewrite Forall_forall in Hfs.
      assert (L' : forall k t, In (k, t) ((make_full_name nm (opt_or ns dns), SRecord nm ns d fs e al ps) :: lk) -> kept t) by (intros k t [E|I]; [injection E as <- <-; exact K0|eauto]).
      revert L'. generalize ((make_full_name nm (opt_or ns dns), SRecord nm ns d fs e al ps) :: lk). clear L K0. induction fs as [|f fs IH]; intros lk' L'; cbn [fold_left]; [exact L'|].
      apply IH; [intros g Hg; apply Hfs; now right|intros g Hg; apply K; now right|]. apply Hfs; [now left|apply K; now left|exact L'].
    - intros k t [E|I]; [injection E as <- <-; exact K|eauto].
    - intros k t [E|I]; [injection E as <- <-; exact K|eauto].
    - apply IHi; [apply K|exact L].
    - apply IHi; [apply K|exact L].
    - cbn [collect_named_types]. cbn [kept] in K. rewrite fold_and in K. rewrite Forall_forall in Hts. revert lk L. induction ts as [|t ts IH]; intros lk L; cbn [fold_left]; [exact L|].
      apply IH; [intros g Hg; apply Hts; now right|intros g Hg; apply K; now right|]. apply Hts; [now left|apply K; now left|exact L].
  Qed.
  Lemma lookup_kept types dns : (forall t, In t types -> kept t) -> forall k t, In (k, t) (build_lookup types dns) -> kept t.
  Proof.
    intro K. unfold build_lookup. assert (L : forall k t, In (k, t) ([] : lookup_table) -> kept t) by (intros k t []). revert L. generalize ([] : lookup_table).
    induction types as [|t types IH]; intros lk L; cbn [fold_left]; [exact L|]. apply IH; [intros u Hu; apply K; now right|]. apply collect_kept; [apply K; now left|exact L].
  Qed.
  Lemma schema_tidy types dns s known enc j k : (forall t, In t types -> kept t) -> kept s ->
    schema_to_json s known enc (build_lookup types dns) = Some (j, k) -> tidy j.
  Proof. intros K Ks E. exact (ser_tidy _ (lookup_kept types dns K) _ _ _ _ _ _ Ks E). Qed.
  Lemma protocol_tidy p j : (forall t, In t (p_types p) -> kept t) -> (forall nm, In nm (p_messages p) -> kept_message (snd nm)) -> tidy_props (p_props p) ->
    protocol_to_json p = Some j -> tidy j.
  Proof.
    intros Kt Km Kp E. unfold protocol_to_json, types_to_json, messages_to_json in E. pose proof (lookup_kept (p_types p) (p_namespace p) Kt) as L. set (lk := build_lookup _ _) in *.
    destruct (map_st _ (p_types p) []) as [[js known]|] eqn:T; [|discriminate]. destruct (map_st _ (p_messages p) known) as [[es k2]|] eqn:M; [|discriminate]. apply (f_equal (fun x => match x with Some v => v | None => j end)) in E. cbv beta iota in E. rewrite <- E.
    apply tidy_of. apply tidy_insert; [|apply tidy_insert].
    - apply tidy_of, tidy_extend; [|apply tidy_none]. intros k v Hkv.
      refine (map_st_each _ (fun kv : string * json => tidy (snd kv)) _ _ _ _ _ M (k, v) Hkv). intros nm st y st' Hn Hy. cbv beta in Hy. destruct (ser_message lk _ (snd nm) _ st) as [[x ?]|] eqn:Ex; [|discriminate Hy]. injection Hy as <- _. exact (ser_message_tidy lk L _ _ _ _ _ _ (Km nm Hn) Ex).
    - constructor. intros v Hv. apply filter_In in Hv as [Hv _].
      refine (map_st_each _ tidy _ _ _ _ _ T v Hv). intros t st y st' Ht Hy. exact (ser_tidy lk L _ t _ _ _ _ (Kt t Ht) Hy).
    - unfold protocol_header. apply tidy_extend; [exact Kp|]. apply tidy_opt_str.
      assert (N : tidy_obj (bt_insert "protocol" (JStr (p_name p)) [])) by (apply tidy_insert; [constructor|apply tidy_none]).
      destruct (p_namespace p) as [q|]; [|exact N]. destruct (negb _); [|exact N]. apply tidy_insert; [constructor|exact N].
  Qed.
End Tidy.
