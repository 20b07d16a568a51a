(** Documents depend only on the types that are mentioned. *)
From Coq Require Import Lia.
From Verif Require Import SpecLocal SerializeProofs BaseProofs MoveProofs RewriteProofs CliProofs OrderProofs StatementProofs PipelineProofs MeaningProofs BaseProofs.

Lemma map_st_both {A B S} (I : S -> S -> Prop) (f g : A -> S -> option (B * S)) l :
  (forall a s s' b t b' t', In a l -> I s s' -> f a s = Some (b, t) -> g a s' = Some (b', t') -> b = b' /\ I t t') ->
  forall s s' bs t bs' t', I s s' -> map_st f l s = Some (bs, t) -> map_st g l s' = Some (bs', t') -> bs = bs' /\ I t t'.
Proof.
  induction l as [|a l IH]; intros H s s' bs t bs' t' Hs E E'.
  - rewrite map_st_nil in E, E'. injection E as <- <-. injection E' as <- <-. auto.
  - rewrite map_st_cons in E, E'. destruct (f a s) as [[b s1]|] eqn:F; [|discriminate]. destruct (g a s') as [[b' s1']|] eqn:G; [|discriminate].
    destruct (H a _ _ _ _ _ _ (or_introl eq_refl) Hs F G) as [<- H1].
    destruct (map_st f l s1) as [[ys s2]|] eqn:M; [|discriminate]. destruct (map_st g l s1') as [[ys' s2']|] eqn:M'; [|discriminate].
    destruct (IH (fun a' => fun s s' b t b' t' Ha => H a' s s' b t b' t' (or_intror Ha)) _ _ _ _ _ _ H1 M M') as [<- H2]. injection E as <- <-. injection E' as <- <-. auto.
Qed.
Lemma map_st_both_app {A B S} (f : A -> S -> option (B * S)) l l' : forall s,
  map_st f (l ++ l') s = match map_st f l s with
                         | None => None
                         | Some (bs, t) => match map_st f l' t with None => None | Some (bs', t') => Some (bs ++ bs', t') end
                         end.
Proof.
  induction l as [|a l IH]; intro s; cbn [app].
  - rewrite map_st_nil. destruct (map_st f l' s) as [[? ?]|]; reflexivity.
  - rewrite !map_st_cons. destruct (f a s) as [[b s1]|]; [|reflexivity]. rewrite IH. destruct (map_st f l s1) as [[bs t]|]; [|reflexivity].
    destruct (map_st f l' t) as [[? ?]|]; reflexivity.
Qed.

Lemma some_pair {A B} (a a' : A) (b b' : B) : Some (a, b) = Some (a', b') -> a = a' /\ b = b'.
Proof. intro E. injection E. auto. Qed.

Section Local.
  Variables (lk lk' : lookup_table) (P Q : string -> Prop).
  Fixpoint within (s : schema) : Prop :=
    match s with
    | SRecord nm ns _ fs _ _ _ => Q (make_full_name nm ns) /\ fold_right (fun f r => within (f_schema f) /\ r) True fs
    | SEnum nm ns _ _ _ _ _ | SFixed nm ns _ _ _ _ => Q (make_full_name nm ns)
    | SArray i _ | SMap i _ => within i
    | SUnion ts _ => fold_right (fun t r => within t /\ r) True ts
    | SRef nm ns _ _ => P (make_full_name nm ns)
    | _ => True
    end.
  Definition agree (known known' : list string) : Prop := forall full, Q full -> str_mem full known = str_mem full known'.
  Hypothesis HPQ : forall full, P full -> Q full.
  Hypothesis Hlk : forall full, P full -> assoc full lk = assoc full lk'.
  Hypothesis Hin : forall full t, P full -> assoc full lk = Some t -> within t.

  Lemma within_fields fs : fold_right (fun f r => within (f_schema f) /\ r) True fs -> forall f, In f fs -> within (f_schema f).
  Proof. induction fs as [|g fs IH]; intros H f; [intros []|]. cbn in H. destruct H as [H1 H2]. intros [<-|Hf]; auto. Qed.
  Lemma within_types ts : fold_right (fun t r => within t /\ r) True ts -> forall t, In t ts -> within t.
  Proof. induction ts as [|g ts IH]; intros H f; [intros []|]. cbn in H. destruct H as [H1 H2]. intros [<-|Hf]; auto. Qed.
  Lemma agree_cons full known known' : agree known known' -> agree (full :: known) (full :: known').
  Proof. intros A f Hf. unfold str_mem in *. cbn [existsb]. specialize (A f Hf). unfold str_mem in A. now rewrite A. Qed.
  Lemma preamble_local kind nm ns d known known' enc : Q (make_full_name nm ns) -> agree known known' ->
    match named_type_preamble kind nm ns d known enc, named_type_preamble kind nm ns d known' enc with
    | inl j, inl j' => j = j'
    | inr (o, k), inr (o', k') => o = o' /\ agree k k'
    | _, _ => False
    end.
  Proof.
    intros Hq A. unfold named_type_preamble. cbv zeta. rewrite (A _ Hq). destruct (str_mem _ known'); [reflexivity|]. split; [reflexivity|now apply agree_cons].
  Qed.
  Lemma ser_local n : forall n' s enc known known' j k j' k', within s -> agree known known' ->
    ser lk n s enc known = Some (j, k) -> ser lk' n' s enc known' = Some (j', k') -> j = j' /\ agree k k'.
  Proof.
    induction n as [n IHn] using (well_founded_induction Wf_nat.lt_wf). intros n' s.
    induction s as [p|nm ns d fs e al ps Hfs|nm ns d sy df al ps|nm ns d sz al ps|i ps IHi|i ps IHi
                    |ts b Hts|kd ps|l ps|nm ns ps sp] using schema_ind'; intros enc known known' j k j' k' W A E E'; cbn [within] in W.
    - rewrite ser_prim in E, E'. injection E as <- <-. injection E' as <- <-. auto.
    - rewrite ser_record in E, E'. destruct W as [W1 W2]. pose proof (preamble_local (if e then "error" else "record") nm ns d known known' enc W1 A) as T.
      destruct (named_type_preamble _ nm ns d known enc) as [bare|[o k1]], (named_type_preamble _ nm ns d known' enc) as [bare'|[o' k1']]; try contradiction.
      + subst bare'. injection E as <- <-. injection E' as <- <-. auto.
      + destruct T as [<- T]. destruct (map_st _ fs k1) as [[js k2]|] eqn:M; [|discriminate]. destruct (map_st _ fs k1') as [[js' k2']|] eqn:M'; [|discriminate].
        assert (G : js = js' /\ agree k2 k2').
        { revert M M'. apply (map_st_both agree); [|exact T]. intros f st st' y t y' t' Hf Hs F F'. rewrite Forall_forall in Hfs.
          unfold ser_field in F, F'. destruct (ser lk n (f_schema f) _ st) as [[x kx]|] eqn:Ex; [|discriminate F]. destruct (ser lk' n' (f_schema f) _ st') as [[x' kx']|] eqn:Ex'; [|discriminate F'].
          injection F as <- <-. injection F' as <- <-. destruct (Hfs f Hf _ _ _ _ _ _ _ (within_fields fs W2 f Hf) Hs Ex Ex') as [<- G]. auto. }
        destruct G as [<- G]. apply some_pair in E as [<- <-]. apply some_pair in E' as [<- <-]. auto.
    - rewrite ser_enum in E, E'. pose proof (preamble_local "enum" nm ns d known known' enc W A) as T.
      destruct (named_type_preamble _ nm ns d known enc) as [bare|[o k1]], (named_type_preamble _ nm ns d known' enc) as [bare'|[o' k1']]; try contradiction;
        apply some_pair in E as [<- <-]; apply some_pair in E' as [<- <-]; [auto|]. destruct T as [<- T]. auto.
    - rewrite ser_fixed in E, E'. pose proof (preamble_local "fixed" nm ns d known known' enc W A) as T.
      destruct (named_type_preamble _ nm ns d known enc) as [bare|[o k1]], (named_type_preamble _ nm ns d known' enc) as [bare'|[o' k1']]; try contradiction;
        apply some_pair in E as [<- <-]; apply some_pair in E' as [<- <-]; [auto|]. destruct T as [<- T]. auto.
    - rewrite ser_array in E, E'. destruct (ser lk n i enc known) as [[x k1]|] eqn:Ex; [|discriminate]. destruct (ser lk' n' i enc known') as [[x' k1']|] eqn:Ex'; [|discriminate].
      destruct (IHi _ _ _ _ _ _ _ W A Ex Ex') as [<- G]. apply some_pair in E as [<- <-]; apply some_pair in E' as [<- <-]. auto.
    - rewrite ser_map in E, E'. destruct (ser lk n i enc known) as [[x k1]|] eqn:Ex; [|discriminate]. destruct (ser lk' n' i enc known') as [[x' k1']|] eqn:Ex'; [|discriminate].
      destruct (IHi _ _ _ _ _ _ _ W A Ex Ex') as [<- G]. apply some_pair in E as [<- <-]; apply some_pair in E' as [<- <-]. auto.
    - rewrite ser_union in E, E'. destruct (map_st _ ts known) as [[js k1]|] eqn:M; [|discriminate]. destruct (map_st _ ts known') as [[js' k1']|] eqn:M'; [|discriminate].
      assert (G : js = js' /\ agree k1 k1').
      { revert M M'. apply (map_st_both agree); [|exact A]. intros t st st' y u y' u' Ht Hs F F'. rewrite Forall_forall in Hts. exact (Hts t Ht _ _ _ _ _ _ _ (within_types ts W t Ht) Hs F F'). }
      destruct G as [<- G]. apply some_pair in E as [<- <-]; apply some_pair in E' as [<- <-]. auto.
    - rewrite ser_annot in E, E'. apply some_pair in E as [<- <-]; apply some_pair in E' as [<- <-]. auto.
    - rewrite ser_logical in E, E'. apply some_pair in E as [<- <-]; apply some_pair in E' as [<- <-]. auto.
    - rewrite ser_ref in E, E'. rewrite <- (A _ (HPQ _ W)) in E'. destruct (str_mem _ known); [apply some_pair in E as [<- <-]; apply some_pair in E' as [<- <-]; auto|].
      rewrite <- (Hlk _ W) in E'. destruct (assoc _ lk) as [r|] eqn:R; [|apply some_pair in E as [<- <-]; apply some_pair in E' as [<- <-]; auto].
      destruct n as [|n]; [discriminate|]. destruct n' as [|n']; [discriminate|]. exact (IHn n (Nat.lt_succ_diag_r n) _ _ _ _ _ _ _ _ _ (Hin _ _ W R) A E E').
  Qed.
  Lemma message_local n n' m enc known known' j k j' k' : (forall t, message_type m t -> within t) -> agree known known' ->
    ser_message lk n m enc known = Some (j, k) -> ser_message lk' n' m enc known' = Some (j', k') -> j = j' /\ agree k k'.
  Proof.
    intros W A E E'. unfold ser_message in E, E'.
    destruct (map_st _ (m_request m) known) as [[req k1]|] eqn:M; [|discriminate]. destruct (map_st _ (m_request m) known') as [[req' k1']|] eqn:M'; [|discriminate].
    assert (G : req = req' /\ agree k1 k1').
    { revert M M'. apply (map_st_both agree); [|exact A]. intros f st st' y t y' t' Hf Hs F F'.
      unfold ser_field in F, F'. destruct (ser lk n (f_schema f) _ st) as [[x kx]|] eqn:Ex; [|discriminate F]. destruct (ser lk' n' (f_schema f) _ st') as [[x' kx']|] eqn:Ex'; [|discriminate F'].
      injection F as <- <-. injection F' as <- <-. destruct (ser_local _ _ _ _ _ _ _ _ _ _ (W _ (mt_request m f Hf)) Hs Ex Ex') as [<- G]. auto. }
    destruct G as [<- G]. clear M M'. cbv zeta in E, E'.
    destruct (ser lk n (m_response m) enc k1) as [[resp k2]|] eqn:R; [|discriminate]. destruct (ser lk' n' (m_response m) enc k1') as [[resp' k2']|] eqn:R'; [|discriminate].
    destruct (ser_local _ _ _ _ _ _ _ _ _ _ (W _ (mt_response m)) G R R') as [<- G2].
    destruct (m_errors m) as [es|] eqn:Ee.
    - destruct (map_st _ es k2) as [[js k3]|] eqn:M; [|discriminate]. destruct (map_st _ es k2') as [[js' k3']|] eqn:M'; [|discriminate].
      assert (G3 : js = js' /\ agree k3 k3').
      { revert M M'. apply (map_st_both agree); [|exact G2]. intros t st st' y u y' u' Ht Hs F F'. exact (ser_local _ _ _ _ _ _ _ _ _ _ (W _ (mt_error m es t Ee Ht)) Hs F F'). }
      destruct G3 as [<- G3]. apply some_pair in E as [<- <-]; apply some_pair in E' as [<- <-]. auto.
    - apply some_pair in E as [<- <-]; apply some_pair in E' as [<- <-]. auto.
  Qed.

  Lemma within_all s : (forall full, Q full) -> (forall full, mentions s full -> P full) -> within s.
  Proof.
    intro AQ. induction s as [p|nm ns d fs e al ps Hfs|nm ns d sy df al ps|nm ns d sz al ps|i ps IHi|i ps IHi
                    |ts b Hts|kd ps|l ps|nm ns ps sp] using schema_ind'; intro M; cbn [within]; auto.
    - split; [apply AQ|]. rewrite Forall_forall in Hfs.
      assert (G : forall l, incl l fs -> fold_right (fun f r => within (f_schema f) /\ r) True l).
      { induction l as [|f l IH]; intro I; cbn; [exact Logic.I|]. split; [|apply IH; intros x Hx; apply I; now right].
        apply Hfs; [apply I; now left|]. intros full Hf. apply M. eapply men_field; [apply I; now left|exact Hf]. }
      apply G, incl_refl.
    - apply IHi. intros full Hf. apply M. now constructor.
    - apply IHi. intros full Hf. apply M. now constructor.
    - rewrite Forall_forall in Hts.
      assert (G : forall l, incl l ts -> fold_right (fun t r => within t /\ r) True l).
      { induction l as [|f l IH]; intro I; cbn; [exact Logic.I|]. split; [|apply IH; intros x Hx; apply I; now right].
        apply Hts; [apply I; now left|]. intros full Hf. apply M. eapply men_union; [apply I; now left|exact Hf]. }
      apply G, incl_refl.
    - apply M. rewrite <- MeaningProofs.fullname_make. constructor.
  Qed.
  Lemma within_no_inline s : no_inline s = true -> (forall full, mentions s full -> P full) -> within s.
  Proof.
    induction s as [p|nm ns d fs e al ps Hfs|nm ns d sy df al ps|nm ns d sz al ps|i ps IHi|i ps IHi
                    |ts b Hts|kd ps|l ps|nm ns ps sp] using schema_ind'; intros Nl M; cbn [within]; auto; try discriminate Nl.
    - apply IHi; [exact Nl|]. intros full Hf. apply M. now constructor.
    - apply IHi; [exact Nl|]. intros full Hf. apply M. now constructor.
    - rewrite Forall_forall in Hts. cbn in Nl. rewrite forallb_forall in Nl.
      assert (G : forall l, incl l ts -> fold_right (fun t r => within t /\ r) True l).
      { induction l as [|f l IH]; intro I; cbn; [exact Logic.I|]. split; [|apply IH; intros x Hx; apply I; now right].
        apply Hts; [apply I; now left|apply Nl, I; now left|]. intros full Hf. apply M. eapply men_union; [apply I; now left|exact Hf]. }
      apply G, incl_refl.
    - apply M. rewrite <- MeaningProofs.fullname_make. constructor.
  Qed.
  Lemma within_flat s full : flat_definition s = true -> full_name s = Some full -> Q full -> (forall other, mentions s other -> P other) -> within s.
  Proof.
    destruct s as [p|nm ns d fs e al ps|nm ns d sy df al ps|nm ns d sz al ps| | | | | | ]; try discriminate; cbn [full_name flat_definition within]; intros F N q M; injection N as <-; try exact q.
    split; [exact q|]. rewrite forallb_forall in F.
    assert (G : forall l, incl l fs -> fold_right (fun f r => within (f_schema f) /\ r) True l).
    { induction l as [|f l IH]; intro I; cbn; [exact Logic.I|]. split; [|apply IH; intros x Hx; apply I; now right].
      apply within_no_inline; [apply F, I; now left|]. intros full Hf. apply M. eapply men_field; [apply I; now left|exact Hf]. }
    apply G, incl_refl.
  Qed.
End Local.

Lemma needs_more r s full t other : needs r s full -> assoc full r = Some t -> mentions t other -> needs r s other.
Proof.
  induction 1 as [s full M|s o u full M A N IH]; intros At Mt.
  - eapply nd_there; [exact M|exact At|]. now constructor.
  - eapply nd_there; [exact M|exact A|auto].
Qed.

Section Documents.
  Variables (r r' : registry) (G : good_registry r) (G' : good_registry r').
  Lemma lookup_known full : assoc full (unplaced_registry (build_lookup (reg_schemas r) None)) = knows r full.
  Proof. rewrite unplaced_assoc, (build_lookup_registry _ (proj2 G)), (assoc_rev_NoDup full r (proj1 G)). reflexivity. Qed.
  Lemma lookup_known' full : assoc full (unplaced_registry (build_lookup (reg_schemas r') None)) = knows r' full.
  Proof. rewrite unplaced_assoc, (build_lookup_registry _ (proj2 G')), (assoc_rev_NoDup full r' (proj1 G')). reflexivity. Qed.
  Lemma schema_local s s' j k j' k' : unplaced s = unplaced s' -> (forall full, needs r s full -> knows r full = knows r' full) ->
    schema_to_json s [] None (build_lookup (reg_schemas r) None) = Some (j, k) -> schema_to_json s' [] None (build_lookup (reg_schemas r') None) = Some (j', k') -> j = j'.
  Proof.
    intros Es Hn E E'. rewrite <- unplaced_json in E, E'. rewrite <- Es in E'.
    assert (C : forall t, (forall other, mentions t other -> needs r s other) -> within (needs r s) (fun _ => True) (unplaced t)).
    { intros t Ht. apply within_all; [auto|]. intros other M. apply Ht. now apply unplaced_mentions. }
    refine (proj1 (ser_local _ _ (needs r s) (fun _ => True) (fun _ _ => I) _ _ _ _ _ _ [] [] j k j' k' (C s _) (fun _ _ => eq_refl) E E')).
    - intros full N. rewrite lookup_known, lookup_known'. now apply Hn.
    - intros full t N. rewrite lookup_known. unfold knows. destruct (assoc full r) as [u|] eqn:A; [|discriminate]. intro X. injection X as <-. apply C. intros other M. exact (needs_more _ _ _ _ _ N A M).
    - intros other M. now constructor.
  Qed.
End Documents.

(** ** Protocols *)
Lemma collect_flat_ns s full dns lk : flat_definition s = true -> full_name s = Some full -> (ns_field s = None -> ns_empty dns = true) ->
  collect_named_types s dns lk = (full, s) :: lk.
Proof.
  assert (N : forall nm ns, (ns = None -> ns_empty dns = true) -> make_full_name nm (opt_or ns dns) = make_full_name nm ns).
  { intros nm [ns|] H; [reflexivity|]. specialize (H eq_refl). destruct dns as [[|c dns]|]; [reflexivity|discriminate H|reflexivity]. }
  destruct s as [ |nm ns d fs e al ps|nm ns d sy df al ps|nm ns d sz al ps| | | | | | ]; try discriminate; cbn [flat_definition full_name collect_named_types ns_field];
    intros Hs E Hd; injection E as <-; rewrite (N nm ns Hd); try reflexivity.
  generalize ((make_full_name nm ns, SRecord nm ns d fs e al ps) :: lk). clear -Hs. intro lk. revert lk. generalize (opt_or ns dns) as o. intro o. induction fs as [|f fs IH]; intro lk; [reflexivity|].
  cbn in *. apply andb_true_iff in Hs. destruct Hs as [H1 H2]. rewrite (collect_no_inline _ _ _ H1). now apply IH.
Qed.
Lemma build_lookup_ns r dns : Forall (fun kv => flat_definition (snd kv) = true /\ full_name (snd kv) = Some (fst kv)) r ->
  (forall t, In t (reg_schemas r) -> ns_field t = None -> ns_empty dns = true) -> build_lookup (reg_schemas r) dns = rev r.
Proof.
  intros Hr Hd. unfold build_lookup, reg_schemas in *. enough (G : forall acc, fold_left (fun acc s => collect_named_types s dns acc) (map snd r) acc = rev r ++ acc) by (now rewrite G, app_nil_r).
  induction Hr as [|[k s] r [Hf Hn] _ IH]; intro acc; [reflexivity|]. cbn [map fold_left snd rev]. cbn in Hf, Hn. rewrite (collect_flat_ns _ _ _ _ Hf Hn) by (apply Hd; now left).
  rewrite IH, <- app_assoc; [reflexivity|]. intros t Ht. apply Hd. now right.
Qed.
Lemma assoc_front {A} k (l l' : list (string * A)) : In k (keys l) -> assoc k (l ++ l') = assoc k l.
Proof. intro I. induction l as [|[a v] l IH]; [destruct I|]. cbn. destruct (String.eqb_spec k a); [reflexivity|]. apply IH. cbn in I. destruct I; [congruence|assumption]. Qed.
Lemma occurs_no_inline s : (forall u, occurs u s -> ~ definition_of u) -> no_inline s = true.
Proof.
  induction s as [p|nm ns d fs e al ps Hfs|nm ns d sy df al ps|nm ns d sz al ps|i ps IHi|i ps IHi
                  |ts b Hts|kd ps|l ps|nm ns ps sp] using schema_ind'; intro D; cbn [no_inline]; try reflexivity; try (exfalso; exact (D _ (oc_self _) I)).
  - apply IHi. intros u Hu. apply D. now constructor.
  - apply IHi. intros u Hu. apply D. now constructor.
  - apply forallb_forall. intros t Ht. rewrite Forall_forall in Hts. apply (Hts t Ht). intros u Hu. apply D. econstructor; eassumption.
Qed.
Lemma unplaced_no_inline s : no_inline (unplaced s) = no_inline s.
Proof.
  induction s as [p|nm ns d fs e al ps Hfs|nm ns d sy df al ps|nm ns d sz al ps|i ps IHi|i ps IHi
                  |ts b Hts|kd ps|l ps|nm ns ps sp] using schema_ind'; cbn; auto.
  induction Hts as [|t ts Ht _ IH]; cbn; [reflexivity|]. now rewrite Ht, IH.
Qed.
Lemma unplaced_ns s : ns_field (unplaced s) = ns_field s.
Proof. now destruct s. Qed.
Lemma unplaced_types r : reg_schemas (unplaced_registry r) = map unplaced (reg_schemas r).
Proof. unfold reg_schemas, unplaced_registry. now rewrite !map_map. Qed.
Lemma unplaced_good r : good_registry r -> good_registry (unplaced_registry r).
Proof.
  intros [A B]. split; [now rewrite unplaced_registry_keys|]. unfold unplaced_registry. rewrite Forall_map. eapply Forall_impl; [|exact B]. intros [k s] [F N]. cbn in *. now rewrite unplaced_flat, unplaced_full_name.
Qed.
Lemma unplaced_message_type m t : message_type (unplaced_message m) t -> exists u, t = unplaced u /\ message_type m u.
Proof.
  intro M. inversion M as [m0 E|m0 f Hf|m0 es e Ee He]; subst.
  - exists (m_response m). split; [reflexivity|constructor].
  - cbn in Hf. apply in_map_iff in Hf as (g & <- & Hg). exists (f_schema g). split; [reflexivity|now constructor].
  - cbn in Ee. destruct (m_errors m) as [l|] eqn:El; [|discriminate]. injection Ee as <-. apply in_map_iff in He as (g & <- & Hg). exists g. split; [reflexivity|]. econstructor; eassumption.
Qed.

(** ** Names once known stay known. *)
Lemma map_st_keeps {A B} (f : A -> list string -> option (B * list string)) l :
  (forall a k b k', In a l -> f a k = Some (b, k') -> incl k k') -> forall k bs k', map_st f l k = Some (bs, k') -> incl k k'.
Proof.
  induction l as [|a l IH]; intros H k bs k' E; [rewrite map_st_nil in E; injection E as _ <-; apply incl_refl|].
  rewrite map_st_cons in E. destruct (f a k) as [[b k1]|] eqn:F; [|discriminate]. destruct (map_st f l k1) as [[ys k2]|] eqn:M; [|discriminate]. injection E as _ <-.
  eapply incl_tran; [exact (H a _ _ _ (or_introl eq_refl) F)|]. exact (IH (fun a' k b k' Ha => H a' k b k' (or_intror Ha)) _ _ _ M).
Qed.
Lemma preamble_keeps kind nm ns d known enc :
  match named_type_preamble kind nm ns d known enc with inl _ => In (make_full_name nm ns) known | inr (_, k) => k = make_full_name nm ns :: known end.
Proof. unfold named_type_preamble. cbv zeta. destruct (str_mem _ known) eqn:E; [now apply str_mem_In|reflexivity]. Qed.
Lemma ser_keeps lk n : forall s enc known j k, ser lk n s enc known = Some (j, k) -> incl known k /\ (is_named s = true -> forall full, full_name s = Some full -> In full k).
Proof.
  induction n as [n IHn] using (well_founded_induction Wf_nat.lt_wf). intro s.
  induction s as [p|nm ns d fs e al ps Hfs|nm ns d sy df al ps|nm ns d sz al ps|i ps IHi|i ps IHi
                  |ts b Hts|kd ps|l ps|nm ns ps sp] using schema_ind'; intros enc known j k E; cbn [full_name is_named].
  - rewrite ser_prim in E. apply some_pair in E as [_ <-]. split; [apply incl_refl|discriminate].
  - rewrite ser_record in E. pose proof (preamble_keeps (if e then "error" else "record") nm ns d known enc) as T.
    destruct (named_type_preamble _ nm ns d known enc) as [bare|[o k1]].
    + apply some_pair in E as [_ <-]. split; [apply incl_refl|]. intros _ full X. injection X as <-. exact T.
    + destruct (map_st _ fs k1) as [[js k2]|] eqn:M; [|discriminate]. apply some_pair in E as [_ <-]. rewrite Forall_forall in Hfs.
      assert (I : incl k1 k2).
      { eapply map_st_keeps; [|exact M]. intros f st y st' Hf Hy. unfold ser_field in Hy. destruct (ser lk n (f_schema f) _ st) as [[x kx]|] eqn:Ex; [|discriminate Hy]. injection Hy as _ <-. exact (proj1 (Hfs f Hf _ _ _ _ Ex)). }
      subst k1. split; [intros x Hx; apply I; now right|]. intros _ full X. injection X as <-. apply I. now left.
  - rewrite ser_enum in E. pose proof (preamble_keeps "enum" nm ns d known enc) as T. destruct (named_type_preamble _ nm ns d known enc) as [bare|[o k1]]; apply some_pair in E as [_ <-].
    + split; [apply incl_refl|]. intros _ full X. injection X as <-. exact T.
    + subst k1. split; [intros x Hx; now right|]. intros _ full X. injection X as <-. now left.
  - rewrite ser_fixed in E. pose proof (preamble_keeps "fixed" nm ns d known enc) as T. destruct (named_type_preamble _ nm ns d known enc) as [bare|[o k1]]; apply some_pair in E as [_ <-].
    + split; [apply incl_refl|]. intros _ full X. injection X as <-. exact T.
    + subst k1. split; [intros x Hx; now right|]. intros _ full X. injection X as <-. now left.
  - rewrite ser_array in E. destruct (ser lk n i enc known) as [[x k1]|] eqn:Ex; [|discriminate]. apply some_pair in E as [_ <-]. split; [exact (proj1 (IHi _ _ _ _ Ex))|discriminate].
  - rewrite ser_map in E. destruct (ser lk n i enc known) as [[x k1]|] eqn:Ex; [|discriminate]. apply some_pair in E as [_ <-]. split; [exact (proj1 (IHi _ _ _ _ Ex))|discriminate].
  - rewrite ser_union in E. destruct (map_st _ ts known) as [[js k1]|] eqn:M; [|discriminate]. apply some_pair in E as [_ <-]. rewrite Forall_forall in Hts. split; [|discriminate].
    eapply map_st_keeps; [|exact M]. intros t st y st' Ht Hy. exact (proj1 (Hts t Ht _ _ _ _ Hy)).
  - rewrite ser_annot in E. apply some_pair in E as [_ <-]. split; [apply incl_refl|discriminate].
  - rewrite ser_logical in E. apply some_pair in E as [_ <-]. split; [apply incl_refl|discriminate].
  - split; [|discriminate]. rewrite ser_ref in E. destruct (str_mem _ known); [apply some_pair in E as [_ <-]; apply incl_refl|]. destruct (assoc _ lk) as [r|]; [|apply some_pair in E as [_ <-]; apply incl_refl].
    destruct n as [|n]; [discriminate|]. exact (proj1 (IHn n (Nat.lt_succ_diag_r n) _ _ _ _ _ E)).
Qed.
Lemma types_known lk enc l : forall known js k, map_st (fun s k => schema_to_json s k enc lk) l known = Some (js, k) ->
  incl known k /\ forall t full, In t l -> is_named t = true -> full_name t = Some full -> In full k.
Proof.
  induction l as [|a l IH]; intros known js k E; [rewrite map_st_nil in E; injection E as _ <-; split; [apply incl_refl|intros t full []]|].
  rewrite map_st_cons in E. destruct (schema_to_json a known enc lk) as [[b k1]|] eqn:F; [|discriminate]. destruct (map_st _ l k1) as [[ys k2]|] eqn:M; [|discriminate]. injection E as _ <-.
  apply ser_keeps in F as [F1 F2]. apply IH in M as [M1 M2]. split; [eapply incl_tran; eassumption|]. intros t full [<-|Ht] Nm N; [apply M1, (F2 Nm), N|exact (M2 t full Ht Nm N)].
Qed.

Lemma protocol_local r r' p p' more j j' : good_registry r -> good_registry r' -> p_types p = reg_schemas r -> p_types p' = reg_schemas r' ->
  unplaced_registry r' = unplaced_registry r ++ more ->
  p_name p = p_name p' -> p_namespace p = p_namespace p' -> p_doc p = p_doc p' -> p_props p = p_props p' -> unplaced_messages (p_messages p) = unplaced_messages (p_messages p') ->
  no_inline_definitions p -> (forall t, In t (p_types p') -> ns_field t = None -> ns_empty (p_namespace p') = true) ->
  (forall k s full, In (k, s) r -> mentions s full -> In full (keys r)) ->
  (forall k m t full, In (k, m) (p_messages p) -> message_type m t -> mentions t full -> In full (keys r)) ->
  protocol_to_json p = Some j -> protocol_to_json p' = Some j' ->
  exists d d' types extra, j = JObj d /\ j' = JObj d' /\ (forall k, k <> "types" -> assoc k d = assoc k d')
    /\ assoc "types" d = Some (JArr types) /\ assoc "types" d' = Some (JArr (types ++ extra)).
Proof.
  intros G G' Et Et' Em H1 H2 H3 H4 H5 Hi Hns Hr Hm E E'.
  rewrite <- unplaced_protocol_json in E, E'. unfold protocol_to_json, types_to_json, messages_to_json in E, E'.
  assert (Hh : protocol_header (unplaced_protocol p') = protocol_header (unplaced_protocol p)).
  { unfold protocol_header, unplaced_protocol; cbn [p_name p_namespace p_doc p_props]. now rewrite H1, H2, H3, H4. }
  rewrite Hh in E'. clear Hh. cbn [unplaced_protocol p_types p_namespace p_messages] in E, E'.
  rewrite <- H5, <- H2 in E'. rewrite <- H2 in Hns. rewrite Et, <- unplaced_types in E. rewrite Et', <- unplaced_types in E'.
  set (dns := p_namespace p) in *. clearbody dns. pose proof (unplaced_good _ G) as U. pose proof (unplaced_good _ G') as U'.
  assert (Hns' : forall t, In t (reg_schemas (unplaced_registry r')) -> ns_field t = None -> ns_empty dns = true).
  { intros t Ht. rewrite unplaced_types in Ht. apply in_map_iff in Ht as (u & <- & Hu). rewrite unplaced_ns. apply Hns. now rewrite Et'. }
  rewrite (build_lookup_ns _ _ (proj2 U') Hns') in E'. rewrite Em in *. unfold reg_schemas in E', Hns'. rewrite map_app in E', Hns'. fold (reg_schemas (unplaced_registry r)) in E', Hns'.
  rewrite (build_lookup_ns _ _ (proj2 U)) in E by (intros t Ht; apply Hns', in_or_app; now left).
  set (lk := rev (unplaced_registry r)) in *. set (lk' := rev (unplaced_registry r ++ more)) in *.
  set (P := fun full => In full (keys (unplaced_registry r))).
  assert (Hlk : forall full, P full -> assoc full lk = assoc full lk').
  { intros full N. unfold lk, lk'. rewrite (assoc_rev_NoDup full _ (proj1 U)), (assoc_rev_NoDup full _ (proj1 U')). symmetry. now apply assoc_front. }
  assert (Hw : forall k s, In (k, s) r -> within P P (unplaced s)).
  { intros k s I. pose proof (proj2 G) as F. rewrite Forall_forall in F. destruct (F _ I) as [F1 F2]. cbn in F1, F2.
    apply within_flat with (full := k); [now rewrite unplaced_flat|now rewrite unplaced_full_name|..].
    - unfold P. rewrite unplaced_registry_keys. apply in_map_iff. now exists (k, s).
    - intros other M. unfold P. rewrite unplaced_registry_keys. exact (Hr _ _ _ I (proj1 (unplaced_mentions _ _) M)). }
  assert (Hin : forall full t, P full -> assoc full lk = Some t -> within P P t).
  { intros full t _ A. unfold lk in A. rewrite (assoc_rev_NoDup full _ (proj1 U)) in A. apply assoc_In in A. unfold unplaced_registry in A. apply in_map_iff in A as ([k s] & X & I). injection X as <- <-. exact (Hw _ _ I). }
  rewrite map_st_both_app in E'.
  destruct (map_st _ (reg_schemas (unplaced_registry r)) []) as [[js known]|] eqn:T; [|discriminate E].
  match type of E' with context [map_st ?f (reg_schemas (unplaced_registry r)) []] => destruct (map_st f (reg_schemas (unplaced_registry r)) []) as [[js' known']|] eqn:T' end; [|discriminate E'].
  assert (Gt : js = js' /\ agree P known known').
  { revert T T'. apply (map_st_both (agree P)); [|intros full _; reflexivity]. intros t st st' y w y' w' Ht Hs F F'. unfold schema_to_json in F, F'.
    refine (ser_local lk lk' P P (fun _ X => X) Hlk Hin _ _ _ _ _ _ _ _ _ _ _ Hs F F'). rewrite unplaced_types in Ht. apply in_map_iff in Ht as (s & <- & Hsr). unfold reg_schemas in Hsr. apply in_map_iff in Hsr as ([k s0] & X & I). cbn in X. subst s0. exact (Hw _ _ I). }
  destruct Gt as [<- Ak].
  match type of E' with context [map_st ?f (map snd more) known'] => destruct (map_st f (map snd more) known') as [[extra known2]|] eqn:T2 end; [|discriminate E'].
  match type of E with context [map_st ?f (unplaced_messages (p_messages p)) known] => destruct (map_st f (unplaced_messages (p_messages p)) known) as [[es k3]|] eqn:M end; [|discriminate E].
  match type of E' with context [map_st ?f (unplaced_messages (p_messages p)) known2] => destruct (map_st f (unplaced_messages (p_messages p)) known2) as [[es' k3']|] eqn:M' end; [|discriminate E'].
  assert (Ak2 : agree P known known2).
  { intros full Hf. apply types_known in T as [_ K1]. apply types_known in T2 as [K2 _]. apply types_known in T' as [_ K3].
    pose proof (proj2 U) as Fu. rewrite Forall_forall in Fu. apply in_map_iff in Hf as ([k s] & X & I). cbn in X. subst k. destruct (Fu _ I) as [Fl N]. cbn in Fl, N. assert (Nm : is_named s = true) by (destruct s; cbn in Fl |- *; congruence).
    assert (It : In s (reg_schemas (unplaced_registry r))) by (apply in_map_iff; now exists (full, s)).
    transitivity true; [|symmetry]; apply str_mem_In; [exact (K1 s full It Nm N)|exact (K2 _ (K3 s full It Nm N))]. }
  assert (Gm : es = es' /\ agree P k3 k3').
  { revert M M'. apply (map_st_both (agree P)); [|exact Ak2]. intros nm st st' y w y' w' Hn Hs F F'. unfold unplaced_messages in Hn. apply in_map_iff in Hn as ([k m] & <- & Hkm). cbn [fst snd] in F, F'.
    destruct (ser_message lk _ (unplaced_message m) dns st) as [[x kx]|] eqn:Ex; [|discriminate F]. destruct (ser_message lk' _ (unplaced_message m) dns st') as [[x' kx']|] eqn:Ex'; [|discriminate F'].
    injection F as <- <-. injection F' as <- <-.
    assert (W : forall t, message_type (unplaced_message m) t -> within P P t).
    { intros t Ht. apply unplaced_message_type in Ht as (u & -> & Hu). apply within_no_inline.
      - rewrite unplaced_no_inline. apply occurs_no_inline. intros v Hv. exact (Hi (k, m) u v Hkm Hu Hv).
      - intros other Mo. unfold P. rewrite unplaced_registry_keys. exact (Hm _ _ _ _ Hkm Hu (proj1 (unplaced_mentions _ _) Mo)). }
    destruct (message_local lk lk' P P (fun _ X => X) Hlk Hin _ _ _ _ _ _ _ _ _ _ W Hs Ex Ex') as [<- A']. auto. }
  destruct Gm as [<- _]. apply (f_equal (fun x => match x with Some v => v | None => j end)) in E. apply (f_equal (fun x => match x with Some v => v | None => j end)) in E'. cbv beta iota in E, E'. rewrite filter_app in E'.
  do 2 eexists. exists (filter (fun v => negb (is_string v)) js), (filter (fun v => negb (is_string v)) extra). split; [symmetry; exact E|]. split; [symmetry; exact E'|].
  split; [|split; rewrite !assoc_bt_insert; reflexivity].
  intros k Hk. rewrite !assoc_bt_insert. destruct (String.eqb k "messages"); [reflexivity|]. destruct (String.eqb_spec k "types"); [contradiction|reflexivity].
Qed.
