(** Lemmas about imports. *)
From Verif Require Import SpecCompile SpecFile SpecImport RegistryProofs BaseProofs DefaultsProofs ImportProofs ReaderProofs TypeProofs DenoteProofs ReadProofs.
From Verif Require SpecDefaults.
From Coq Require Import Lia.

Section World.
  Context `{Unicode} `{Floats} `{Parser} `{FileSystem} `{JsonParser}.

  (** ** Searching *)
  Lemma search_iff name dirs r : search name dirs = Some r <->
    exists before d after, dirs = before ++ d :: after
      /\ (forall d', In d' before -> fs_exists (fs_join d' name) = false)
      /\ fs_exists (fs_join d name) = true /\ fs_canonical (fs_join d name) = r.
  Proof.
    induction dirs as [|x dirs IH]; cbn.
    - split; [discriminate|]. intros (b & d & a & E & _). destruct b; discriminate.
    - destruct (fs_exists (fs_join x name)) eqn:Ex.
      + split.
        * intro E. injection E as <-. exists [], x, dirs. split; [reflexivity|]. split; [intros d []|]. auto.
        * intros (b & d & a & E & Hb & Hd & Hc). destruct b as [|y b]; injection E as <- E; [now rewrite Hc|].
          specialize (Hb x (or_introl eq_refl)). congruence.
      + rewrite IH. split; intros (b & d & a & E & Hb & Hd & Hc).
        * exists (x :: b), d, a. subst. split; [reflexivity|]. split; [|auto]. intros d' [<-|Hi]; auto.
        * destruct b as [|y b]; injection E as <- E; [congruence|]. exists b, d, a. split; [exact E|]. split; [|auto].
          intros d' Hi. apply Hb. now right.
  Qed.
  Lemma search_none name dirs : search name dirs = None <-> forall d, In d dirs -> fs_exists (fs_join d name) = false.
  Proof.
    induction dirs as [|x dirs IH]; cbn.
    - split; [intros _ d []|reflexivity].
    - destruct (fs_exists (fs_join x name)) eqn:Ex.
      + split; [discriminate|]. intro Hd. specialize (Hd x (or_introl eq_refl)). congruence.
      + rewrite IH. split; [intros Hd d [<-|Hi]; auto|auto].
  Qed.
  Lemma resolve_import_iff dirs name dir p :
    resolve_import dirs name dir = Ok p <-> found_in (dir :: dirs) name p.
  Proof.
    unfold resolve_import, found_in. destruct (search name (dir :: dirs)) as [[q|]|] eqn:E.
    - pose proof (proj1 (search_iff _ _ _) E) as (b & d & a & Ed & Hb & Hd & Hc). split.
      + intro Hq. injection Hq as <-. exists b, d, a. auto.
      + intros Hx. assert (search name (dir :: dirs) = Some (Some p)) by (apply search_iff; exact Hx). congruence.
    - split; [discriminate|]. intros Hx. assert (search name (dir :: dirs) = Some (Some p)) by (apply search_iff; exact Hx). congruence.
    - split; [discriminate|]. intros Hx. assert (search name (dir :: dirs) = Some (Some p)) by (apply search_iff; exact Hx). congruence.
  Qed.
  Lemma found_finite dirs name p : found_in dirs name p -> In p fs_files.
  Proof. intros (b & d & a & _ & _ & _ & Hc). exact (fs_finite _ _ Hc). Qed.

  (** ** What the reader hands on has no inline definitions *)
  Lemma annotated_as_inline l s s' : annotated_as l s s' -> no_inline s' = no_inline s.
  Proof.
    induction 1 as [s Hl|s s' Ha IH|ts|s s' Hs _|]; try reflexivity.
    - cbn. now rewrite IH.
    - inversion Hs as [a b p C1 C2|i ps ps'|i ps ps']; subst; try reflexivity.
      destruct s; try discriminate; destruct s'; try discriminate; reflexivity.
  Qed.
  Lemma denotes_inline :
    (forall t ns s, denotes ns t s -> no_inline s = true) /\
    (forall p ns s, denotes_plain ns p s -> no_inline s = true).
  Proof.
    apply types_ind.
    - intros pl l p IH ns s Hd. inversion Hd as [pl' l' p' s0 s' Hp Hl Hr Ha]; subst. rewrite (annotated_as_inline _ _ _ Ha). eauto.
    - intros t IH ns s Hd. inversion Hd; subst. cbn. eauto.
    - intros t IH ns s Hd. inversion Hd; subst. cbn. eauto.
    - intros ts IH ns s Hd. inversion Hd as [| | | | | | | |ts' ss Hts Hl]; subst. cbn [no_inline]. clear Hd Hl.
      induction Hts as [|t s ts ss Ht Hts IHts]; [reflexivity|]. inversion IH as [|x xs Hx Hxs]; subst. cbn [forallb].
      rewrite (Hx _ _ Ht). auto.
    - intros b o ns s Hd. destruct o.
      + inversion Hd as [| | | | |b' s0 Hd0 Hn| | |]; subst. cbn. destruct b as [k kp|i sp]; inversion Hd0; subst; reflexivity.
      + destruct b as [k kp|i sp]; inversion Hd; subst; reflexivity.
  Qed.
  Lemma variable_inline ns v ft s : variable_type ns v ft s -> no_inline s = true.
  Proof.
    intro Hv. inversion Hv as [pl l b s0 Hd Hn|pl l b s0 Hd Hn|pl l p s0 Hp Hd]; subst.
    - apply (proj1 denotes_inline) in Hd. cbn. now rewrite Hd.
    - apply (proj1 denotes_inline) in Hd. cbn. now rewrite Hd.
    - now apply (proj1 denotes_inline) in Hd.
  Qed.
  Lemma named_flat tokens ns d s : named_denotes tokens ns d s -> flat_definition s = true.
  Proof.
    intro Hd. inversion Hd as [r n q doc al ps fs Hh Hv Hn| |]; subst; try reflexivity. cbn. apply forallb_forall.
    intros f Hf. destruct (Forall2_in_r _ _ _ _ Hv Hf) as (dv & _ & Hx). exact (variable_inline _ _ _ _ (vd_type _ _ _ _ _ _ Hx)).
  Qed.
  Definition types_flat (items : list decl_item) : Prop := forall s p fs, In (DType s p fs) items -> flat_definition s = true.
  Lemma in_declared_types s items : (exists p fs, In (DType s p fs) items) <-> In s (declared_types items).
  Proof.
    unfold declared_types. rewrite in_flat_map. split.
    - intros (p & fs & Hi). exists (DType s p fs). cbn. auto.
    - intros ([k q sp|s' p fs] & Hi & Hx); cbn in Hx; [contradiction|]. destruct Hx as [<-|[]]. eauto.
  Qed.
  Lemma parse_idl_flat label text file items ws : parse_idl label text = Ok (file, items, ws) -> types_flat items.
  Proof.
    intros Hp s p fs Hs. unfold parse_idl in Hp. destruct (antlr_parse label (until_sub text)) as [pr|] eqn:Ea; [|discriminate].
    destruct (walk_idl_file (pr_tokens pr) (pr_tree pr)) as [[[f its] evs]|[? ?]] eqn:Ew; [|discriminate]. injection Hp as <- <- <-.
    apply walk_file_denotes in Ew. apply file_types in Ew. destruct Ew as (ns & _ & Hf).
    assert (Hs' := proj1 (in_declared_types s its) (ex_intro _ p (ex_intro _ fs Hs))). clear Hs. rename Hs' into Hs. destruct (Forall2_in_r _ _ _ _ Hf Hs) as (d & _ & Hd). exact (named_flat _ _ _ _ Hd).
  Qed.

  (** ** JSON imports *)
  Lemma registry_after_app r l1 l2 : registry_after (registry_after r l1) l2 = registry_after r (l1 ++ l2).
  Proof. symmetry. apply fold_left_app. Qed.
  Lemma import_types_after types dns r r' e : import_types types dns r = (r', e) ->
    exists l, r' = registry_after r l /\ Forall (fun t => flat_definition t = true) l
      /\ (forall s, In s l -> exists tj t, In tj types /\ json_to_schema tj dns = Ok t /\ In s (fst (flatten t)))
      /\ (e = None -> forall tj, In tj types -> exists t, json_to_schema tj dns = Ok t /\ forall s, In s (fst (flatten t)) -> In s l).
  Proof.
    revert r. induction types as [|tj types IH]; intros r Hi; cbn [import_types] in Hi.
    - injection Hi as <- <-. exists []. repeat split; [constructor|intros s []|intros _ tj []].
    - destruct (json_to_schema tj dns) as [t|er] eqn:Ej.
      + destruct (IH _ Hi) as (l & -> & Hf & Hs & Hc). exists (fst (flatten t) ++ l).
        split; [apply registry_after_app|]. split; [apply Forall_app; split; [apply flatten_flat|exact Hf]|]. split.
        * intros s Hx. apply in_app_or in Hx. destruct Hx as [Hx|Hx]; [exists tj, t; cbn; auto|].
          destruct (Hs s Hx) as (tj' & t' & A & B). exists tj', t'. cbn. auto.
        * intros He tj' [<-|Hx].
          -- exists t. split; [exact Ej|]. intros s Hy. apply in_or_app. auto.
          -- destruct (Hc He tj' Hx) as (t' & A & B). exists t'. split; [exact A|]. intros s Hy. apply in_or_app. auto.
      + injection Hi as <- <-. exists []. repeat split; [constructor|intros s []|intro; discriminate].
  Qed.
  Lemma import_schema_after j r r' e : import_schema j r = (r', e) ->
    exists l, r' = registry_after r l /\ Forall (fun t => flat_definition t = true) l.
  Proof.
    unfold import_schema. destruct (json_to_schema j None) as [t|er]; intro Hi; injection Hi as <- <-.
    - exists (fst (flatten t)). split; [reflexivity|apply flatten_flat].
    - exists []. split; [reflexivity|constructor].
  Qed.
  Lemma import_protocol_after j r r' e : import_protocol j r = (r', e) ->
    exists l, r' = registry_after r l /\ Forall (fun t => flat_definition t = true) l.
  Proof.
    unfold import_protocol. cbv zeta. destruct (import_types _ _ r) as [r1 [er|]] eqn:Et; intro Hi.
    - injection Hi as <- <-. destruct (import_types_after _ _ _ _ _ Et) as (l & A & B & _). eauto.
    - destruct (import_types_after _ _ _ _ _ Et) as (l & A & B & _). exists l. split; [|exact B].
      destruct (value_get "messages" j) as [[]|]; try (injection Hi as <- <-; exact A).
      destruct (import_messages _ _); injection Hi as <- <-; exact A.
  Qed.

  (** ** Steps, of successful and failing runs *)
  Inductive step (dirs : list string) : context -> context -> Prop :=
  | st_type s r c : register (cx_registry c) s = Ok r -> flat_definition s = true -> step dirs c (set_registry r c)
  | st_json k name dir p c l ms js :
      k <> ImportIdl -> found_in (dir :: dirs) name p -> ~ In p (cx_imported c) ->
      Forall (fun t => flat_definition t = true) l ->
      step dirs c (mkCx (registry_after (cx_registry c) l) (p :: cx_imported c) ms (cx_warnings c) js (cx_loads c ++ [(k, p)]))
  | st_idl_fail name dir p c :
      found_in (dir :: dirs) name p -> ~ In p (cx_imported c) -> (forall f i w, ~ idl_content p f i w) ->
      step dirs c (log_load ImportIdl p (mark p c))
  | st_idl name dir p c file its ws :
      found_in (dir :: dirs) name p -> ~ In p (cx_imported c) -> idl_content p file its ws ->
      step dirs c (add_messages (messages_of_file file) (add_warnings (wrap_warnings p name ws) (log_load ImportIdl p (mark p c)))).

  Inductive steps (dirs : list string) : context -> context -> Prop :=
  | sts_nil c : steps dirs c c
  | sts_cons c c' c'' : step dirs c c' -> steps dirs c' c'' -> steps dirs c c''.
  Lemma steps_app dirs a b c : steps dirs a b -> steps dirs b c -> steps dirs a c.
  Proof. induction 1; [auto|]. intro. econstructor; eauto. Qed.
  Lemma steps_one dirs a b : step dirs a b -> steps dirs a b.
  Proof. intro. econstructor; [eassumption|constructor]. Qed.

  Lemma process_items_steps nested dirs dir items c c' e :
    (forall d its x y e', types_flat its -> nested d its x = (y, e') -> steps dirs x y) ->
    types_flat items -> process_items nested dirs dir items c = (c', e) -> steps dirs c c'.
  Proof.
    intros Hn. revert c. induction items as [|it items IH]; intros c Hf Hp; cbn [process_items] in Hp.
    - injection Hp as <- <-. constructor.
    - cbv zeta in Hp.
      assert (Hf' : types_flat items) by (intros s p fs Hs; apply (Hf s p fs); now right).
      assert (Hstep : forall c1 e1, match it with
                | DImport k path sp => resolve_single_import nested dirs k path sp dir c
                | DType s sp fs => process_type s sp fs c end = (c1, e1) -> steps dirs c c1).
      { intros c1 e1. destruct it as [k name sp|s sp fs].
        - unfold resolve_single_import. destruct (resolve_import dirs name dir) as [p|er] eqn:Er.
          + apply resolve_import_iff in Er. destruct (str_mem p (cx_imported c)) eqn:Em.
            * intro E. injection E as <- <-. constructor.
            * assert (Hni : ~ In p (cx_imported c)) by (intro Hi; apply str_mem_In in Hi; congruence).
              unfold load_import. destruct k.
              -- destruct (fs_read p) as [text|] eqn:Et.
                 ++ destruct (parse_idl p text) as [[[file its] ws]|er] eqn:Ep.
                    ** intro E. apply (sts_cons _ _ _ _ (st_idl dirs name dir p c file its ws Er Hni (ex_intro _ text (conj Et Ep)))).
                       eapply Hn; [|exact E]. exact (parse_idl_flat _ _ _ _ _ Ep).
                    ** intro E. injection E as <- <-. apply steps_one. apply (st_idl_fail dirs name dir); auto.
                       intros f i w (t & A & B). congruence.
                 ++ intro E. injection E as <- <-. apply steps_one. apply (st_idl_fail dirs name dir); auto.
                    intros f i w (t & A & B). congruence.
              -- assert (Hj : forall l, Forall (fun t => flat_definition t = true) l -> forall ms js,
                   steps dirs c (mkCx (registry_after (cx_registry c) l) (p :: cx_imported c) ms (cx_warnings c) js (cx_loads c ++ [(ImportProtocol, p)]))).
                 { intros l Hl ms js. apply steps_one. apply (st_json dirs ImportProtocol name dir); auto. discriminate. }
                 destruct (fs_read p) as [text|]; [|intro E; injection E as <- <-; apply (Hj []); constructor].
                 destruct (parse_json text) as [j|]; [|intro E; injection E as <- <-; apply (Hj []); constructor].
                 destruct (import_protocol j _) as [r res] eqn:Ei. apply import_protocol_after in Ei. destruct Ei as (l & -> & Hl).
                 destruct res; intro E; injection E as <- <-; apply (Hj l Hl).
              -- assert (Hj : forall l, Forall (fun t => flat_definition t = true) l -> forall ms js,
                   steps dirs c (mkCx (registry_after (cx_registry c) l) (p :: cx_imported c) ms (cx_warnings c) js (cx_loads c ++ [(ImportSchema, p)]))).
                 { intros l Hl ms js. apply steps_one. apply (st_json dirs ImportSchema name dir); auto. discriminate. }
                 destruct (fs_read p) as [text|]; [|intro E; injection E as <- <-; apply (Hj []); constructor].
                 destruct (parse_json text) as [j|]; [|intro E; injection E as <- <-; apply (Hj []); constructor].
                 destruct (import_schema j _) as [r res] eqn:Ei. apply import_schema_after in Ei. destruct Ei as (l & -> & Hl).
                 destruct res; intro E; injection E as <- <-; apply (Hj l Hl).
          + intro E. injection E as <- <-. constructor.
        - unfold process_type. destruct (register (cx_registry c) s) as [r|er] eqn:Er.
          + assert (Hs : steps dirs c (set_registry r c)) by (apply steps_one, (st_type dirs s); [exact Er|apply (Hf s sp fs); now left]).
            destruct (validate_record_field_defaults _ _ _) as [[|x l]|]; intro E; injection E as <- <-; exact Hs.
          + intro E. injection E as <- <-. constructor. }
      destruct (match it with DImport k path sp => _ | DType s sp fs => _ end) as [c1 [e1|]] eqn:Es.
      + injection Hp as <- <-. exact (Hstep _ _ eq_refl).
      + eapply steps_app; [exact (Hstep _ _ eq_refl)|]. eauto.
  Qed.
  Lemma process_steps fuel dirs dir items c c' e : types_flat items ->
    process_decl_items fuel dirs dir items c = (c', e) -> steps dirs c c'.
  Proof.
    revert dir items c c' e. induction fuel as [|fuel IH]; intros dir items c c' e Hf Hp; cbn [process_decl_items] in Hp.
    - eapply process_items_steps; [|exact Hf|exact Hp]. intros d its x y e' _ E. injection E as <- <-. constructor.
    - eapply process_items_steps; [|exact Hf|exact Hp]. intros d its x y e' Hf' E. eapply IH; eauto.
  Qed.

  (** ** Successful runs *)
  Inductive handled (dirs : list string) : string -> list decl_item -> context -> context -> Prop :=
  | ha_nil dir c : handled dirs dir [] c c
  | ha_type dir s sp fs r its c c' : register (cx_registry c) s = Ok r ->
      validate_record_field_defaults (resolve_fuel r s) s (reg_lookup r) = Some [] ->
      handled dirs dir its (set_registry r c) c' -> handled dirs dir (DType s sp fs :: its) c c'
  | ha_skip dir k name sp p its c c' : found_in (dir :: dirs) name p -> In p (cx_imported c) ->
      handled dirs dir its c c' -> handled dirs dir (DImport k name sp :: its) c c'
  | ha_protocol dir name sp p j r ms its c c' : found_in (dir :: dirs) name p -> ~ In p (cx_imported c) ->
      json_content p j -> import_protocol j (cx_registry c) = (r, Ok ms) ->
      handled dirs dir its (add_json_import p sp (add_messages ms (set_registry r (log_load ImportProtocol p (mark p c))))) c' ->
      handled dirs dir (DImport ImportProtocol name sp :: its) c c'
  | ha_schema dir name sp p j r its c c' : found_in (dir :: dirs) name p -> ~ In p (cx_imported c) ->
      json_content p j -> import_schema j (cx_registry c) = (r, Ok tt) ->
      handled dirs dir its (add_json_import p sp (set_registry r (log_load ImportSchema p (mark p c)))) c' ->
      handled dirs dir (DImport ImportSchema name sp :: its) c c'
  | ha_idl dir name sp p file its' ws its c c1 c' : found_in (dir :: dirs) name p -> ~ In p (cx_imported c) ->
      idl_content p file its' ws ->
      handled dirs (fs_parent p) its'
        (add_messages (messages_of_file file) (add_warnings (wrap_warnings p name ws) (log_load ImportIdl p (mark p c)))) c1 ->
      handled dirs dir its c1 c' -> handled dirs dir (DImport ImportIdl name sp :: its) c c'.

  Lemma process_items_handled nested dirs dir items c c' :
    (forall d its x y, nested d its x = (y, None) -> handled dirs d its x y) ->
    process_items nested dirs dir items c = (c', None) -> handled dirs dir items c c'.
  Proof.
    intros Hn. revert c. induction items as [|it items IH]; intros c Hp; cbn [process_items] in Hp.
    - injection Hp as <-. constructor.
    - cbv zeta in Hp. destruct it as [k name sp|s sp fs].
      + unfold resolve_single_import in Hp. destruct (resolve_import dirs name dir) as [p|er] eqn:Er; [|discriminate].
        apply resolve_import_iff in Er. destruct (str_mem p (cx_imported c)) eqn:Em.
        * apply str_mem_In in Em. eapply ha_skip; eauto.
        * assert (Hni : ~ In p (cx_imported c)) by (intro Hi; apply str_mem_In in Hi; congruence).
          unfold load_import in Hp. destruct k; destruct (fs_read p) as [text|] eqn:Et; try discriminate.
          -- destruct (parse_idl p text) as [[[file its] ws]|er] eqn:Ep; [|discriminate].
             destruct (nested _ _ _) as [c1 [e1|]] eqn:En; [discriminate|]. apply Hn in En.
             eapply ha_idl; eauto. exists text. auto.
          -- destruct (parse_json text) as [j|] eqn:Ej; [|discriminate].
             change (cx_registry (log_load ImportProtocol p (mark p c))) with (cx_registry c) in Hp.
             destruct (import_protocol j (cx_registry c)) as [r [ms|e]] eqn:Ei; [|discriminate].
             eapply ha_protocol; eauto. exists text. auto.
          -- destruct (parse_json text) as [j|] eqn:Ej; [|discriminate].
             change (cx_registry (log_load ImportSchema p (mark p c))) with (cx_registry c) in Hp.
             destruct (import_schema j (cx_registry c)) as [r [[]|e]] eqn:Ei; [|discriminate].
             eapply ha_schema; eauto. exists text. auto.
      + unfold process_type in Hp. destruct (register (cx_registry c) s) as [r|er] eqn:Er; [|discriminate].
        destruct (validate_record_field_defaults _ _ _) as [[|x l]|] eqn:Ev; try discriminate.
        eapply ha_type; eauto.
  Qed.
  Lemma process_handled fuel dirs dir items c c' :
    process_decl_items fuel dirs dir items c = (c', None) -> handled dirs dir items c c'.
  Proof.
    revert dir items c c'. induction fuel as [|fuel IH]; intros dir items c c' Hp; cbn [process_decl_items] in Hp.
    - eapply process_items_handled; [|exact Hp]. discriminate.
    - eapply process_items_handled; [|exact Hp]. auto.
  Qed.
End World.
