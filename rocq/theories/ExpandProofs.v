(** Proofs for SpecExpand.v: compilation is expansion, then declaration, then
    the check of the names used. *)
From Verif Require Import SpecExpand Defaults DefaultsProofs ResolveProofs RegistryProofs CompileProofs LoadProofs BuildProofs RefsProofs.
From Verif Require Import BaseProofs SpecFile FileProofs DenoteProofs MoveProofs ForgetProofs RewriteProofs SpecRefs.
From Coq Require Import Permutation.
Import SpecNames.

Section Proofs.
  Context `{Unicode} `{Floats} `{Parser} `{FileSystem} `{JsonParser}.

  (** ** Defaults *)
  Lemma field_errors_nil fuel env fs : field_default_errors fuel env fs = Some [] ->
    forall f j, In f fs -> f_default f = Some j ->
      exists r, resolve_for_validation fuel (f_schema f) env = Some r /\ forall t, r = Some t -> is_valid_default j t = true.
  Proof.
    induction fs as [|g fs IH]; cbn; intros E f j Hi Hd; [contradiction|].
    destruct (field_default_errors fuel env fs) as [b|] eqn:Eb.
    - assert (b = []) as ->.
      { destruct (f_default g) as [dv|].
        - destruct (resolve_for_validation fuel (f_schema g) env) as [[t|]|]; [destruct (validate_default dv t)| |]; try discriminate; now injection E.
        - now injection E. }
      destruct Hi as [->|Hi]; [|eapply IH; eauto]. rewrite Hd in E.
      destruct (resolve_for_validation fuel (f_schema f) env) as [[t|]|]; try discriminate.
      + destruct (validate_default j t) eqn:Ev; [discriminate|]. apply validate_default_none in Ev. exists (Some t). split; [reflexivity|]. intros t' Et. now injection Et as <-.
      + exists None. split; [reflexivity|]. discriminate.
    - destruct (f_default g) as [dv|]; [destruct (resolve_for_validation fuel (f_schema g) env) as [[t|]|]; [destruct (validate_default dv t)| |]|]; discriminate.
  Qed.
  Lemma checked_fit fuel known s :
    validate_record_field_defaults fuel s (reg_lookup known) = Some [] -> defaults_fit known s.
  Proof.
    intros E n ns d fs e al ps f j fuel' t -> Hi Hd Hr. cbn in E.
    destruct (field_errors_nil _ _ _ E f j Hi Hd) as (r & Er & Hv). apply Hv.
    pose proof (resolve_for_validation_more _ _ (Nat.max fuel fuel') _ _ Er (Nat.le_max_l _ _)) as A.
    pose proof (resolve_for_validation_more _ _ (Nat.max fuel fuel') _ _ Hr (Nat.le_max_r _ _)) as B.
    unfold reg_lookup in A. congruence.
  Qed.
  Lemma fit_checked fuel known s errs : defaults_fit known s ->
    validate_record_field_defaults fuel s (reg_lookup known) = Some errs -> errs = [].
  Proof.
    intros Hf E. destruct s; try (now injection E as <-). cbn in E. destruct errs as [|[n reason] errs]; [reflexivity|]. exfalso.
    destruct (proj1 (field_errors_in _ _ _ _ E n reason) (or_introl eq_refl)) as (f & d & t & Hi & _ & Hd & Hr & Hv).
    pose proof (Hf _ _ _ _ _ _ _ f d fuel t eq_refl Hi Hd Hr) as Hx. apply validate_default_none in Hx. congruence.
  Qed.

  (** ** JSON files *)
  Lemma joins_after known l : joins known l (registry_after known l).
  Proof.
    revert known. induction l as [|s l IH]; intro known; [constructor|]. cbn.
    destruct (register_ignoring_cases known s) as [(full & A & B & _ & E)|(A & _ & E)]; rewrite E.
    - eapply jo_new; eauto.
    - eapply jo_not; eauto.
  Qed.
  Lemma joins_fun known l known' : joins known l known' -> known' = registry_after known l.
  Proof.
    induction 1 as [known|known s full l known' A B Hj IH|known s l known' A Hj IH]; [reflexivity| |]; cbn.
    - destruct (register_ignoring_cases known s) as [(full' & A' & B' & _ & E)|(A' & _ & E)]; rewrite E.
      + now rewrite (registrable_fun _ _ _ A' A).
      + exfalso. apply B. now apply A'.
    - destruct (register_ignoring_cases known s) as [(full' & A' & B' & _ & E)|(A' & _ & E)]; rewrite E; [|exact IH].
      exfalso. apply B'. now apply A.
  Qed.
  Lemma import_types_ok types dns r r' : import_types types dns r = (r', None) <->
    exists ts, Forall2 (fun tj t => json_to_schema tj dns = Ok t) types ts /\ r' = registry_after r (flat_map (fun t => fst (flatten t)) ts).
  Proof.
    revert r. induction types as [|tj types IH]; intro r; cbn [import_types].
    - split.
      + intro E. injection E as <-. exists []. split; [constructor|reflexivity].
      + intros (ts & Hf & ->). inversion Hf; subst. reflexivity.
    - destruct (json_to_schema tj dns) as [t|e] eqn:Ej.
      + rewrite IH. split.
        * intros (ts & Hf & ->). exists (t :: ts). split; [now constructor|]. cbn [flat_map]. apply registry_after_app.
        * intros (ts & Hf & ->). inversion Hf as [|? t' ? ts' E1 E2]; subst. rewrite Ej in E1. injection E1 as <-.
          exists ts'. split; [exact E2|]. cbn [flat_map]. symmetry. apply registry_after_app.
      + split; [discriminate|]. intros (ts & Hf & _). inversion Hf as [|? t' ? ts' E1 E2]; subst. congruence.
  Qed.
  Lemma import_protocol_ok p j r r' ms : json_content p j -> import_protocol j r = (r', Ok ms) ->
    exists l, json_definitions ImportProtocol j l /\ r' = registry_after r l /\ load_messages (ImportProtocol, p) ms.
  Proof.
    intros Hj Hp. pose proof (import_protocol_messages _ _ _ _ _ Hj Hp) as Hm. unfold import_protocol in Hp. cbv zeta in Hp.
    destruct (import_types _ _ r) as [r1 [er|]] eqn:Et; [discriminate|].
    assert (r' = r1) as ->.
    { destruct (value_get "messages" j) as [[]|]; try (now injection Hp). destruct (import_messages _ _); [now injection Hp|discriminate]. }
    apply import_types_ok in Et. destruct Et as (ts & Hf & ->). eexists. split; [exact (jd_protocol j ts Hf)|]. auto.
  Qed.
  Lemma json_content_fun p j j' : json_content p j -> json_content p j' -> j = j'.
  Proof. intros (t & A & B) (t' & A' & B'). congruence. Qed.
  Lemma import_messages_ok dns l ms :
    Forall2 (fun kv nm => fst nm = fst kv /\ json_to_message (snd kv) dns = Ok (snd nm)) l ms -> import_messages l dns = Ok ms.
  Proof.
    induction 1 as [|kv nm l ms [A B] _ IH]; [reflexivity|]. unfold import_messages in *. cbn. rewrite B, IH, <- A. now destruct nm.
  Qed.
  Lemma protocol_imports p j r l ms : json_content p j -> json_definitions ImportProtocol j l -> load_messages (ImportProtocol, p) ms ->
    import_protocol j r = (registry_after r l, Ok ms).
  Proof.
    intros Hj Hd Hm. inversion Hd as [|j' ts Hf]; subst. inversion Hm as [|? j' ? Hj' Hl|]; subst.
    rewrite (json_content_fun _ _ _ Hj' Hj) in *. clear Hj' j'. unfold import_protocol. cbv zeta.
    change (match value_get "namespace" j with Some v => as_str v | None => None end) with (namespace_of j) in *.
    change (match value_get "types" j with Some (JArr l) => l | _ => [] end) with (types_of j).
    rewrite (proj2 (import_types_ok _ _ r _) (ex_intro _ ts (conj Hf eq_refl))).
    destruct (value_get "messages" j) as [[]|]; try (now rewrite Hl).
    now rewrite (import_messages_ok _ _ _ Hl).
  Qed.

  (** ** From runs to expansions *)
  Lemma declares_app known ds1 known1 ds2 known2 :
    adds_up known ds1 known1 -> adds_up known1 ds2 known2 -> adds_up known (ds1 ++ ds2) known2.
  Proof. induction 1; intro Hd; [exact Hd| |]; cbn; econstructor; eauto. Qed.
  Lemma declares_split ds1 ds2 known known2 : adds_up known (ds1 ++ ds2) known2 ->
    exists known1, adds_up known ds1 known1 /\ adds_up known1 ds2 known2.
  Proof.
    revert known. induction ds1 as [|d ds1 IH]; intros known Hd; cbn in Hd; [exists known; split; [constructor|exact Hd]|].
    inversion Hd as [|? ? full ? ? X Y Z W|? ? known1 ? ? X W]; subst.
    - destruct (IH _ W) as (k1 & A & B). exists k1. split; [econstructor; eauto|exact B].
    - destruct (IH _ W) as (k1 & A & B). exists k1. split; [econstructor; eauto|exact B].
  Qed.
  Lemma handled_expands dirs dir items c c' : handled dirs dir items c c' ->
    exists ds tables, expands dirs dir (cx_imported c) items ds tables (cx_imported c')
      /\ adds_up (cx_registry c) ds (cx_registry c')
      /\ cx_messages c' = fold_left hm_extend tables (cx_messages c).
  Proof.
    induction 1 as [dir c|dir s sp fs r its c c' Hr Hv Hh IH|dir k name sp p its c c' Hfo Hi Hh IH
      |dir name sp p j r ms its c c' Hfo Hi Hj Hp Hh IH|dir name sp p j r its c c' Hfo Hi Hj Hp Hh IH
      |dir name sp p file its' ws its c c1 c' Hfo Hi Hc Hh1 IH1 Hh2 IH2].
    - exists [], []. repeat split; constructor.
    - destruct IH as (ds & tables & A & B & C). exists (Written s :: ds), tables. split; [now constructor|]. split; [|exact C].
      pose proof (register_cases (cx_registry c) s) as Hx. rewrite Hr in Hx. destruct Hx as (full & X & Y & ->).
      econstructor; [exact X|exact Y|eapply checked_fit; exact Hv|exact B].
    - destruct IH as (ds & tables & A & B & C). exists ds, tables. split; [eapply ex_again; eauto|]. auto.
    - destruct IH as (ds & tables & A & B & C). destruct (import_protocol_ok _ _ _ _ _ Hj Hp) as (l & Hd & -> & Hm).
      exists (Listed l :: ds), (ms :: tables). split; [eapply ex_json; eauto|]. split; [|exact C].
      econstructor; [apply joins_after|exact B].
    - destruct IH as (ds & tables & A & B & C). unfold import_schema in Hp. destruct (json_to_schema j None) as [t|] eqn:Ej; [|discriminate].
      injection Hp as <-. exists (Listed (fst (flatten t)) :: ds), ([] :: tables). split; [eapply ex_json; eauto; constructor; exact Ej|]. split; [|exact C].
      econstructor; [apply joins_after|exact B].
    - destruct IH1 as (ds1 & t1 & A1 & B1 & C1). destruct IH2 as (ds2 & t2 & A2 & B2 & C2).
      exists (ds1 ++ ds2), ((messages_of_file file :: t1) ++ t2). split; [eapply ex_idl; eauto|]. split; [eapply declares_app; eauto|].
      rewrite C2, C1. cbn. now rewrite fold_left_app.
  Qed.

  (** ** From expansions to runs *)
  Definition goes (o : outcome) (known : registry) (seen : list string) (ms : list (string * message)) : Prop :=
    match o with
    | (c, None) => cx_registry c = known /\ cx_imported c = seen /\ cx_messages c = ms
    | (_, Some e) => e = OutOfFuel
    end.
  Lemma expands_runs dirs dir seen items ds tables seen' : expands dirs dir seen items ds tables seen' ->
    forall fuel c known, cx_imported c = seen -> adds_up (cx_registry c) ds known ->
      goes (process_decl_items fuel dirs dir items c) known seen' (fold_left hm_extend tables (cx_messages c)).
  Proof.
    induction 1 as [dir seen|dir seen s sp fs items ds tables seen' Hx IH|dir seen k name sp p items ds tables seen' Hfo Hi Hx IH
      |dir seen k name sp p j l ms items ds tables seen' Hfo Hi Hj Hd Hm Hx IH
      |dir seen name sp p file inner ws ds1 t1 seen1 items ds2 t2 seen2 Hfo Hi Hc Hx1 IH1 Hx2 IH2];
      intros fuel c known <- Hdc.
    - inversion Hdc; subst. destruct fuel; cbn; auto.
    - inversion Hdc as [|? ? full ? ? X Y Z W|]; subst.
      assert (G : goes (match process_type s sp fs c with (c', None) => process_decl_items fuel dirs dir items c' | (c', Some e) => (c', Some e) end)
        known seen' (fold_left hm_extend tables (cx_messages c))).
      { unfold process_type. pose proof (register_cases (cx_registry c) s) as Hr. destruct (register (cx_registry c) s) as [r|e].
        - destruct Hr as (full' & X' & _ & ->). rewrite (registrable_fun _ _ _ X' X) in *. cbv zeta.
          destruct (validate_record_field_defaults _ s _) as [errs|] eqn:Ev; [|reflexivity].
          rewrite (fit_checked _ _ _ _ Z Ev). exact (IH fuel (set_registry (cx_registry c ++ [(full, s)]) c) known eq_refl W).
        - destruct e; try (exfalso; eapply Hr; exact X). exfalso. destruct Hr as [X' Y']. rewrite (registrable_fun _ _ _ X' X) in *. contradiction. }
      destruct fuel; exact G.
    - assert (G : forall nested, goes (match resolve_single_import nested dirs k name sp dir c with (c', None) => process_decl_items fuel dirs dir items c' | (c', Some e) => (c', Some e) end)
        known seen' (fold_left hm_extend tables (cx_messages c))).
      { intro nested. unfold resolve_single_import. apply resolve_import_iff in Hfo. rewrite Hfo. apply str_mem_In in Hi. rewrite Hi. now apply IH. }
      destruct fuel; apply G.
    - inversion Hdc as [| |? ? known1 ? ? X W]; subst. apply joins_fun in X. subst known1.
      assert (G : forall nested, goes (match resolve_single_import nested dirs k name sp dir c with (c', None) => process_decl_items fuel dirs dir items c' | (c', Some e) => (c', Some e) end)
        known seen' (fold_left hm_extend (ms :: tables) (cx_messages c))).
      { intro nested. unfold resolve_single_import. apply resolve_import_iff in Hfo. rewrite Hfo.
        destruct (str_mem p (cx_imported c)) eqn:Em; [apply str_mem_In in Em; contradiction|].
        pose proof Hj as (text & Ht & Ep).
        destruct Hd as [j t Ej|j ts Hf]; unfold load_import; rewrite Ht, Ep.
        - unfold import_schema. rewrite Ej. inversion Hm; subst. cbn [fold_left]. change (hm_extend (cx_messages c) []) with (cx_messages c).
          apply (IH fuel (add_json_import p sp (set_registry (registry_after (cx_registry c) (fst (flatten t))) (log_load ImportSchema p (mark p c))))); [reflexivity|exact W].
        - cbn [cx_registry log_load mark]. rewrite (protocol_imports p j _ _ ms Hj (jd_protocol j ts Hf) Hm). cbn [fold_left].
          refine (IH fuel (add_json_import p sp (add_messages ms (set_registry _ (log_load ImportProtocol p (mark p c))))) known _ _); [reflexivity|exact W]. }
      destruct fuel; apply G.
    - apply declares_split in Hdc. destruct Hdc as (known1 & D1 & D2). pose proof Hc as (text & Ht & Ep).
      set (c0 := add_messages (messages_of_file file) (add_warnings (wrap_warnings p name ws) (log_load ImportIdl p (mark p c)))).
      assert (G : forall nested, goes (nested (fs_parent p) inner c0) known1 seen1 (fold_left hm_extend t1 (cx_messages c0)) ->
         goes (match resolve_single_import nested dirs ImportIdl name sp dir c with (c', None) => process_decl_items fuel dirs dir items c' | (c', Some e) => (c', Some e) end)
        known seen2 (fold_left hm_extend ((messages_of_file file :: t1) ++ t2) (cx_messages c))).
      { intros nested Hn. unfold resolve_single_import. apply resolve_import_iff in Hfo. rewrite Hfo.
        destruct (str_mem p (cx_imported c)) eqn:Em; [apply str_mem_In in Em; contradiction|].
        unfold load_import. rewrite Ht, Ep. fold c0. destruct (nested (fs_parent p) inner c0) as [c1 [e|]]; [exact Hn|]. destruct Hn as (A & B & C).
        rewrite fold_left_app. cbn [fold_left]. change (hm_extend (cx_messages c) (messages_of_file file)) with (cx_messages c0). rewrite <- C. apply IH2; [exact B|now rewrite A]. }
      destruct fuel as [|fuel]; [apply G; reflexivity|]. apply (G (process_decl_items fuel dirs)). now apply IH1.
  Qed.

  Lemma found_in_fun dirs name p q : found_in dirs name p -> found_in dirs name q -> p = q.
  Proof.
    destruct dirs as [|d dirs]; [intros (b & x & a & E & _); destruct b; discriminate|].
    intros A B. apply resolve_import_iff in A, B. congruence.
  Qed.
  Lemma Forall2_det {A B} (R : A -> B -> Prop) : (forall x y z, R x y -> R x z -> y = z) ->
    forall l m, Forall2 R l m -> forall m', Forall2 R l m' -> m = m'.
  Proof.
    intros HR l m F. induction F as [|x y l m Hx F IH]; intros m' F'; inversion F' as [|? y' ? m2 Hx' F2]; subst; [reflexivity|].
    f_equal; [exact (HR _ _ _ Hx Hx')|exact (IH _ F2)].
  Qed.
  Lemma json_definitions_fun k j l l' : json_definitions k j l -> json_definitions k j l' -> l = l'.
  Proof.
    intros A B. destruct A as [j t E|j ts E]; inversion B as [? t' E'|? ts' E']; subst; [congruence|]. f_equal.
    clear B. refine (Forall2_det _ _ _ _ E _ E'). cbn. congruence.
  Qed.
  Lemma load_messages_fun kp ms ms' : load_messages kp ms -> load_messages kp ms' -> ms = ms'.
  Proof.
    intros A B. destruct A as [q file items ws (t & A1 & A2)|q j ms A1 A2|q]; inversion B as [? file' items' ws' (t' & B1 & B2)|? j' ? B1 B2|]; subst; [congruence| |reflexivity].
    rewrite (json_content_fun _ _ _ B1 A1) in *. clear B1 B. destruct (value_get "messages" j) as [[]|]; try congruence.
    revert ms' B2. induction A2 as [|kv nm l1 l2 [E1 E2] A2 IH]; intros ms' B2; inversion B2 as [|? nm' ? l3 [E1' E2'] B3]; subst; [reflexivity|].
    f_equal; [|now apply IH]. rewrite E2 in E2'. injection E2' as E2'. destruct nm, nm'. cbn in *. congruence.
  Qed.
  Lemma expands_det dirs dir seen items ds tables seen1 : expands dirs dir seen items ds tables seen1 ->
    forall ds' tables' seen1', expands dirs dir seen items ds' tables' seen1' -> ds = ds' /\ tables = tables' /\ seen1 = seen1'.
  Proof.
    induction 1 as [dir seen|dir seen s sp fs items ds tables seen' Hx IH|dir seen k name sp p items ds tables seen' Hfo Hi Hx IH
      |dir seen k name sp p j l ms items ds tables seen' Hfo Hi Hj Hd Hm Hx IH
      |dir seen name sp p file inner ws ds1 t1 seen1 items ds2 t2 seen2 Hfo Hi Hc Hx1 IH1 Hx2 IH2];
      intros ds' tables' seen1' Y; inversion Y; subst;
      repeat match goal with A : found_in ?d ?n ?p, B : found_in ?d ?n ?q |- _ => pose proof (found_in_fun _ _ _ _ A B); clear B; subst end;
      try contradiction; auto.
    - match goal with B : expands _ _ _ items _ _ _ |- _ => destruct (IH _ _ _ B) as (-> & -> & ->) end. auto.
    - match goal with B : json_content _ ?j' |- _ => lazymatch type of Hj with json_content _ j' => fail | _ => rewrite (json_content_fun _ _ _ B Hj) in * end end.
      match goal with B : json_definitions k _ _ |- _ => rewrite (json_definitions_fun _ _ _ _ B Hd) end.
      match goal with B : load_messages _ _ |- _ => rewrite (load_messages_fun _ _ _ B Hm) end.
      match goal with B : expands _ _ _ items _ _ _ |- _ => destruct (IH _ _ _ B) as (-> & -> & ->) end. auto.
    - inversion Hd.
    - match goal with B : json_definitions ImportIdl _ _ |- _ => inversion B end.
    - destruct Hc as (t & E1 & E2). match goal with B : idl_content _ _ _ _ |- _ => destruct B as (t' & E1' & E2') end.
      rewrite E1 in E1'. injection E1' as <-. rewrite E2 in E2'. injection E2' as <- <- <-.
      match goal with B : expands _ _ _ inner _ _ _ |- _ => destruct (IH1 _ _ _ B) as (-> & -> & ->) end.
      match goal with B : expands _ _ _ items _ _ _ |- _ => destruct (IH2 _ _ _ B) as (-> & -> & ->) end. auto.
  Qed.

  (** ** Whole compilations *)
  Lemma fold_extend_NoDup tables (m : list (string * message)) : NoDup (keys m) -> NoDup (keys (fold_left hm_extend tables m)).
  Proof. revert m. induction tables as [|l tables IH]; intros m Hm; [exact Hm|]. cbn. apply IH. now apply hm_extend_NoDup. Qed.
  Lemma declares_in known ds known' : adds_up known ds known' ->
    (forall k s, In (k, s) known -> In (k, s) known') /\ forall s, In (Written s) ds -> exists k, In (k, s) known'.
  Proof.
    induction 1 as [known|known s full ds known' A B C Hd [I1 I2]|known l known1 ds known' Hj Hd [I1 I2]].
    - split; [auto|intros s []].
    - split; [intros k t Hi; apply I1, in_or_app; now left|]. intros t [E|Hi]; [|auto]. injection E as ->. exists full. apply I1, in_or_app. right. now left.
    - split; [|intros s [E|Hi]; [discriminate|auto]]. intros k t Hi. apply I1. clear -Hj Hi. induction Hj; auto. apply IHHj, in_or_app. now left.
  Qed.
  Lemma expands_in dirs dir seen items ds tables seen' : expands dirs dir seen items ds tables seen' ->
    forall s, In s (declared_types items) -> In (Written s) ds.
  Proof.
    induction 1 as [dir seen|dir seen s sp fs items ds tables seen' Hx IH|dir seen k name sp p items ds tables seen' Hfo Hi Hx IH
      |dir seen k name sp p j l ms items ds tables seen' Hfo Hi Hj Hd Hm Hx IH
      |dir seen name sp p file inner ws ds1 t1 seen1 items ds2 t2 seen2 Hfo Hi Hc Hx1 IH1 Hx2 IH2]; intros t Ht; cbn in Ht.
    - contradiction.
    - destruct Ht as [->|Ht]; [now left|right; auto].
    - auto.
    - right; auto.
    - apply in_or_app. right. auto.
  Qed.
  Lemma parse_named label src l items ws : parse_idl label src = Ok (INamed l, items, ws) -> l = declared_types items.
  Proof. intro Ep. destruct (accepted_reads _ _ _ _ _ Ep) as (tokens & tr & R). pose proof (reads_denotes _ _ _ _ _ _ _ R) as Hd. now inversion Hd. Qed.
  Lemma uses_mentioned label src file items ws c tables full :
    parse_idl label src = Ok (file, items, ws) -> cx_messages c = fold_left hm_extend tables [] ->
    (forall s, In s (declared_types items) -> exists k, In (k, s) (cx_registry c)) ->
    (mentioned (cx_registry c) (ref_file (finish_file file c)) full <-> uses file (cx_registry c) tables full).
  Proof.
    intros Ep Em Hdt.
    assert (Hmsg : forall p, file = IProtocol p -> forall n m,
      In (n, m) (hm_extend (cx_messages c) (p_messages p)) <-> assoc n (p_messages p) = Some m \/ (~ In n (keys (p_messages p)) /\ last_declared tables n m)).
    { intros p -> n m. rewrite Em. rewrite <- assoc_In_iff by (apply hm_extend_NoDup, fold_extend_NoDup; constructor).
      rewrite assoc_hm_extend, (assoc_rev n _ (parse_idl_messages _ _ _ _ _ Ep)).
      destruct (assoc n (p_messages p)) as [v|] eqn:Ea.
      - split; [auto|]. intros [E|[Hn _]]; [exact E|]. exfalso. apply Hn. now apply assoc_Some_In_keys in Ea.
      - apply assoc_None in Ea. rewrite extends_last. cbn. split.
        + intros [Hl|[_ E]]; [auto|discriminate].
        + intros [E|[_ Hl]]; [discriminate|auto]. }
    split.
    - intro Hm. inversion Hm as [f k s fl Hi Hs E1 E2|s fl Hs E1 E2|ss s fl Hi Hs E1 E2|p' k m t fl Hi Ht Hs E1 E2]; subst.
      + eapply us_type; eauto.
      + destruct file; try discriminate. injection E1 as ->. eapply us_schema; eauto.
      + destruct file; try discriminate. injection E1 as ->. rewrite (parse_named _ _ _ _ _ Ep) in Hi. destruct (Hdt _ Hi) as [k Hk]. eapply us_type; eauto.
      + destruct file as [p| |]; try discriminate. injection E1 as ->. cbn [p_messages] in Hi. apply (Hmsg p eq_refl) in Hi.
        destruct Hi as [Hi|[Hn Hl]]; [eapply us_own; eauto|eapply us_imported; eauto].
    - intro Hu. destruct Hu as [k s fl Hi Hs|s fl -> Hs|p n m t fl -> Hi Ht Hs|p n m t fl -> Hn Hl Ht Hs]; cbn [finish_file ref_file].
      + eapply in_registry; eauto.
      + now apply in_schema.
      + apply in_message with (k := n) (m := m) (t := t); [|exact Ht|exact Hs]. cbn [p_messages]. apply (Hmsg p eq_refl). now left.
      + apply in_message with (k := n) (m := m) (t := t); [|exact Ht|exact Hs]. cbn [p_messages]. apply (Hmsg p eq_refl). now right.
  Qed.
  Lemma start_imported ws ip : cx_imported (start_context ws ip) = match ip with Some p => [p] | None => [] end.
  Proof. now destruct ip. Qed.

  Lemma compile_sound dirs src label dir ip file items ws o ws' : parse_idl label src = Ok (file, items, ws) ->
    compile dirs src label dir ip = (Ok o, ws') -> sound_file dirs dir ip file items (co_registry o).
  Proof.
    intros Ep Hc. apply compile_ok in Hc. destruct Hc as (f & its & w & c & Ep' & _ & _ & Hh & -> & _ & Hv).
    rewrite Ep in Ep'. injection Ep' as <- <- <-. destruct (start_fields ws ip) as (Er0 & Em0 & _ & _ & _).
    destruct (handled_expands _ _ _ _ _ Hh) as (ds & tables & A & B & C). rewrite start_imported in A. rewrite Er0 in B. rewrite Em0 in C.
    exists ds, tables, (cx_imported c). cbn [co_registry]. split; [exact A|]. split; [exact B|].
    intros full Hu. apply (uses_mentioned label src file items ws c tables full Ep C) in Hu; [|intros s Hs; exact (proj2 (declares_in _ _ _ B) s (expands_in _ _ _ _ _ _ _ A s Hs))].
    exact (proj1 (check_passes _ _ _ _) Hv full Hu).
  Qed.
  Lemma sound_compile dirs src label dir ip file items ws known : parse_idl label src = Ok (file, items, ws) ->
    sound_file dirs dir ip file items known -> exists o, compile dirs src label dir ip = (Ok o, []) /\ co_registry o = known.
  Proof.
    intros Ep (ds & tables & seen & A & B & C). destruct (start_fields ws ip) as (Er0 & Em0 & _ & _ & _).
    rewrite <- (start_imported ws ip) in A. rewrite <- Er0 in B.
    pose proof (expands_runs _ _ _ _ _ _ _ A (length fs_files) (start_context ws ip) known eq_refl B) as G. rewrite Em0 in G.
    pose proof (compile_ends dirs src label dir ip) as Hends. unfold compile, parse_and_resolve in *. rewrite Ep in *.
    change (mark_input ip (add_warnings (map (mkReport None) ws) new_context)) with (start_context ws ip) in *.
    destruct (process_decl_items (length fs_files) dirs dir items (start_context ws ip)) as [c [e|]]; cbn in G.
    - subst e. exfalso. exact (Hends _ _ eq_refl eq_refl).
    - destruct G as (E1 & _ & E3). rewrite (proj2 (check_passes (ref_file (finish_file file c)) (cx_registry c) label (cx_json_imports c))).
      + eexists. split; [reflexivity|]. exact E1.
      + intros full Hm. apply (uses_mentioned label src file items ws c tables full Ep E3) in Hm; [|intros s Hs; rewrite E1; exact (proj2 (declares_in _ _ _ B) s (expands_in _ _ _ _ _ _ _ A s Hs))]. rewrite E1 in *. exact (C full Hm).
  Qed.
  Lemma compile_file_kind dirs src label dir ip file items ws o ws' : parse_idl label src = Ok (file, items, ws) ->
    compile dirs src label dir ip = (Ok o, ws') -> (exists l, co_file o = INamed l) <-> (exists l, file = INamed l).
  Proof.
    intros Ep Hc. apply compile_ok in Hc. destruct Hc as (f & its & w & c & Ep' & _ & _ & _ & -> & _ & _).
    rewrite Ep in Ep'. injection Ep' as <- <- <-. cbn [co_file]. destruct file; cbn; split; intros [x E]; try discriminate; eauto.
  Qed.
  Lemma convert_impl_ok o b : (exists r, snd (convert_impl o b) = Ok r) <-> ~ exists l, co_file o = INamed l.
  Proof.
    pose proof (convert_impl_ends o b) as He. unfold convert_impl in *. destruct (co_file o) as [p|s|l].
    - destruct (protocol_to_json p) as [j|]; [|exfalso; exact (He _ _ eq_refl eq_refl)]. cbn. split; [intros _ [l E]; discriminate|eauto].
    - destruct (schema_to_json s [] None _) as [[j k]|]; [|exfalso; exact (He _ _ eq_refl eq_refl)]. cbn. split; [intros _ [l E]; discriminate|eauto].
    - cbn. split; [intros [r E]; discriminate|]. intro Hn. exfalso. apply Hn. eauto.
  Qed.
  Lemma compile_parses dirs src label dir ip o ws' : compile dirs src label dir ip = (Ok o, ws') ->
    exists file items ws, parse_idl label src = Ok (file, items, ws).
  Proof. intro Hc. apply compile_ok in Hc. destruct Hc as (f & its & w & c & Ep & _). eauto. Qed.

  (** ** The same expansion *)
  Lemma unplaced_registrable s full : registrable (unplaced s) full <-> registrable s full.
  Proof.
    unfold registrable. split; intros (n & ns & D & R); exists n, ns; (split; [|exact R]).
    - destruct s; inversion D; subst; constructor.
    - destruct D; constructor.
  Qed.
  Lemma same_registrable s s' full : unplaced s = unplaced s' -> registrable s full -> registrable s' full.
  Proof. intros E R. apply unplaced_registrable. rewrite <- E. now apply unplaced_registrable. Qed.
  Lemma same_keys r r' : unplaced_registry r = unplaced_registry r' -> keys r = keys r'.
  Proof. intro E. now rewrite <- (unplaced_registry_keys r), E, unplaced_registry_keys. Qed.
  Lemma same_add r r' full s s' : unplaced_registry r = unplaced_registry r' -> unplaced s = unplaced s' ->
    unplaced_registry (r ++ [(full, s)]) = unplaced_registry (r' ++ [(full, s')]).
  Proof. intros R E. unfold unplaced_registry in *. rewrite !map_app, R. cbn. now rewrite E. Qed.
  Lemma same_fit r r' s s' : unplaced_registry r = unplaced_registry r' -> unplaced s = unplaced s' -> defaults_fit r s -> defaults_fit r' s'.
  Proof.
    intros R E Hf n ns d fs e al ps f j fuel t -> Hi Hd Hr.
    destruct s as [|n0 ns0 d0 fs0 e0 al0 ps0| | | | | | | |]; try discriminate E. cbn [unplaced] in E. rewrite !unplaced_fields in E. injection E as _ _ _ Efs _ _ _.
    assert (Hx : In (unplaced_field f) (map unplaced_field fs0)) by (rewrite Efs; now apply in_map). apply in_map_iff in Hx. destruct Hx as (f0 & Ef & Hf0).
    assert (Ed : f_default f0 = Some j) by (pose proof (f_equal f_default Ef) as G; cbn in G; now rewrite G).
    pose proof (f_equal f_schema Ef) as Es. cbn in Es.
    unfold resolve_for_validation in Hr.
    pose proof (unplaced_resolve (fun full => assoc full r') (fun full => assoc full (unplaced_registry r')) fuel (fun k => unplaced_assoc k r') (f_schema f) []) as A.
    pose proof (unplaced_resolve (fun full => assoc full r) (fun full => assoc full (unplaced_registry r)) fuel (fun k => unplaced_assoc k r) (f_schema f0) []) as B.
    rewrite Es, R in B. rewrite B in A.
    destruct (resolve_inner fuel (fun full => assoc full r') (f_schema f) []) as [[[u|] v]|]; try discriminate Hr. injection Hr as ->.
    destruct (resolve_inner fuel (fun full => assoc full r) (f_schema f0) []) as [[[u0|] v0]|] eqn:Er; try discriminate A. cbn in A. injection A as Eu _.
    rewrite <- (unplaced_valid t), <- Eu, unplaced_valid.
    apply (Hf n0 ns0 d0 fs0 e0 al0 ps0 f0 j fuel u0 eq_refl Hf0 Ed). unfold resolve_for_validation. now rewrite Er.
  Qed.
  Lemma same_joins known l known1 : joins known l known1 -> forall known', unplaced_registry known = unplaced_registry known' ->
    exists known1', joins known' l known1' /\ unplaced_registry known1 = unplaced_registry known1'.
  Proof.
    induction 1 as [known|known s full l known1 A B Hj IH|known s l known1 A Hj IH]; intros known' R.
    - exists known'. split; [constructor|exact R].
    - destruct (IH (known' ++ [(full, s)]) (same_add _ _ _ _ _ R eq_refl)) as (k & J & E). exists k. split; [|exact E].
      eapply jo_new; [exact A| |exact J]. now rewrite <- (same_keys _ _ R).
    - destruct (IH known' R) as (k & J & E). exists k. split; [|exact E]. eapply jo_not; [|exact J]. now rewrite <- (same_keys _ _ R).
  Qed.
  Lemma same_adds_up known ds known1 : adds_up known ds known1 -> forall known' ds', unplaced_registry known = unplaced_registry known' ->
    Forall2 same_declaration ds ds' -> exists known1', adds_up known' ds' known1' /\ unplaced_registry known1 = unplaced_registry known1'.
  Proof.
    induction 1 as [known|known s full ds known1 A B C Hd IH|known l known2 ds known1 Hj Hd IH]; intros known' ds' R D; inversion D as [|d d' ? ds2 Es Ds]; subst.
    - exists known'. split; [constructor|exact R].
    - destruct d' as [s'|]; [|contradiction]. cbn in Es.
      destruct (IH (known' ++ [(full, s')]) ds2 (same_add _ _ _ _ _ R Es) Ds) as (k & J & E). exists k. split; [|exact E].
      eapply de_written; [eapply same_registrable; eauto|now rewrite <- (same_keys _ _ R)| |exact J].
      eapply same_fit; [apply (same_add _ _ _ _ _ R Es)|exact Es|exact C].
    - destruct d' as [|l']; [contradiction|]. cbn in Es. subst l'. destruct (same_joins _ _ _ Hj known' R) as (k2 & J & E2).
      destruct (IH k2 ds2 E2 Ds) as (k & J' & E). exists k. split; [|exact E]. eapply de_listed; eauto.
  Qed.
  Lemma fold_extend_concat (tables : list (list (string * message))) m : fold_left hm_extend tables m = hm_extend m (concat tables).
  Proof. revert m. induction tables as [|l tables IH]; intro m; [reflexivity|]. cbn. rewrite IH. unfold hm_extend. now rewrite fold_left_app. Qed.
  Definition context_of (known : registry) (tables : list (list (string * message))) : context :=
    mkCx known [] (fold_left hm_extend tables []) [] [] [].
  Lemma same_finished f f' known known' tables tables' : same_header f f' -> (forall l, f <> INamed l) ->
    unplaced_registry known = unplaced_registry known' -> unplaced_messages (concat tables) = unplaced_messages (concat tables') ->
    unplaced_file (finish_file f (context_of known tables)) = unplaced_file (finish_file f' (context_of known' tables')).
  Proof.
    intros Hh Hn R M. destruct f as [p|s|l], f' as [p'|s'|l']; try contradiction.
    - destruct Hh as (E1 & E2 & E3 & E4 & E5).
      cbn [finish_file unplaced_file p_name p_namespace p_doc p_props p_types p_messages context_of cx_registry cx_messages]. f_equal. f_equal; try assumption.
      + unfold reg_schemas. rewrite !map_map. pose proof (f_equal (map snd) R) as G. unfold unplaced_registry in G. rewrite !map_map in G. exact G.
      + rewrite !fold_extend_concat, !unplaced_extend, E5, M. reflexivity.
    - cbn in Hh. cbn. now rewrite Hh.
    - exfalso. exact (Hn l eq_refl).
  Qed.
  Lemma finish_context f c known tables : cx_registry c = known -> cx_messages c = fold_left hm_extend tables [] ->
    finish_file f c = finish_file f (context_of known tables).
  Proof. intros <- E. destruct f as [p|s|l]; try reflexivity. cbn [finish_file context_of cx_registry cx_messages]. now rewrite E. Qed.
  Lemma types_in dirs dir seen items ds tables seen' known : expands dirs dir seen items ds tables seen' -> adds_up [] ds known ->
    forall s, In s (declared_types items) -> exists k, In (k, s) known.
  Proof. intros A B s Hs. exact (proj2 (declares_in _ _ _ B) s (expands_in _ _ _ _ _ _ _ A s Hs)). Qed.
  Lemma expanded_compile dirs src label dir ip file items ws ds tables seen known : parse_idl label src = Ok (file, items, ws) ->
    expands dirs dir (match ip with Some p => [p] | None => [] end) items ds tables seen -> adds_up [] ds known ->
    (forall full, uses file known tables full -> In full (keys known)) ->
    exists o, compile dirs src label dir ip = (Ok o, []) /\ co_registry o = known /\ co_file o = finish_file file (context_of known tables).
  Proof.
    intros Ep A B C. destruct (sound_compile dirs src label dir ip file items ws known Ep) as (o & Hc & Er); [exists ds, tables, seen; auto|].
    exists o. split; [exact Hc|]. split; [exact Er|]. apply compile_ok in Hc. destruct Hc as (f & its & w & c & Ep' & _ & Hp & _ & -> & _ & _).
    rewrite Ep in Ep'. injection Ep' as <- <- <-. cbn [co_registry co_file] in *. apply finish_context; [exact Er|].
    destruct (start_fields ws ip) as (Er0 & Em0 & _ & _ & _).
    rewrite <- (start_imported ws ip) in A. rewrite <- Er0 in B.
    pose proof (expands_runs _ _ _ _ _ _ _ A (length fs_files) (start_context ws ip) known eq_refl B) as G. rewrite Em0 in G.
    unfold parse_and_resolve in Hp. rewrite Ep in Hp. change (mark_input ip (add_warnings (map (mkReport None) ws) new_context)) with (start_context ws ip) in Hp.
    destruct (process_decl_items (length fs_files) dirs dir items (start_context ws ip)) as [c' [e|]]; [discriminate|]. injection Hp as -> _. cbn in G. tauto.
  Qed.

  Section Same.
    Variables (label src label' src' : string) (file file' : Reader.idl_file) (items items' : list decl_item) (ws ws' : list warning).
    Variables (dirs dirs' : list string) (dir dir' : string) (ip ip' : option string).
    Variables (ds ds' : list declaration) (tables tables' : list (list (string * message))) (seen seen' : list string).
    Hypothesis Ep : parse_idl label src = Ok (file, items, ws).
    Hypothesis Ep' : parse_idl label' src' = Ok (file', items', ws').
    Hypothesis Hh : same_header file file'.
    Hypothesis X : expands dirs dir (match ip with Some p => [p] | None => [] end) items ds tables seen.
    Hypothesis X' : expands dirs' dir' (match ip' with Some p => [p] | None => [] end) items' ds' tables' seen'.
    Hypothesis D : Forall2 same_declaration ds ds'.
    Hypothesis M : unplaced_messages (concat tables) = unplaced_messages (concat tables').

    Lemma same_uses known known' full : adds_up [] ds known -> adds_up [] ds' known' -> unplaced_registry known = unplaced_registry known' ->
      uses file' known' tables' full -> uses file known tables full.
    Proof.
      intros A A' R Hu.
      pose proof (uses_mentioned label src file items ws (context_of known tables) tables full Ep eq_refl (types_in _ _ _ _ _ _ _ _ X A)) as U.
      pose proof (uses_mentioned label' src' file' items' ws' (context_of known' tables') tables' full Ep' eq_refl (types_in _ _ _ _ _ _ _ _ X' A')) as U'.
      cbn [context_of cx_registry] in U, U'. apply U.
      assert (P : Permutation (unplaced_registry known') (unplaced_registry known)) by (rewrite R; reflexivity).
      assert (K : (forall l, file <> INamed l) \/ exists l l', file = INamed l /\ file' = INamed l').
      { destruct file, file'; try contradiction; [left; discriminate|left; discriminate|right; eauto]. }
      destruct K as [K|(l & l' & -> & ->)].
      - apply U' in Hu. eapply mentioned_moved; [|exact P|exact Hu]. apply unplaced_same_main. symmetry. now apply same_finished.
      - assert (Hm : mentioned known' (ref_file (INamed [])) full).
        { inversion Hu; subst; try discriminate. eapply in_registry; eauto. }
        apply (mentioned_moved _ (INamed []) _ known) in Hm; [|constructor; constructor|exact P].
        inversion Hm; subst; [|contradiction]. eapply in_registry; eauto.
    Qed.
    Lemma same_registry_json known known' : unplaced_registry known = unplaced_registry known' -> map unplaced (reg_schemas known) = map unplaced (reg_schemas known').
    Proof. intro R. unfold reg_schemas. rewrite !map_map. pose proof (f_equal (map snd) R) as G. unfold unplaced_registry in G. rewrite !map_map in G. exact G. Qed.
    Lemma expansion_decides o w : compile dirs src label dir ip = (Ok o, w) ->
      exists o' known known', compile dirs' src' label' dir' ip' = (Ok o', []) /\ co_registry o = known /\ co_registry o' = known'
        /\ unplaced_registry known = unplaced_registry known'
        /\ co_file o = finish_file file (context_of known tables) /\ co_file o' = finish_file file' (context_of known' tables').
    Proof.
      intro Hc. destruct (compile_sound _ _ _ _ _ _ _ _ _ _ Ep Hc) as (ds0 & t0 & s0 & X0 & A0 & C0).
      assert (Edet : exists known, adds_up [] ds known /\ (forall full, uses file known tables full -> In full (keys known))).
      { destruct (expands_det _ _ _ _ _ _ _ X _ _ _ X0) as (<- & <- & <-). eauto. }
      destruct Edet as (known & A & C).
      destruct (expanded_compile _ _ _ _ _ _ _ _ _ _ _ _ Ep X A C) as (o1 & Hc1 & R1 & F1). rewrite Hc in Hc1. injection Hc1 as -> ->.
      destruct (same_adds_up _ _ _ A [] ds' eq_refl D) as (known' & A' & R).
      assert (C' : forall full, uses file' known' tables' full -> In full (keys known')).
      { intros full Hu. rewrite <- (same_keys _ _ R). apply C. eapply same_uses; eauto. }
      destruct (expanded_compile _ _ _ _ _ _ _ _ _ _ _ _ Ep' X' A' C') as (o' & Hc' & R' & F').
      exists o', known, known'. auto 8.
    Qed.
  End Same.

  Lemma same_converted file file' known known' tables tables' o o' b b' : same_header file file' ->
    unplaced_registry known = unplaced_registry known' -> unplaced_messages (concat tables) = unplaced_messages (concat tables') ->
    co_registry o = known -> co_registry o' = known' ->
    co_file o = finish_file file (context_of known tables) -> co_file o' = finish_file file' (context_of known' tables') ->
    same_fate io_json (snd (convert_impl o b)) (snd (convert_impl o' b')).
  Proof.
    intros Hh R M Er Er' Ef Ef'. pose proof (convert_impl_ends o b) as T. pose proof (convert_impl_ends o' b') as T'. unfold convert_impl in *. rewrite Ef, Ef', Er, Er' in *.
    assert (K : (forall l, file <> INamed l) \/ exists l l', file = INamed l /\ file' = INamed l').
    { destruct file, file'; try contradiction; [left; discriminate|left; discriminate|right; eauto]. }
    destruct K as [K|(l & l' & -> & ->)]; [|exact I]. pose proof (same_finished _ _ _ _ _ _ Hh K R M) as F.
    destruct (finish_file file (context_of known tables)) as [p|s|l] eqn:E1, (finish_file file' (context_of known' tables')) as [p'|s'|l'] eqn:E2; try discriminate F.
    - assert (E : protocol_to_json p = protocol_to_json p').
      { rewrite <- (unplaced_protocol_json p), <- (unplaced_protocol_json p'). cbn [unplaced_file] in F. injection F as F. unfold unplaced_protocol. congruence. }
      rewrite E. destruct (protocol_to_json p') as [j|]; [reflexivity|exact I].
    - assert (E : schema_to_json s [] None (build_lookup (reg_schemas known) None) = schema_to_json s' [] None (build_lookup (reg_schemas known') None)).
      { rewrite <- (unplaced_json s), <- (unplaced_json s'), <- !unplaced_lookup, (same_registry_json _ _ R). cbn [unplaced_file] in F. injection F as ->. reflexivity. }
      rewrite E. destruct (schema_to_json s' _ _ _) as [[j k]|]; [reflexivity|exact I].
    - exact I.
  Qed.
  Lemma same_extracted o o' : unplaced_registry (co_registry o) = unplaced_registry (co_registry o') ->
    same_fate so_schemas (extract_impl o) (extract_impl o').
  Proof.
    intro R. pose proof (same_registry_json _ _ R) as L. unfold extract_impl. cbv zeta.
    rewrite <- (unplaced_extract (build_lookup (reg_schemas (co_registry o)) None)), <- (unplaced_extract (build_lookup (reg_schemas (co_registry o')) None)), <- !unplaced_lookup, L.
    destruct (extract_schemas _ _); [reflexivity|exact I].
  Qed.
End Proofs.
