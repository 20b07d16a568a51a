(** Termination of imports, the files they load, and what these contribute. *)
From Verif Require Import SpecCompile SpecFile SpecImport RegistryProofs BaseProofs DefaultsProofs ImportProofs CompileProofs.
From Verif Require Import SpecDefaults SpecDoc.
From Coq Require Import Lia.

Section World.
  Context `{Unicode} `{Floats} `{Parser} `{FileSystem} `{JsonParser}.

  (** ** The registry stays flat *)
  Lemma registrable_full_name s full : registrable s full -> full_name s = Some full.
  Proof. intros (n & ns & D & -> & _). destruct D; cbn; now rewrite make_full_name_fullname. Qed.
  Lemma flat_registry_add r full s : flat_registry r -> flat_definition s = true -> full_name s = Some full ->
    flat_registry (r ++ [(full, s)]).
  Proof.
    intros Hr Hs Hf k t. rewrite assoc_app. destruct (assoc k r) as [x|] eqn:E.
    - intro Ex. injection Ex as <-. exact (Hr _ _ E).
    - cbn. destruct (String.eqb k full) eqn:Ek; [|discriminate]. apply String.eqb_eq in Ek. intro Ex. injection Ex as <-. subst. auto.
  Qed.
  Lemma register_flat r s r' : flat_registry r -> flat_definition s = true -> register r s = Ok r' -> flat_registry r'.
  Proof.
    intros Hr Hs He. pose proof (register_cases r s) as Hc. rewrite He in Hc. destruct Hc as (full & A & _ & ->).
    apply flat_registry_add; auto. now apply registrable_full_name.
  Qed.
  Lemma registry_after_flat r l : flat_registry r -> Forall (fun t => flat_definition t = true) l -> flat_registry (registry_after r l).
  Proof.
    intros Hr Hl. revert r Hr. induction Hl as [|s l Hs Hl IH]; intros r Hr; [exact Hr|]. cbn. apply IH.
    unfold register_ignoring. destruct (register r s) as [r'|] eqn:E; [|exact Hr]. eapply register_flat; eauto.
  Qed.
  Lemma steps_flat dirs c c' : steps dirs c c' -> flat_registry (cx_registry c) -> flat_registry (cx_registry c').
  Proof.
    induction 1 as [|c c1 c2 Hs _ IH]; intro Hf; [exact Hf|]. apply IH.
    inversion Hs; subst; cbn.
    - eapply register_flat; eauto.
    - now apply registry_after_flat.
    - exact Hf.
    - exact Hf.
  Qed.

  (** ** Loads of any run *)
  Lemma steps_loads dirs c c' : steps dirs c c' ->
    exists new, cx_loads c' = cx_loads c ++ new /\ NoDup (map snd new)
      /\ (forall p, In p (map snd new) -> ~ In p (cx_imported c) /\ In p fs_files)
      /\ (forall p, In p (cx_imported c') <-> In p (cx_imported c) \/ In p (map snd new)).
  Proof.
    induction 1 as [c|c c1 c2 Hs _ (new & E & Hn & Hi & Him)].
    - exists []. rewrite app_nil_r. cbn. split; [reflexivity|]. split; [constructor|]. split; [tauto|]. tauto.
    - assert (Hopen : forall k p, cx_loads c1 = cx_loads c ++ [(k, p)] -> cx_imported c1 = p :: cx_imported c ->
                ~ In p (cx_imported c) -> In p fs_files ->
                exists new0, cx_loads c2 = cx_loads c ++ new0 /\ NoDup (map snd new0)
                  /\ (forall q, In q (map snd new0) -> ~ In q (cx_imported c) /\ In q fs_files)
                  /\ (forall q, In q (cx_imported c2) <-> In q (cx_imported c) \/ In q (map snd new0))).
      { intros k p El Ei Hp Hff. exists ((k, p) :: new). rewrite E, El, <- app_assoc. split; [reflexivity|].
        rewrite Ei in *. cbn. split; [|split].
        - constructor; [|exact Hn]. intro Hx. apply (Hi p Hx). now left.
        - intros q [<-|Hq]; [auto|]. destruct (Hi q Hq) as [A B]. split; [|exact B]. intro Hx. apply A. now right.
        - intro q. rewrite Him. cbn. tauto. }
      inversion Hs as [s r c0 Hr Hf|k name dir p c0 l ms js Hk Hfo Hni Hl|name dir p c0 Hfo Hni Hc|name dir p c0 file its ws Hfo Hni Hc]; subst.
      + exists new. split; [exact E|]. split; [exact Hn|]. split; [exact Hi|exact Him].
      + apply (Hopen k p); auto. eapply found_finite; eauto.
      + apply (Hopen ImportIdl p); auto. eapply found_finite; eauto.
      + apply (Hopen ImportIdl p); auto. eapply found_finite; eauto.
  Qed.
  Lemma steps_imported dirs c c' p : steps dirs c c' -> In p (cx_imported c) -> In p (cx_imported c').
  Proof. intros Hs Hi. destruct (steps_loads _ _ _ Hs) as (new & _ & _ & _ & A). apply A. auto. Qed.

  (** ** Warnings of any run *)
  Lemma steps_warnings dirs c c' : steps dirs c c' ->
    exists new wss, cx_loads c' = cx_loads c ++ new /\ cx_warnings c' = cx_warnings c ++ concat wss
      /\ Forall2 load_warnings new wss.
  Proof.
    induction 1 as [c|c c1 c2 Hs _ (new & wss & E1 & E2 & Hf)].
    - exists [], []. cbn. rewrite !app_nil_r. repeat split. constructor.
    - inversion Hs as [s r c0 Hr Hfl|k name dir p c0 l ms js Hk Hfo Hni Hl|name dir p c0 Hfo Hni Hc|name dir p c0 file its ws Hfo Hni Hc]; subst; cbn in E1, E2.
      + exists new, wss. auto.
      + exists ((k, p) :: new), ([] :: wss). rewrite E1, E2, <- app_assoc. split; [reflexivity|]. split; [reflexivity|].
        constructor; [|exact Hf]. apply lw_none. contradiction.
      + exists ((ImportIdl, p) :: new), ([] :: wss). rewrite E1, E2, <- app_assoc. split; [reflexivity|]. split; [reflexivity|].
        constructor; [|exact Hf]. apply lw_none. intros _. exact Hc.
      + exists ((ImportIdl, p) :: new), (wrap_warnings p name ws :: wss). rewrite E1, E2, <- !app_assoc.
        split; [reflexivity|]. split; [reflexivity|]. constructor; [|exact Hf].
        unfold wrap_warnings. cbv zeta. eapply lw_idl; [exact Hc|]. intros n ->. reflexivity.
  Qed.

  (** ** Termination *)
  Definition remaining (c : context) : nat :=
    length (filter (fun p => negb (str_mem p (cx_imported c))) fs_files).
  Lemma remaining_le c c' : (forall p, In p (cx_imported c) -> In p (cx_imported c')) -> remaining c' <= remaining c.
  Proof.
    intro Hi. unfold remaining. apply filter_length_le. intros p Hp. apply negb_true_iff in Hp. apply negb_true_iff.
    rewrite str_mem_not_In in *. auto.
  Qed.
  Lemma remaining_lt c c' p : (forall q, In q (cx_imported c) -> In q (cx_imported c')) ->
    In p fs_files -> ~ In p (cx_imported c) -> In p (cx_imported c') -> remaining c' < remaining c.
  Proof.
    intros Hi Hp Hn Hp'. unfold remaining. apply filter_length_lt with p.
    - intros q Hq. apply negb_true_iff in Hq. apply negb_true_iff. rewrite str_mem_not_In in *. auto.
    - exact Hp.
    - apply negb_true_iff. now apply str_mem_not_In.
    - apply negb_false_iff. now apply str_mem_In.
  Qed.
  Lemma remaining_max c : remaining c <= length fs_files.
  Proof.
    unfold remaining. induction fs_files as [|x l IH]; cbn; [lia|]. destruct (negb _); cbn; lia.
  Qed.

  Lemma field_height f fs : In f fs ->
    schema_height (f_schema f) <= fold_right (fun f n => Nat.max (schema_height (f_schema f)) n) 0 fs.
  Proof. induction fs as [|g fs IH]; cbn; [contradiction|]. intros [->|Hi]; [lia|]. specialize (IH Hi). lia. Qed.
  Lemma defaults_terminate r s : flat_registry r -> flat_definition s = true ->
    validate_record_field_defaults (resolve_fuel r s) s (reg_lookup r) <> None.
  Proof.
    intros Hr Hs. destruct s as [| n ns d fs e al ps| | | | | | | |]; try discriminate. cbn [validate_record_field_defaults].
    destruct (field_errors_terminate r Hr fs (resolve_fuel r (SRecord n ns d fs e al ps))) as [errs E].
    - exact Hs.
    - intros f Hf. apply field_height in Hf. unfold resolve_fuel. cbn [schema_height]. lia.
    - unfold reg_lookup. rewrite E. discriminate.
  Qed.

  Definition nested_ok (nested : string -> list decl_item -> context -> outcome) (dirs : list string) (R : nat) : Prop :=
    forall d its x y e, types_flat its -> nested d its x = (y, e) ->
      steps dirs x y /\ (remaining x < R -> flat_registry (cx_registry x) -> e <> Some OutOfFuel).

  Lemma single_import_ends nested dirs k name sp dir c c' e R :
    nested_ok nested dirs R -> remaining c <= R -> flat_registry (cx_registry c) ->
    resolve_single_import nested dirs k name sp dir c = (c', e) -> e <> Some OutOfFuel.
  Proof.
    intros Hn Hr Hf. unfold resolve_single_import.
    destruct (resolve_import dirs name dir) as [p|er] eqn:Er.
    - apply resolve_import_iff in Er. pose proof (found_finite _ _ _ Er) as Hp. destruct (str_mem p (cx_imported c)) eqn:Em.
      + intro E. injection E as <- <-. discriminate.
      + apply str_mem_not_In in Em. unfold load_import. destruct k; destruct (fs_read p) as [text|]; try (intro E; injection E as <- <-; discriminate).
        * destruct (parse_idl p text) as [[[file its] ws]|er] eqn:Ep; [|intro E; injection E as <- <-; discriminate].
          intro E. destruct (Hn _ _ _ _ _ (parse_idl_flat _ _ _ _ _ Ep) E) as [_ A]. apply A; [|exact Hf].
          eapply Nat.lt_le_trans; [|exact Hr]. apply (remaining_lt _ _ p); cbn; auto.
        * destruct (parse_json text) as [j|]; [|intro E; injection E as <- <-; discriminate].
          destruct (import_protocol j _) as [r [ms|e']]; intro E; injection E as <- <-; discriminate.
        * destruct (parse_json text) as [j|]; [|intro E; injection E as <- <-; discriminate].
          destruct (import_schema j _) as [r [ms|e']]; intro E; injection E as <- <-; discriminate.
    - unfold resolve_import in Er. intro E. injection E as <- <-.
      destruct (search name (dir :: dirs)) as [[q|]|]; congruence.
  Qed.
  Lemma type_ends s pl fs c c' e : flat_registry (cx_registry c) -> flat_definition s = true ->
    process_type s pl fs c = (c', e) -> e <> Some OutOfFuel.
  Proof.
    intros Hf Hs. unfold process_type. destruct (register (cx_registry c) s) as [r|er] eqn:Er.
    - pose proof (defaults_terminate r s (register_flat _ _ _ Hf Hs Er) Hs) as Hd.
      destruct (validate_record_field_defaults _ _ _) as [[|x l]|]; [| |contradiction]; intro E; injection E as <- <-; discriminate.
    - intro E. injection E as <- <-. discriminate.
  Qed.
  (** the first item alone *)
  Lemma process_one nested dirs dir it c :
    process_items nested dirs dir [it] c =
    match it with DImport k path sp => resolve_single_import nested dirs k path sp dir c | DType s sp fs => process_type s sp fs c end.
  Proof. cbn. destruct (match it with DImport k path sp => _ | DType s sp fs => _ end) as [c1 [e1|]]; reflexivity. Qed.
  Lemma process_items_ends nested dirs R dir items c c' e :
    nested_ok nested dirs R -> types_flat items -> remaining c <= R -> flat_registry (cx_registry c) ->
    process_items nested dirs dir items c = (c', e) -> e <> Some OutOfFuel.
  Proof.
    intros Hn. revert c. induction items as [|it items IH]; intros c Hf Hr Hfl Hp.
    - injection Hp as <- <-. discriminate.
    - assert (Hf1 : types_flat [it]) by (intros s pl0 fl0 [->|[]]; apply (Hf s pl0 fl0); now left).
      assert (Hf' : types_flat items) by (intros s pl0 fl0 Hs; apply (Hf s pl0 fl0); now right).
      cbn [process_items] in Hp. cbv zeta in Hp. rewrite <- (process_one nested dirs dir) in Hp.
      destruct (process_items nested dirs dir [it] c) as [c1 [e1|]] eqn:Es.
      + injection Hp as <- <-. rewrite process_one in Es. destruct it as [k name sp|s sp fs].
        * eapply single_import_ends; eauto.
        * eapply type_ends; eauto. apply (Hf s sp fs). now left.
      + assert (Hs : steps dirs c c1).
        { eapply process_items_steps; [|exact Hf1|exact Es]. intros d its x y e' Ht E'. apply (Hn d its x y e' Ht E'). }
        apply (IH c1); auto.
        * etransitivity; [|exact Hr]. apply remaining_le. intros p Hi. eapply steps_imported; eauto.
        * eapply steps_flat; eauto.
  Qed.
  Lemma process_ends fuel dirs dir items c c' e :
    types_flat items -> flat_registry (cx_registry c) -> remaining c <= fuel ->
    process_decl_items fuel dirs dir items c = (c', e) -> e <> Some OutOfFuel.
  Proof.
    revert dir items c c' e. induction fuel as [|fuel IH]; intros dir items c c' e Hf Hfl Hr Hp; cbn [process_decl_items] in Hp.
    - eapply (process_items_ends _ dirs 0); [|exact Hf|exact Hr|exact Hfl|exact Hp].
      intros d its x y e' _ E. injection E as <- <-. split; [constructor|lia].
    - eapply (process_items_ends _ dirs (S fuel)); [|exact Hf|exact Hr|exact Hfl|exact Hp].
      intros d its x y e' Hf' E. split; [eapply process_steps; eauto|]. intros Hx Hfx. eapply IH; eauto. lia.
  Qed.

  (** More fuel changes nothing. *)
  Lemma process_items_same n1 n2 dirs R dir items c :
    nested_ok n1 dirs 0 ->
    (forall d its x, types_flat its -> remaining x < R -> n1 d its x = n2 d its x) ->
    types_flat items -> remaining c <= R ->
    process_items n1 dirs dir items c = process_items n2 dirs dir items c.
  Proof.
    intros Hn Hs. revert c. induction items as [|it items IH]; intros c Hf Hr; [reflexivity|].
    assert (Hf1 : types_flat [it]) by (intros s pl0 fl0 [->|[]]; apply (Hf s pl0 fl0); now left).
    assert (Hf' : types_flat items) by (intros s pl0 fl0 Hx; apply (Hf s pl0 fl0); now right).
    cbn [process_items]. cbv zeta. rewrite <- (process_one n1 dirs dir), <- (process_one n2 dirs dir).
    assert (E : process_items n1 dirs dir [it] c = process_items n2 dirs dir [it] c).
    { rewrite !process_one. destruct it as [k name sp|s sp fs]; [|reflexivity]. unfold resolve_single_import.
      destruct (resolve_import dirs name dir) as [p|er] eqn:Er; [|reflexivity].
      apply resolve_import_iff in Er. pose proof (found_finite _ _ _ Er) as Hp. destruct (str_mem p (cx_imported c)) eqn:Em; [reflexivity|].
      apply str_mem_not_In in Em. unfold load_import. destruct k; try reflexivity. destruct (fs_read p) as [text|]; [|reflexivity].
      destruct (parse_idl p text) as [[[file its] ws]|er] eqn:Ep; [|reflexivity]. apply Hs; [exact (parse_idl_flat _ _ _ _ _ Ep)|].
      eapply Nat.lt_le_trans; [|exact Hr]. apply (remaining_lt _ _ p); cbn; auto. }
    rewrite <- E. destruct (process_items n1 dirs dir [it] c) as [c1 [e1|]] eqn:Es; [reflexivity|].
    apply IH; [exact Hf'|]. etransitivity; [|exact Hr]. apply remaining_le. intros p Hi. eapply steps_imported; [|exact Hi].
    eapply process_items_steps; [|exact Hf1|exact Es]. intros d its x y e' Ht E'. apply (Hn d its x y e' Ht E').
  Qed.
  Lemma process_more n m dirs dir items c :
    types_flat items -> remaining c <= n -> n <= m ->
    process_decl_items n dirs dir items c = process_decl_items m dirs dir items c.
  Proof.
    revert m dir items c. induction n as [|n IH]; intros m dir items c Hf Hr Hm.
    - destruct m as [|m]; [reflexivity|]. cbn [process_decl_items]. apply (process_items_same _ _ dirs 0); auto.
      + intros d its x y e _ E. injection E as <- <-. split; [constructor|lia].
      + lia.
    - destruct m as [|m]; [lia|]. cbn [process_decl_items]. apply (process_items_same _ _ dirs (S n)); auto.
      + intros d its x y e Hf' E. split; [eapply process_steps; eauto|lia].
      + intros d its x Hf' Hx. apply IH; auto; lia.
  Qed.

  (** ** Files loaded by a successful run *)
  Lemma handled_steps dirs dir items c c' : types_flat items -> handled dirs dir items c c' -> steps dirs c c'.
  Proof.
    intros Hf Hh. revert Hf. induction Hh as [dir c|dir s sp fs r its c c' Hr Hv Hh IH|dir k name sp p its c c' Hfo Hi Hh IH
      |dir name sp p j r ms its c c' Hfo Hi Hj Hp Hh IH|dir name sp p j r its c c' Hfo Hi Hj Hp Hh IH
      |dir name sp p file its' ws its c c1 c' Hfo Hi Hc Hh1 IH1 Hh2 IH2]; intro Hf;
      try (assert (Hf' : types_flat its) by (intros s0 pl0 fl0 Hs0; apply (Hf s0 pl0 fl0); now right)).
    - constructor.
    - econstructor; [|apply IH, Hf']. apply (st_type dirs s); [exact Hr|apply (Hf s sp fs); now left].
    - apply IH, Hf'.
    - destruct (import_protocol_after _ _ _ _ Hp) as (l & -> & Hl). econstructor; [|apply IH, Hf'].
      apply (st_json dirs ImportProtocol name dir p c l (hm_extend (cx_messages c) ms) (cx_json_imports c ++ [(p, Some sp)])); auto. discriminate.
    - destruct (import_schema_after _ _ _ _ Hp) as (l & -> & Hl). econstructor; [|apply IH, Hf'].
      apply (st_json dirs ImportSchema name dir p c l (cx_messages c) (cx_json_imports c ++ [(p, Some sp)])); auto. discriminate.
    - destruct Hc as (text & Ht & Hp). econstructor; [apply (st_idl dirs name dir p c file its' ws); auto; exists text; auto|].
      eapply steps_app; [apply IH1; exact (parse_idl_flat _ _ _ _ _ Hp)|apply IH2, Hf'].
  Qed.
  Lemma idl_content_flat p file its ws : idl_content p file its ws -> types_flat its.
  Proof. intros (text & _ & Hp). exact (parse_idl_flat _ _ _ _ _ Hp). Qed.
  Lemma idl_content_fun p f1 i1 w1 f2 i2 w2 : idl_content p f1 i1 w1 -> idl_content p f2 i2 w2 -> f1 = f2 /\ i1 = i2 /\ w1 = w2.
  Proof. intros (t1 & A & B) (t2 & C & D). rewrite A in C. injection C as <-. rewrite B in D. injection D as <- <- <-. auto. Qed.

  Lemma handled_reachable dirs dir0 items0 dir items c c' : handled dirs dir items c c' ->
    (forall k name sp p, In (DImport k name sp) items -> found_in (dir :: dirs) name p -> reachable dirs dir0 items0 k p) ->
    forall k p, In (k, p) (cx_loads c') -> In (k, p) (cx_loads c) \/ reachable dirs dir0 items0 k p.
  Proof.
    induction 1 as [dir c|dir s sp fs r its c c' Hr Hv Hh IH|dir k name sp p its c c' Hfo Hi Hh IH
      |dir name sp p j r ms its c c' Hfo Hi Hj Hp Hh IH|dir name sp p j r its c c' Hfo Hi Hj Hp Hh IH
      |dir name sp p file its' ws its c c1 c' Hfo Hi Hc Hh1 IH1 Hh2 IH2]; intros Hre k0 p0 Hin;
      try (assert (Hre' : forall k name sp p, In (DImport k name sp) its -> found_in (dir :: dirs) name p -> reachable dirs dir0 items0 k p)
             by (intros k' n' sp' p' Hx; apply (Hre k' n' sp'); now right)).
    - now left.
    - exact (IH Hre' _ _ Hin).
    - exact (IH Hre' _ _ Hin).
    - destruct (IH Hre' _ _ Hin) as [Hx|Hx]; [|now right]. cbn in Hx. apply in_app_or in Hx. destruct Hx as [Hx|[Hx|[]]]; [now left|].
      injection Hx as <- <-. right. apply (Hre ImportProtocol name sp p); [now left|exact Hfo].
    - destruct (IH Hre' _ _ Hin) as [Hx|Hx]; [|now right]. cbn in Hx. apply in_app_or in Hx. destruct Hx as [Hx|[Hx|[]]]; [now left|].
      injection Hx as <- <-. right. apply (Hre ImportSchema name sp p); [now left|exact Hfo].
    - assert (Hq : reachable dirs dir0 items0 ImportIdl p) by (apply (Hre ImportIdl name sp p); [now left|exact Hfo]).
      destruct (IH2 Hre' _ _ Hin) as [Hx|Hx]; [|now right].
      destruct (IH1 (fun k' n' sp' p' A B => re_nested dirs dir0 items0 p file its' ws k' n' sp' p' Hq Hc A B) _ _ Hx) as [Hy|Hy]; [|now right].
      cbn in Hy. apply in_app_or in Hy. destruct Hy as [Hy|[Hy|[]]]; [now left|]. injection Hy as <- <-. now right.
  Qed.

  (** Everything a successful run leaves behind for the declarations it went
      through, closed under the IDL files loaded. *)
  Definition settled (dirs : list string) (dir : string) (items : list decl_item) (c : context) : Prop :=
    (forall k name sp, In (DImport k name sp) items -> exists p, found_in (dir :: dirs) name p /\ In p (cx_imported c)) /\
    (exists before after, cx_registry c = before ++ after /\ sublist (type_items items) (reg_schemas after)).
  Definition load_settled (dirs : list string) (kp : import_kind * string) (c : context) : Prop :=
    match fst kp with
    | ImportIdl => exists file its ws, idl_content (snd kp) file its ws /\ settled dirs (fs_parent (snd kp)) its c
    | ImportSchema => exists j t, json_content (snd kp) j /\ json_to_schema j None = Ok t /\
        forall s full, In s (fst (flatten t)) -> registrable s full -> In full (keys (cx_registry c))
    | ImportProtocol => exists j, json_content (snd kp) j /\
        forall types tj, value_get "types" j = Some (JArr types) -> In tj types ->
        exists t, json_to_schema tj (match value_get "namespace" j with Some v => as_str v | None => None end) = Ok t /\
          forall s full, In s (fst (flatten t)) -> registrable s full -> In full (keys (cx_registry c))
    end.
  Lemma register_shape r s r' : register r s = Ok r' -> exists full, r' = r ++ [(full, s)] /\ registrable s full.
  Proof. intro E. pose proof (register_cases r s) as Hc. rewrite E in Hc. destruct Hc as (full & A & _ & ->). eauto. Qed.
  Lemma step_registry dirs c c' : step dirs c c' -> exists new, cx_registry c' = cx_registry c ++ new.
  Proof.
    intro Hs. inversion Hs; subst; cbn.
    - destruct (register_shape _ _ _ H4) as (full & -> & _). eauto.
    - destruct (registry_after_shape (cx_registry c) l) as (new & -> & _). eauto.
    - exists []. now rewrite app_nil_r.
    - exists []. now rewrite app_nil_r.
  Qed.
  Lemma steps_registry dirs c c' : steps dirs c c' -> exists new, cx_registry c' = cx_registry c ++ new.
  Proof.
    induction 1 as [|c c1 c2 Hs _ (new & E)]; [exists []; now rewrite app_nil_r|].
    destruct (step_registry _ _ _ Hs) as (n1 & E1). exists (n1 ++ new). now rewrite E, E1, app_assoc.
  Qed.
  Lemma sublist_app_r {A} (l m n : list A) : sublist l m -> sublist l (m ++ n).
  Proof. induction 1; cbn; [|now apply sub_skip|now apply sub_keep]. induction n; [constructor|now apply sub_skip]. Qed.
  Lemma settled_mono dirs dir items c c' : steps dirs c c' -> settled dirs dir items c -> settled dirs dir items c'.
  Proof.
    intros Hs [A (b & a & E & Hl)]. split.
    - intros k name sp Hi. destruct (A k name sp Hi) as (p & B & C). exists p. split; [exact B|]. eapply steps_imported; eauto.
    - destruct (steps_registry _ _ _ Hs) as (new & En). exists b, (a ++ new). rewrite En, E, app_assoc. split; [reflexivity|].
      unfold reg_schemas in *. rewrite map_app. now apply sublist_app_r.
  Qed.
  Lemma load_settled_mono dirs kp c c' : steps dirs c c' -> load_settled dirs kp c -> load_settled dirs kp c'.
  Proof.
    intros Hs. assert (Hk : forall full, In full (keys (cx_registry c)) -> In full (keys (cx_registry c'))).
    { destruct (steps_registry _ _ _ Hs) as (new & ->). intros full Hf. rewrite keys_app. apply in_or_app. now left. }
    destruct kp as [[] p]; unfold load_settled; cbn [fst snd].
    - intros (file & its & ws & Hc & Hx). exists file, its, ws. split; [exact Hc|]. eapply settled_mono; eauto.
    - intros (j & Hj & Hx). exists j. split; [exact Hj|]. intros types tj A B. destruct (Hx types tj A B) as (t & C & D). exists t. split; [exact C|]. eauto.
    - intros (j & t & Hj & Ht & Hx). exists j, t. split; [exact Hj|]. split; [exact Ht|]. eauto.
  Qed.
  Lemma registry_after_keys r l s full : In s l -> registrable s full -> In full (keys (registry_after r l)).
  Proof.
    revert r. induction l as [|x l IH]; intros r; [contradiction|]. intros [->|Hi] Hr; [change (registry_after r (s :: l)) with (registry_after (register_ignoring r s) l)|].
    - destruct (registry_after_shape (register_ignoring r s) l) as (new & E & _). rewrite E.
      rewrite keys_app. apply in_or_app. left.
      destruct (register_ignoring_cases r s) as [(f & Hf & _ & _ & ->)|(Hf & _ & ->)].
      + rewrite keys_app. apply in_or_app. right. left. exact (registrable_fun _ _ _ Hf Hr).
      + exact (Hf _ Hr).
    - exact (IH (register_ignoring r x) Hi Hr).
  Qed.

  Lemma handled_settled dirs dir items c c' : types_flat items -> handled dirs dir items c c' ->
    (forall k name sp, In (DImport k name sp) items -> exists p, found_in (dir :: dirs) name p /\ In p (cx_imported c')) /\
    (exists new, cx_registry c' = cx_registry c ++ new /\ sublist (type_items items) (reg_schemas new)) /\
    (forall kp, In kp (cx_loads c') -> In kp (cx_loads c) \/ load_settled dirs kp c').
  Proof.
    intros Hf Hh. revert Hf. induction Hh as [dir c|dir s sp fs r its c c' Hr Hv Hh IH|dir k name sp p its c c' Hfo Hi Hh IH
      |dir name sp p j r ms its c c' Hfo Hi Hj Hp Hh IH|dir name sp p j r its c c' Hfo Hi Hj Hp Hh IH
      |dir name sp p file its' ws its c c1 c' Hfo Hi Hc Hh1 IH1 Hh2 IH2]; intro Hf;
      try (assert (Hf' : types_flat its) by (intros s0 pl0 fl0 Hs0; apply (Hf s0 pl0 fl0); now right)).
    - split; [intros k name sp []|]. split; [|auto]. exists []. rewrite app_nil_r. split; [reflexivity|constructor].
    - destruct (IH Hf') as (A & (new & E & B) & C). split; [|split; [|exact C]].
      + intros k name sp' [Hx|Hx]; [discriminate|]. exact (A _ _ _ Hx).
      + destruct (register_shape _ _ _ Hr) as (full & -> & _). cbn in E. exists ((full, s) :: new). rewrite E, <- app_assoc.
        split; [reflexivity|]. cbn. now apply sub_keep.
    - destruct (IH Hf') as (A & B & C). split; [|split; [exact B|exact C]].
      intros k0 name0 sp0 [Hx|Hx]; [|first [exact (A _ _ _ Hx)|exact (A2 _ _ _ Hx)]]. injection Hx as <- <- <-. exists p. split; [exact Hfo|].
      eapply steps_imported; [|exact Hi]. eapply handled_steps; eauto.
    - destruct (IH Hf') as (A & (new & E & B) & C). pose proof (handled_steps _ _ _ _ _ Hf' Hh) as Hs.
      destruct (import_protocol_after _ _ _ _ Hp) as (l & El & Hl). split; [|split].
      + intros k0 name0 sp0 [Hx|Hx]; [|first [exact (A _ _ _ Hx)|exact (A2 _ _ _ Hx)]]. injection Hx as <- <- <-. exists p. split; [exact Hfo|]. eapply steps_imported; [exact Hs|]. now left.
      + cbn in E. destruct (registry_after_shape (cx_registry c) l) as (n1 & E1 & _). exists (n1 ++ new).
        rewrite E, El, E1, app_assoc. split; [reflexivity|]. unfold reg_schemas in *. rewrite map_app. cbn.
        clear -B. induction n1 as [|x n1 IHn]; [exact B|]. now apply sub_skip.
      + intros kp Hin. destruct (C kp Hin) as [Hx|Hx]; [|now right]. cbn in Hx. apply in_app_or in Hx. destruct Hx as [Hx|[<-|[]]]; [now left|].
        right. eapply load_settled_mono; [exact Hs|]. exists j. split; [exact Hj|]. intros types tj Ety Htj.
        unfold import_protocol in Hp. cbv zeta in Hp. rewrite Ety in Hp.
        destruct (import_types types _ (cx_registry c)) as [r1 [er|]] eqn:Et; [discriminate|].
        destruct (import_types_after _ _ _ _ _ Et) as (l' & Er1 & _ & _ & Hall).
        destruct (Hall eq_refl tj Htj) as (t & Ht & Hin'). exists t. split; [exact Ht|]. intros s full Hs' Hreg. cbn.
        assert (r = r1) as ->.
        { destruct (value_get "messages" j) as [[]|]; try (injection Hp as <- _; reflexivity).
          destruct (import_messages _ _); injection Hp as <- _; reflexivity. }
        rewrite Er1. eapply registry_after_keys; eauto.
    - destruct (IH Hf') as (A & (new & E & B) & C). pose proof (handled_steps _ _ _ _ _ Hf' Hh) as Hs.
      destruct (import_schema_after _ _ _ _ Hp) as (l & El & Hl). split; [|split].
      + intros k0 name0 sp0 [Hx|Hx]; [|first [exact (A _ _ _ Hx)|exact (A2 _ _ _ Hx)]]. injection Hx as <- <- <-. exists p. split; [exact Hfo|]. eapply steps_imported; [exact Hs|]. now left.
      + cbn in E. destruct (registry_after_shape (cx_registry c) l) as (n1 & E1 & _). exists (n1 ++ new).
        rewrite E, El, E1, app_assoc. split; [reflexivity|]. unfold reg_schemas in *. rewrite map_app. cbn.
        clear -B. induction n1 as [|x n1 IHn]; [exact B|]. now apply sub_skip.
      + intros kp Hin. destruct (C kp Hin) as [Hx|Hx]; [|now right]. cbn in Hx. apply in_app_or in Hx. destruct Hx as [Hx|[<-|[]]]; [now left|].
        right. eapply load_settled_mono; [exact Hs|]. unfold import_schema in Hp.
        destruct (json_to_schema j None) as [t|er] eqn:Ej; [|discriminate]. injection Hp as <-. exists j, t.
        split; [exact Hj|]. split; [exact Ej|]. intros s full Hs' Hreg. cbn. eapply registry_after_keys; eauto.
    - pose proof (idl_content_flat _ _ _ _ Hc) as Hfi.
      destruct (IH1 Hfi) as (A1 & (n1 & E1 & B1) & C1). destruct (IH2 Hf') as (A2 & (n2 & E2 & B2) & C2).
      pose proof (handled_steps _ _ _ _ _ Hfi Hh1) as Hs1. pose proof (handled_steps _ _ _ _ _ Hf' Hh2) as Hs2. cbn in E1.
      split; [|split].
      + intros k0 name0 sp0 [Hx|Hx]; [|first [exact (A _ _ _ Hx)|exact (A2 _ _ _ Hx)]]. injection Hx as <- <- <-. exists p. split; [exact Hfo|].
        eapply steps_imported; [exact Hs2|]. eapply steps_imported; [exact Hs1|]. now left.
      + exists (n1 ++ n2). rewrite E2, E1, app_assoc. split; [reflexivity|]. unfold reg_schemas in *. rewrite map_app. cbn.
        clear -B2. induction n1 as [|x n1 IHn]; [exact B2|]. now apply sub_skip.
      + intros kp Hin. destruct (C2 kp Hin) as [Hx|Hx]; [|now right]. destruct (C1 kp Hx) as [Hy|Hy].
        * cbn in Hy. apply in_app_or in Hy. destruct Hy as [Hy|[<-|[]]]; [now left|]. right. exists file, its', ws. split; [exact Hc|].
          eapply settled_mono; [exact Hs2|]. split; [exact A1|]. exists (cx_registry c), n1. auto.
        * right. eapply load_settled_mono; eauto.
  Qed.

  (** ** Where the types come from *)
  Lemma registry_after_in r l s : In s (reg_schemas (registry_after r l)) -> In s (reg_schemas r) \/ In s l.
  Proof.
    destruct (registry_after_shape r l) as (new & -> & Hs & _). unfold reg_schemas. rewrite map_app. intro Hi. apply in_app_or in Hi.
    destruct Hi as [Hi|Hi]; [now left|right]. clear -Hs Hi. induction Hs; cbn in *; [contradiction|auto|]. destruct Hi; auto.
  Qed.
  Lemma steps_loads_incl dirs c c' kp : steps dirs c c' -> In kp (cx_loads c) -> In kp (cx_loads c').
  Proof. intros Hs Hi. destruct (steps_loads _ _ _ Hs) as (new & -> & _). apply in_or_app. now left. Qed.
  Lemma handled_declared dirs dir0 items0 L dir items c c' : types_flat items -> handled dirs dir items c c' ->
    source dir0 items0 L dir items -> (forall kp, In kp (cx_loads c') -> In kp L) ->
    forall s, In s (reg_schemas (cx_registry c')) -> In s (reg_schemas (cx_registry c)) \/ declared_in_files dir0 items0 L s.
  Proof.
    intros Hf Hh Hso HL.
    (* [its0]: what is left of the items of the source *)
    enough (G : forall its0, (forall it, In it items -> In it its0) -> source dir0 items0 L dir its0 ->
              forall s, In s (reg_schemas (cx_registry c')) -> In s (reg_schemas (cx_registry c)) \/ declared_in_files dir0 items0 L s)
      by (exact (G items (fun it Hi => Hi) Hso)).
    clear Hso. revert Hf HL. induction Hh as [dir c|dir s sp fs r its c c' Hr Hv Hh IH|dir k name sp p its c c' Hfo Hi Hh IH
      |dir name sp p j r ms its c c' Hfo Hi Hj Hp Hh IH|dir name sp p j r its c c' Hfo Hi Hj Hp Hh IH
      |dir name sp p file its' ws its c c1 c' Hfo Hi Hc Hh1 IH1 Hh2 IH2]; intros Hf HL its0 Hin Hso x Hx;
      try (assert (Hf' : types_flat its) by (intros s0 pl0 fl0 Hs0; apply (Hf s0 pl0 fl0); now right));
      try (assert (Hin' : forall it, In it its -> In it its0) by (intros it Hit; apply Hin; now right)).
    - now left.
    - destruct (IH Hf' HL its0 Hin' Hso x Hx) as [Hy|Hy]; [|now right]. cbn in Hy.
      destruct (register_shape _ _ _ Hr) as (full & -> & _). unfold reg_schemas in Hy. rewrite map_app in Hy. apply in_app_or in Hy.
      destruct Hy as [Hy|[<-|[]]]; [now left|right]. eapply df_idl; [exact Hso|]. apply Hin. now left.
    - exact (IH Hf' HL its0 Hin' Hso x Hx).
    - destruct (IH Hf' HL its0 Hin' Hso x Hx) as [Hy|Hy]; [|now right]. cbn in Hy.
      assert (Hl : In (ImportProtocol, p) L).
      { apply HL. eapply steps_loads_incl; [eapply handled_steps; eauto|]. cbn. apply in_or_app. right. now left. }
      unfold import_protocol in Hp. cbv zeta in Hp.
      destruct (import_types _ _ (cx_registry c)) as [r1 [er|]] eqn:Et; [discriminate|].
      destruct (import_types_after _ _ _ _ _ Et) as (l' & Er1 & _ & Hfrom & _).
      assert (r = r1) as ->.
      { destruct (value_get "messages" j) as [[]|]; try (injection Hp as <- _; reflexivity).
        destruct (import_messages _ _); injection Hp as <- _; reflexivity. }
      rewrite Er1 in Hy. apply registry_after_in in Hy. destruct Hy as [Hy|Hy]; [now left|right].
      destruct (Hfrom x Hy) as (tj & t & Htj & Ht & Hxt).
      destruct (value_get "types" j) as [[]|] eqn:Ety; try contradiction. eapply df_protocol; eauto.
    - destruct (IH Hf' HL its0 Hin' Hso x Hx) as [Hy|Hy]; [|now right]. cbn in Hy.
      assert (Hl : In (ImportSchema, p) L).
      { apply HL. eapply steps_loads_incl; [eapply handled_steps; eauto|]. cbn. apply in_or_app. right. now left. }
      unfold import_schema in Hp. destruct (json_to_schema j None) as [t|er] eqn:Ej; [|discriminate]. injection Hp as <-.
      apply registry_after_in in Hy. destruct Hy as [Hy|Hy]; [now left|right]. eapply df_schema; eauto.
    - pose proof (idl_content_flat _ _ _ _ Hc) as Hfi.
      pose proof (handled_steps _ _ _ _ _ Hf' Hh2) as Hs2. pose proof (handled_steps _ _ _ _ _ Hfi Hh1) as Hs1.
      destruct (IH2 Hf' HL its0 Hin' Hso x Hx) as [Hy|Hy]; [|now right].
      apply (IH1 Hfi (fun kp Hkp => HL kp (steps_loads_incl _ _ _ _ Hs2 Hkp)) its' (fun it Hit => Hit)) in Hy; [exact Hy|].
      eapply so_loaded; [|exact Hc]. apply HL. eapply steps_loads_incl; [exact Hs2|]. eapply steps_loads_incl; [exact Hs1|].
      cbn. apply in_or_app. right. now left.
  Qed.

  (** ** Messages *)
  Lemma map_res_Forall2 {A B E} (f : A -> result B E) l m : map_res f l = Ok m -> Forall2 (fun a b => f a = Ok b) l m.
  Proof.
    revert m. induction l as [|x l IH]; intros m; cbn; intro E0.
    - injection E0 as <-. constructor.
    - destruct (f x) as [b|] eqn:Ef; [|discriminate]. destruct (map_res f l) as [bs|]; [|discriminate]. injection E0 as <-.
      constructor; auto.
  Qed.
  Lemma import_protocol_messages p j r r' ms : json_content p j -> import_protocol j r = (r', Ok ms) ->
    load_messages (ImportProtocol, p) ms.
  Proof.
    intros Hj Hp. apply (lm_protocol p j ms Hj). unfold import_protocol in Hp. cbv zeta in Hp.
    destruct (import_types _ _ r) as [r1 [er|]]; [discriminate|].
    destruct (value_get "messages" j) as [[]|]; try (now injection Hp as _ <-).
    destruct (import_messages _ _) as [l|] eqn:Em; [|discriminate]. injection Hp as _ <-. unfold import_messages in Em.
    apply map_res_Forall2 in Em. clear -Em. induction Em as [|kv nm l ms Hx Em IH]; constructor; [|exact IH].
    destruct (json_to_message (snd kv) _) as [m|]; [|discriminate]. injection Hx as <-. auto.
  Qed.
  Lemma handled_messages dirs dir items c c' : handled dirs dir items c c' ->
    exists new tables, cx_loads c' = cx_loads c ++ new /\ Forall2 load_messages new tables /\
      cx_messages c' = fold_left hm_extend tables (cx_messages c).
  Proof.
    induction 1 as [dir c|dir s sp fs r its c c' Hr Hv Hh IH|dir k name sp p its c c' Hfo Hi Hh IH
      |dir name sp p j r ms its c c' Hfo Hi Hj Hp Hh IH|dir name sp p j r its c c' Hfo Hi Hj Hp Hh IH
      |dir name sp p file its' ws its c c1 c' Hfo Hi Hc Hh1 IH1 Hh2 IH2].
    - exists [], []. rewrite app_nil_r. repeat split. constructor.
    - exact IH.
    - exact IH.
    - destruct IH as (new & tables & E1 & Hf & E2). cbn in E1, E2. exists ((ImportProtocol, p) :: new), (ms :: tables).
      rewrite E1, <- app_assoc. split; [reflexivity|]. split; [|exact E2]. constructor; [|exact Hf]. eapply import_protocol_messages; eauto.
    - destruct IH as (new & tables & E1 & Hf & E2). cbn in E1, E2. exists ((ImportSchema, p) :: new), ([] :: tables).
      rewrite E1, <- app_assoc. split; [reflexivity|]. split; [|exact E2]. constructor; [|exact Hf]. constructor.
    - destruct IH1 as (n1 & t1 & E1 & Hf1 & E2). destruct IH2 as (n2 & t2 & E3 & Hf2 & E4). cbn in E1, E2.
      exists ((ImportIdl, p) :: n1 ++ n2), (messages_of_file file :: t1 ++ t2).
      rewrite E3, E1, <- !app_assoc. split; [reflexivity|]. split.
      + constructor; [eapply lm_idl; exact Hc|]. now apply Forall2_app.
      + rewrite E4, E2. cbn. now rewrite fold_left_app.
  Qed.
  Lemma keys_rev {A} n (l : list (string * A)) : In n (keys l) <-> In n (keys (rev l)).
  Proof. unfold keys. rewrite map_rev. apply in_rev. Qed.
  Lemma extends_last tables name m0 v :
    assoc name (fold_left hm_extend tables m0) = Some v <->
    last_declared tables name v \/ ((forall l, In l tables -> ~ In name (keys l)) /\ assoc name m0 = Some v).
  Proof.
    revert m0. induction tables as [|l tables IH]; intro m0; cbn [fold_left].
    - split; [intro E; right; split; [intros l []|exact E]|]. intros [(b & l & a & E & _)|[_ E]]; [destruct b; discriminate|exact E].
    - rewrite IH, assoc_hm_extend. split.
      + intros [(b & l' & a & -> & Hl & Ha)|[Hn E]].
        * left. exists (l :: b), l', a. auto.
        * destruct (assoc name (rev l)) as [v'|] eqn:El.
          -- injection E as <-. left. exists [], l, tables. auto.
          -- right. split; [|exact E]. intros l' [<-|Hl']; [|auto]. apply assoc_None in El. now rewrite keys_rev.
      + intros [(b & l' & a & E & Hl & Ha)|[Hn E]].
        * destruct b as [|x b]; injection E as -> ->.
          -- right. split; [exact Ha|]. now rewrite Hl.
          -- left. exists b, l', a. auto.
        * right. split; [intros l' Hl'; apply Hn; now right|].
          assert (El : assoc name (rev l) = None) by (apply assoc_None; rewrite <- keys_rev; apply Hn; now left).
          now rewrite El.
  Qed.
End World.
