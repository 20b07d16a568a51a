(** Lemmas about compilation as a whole and about the builders. *)
From Verif Require Import SpecCompile SpecFile SpecImport RegistryProofs BaseProofs DefaultsProofs SerializeProofs ReaderProofs CompileProofs LoadProofs.
From Verif Require Import SpecDefaults SpecDoc.
From Verif Require RefsProofs SpecRefs.
From Coq Require Import Lia Permutation Sorted.

Section World.
  Context `{Unicode} `{Floats} `{Parser} `{FileSystem} `{JsonParser}.

  Definition start_context (ws : list warning) (ip : option string) : context :=
    mark_input ip (add_warnings (map (mkReport None) ws) new_context).
  Lemma start_fields ws ip : let c := start_context ws ip in
    cx_registry c = [] /\ cx_messages c = [] /\ cx_loads c = [] /\ cx_warnings c = map (mkReport None) ws
    /\ forall p, In p (cx_imported c) <-> ip = Some p.
  Proof.
    destruct ip as [q|]; cbn; repeat split; try tauto; try discriminate.
    - intros [->|[]]. reflexivity.
    - intro E. injection E as ->. now left.
  Qed.

  Lemma resolve_run dirs src name dir ip c res : parse_and_resolve dirs src name dir ip = (c, res) ->
    (exists e, parse_idl name src = Err e /\ c = new_context /\ res = Err (CannotParse name e)) \/
    (exists file items ws, parse_idl name src = Ok (file, items, ws) /\ types_flat items /\ steps dirs (start_context ws ip) c /\
       ((exists e, process_decl_items (length fs_files) dirs dir items (start_context ws ip) = (c, Some e) /\ res = Err e) \/
        (process_decl_items (length fs_files) dirs dir items (start_context ws ip) = (c, None)
         /\ handled dirs dir items (start_context ws ip) c /\ res = Ok (finish_file file c)))).
  Proof.
    unfold parse_and_resolve. destruct (parse_idl name src) as [[[file items] ws]|e] eqn:Ep.
    - intro E. right. exists file, items, ws. split; [reflexivity|]. split; [exact (parse_idl_flat _ _ _ _ _ Ep)|].
      change (mark_input ip (add_warnings (map (mkReport None) ws) new_context)) with (start_context ws ip) in E.
      destruct (process_decl_items _ dirs dir items _) as [c' [e|]] eqn:Er; injection E as <- <-.
      + split; [eapply process_steps; [exact (parse_idl_flat _ _ _ _ _ Ep)|exact Er]|]. left. eauto.
      + split; [eapply process_steps; [exact (parse_idl_flat _ _ _ _ _ Ep)|exact Er]|]. right. split; [reflexivity|]. split; [|reflexivity]. eapply process_handled; eauto.
    - intro E. injection E as <- <-. left. eauto.
  Qed.

  Lemma compile_ok dirs src name dir ip o ws' : compile dirs src name dir ip = (Ok o, ws') ->
    exists file items ws c, parse_idl name src = Ok (file, items, ws) /\ types_flat items
      /\ parse_and_resolve dirs src name dir ip = (c, Ok (finish_file file c))
      /\ handled dirs dir items (start_context ws ip) c
      /\ o = mkOutput (finish_file file c) (cx_registry c) (cx_warnings c) (cx_loads c) /\ ws' = []
      /\ Refs.validate_all_references (ref_file (finish_file file c)) (cx_registry c) name (cx_json_imports c) = None.
  Proof.
    unfold compile. destruct (parse_and_resolve dirs src name dir ip) as [c [file|e]] eqn:E; [|discriminate].
    destruct (Refs.validate_all_references _ _ _ _) eqn:Ev; [discriminate|]. intro Ho. injection Ho as <- <-.
    apply resolve_run in E. destruct E as [(e & _ & _ & E)|(f & items & ws & Ep & Hf & _ & [(e & _ & E)|(_ & Hh & E)])]; try discriminate.
    injection E as ->. exists f, items, ws, c. repeat split; auto.
  Qed.

  Lemma start_flat ws ip : flat_registry (cx_registry (start_context ws ip)).
  Proof. destruct (start_fields ws ip) as (-> & _). intros k s. discriminate. Qed.

  (** ** Nothing runs out of fuel *)
  Lemma resolve_ends dirs src name dir ip c res :
    parse_and_resolve dirs src name dir ip = (c, res) -> res <> Err OutOfFuel.
  Proof.
    intro E. apply resolve_run in E. destruct E as [(e & _ & _ & ->)|(f & items & ws & Ep & Hf & _ & [(e & Er & ->)|(_ & _ & ->)])]; try discriminate.
    intro Hx. injection Hx as ->. eapply process_ends; [exact Hf|apply start_flat|apply remaining_max|exact Er|reflexivity].
  Qed.
  Lemma compile_ends dirs src name dir ip res ws : compile dirs src name dir ip = (res, ws) -> res <> Err OutOfFuel.
  Proof.
    unfold compile. destruct (parse_and_resolve dirs src name dir ip) as [c [file|e]] eqn:E.
    - destruct (Refs.validate_all_references _ _ _ _); intro Hx; injection Hx as <- <-; discriminate.
    - intro Hx. injection Hx as <- <-. intro Hy. injection Hy as ->. exact (resolve_ends _ _ _ _ _ _ _ E eq_refl).
  Qed.
  Lemma compile_file_ends p b b' res : compile_file p b = (b', res) -> res <> Err OutOfFuel.
  Proof.
    unfold compile_file. destruct (fs_read p) as [src|]; [|intro Hx; injection Hx as <- <-; discriminate]. cbv zeta.
    destruct (compile _ _ _ _ _) as [r ws] eqn:E. intro Hx. injection Hx as <- <-. exact (compile_ends _ _ _ _ _ _ _ E).
  Qed.
  Lemma compile_str_ends s n b b' res : compile_str s n b = (b', res) -> res <> Err OutOfFuel.
  Proof.
    unfold compile_str. destruct fs_cwd; [|intro Hx; injection Hx as <- <-; discriminate].
    destruct (compile _ _ _ _ _) as [r ws] eqn:E. intro Hx. injection Hx as <- <-. exact (compile_ends _ _ _ _ _ _ _ E).
  Qed.
  Lemma convert_impl_ends o b b' res : convert_impl o b = (b', res) -> res <> Err OutOfFuel.
  Proof.
    unfold convert_impl. destruct (co_file o) as [p|s|l].
    - destruct (protocol_to_json_total p) as [j ->]. intro Hx. injection Hx as <- <-. discriminate.
    - 
      destruct (ser_total (build_lookup (reg_schemas (co_registry o)) None)
                  (fun k t => table_named_assoc _ k t (build_lookup_named (reg_schemas (co_registry o)) None)) s None [])
        as (j & k & E & _). rewrite E. intro Hx. injection Hx as <- <-. discriminate.
    - intro Hx. injection Hx as <- <-. discriminate.
  Qed.
  Lemma convert_ends p b b' res : convert p b = (b', res) -> res <> Err OutOfFuel.
  Proof.
    unfold convert. destruct (compile_file p b) as [b1 [o|e]] eqn:E; [apply convert_impl_ends|].
    intro Hx. injection Hx as <- <-. intro Hy. injection Hy as ->. exact (compile_file_ends _ _ _ _ E eq_refl).
  Qed.
  Lemma convert_str_ends s n b b' res : convert_str s n b = (b', res) -> res <> Err OutOfFuel.
  Proof.
    unfold convert_str. destruct (compile_str s n b) as [b1 [o|e]] eqn:E; [apply convert_impl_ends|].
    intro Hx. injection Hx as <- <-. intro Hy. injection Hy as ->. exact (compile_str_ends _ _ _ _ _ E eq_refl).
  Qed.
  Lemma extract_schemas_total types l : exists r, extract_schemas (build_lookup types None) l = Some r.
  Proof.
    induction l as [|s l [r IH]]; cbn [extract_schemas]; [eauto|]. destruct (schema_name s); [|eauto].
    destruct (ser_total (build_lookup types None) (fun k t => table_named_assoc _ k t (build_lookup_named types None)) s None [])
      as (j & k & E & _). rewrite E, IH. eauto.
  Qed.
  Lemma extract_impl_total o : exists r, extract_impl o = Ok (mkSchemata r (co_warnings o)).
  Proof. unfold extract_impl. cbv zeta. destruct (extract_schemas_total (reg_schemas (co_registry o)) (reg_schemas (co_registry o))) as [r ->]. eauto. Qed.
  Lemma extract_file_ends p b b' res : extract_file p b = (b', res) -> res <> Err OutOfFuel.
  Proof.
    unfold extract_file. destruct (compile_file p b) as [b1 [o|e]] eqn:E.
    - destruct (extract_impl_total o) as [r ->]. intro Hx. injection Hx as <- <-. discriminate.
    - intro Hx. injection Hx as <- <-. intro Hy. injection Hy as ->. exact (compile_file_ends _ _ _ _ E eq_refl).
  Qed.
  Lemma extract_str_ends s n b b' res : extract_str s n b = (b', res) -> res <> Err OutOfFuel.
  Proof.
    unfold extract_str. destruct (compile_str s n b) as [b1 [o|e]] eqn:E.
    - destruct (extract_impl_total o) as [r ->]. intro Hx. injection Hx as <- <-. discriminate.
    - intro Hx. injection Hx as <- <-. intro Hy. injection Hy as ->. exact (compile_str_ends _ _ _ _ _ E eq_refl).
  Qed.
  Lemma extract_all_ends ps acc b b' res : extract_all ps acc b = (b', res) -> res <> Err OutOfFuel.
  Proof.
    revert acc b. induction ps as [|p ps IH]; intros acc b; cbn; [intro Hx; injection Hx as <- <-; discriminate|].
    destruct (extract_file p b) as [b1 [o|e]] eqn:E; [apply IH|].
    intro Hx. injection Hx as <- <-. intro Hy. injection Hy as ->. exact (extract_file_ends _ _ _ _ E eq_refl).
  Qed.
  Lemma extract_ends p b b' res : extract p b = (b', res) -> res <> Err OutOfFuel.
  Proof. unfold extract. destruct (fs_is_dir p); [apply extract_all_ends|apply extract_file_ends]. Qed.

  (** ** Loads *)
  Lemma resolve_loads dirs src name dir ip c res : parse_and_resolve dirs src name dir ip = (c, res) ->
    NoDup (map snd (cx_loads c)) /\ forall p, ip = Some p -> ~ In p (map snd (cx_loads c)).
  Proof.
    intro E. apply resolve_run in E. destruct E as [(e & _ & -> & _)|(f & items & ws & Ep & Hf & Hs & _)].
    - cbn. split; [constructor|tauto].
    - destruct (start_fields ws ip) as (_ & _ & El & _ & Ei). destruct (steps_loads _ _ _ Hs) as (new & En & Hn & Hx & _).
      rewrite El in En. cbn in En. rewrite En. split; [exact Hn|]. intros p Hp Hi. apply (Hx p Hi). now apply Ei.
  Qed.
  Lemma compile_loads dirs src name dir ip o ws' file items ws : compile dirs src name dir ip = (Ok o, ws') ->
    parse_idl name src = Ok (file, items, ws) ->
    (forall k p, In (k, p) (co_loads o) -> reachable dirs dir items k p) /\
    (forall d its k nm sp, source dir items (co_loads o) d its -> In (DImport k nm sp) its ->
       exists p, found_in (d :: dirs) nm p /\ (In p (map snd (co_loads o)) \/ ip = Some p)).
  Proof.
    intros Hc Ep. apply compile_ok in Hc. destruct Hc as (f & its0 & w & c & Ep' & Hf & _ & Hh & -> & _ & _).
    rewrite Ep in Ep'. injection Ep' as <- <- <-. cbn [co_loads].
    destruct (start_fields ws ip) as (Er0 & Em0 & El0 & Ew0 & Ei0). split.
    - intros k p Hi. destruct (handled_reachable dirs dir items dir items _ _ Hh (fun k' n' sp' p' A B => re_input dirs dir items k' n' sp' p' A B) k p Hi) as [Hx|Hx]; [|exact Hx].
      rewrite El0 in Hx. contradiction.
    - destruct (handled_settled _ _ _ _ _ Hf Hh) as (A & _ & C).
      destruct (steps_loads _ _ _ (handled_steps _ _ _ _ _ Hf Hh)) as (new & En & _ & _ & Him). rewrite El0 in En. cbn in En.
      assert (Hfin : forall p, In p (cx_imported c) -> In p (map snd (cx_loads c)) \/ ip = Some p).
      { intros p Hp. apply Him in Hp. rewrite En. destruct Hp as [Hp|Hp]; [right; now apply Ei0|now left]. }
      intros d its k nm sp Hso Hi. destruct Hso as [|q fl itq wq Hl Hcq].
      + destruct (A k nm sp Hi) as (p & Hfo & Hp). eauto.
      + destruct (C _ Hl) as [Hx|Hx]; [rewrite El0 in Hx; contradiction|]. destruct Hx as (f' & i' & w' & Hc' & Hse & _). cbn in Hc', Hse.
        destruct (idl_content_fun _ _ _ _ _ _ _ Hc' Hcq) as (_ & -> & _). destruct (Hse k nm sp Hi) as (p & Hfo & Hp). eauto.
  Qed.

  (** ** Types *)
  Lemma steps_registrable dirs a b : steps dirs a b ->
    Forall (fun kv => registrable (snd kv) (fst kv)) (cx_registry a) -> Forall (fun kv => registrable (snd kv) (fst kv)) (cx_registry b).
  Proof.
    induction 1 as [|a b d Hs _ IH]; intro G; [exact G|]. apply IH.
    inversion Hs as [s r c1 Hr Hfl|k name dir p c1 l ms js Hk Hfo Hni Hl|name dir p c1 Hfo Hni Hc|name dir p c1 file its ws0 Hfo Hni Hc]; subst; cbn; try exact G.
    - destruct (register_shape _ _ _ Hr) as (full & -> & Hg). apply Forall_app. split; [exact G|]. constructor; [exact Hg|constructor].
    - destruct (registry_after_shape (cx_registry a) l) as (nw & -> & _ & Hg). apply Forall_app. split; assumption.
  Qed.
  Lemma compile_types dirs src name dir ip o ws' file items ws : compile dirs src name dir ip = (Ok o, ws') ->
    parse_idl name src = Ok (file, items, ws) ->
    (forall d its, source dir items (co_loads o) d its -> sublist (type_items its) (reg_schemas (co_registry o))) /\
    (forall s full, declared_in_files dir items (co_loads o) s -> registrable s full -> In full (reg_names (co_registry o))) /\
    (forall s, In s (reg_schemas (co_registry o)) -> declared_in_files dir items (co_loads o) s).
  Proof.
    intros Hc Ep. apply compile_ok in Hc. destruct Hc as (f & its0 & w & c & Ep' & Hf & _ & Hh & -> & _ & _).
    rewrite Ep in Ep'. injection Ep' as <- <- <-. cbn [co_loads co_registry].
    destruct (start_fields ws ip) as (Er0 & Em0 & El0 & Ew0 & Ei0).
    destruct (handled_settled _ _ _ _ _ Hf Hh) as (A & (new & Enew & B) & C). rewrite Er0 in Enew. cbn in Enew. subst new.
    assert (C' : forall kp, In kp (cx_loads c) -> load_settled dirs kp c).
    { intros kp Hkp. destruct (C kp Hkp) as [Hx|Hx]; [rewrite El0 in Hx; contradiction|exact Hx]. }
    assert (S1 : forall d its, source dir items (cx_loads c) d its -> sublist (type_items its) (reg_schemas (cx_registry c))).
    { intros d its Hso. destruct Hso as [|q fl itq wq Hl Hcq]; [exact B|].
      destruct (C' _ Hl) as (f' & i' & w' & Hc' & _ & (bf & af & E & Hsub)). cbn in Hc'.
      destruct (idl_content_fun _ _ _ _ _ _ _ Hc' Hcq) as (_ & -> & _). rewrite E. unfold reg_schemas. rewrite map_app.
      clear -Hsub. induction bf as [|x bf IH]; [exact Hsub|]. now apply sub_skip. }
    split; [exact S1|]. split.
    - intros s full Hd Hr. destruct Hd as [d its sp fs Hso Hi|q j t Hl Hj Ht Hi|q j tj t types Hl Hj Hty Htj Ht Hi].
      + specialize (S1 d its Hso). assert (Hin : In s (reg_schemas (cx_registry c))).
        { assert (Hs : In s (type_items its)) by (unfold type_items; apply in_flat_map; exists (DType s sp fs); cbn; auto).
          clear -S1 Hs. induction S1; cbn in *; [contradiction|auto|]. destruct Hs; auto. }
        (* a registered schema is registered under its own name *)
        assert (Hall : Forall (fun kv => registrable (snd kv) (fst kv)) (cx_registry c)).
        { apply (steps_registrable _ _ _ (handled_steps _ _ _ _ _ Hf Hh)). rewrite Er0. constructor. }
        unfold reg_schemas in Hin. apply in_map_iff in Hin. destruct Hin as ([k s'] & <- & Hin). rewrite Forall_forall in Hall.
        specialize (Hall _ Hin). cbn in Hall. rewrite (registrable_fun _ _ _ Hr Hall). unfold reg_names. apply in_map_iff. exists (k, s'). auto.
      + destruct (C' _ Hl) as (j' & t' & Hj' & Ht' & Hx). cbn in Hj'. destruct Hj as (x & X1 & X2), Hj' as (y & Y1 & Y2).
        rewrite X1 in Y1. injection Y1 as <-. rewrite X2 in Y2. injection Y2 as <-. rewrite Ht in Ht'. injection Ht' as <-. exact (Hx s full Hi Hr).
      + destruct (C' _ Hl) as (j' & Hj' & Hx). cbn in Hj'. destruct Hj as (x & X1 & X2), Hj' as (y & Y1 & Y2).
        rewrite X1 in Y1. injection Y1 as <-. rewrite X2 in Y2. injection Y2 as <-.
        destruct (Hx types tj Hty Htj) as (t' & Ht' & Hxx). rewrite Ht in Ht'. injection Ht' as <-. exact (Hxx s full Hi Hr).
    - intros s Hs. destruct (handled_declared dirs dir items (cx_loads c) dir items _ _ Hf Hh (so_input dir items (cx_loads c)) (fun kp Hkp => Hkp) s Hs) as [Hx|Hx]; [|exact Hx].
      rewrite Er0 in Hx. contradiction.
  Qed.

  (** ** Messages *)
  Lemma assoc_rev {A} n (l : list (string * A)) : NoDup (keys l) -> assoc n (rev l) = assoc n l.
  Proof.
    induction l as [|[k v] l IH]; [reflexivity|]. cbn. intro Hn. inversion Hn as [|x xs Hx Hxs]; subst. rewrite assoc_app, (IH Hxs). cbn.
    destruct (String.eqb n k) eqn:E; [|now destruct (assoc n l)]. apply String.eqb_eq in E. subst.
    assert (assoc k l = None) as -> by (now apply assoc_None). reflexivity.
  Qed.
  Lemma parse_idl_messages label src p items ws : parse_idl label src = Ok (IProtocol p, items, ws) -> NoDup (keys (p_messages p)).
  Proof.
    unfold parse_idl. destruct (antlr_parse _ _) as [pr|]; [|discriminate]. destruct (walk_idl_file _ _) as [[[f its] evs]|[? ?]] eqn:E; [|discriminate].
    intro Hx. injection Hx as -> <- <-. destruct (pr_tree pr) as [start l ident body|ns main body]; cbn [walk_idl_file] in E.
    - apply wbind_ok in E. destruct E as (doc & l1 & l2 & _ & E & _). apply wbind_ok in E. destruct E as (props & l3 & l4 & _ & E & _). cbv zeta in E.
      destruct (is_invalid_type_name _); [discriminate|]. apply wbind_ok in E. destruct E as (bd & l5 & l6 & _ & E & _).
      unfold wret in E. injection E as <- _ _. cbn [p_messages]. change (fold_left (fun m nm => hm_insert (fst nm) (snd nm) m) (snd bd) []) with (hm_extend [] (snd bd)).
      apply hm_extend_NoDup. constructor.
    - cbv zeta in E. apply wbind_ok in E. destruct E as (bd & l5 & l6 & _ & E & _). destruct main.
      + apply wbind_ok in E. destruct E as (sc & l1 & l2 & _ & E & _). discriminate.
      + discriminate.
  Qed.
  Lemma compile_messages dirs src name dir ip o ws' p p' items ws : compile dirs src name dir ip = (Ok o, ws') ->
    parse_idl name src = Ok (IProtocol p, items, ws) -> co_file o = IProtocol p' ->
    exists tables, Forall2 load_messages (co_loads o) tables /\
      forall n m, assoc n (p_messages p') = Some m <->
        assoc n (p_messages p) = Some m \/ (~ In n (keys (p_messages p)) /\ last_declared tables n m).
  Proof.
    intros Hc Ep Ho. apply compile_ok in Hc. destruct Hc as (f & its0 & w & c & Ep' & Hf & _ & Hh & -> & _ & _).
    rewrite Ep in Ep'. injection Ep' as <- <- <-. cbn [co_loads co_file finish_file] in *. injection Ho as <-. cbn [p_messages].
    destruct (start_fields ws ip) as (Er0 & Em0 & El0 & Ew0 & Ei0).
    destruct (handled_messages _ _ _ _ _ Hh) as (new & tables & E1 & Hft & E2). rewrite El0 in E1. cbn in E1. rewrite E1. exists tables. split; [exact Hft|].
    intros n m. rewrite assoc_hm_extend, E2, Em0, (assoc_rev n _ (parse_idl_messages _ _ _ _ _ Ep)).
    destruct (assoc n (p_messages p)) as [v|] eqn:Ea.
    - split; [auto|]. intros [E|[Hn _]]; [exact E|]. exfalso. apply Hn. now apply assoc_Some_In_keys in Ea.
    - apply assoc_None in Ea. rewrite extends_last. cbn. split.
      + intros [Hl|[_ E]]; [auto|discriminate].
      + intros [E|[_ Hl]]; [discriminate|auto].
  Qed.

  (** ** Warnings *)
  Lemma resolve_warnings dirs src name dir ip c res : parse_and_resolve dirs src name dir ip = (c, res) ->
    exists wss, Forall2 load_warnings (cx_loads c) wss /\
      ((exists e, parse_idl name src = Err e /\ cx_warnings c = []) \/
       exists file items ws, parse_idl name src = Ok (file, items, ws) /\ cx_warnings c = map (mkReport None) ws ++ concat wss).
  Proof.
    intro E. apply resolve_run in E. destruct E as [(e & Ep & -> & _)|(f & items & ws & Ep & Hf & Hs & _)].
    - exists []. split; [constructor|]. left. eauto.
    - destruct (start_fields ws ip) as (_ & _ & El & Ew & _). destruct (steps_warnings _ _ _ Hs) as (new & wss & E1 & E2 & Hw).
      rewrite El in E1. cbn in E1. rewrite Ew in E2. exists wss. rewrite E1. split; [exact Hw|]. right. exists f, items, ws. auto.
  Qed.
  Lemma compile_warnings dirs src name dir ip res ws : compile dirs src name dir ip = (res, ws) ->
    exists c res', parse_and_resolve dirs src name dir ip = (c, res') /\
      match res with Ok o => co_warnings o = cx_warnings c /\ ws = [] | Err _ => ws = cx_warnings c end.
  Proof.
    unfold compile. destruct (parse_and_resolve dirs src name dir ip) as [c [file|e]].
    - destruct (Refs.validate_all_references _ _ _ _); intro Hx; injection Hx as <- <-; exists c; eauto.
    - intro Hx. injection Hx as <- <-. eauto.
  Qed.

  (** ** Reuse *)
  Lemma compile_file_dirs p b : b_import_dirs (fst (compile_file p b)) = b_import_dirs b.
  Proof. unfold compile_file. destruct (fs_read p); [|reflexivity]. cbv zeta. now destruct (compile _ _ _ _ _). Qed.
  Lemma compile_str_dirs s n b : b_import_dirs (fst (compile_str s n b)) = b_import_dirs b.
  Proof. unfold compile_str. destruct fs_cwd; [|reflexivity]. now destruct (compile _ _ _ _ _). Qed.
  Lemma convert_impl_dirs o b : b_import_dirs (fst (convert_impl o b)) = b_import_dirs b.
  Proof.
    unfold convert_impl. destruct (co_file o); [destruct (protocol_to_json _)| |]; try reflexivity.
    destruct (schema_to_json _ _ _ _) as [[]|]; reflexivity.
  Qed.
  Lemma convert_dirs p b : b_import_dirs (fst (convert p b)) = b_import_dirs b.
  Proof.
    unfold convert. rewrite <- (compile_file_dirs p b). destruct (compile_file p b) as [b1 [o|e]]; [apply convert_impl_dirs|reflexivity].
  Qed.
  Lemma convert_str_dirs s n b : b_import_dirs (fst (convert_str s n b)) = b_import_dirs b.
  Proof.
    unfold convert_str. rewrite <- (compile_str_dirs s n b). destruct (compile_str s n b) as [b1 [o|e]]; [apply convert_impl_dirs|reflexivity].
  Qed.
  Lemma extract_file_dirs p b : b_import_dirs (fst (extract_file p b)) = b_import_dirs b.
  Proof. unfold extract_file. rewrite <- (compile_file_dirs p b). now destruct (compile_file p b) as [b1 [o|e]]. Qed.
  Lemma extract_str_dirs s n b : b_import_dirs (fst (extract_str s n b)) = b_import_dirs b.
  Proof. unfold extract_str. rewrite <- (compile_str_dirs s n b). now destruct (compile_str s n b) as [b1 [o|e]]. Qed.
  Lemma extract_all_dirs ps acc b : b_import_dirs (fst (extract_all ps acc b)) = b_import_dirs b.
  Proof.
    revert acc b. induction ps as [|p ps IH]; intros acc b; [reflexivity|]. cbn. rewrite <- (extract_file_dirs p b).
    destruct (extract_file p b) as [b1 [o|e]]; [apply IH|reflexivity].
  Qed.
  Lemma extract_dirs p b : b_import_dirs (fst (extract p b)) = b_import_dirs b.
  Proof. unfold extract. destruct (fs_is_dir p); [apply extract_all_dirs|apply extract_file_dirs]. Qed.

  Lemma compile_file_same p b b' : b_import_dirs b = b_import_dirs b' -> snd (compile_file p b) = snd (compile_file p b').
  Proof. intro E. unfold compile_file. destruct (fs_read p); [|reflexivity]. cbv zeta. rewrite E. now destruct (compile _ _ _ _ _). Qed.
  Lemma compile_str_same s n b b' : b_import_dirs b = b_import_dirs b' -> snd (compile_str s n b) = snd (compile_str s n b').
  Proof. intro E. unfold compile_str. destruct fs_cwd; [|reflexivity]. rewrite E. now destruct (compile _ _ _ _ _). Qed.
  Lemma convert_impl_same o b b' : snd (convert_impl o b) = snd (convert_impl o b').
  Proof.
    unfold convert_impl. destruct (co_file o); [destruct (protocol_to_json _)| |]; try reflexivity.
    destruct (schema_to_json _ _ _ _) as [[]|]; reflexivity.
  Qed.
  Lemma convert_same p b b' : b_import_dirs b = b_import_dirs b' -> snd (convert p b) = snd (convert p b').
  Proof.
    intro E. pose proof (compile_file_same p b b' E) as Es. unfold convert.
    destruct (compile_file p b) as [b1 [o|e]], (compile_file p b') as [b2 [o'|e']]; cbn in Es; try discriminate; injection Es as ->; [apply convert_impl_same|reflexivity].
  Qed.
  Lemma convert_str_same s n b b' : b_import_dirs b = b_import_dirs b' -> snd (convert_str s n b) = snd (convert_str s n b').
  Proof.
    intro E. pose proof (compile_str_same s n b b' E) as Es. unfold convert_str.
    destruct (compile_str s n b) as [b1 [o|e]], (compile_str s n b') as [b2 [o'|e']]; cbn in Es; try discriminate; injection Es as ->; [apply convert_impl_same|reflexivity].
  Qed.
  Lemma extract_file_same p b b' : b_import_dirs b = b_import_dirs b' -> snd (extract_file p b) = snd (extract_file p b').
  Proof.
    intro E. pose proof (compile_file_same p b b' E) as Es. unfold extract_file.
    destruct (compile_file p b) as [b1 [o|e]], (compile_file p b') as [b2 [o'|e']]; cbn in Es; try discriminate; injection Es as ->; reflexivity.
  Qed.
  Lemma extract_str_same s n b b' : b_import_dirs b = b_import_dirs b' -> snd (extract_str s n b) = snd (extract_str s n b').
  Proof.
    intro E. pose proof (compile_str_same s n b b' E) as Es. unfold extract_str.
    destruct (compile_str s n b) as [b1 [o|e]], (compile_str s n b') as [b2 [o'|e']]; cbn in Es; try discriminate; injection Es as ->; reflexivity.
  Qed.
  Lemma extract_all_same ps acc b b' : b_import_dirs b = b_import_dirs b' -> snd (extract_all ps acc b) = snd (extract_all ps acc b').
  Proof.
    revert acc b b'. induction ps as [|p ps IH]; intros acc b b' E; [reflexivity|]. cbn.
    pose proof (extract_file_same p b b' E) as Es. pose proof (extract_file_dirs p b) as E1. pose proof (extract_file_dirs p b') as E2.
    destruct (extract_file p b) as [b1 [o|e]], (extract_file p b') as [b2 [o'|e']]; cbn in Es, E1, E2; try discriminate; injection Es as ->; [|reflexivity].
    apply IH. congruence.
  Qed.
  Lemma extract_same p b b' : b_import_dirs b = b_import_dirs b' -> snd (extract p b) = snd (extract p b').
  Proof. intro E. unfold extract. destruct (fs_is_dir p); [now apply extract_all_same|now apply extract_file_same]. Qed.

  Lemma used_dirs calls : b_import_dirs (used calls) = dirs_of calls.
  Proof.
    unfold used. enough (G : forall b, b_import_dirs (fold_left after_call calls b) = b_import_dirs b ++ dirs_of calls) by apply G.
    induction calls as [|c calls IH]; intro b; cbn [fold_left dirs_of flat_map]; [now rewrite app_nil_r|].
    rewrite IH. unfold dirs_of. destruct c; cbn [after_call app]; rewrite ?convert_dirs, ?convert_str_dirs, ?extract_dirs, ?extract_str_dirs; try reflexivity.
    cbn. now rewrite <- app_assoc.
  Qed.
  Lemma fresh_builder dirs : fresh dirs = mkBuilder dirs [].
  Proof.
    unfold fresh. enough (G : forall l, fold_left (fun b d => import_dir d b) dirs (mkBuilder l []) = mkBuilder (l ++ dirs) []) by apply (G []).
    induction dirs as [|d dirs IH]; intro l; cbn [fold_left]; [now rewrite app_nil_r|]. unfold import_dir at 2. cbn. rewrite IH, <- app_assoc. reflexivity.
  Qed.

  (** ** Directories *)
  Lemma Forall2_weaken {A B} (P Q : A -> B -> Prop) l l' : (forall x y, P x y -> Q x y) -> Forall2 P l l' -> Forall2 Q l l'.
  Proof. intro Hi. induction 1; constructor; auto. Qed.
  Lemma extract_all_ok ps acc b o : snd (extract_all ps acc b) = Ok o <->
    exists os, Forall2 (fun p x => snd (extract_file p b) = Ok x) ps os /\
      o = mkSchemata (so_schemas acc ++ flat_map so_schemas os) (so_warnings acc ++ flat_map so_warnings os).
  Proof.
    revert acc b. induction ps as [|p ps IH]; intros acc b; cbn [extract_all].
    - split.
      + intro E. injection E as <-. exists []. split; [constructor|]. cbn. rewrite !app_nil_r. now destruct acc.
      + intros (os & Hf & ->). inversion Hf; subst. cbn. rewrite !app_nil_r. now destruct acc.
    - destruct (extract_file p b) as [b1 [o1|e]] eqn:E1.
      + assert (Hd : b_import_dirs b1 = b_import_dirs b) by (rewrite <- (extract_file_dirs p b), E1; reflexivity).
        rewrite IH. split; intros (os & Hf & ->).
        * exists (o1 :: os). cbn. rewrite <- !app_assoc. split; [|reflexivity]. constructor; [now rewrite E1|].
          eapply Forall2_weaken; [|exact Hf]. intros q x Hx. rewrite <- Hx. apply extract_file_same. now symmetry.
        * inversion Hf as [|q x l l' Hx Hf']; subst. rewrite E1 in Hx. injection Hx as <-. exists l'. cbn. rewrite <- !app_assoc. split; [|reflexivity].
          eapply Forall2_weaken; [|exact Hf']. intros q y Hy. rewrite <- Hy. now apply extract_file_same.
      + cbn [snd]. split; [discriminate|]. intros (os & Hf & _). inversion Hf as [|q x l l' Hx Hf']; subst. rewrite E1 in Hx. discriminate.
  Qed.
  Lemma extract_all_err ps acc b e : snd (extract_all ps acc b) = Err e <->
    exists before p after, ps = before ++ p :: after /\ (forall q, In q before -> exists x, snd (extract_file q b) = Ok x) /\
      snd (extract_file p b) = Err e.
  Proof.
    revert acc b. induction ps as [|p ps IH]; intros acc b; cbn [extract_all].
    - split; [discriminate|]. intros (l & q & a & E & _). destruct l; discriminate.
    - destruct (extract_file p b) as [b1 [o1|e1]] eqn:E1.
      + assert (Hd : b_import_dirs b1 = b_import_dirs b) by (rewrite <- (extract_file_dirs p b), E1; reflexivity).
        rewrite IH. split.
        * intros (l & q & a & -> & Hl & Hq). exists (p :: l), q, a. split; [reflexivity|]. split.
          -- intros r [<-|Hr]; [exists o1; now rewrite E1|]. destruct (Hl r Hr) as (x & Hx). exists x. rewrite <- Hx. apply extract_file_same. now symmetry.
          -- rewrite <- Hq. apply extract_file_same. now symmetry.
        * intros (l & q & a & E & Hl & Hq). destruct l as [|r l]; injection E as <- ->; [rewrite E1 in Hq; discriminate|].
          exists l, q, a. split; [reflexivity|]. split.
          -- intros r' Hr. destruct (Hl r' (or_intror Hr)) as (x & Hx). exists x. rewrite <- Hx. now apply extract_file_same.
          -- rewrite <- Hq. now apply extract_file_same.
      + cbn [snd]. split.
        * intro E. injection E as <-. exists [], p, ps. split; [reflexivity|]. split; [intros q []|]. now rewrite E1.
        * intros (l & q & a & E & Hl & Hq). destruct l as [|r l]; injection E as <- ->; [rewrite E1 in Hq; exact Hq|].
          destruct (Hl p (or_introl eq_refl)) as (x & Hx). rewrite E1 in Hx. discriminate.
  Qed.
End World.

(** Sorting *)
Section Sort.
  Context {A : Type}.
  Implicit Types l : list (string * A).
  Lemma insert_perm x l : Permutation (insert_by_name x l) (x :: l).
  Proof.
    induction l as [|y l IH]; cbn; [reflexivity|]. destruct (String.compare (fst x) (fst y)); try reflexivity.
    etransitivity; [apply perm_skip, IH|apply perm_swap].
  Qed.
  Lemma sort_perm l : Permutation (sort_by_name l) l.
  Proof. induction l as [|x l IH]; cbn; [reflexivity|]. etransitivity; [apply insert_perm|now apply perm_skip]. Qed.
  Definition name_lt (x y : string * A) : Prop := str_lt (fst x) (fst y).
  Lemma insert_sorted x l : ~ In (fst x) (map fst l) -> StronglySorted name_lt l -> StronglySorted name_lt (insert_by_name x l).
  Proof.
    intros Hn Hs. induction Hs as [|y l Hl IH Hy]; cbn; [repeat constructor|].
    destruct (String.compare (fst x) (fst y)) eqn:E.
    - apply BaseProofs.compare_eq in E. exfalso. apply Hn. left. now symmetry.
    - constructor; [now constructor|]. constructor; [exact E|]. eapply Forall_impl; [|exact Hy]. intros z Hz. exact (str_lt_trans _ _ _ E Hz).
    - constructor; [apply IH; intro Hi; apply Hn; now right|]. apply Forall_forall. intros z Hz.
      apply (Permutation_in _ (insert_perm x l)) in Hz. destruct Hz as [<-|Hz]; [|rewrite Forall_forall in Hy; now apply Hy].
      exact (compare_gt_lt _ _ E).
  Qed.
  Lemma sort_sorted l : NoDup (map fst l) -> StronglySorted name_lt (sort_by_name l).
  Proof.
    induction l as [|x l IH]; cbn; intro Hn; [constructor|]. inversion Hn as [|a b Ha Hb]; subst. apply insert_sorted; [|now apply IH].
    intro Hi. apply Ha. eapply Permutation_in; [apply Permutation_map, sort_perm|exact Hi].
  Qed.
  Lemma sorted_unique l l' : StronglySorted name_lt l -> StronglySorted name_lt l' -> Permutation l l' -> l = l'.
  Proof.
    intro Hs. revert l'. induction Hs as [|x l Hl IH Hx]; intros l' Hs' Hp.
    - apply Permutation_nil in Hp. now subst.
    - destruct Hs' as [|y l' Hl' Hy]; [apply Permutation_sym, Permutation_nil in Hp; discriminate|].
      assert (x = y) as <-.
      { rewrite Forall_forall in Hx, Hy. assert (Hxi : In x (y :: l')) by (eapply Permutation_in; [exact Hp|now left]).
        assert (Hyi : In y (x :: l)) by (eapply Permutation_in; [apply Permutation_sym; exact Hp|now left]).
        destruct Hxi as [E|Hxi]; [now symmetry|]. destruct Hyi as [E|Hyi]; [exact E|].
        exfalso. exact (str_lt_irrefl _ (str_lt_trans _ _ _ (Hx _ Hyi) (Hy _ Hxi))). }
      f_equal. apply IH; [exact Hl'|]. exact (Permutation_cons_inv Hp).
  Qed.
  Lemma sort_by_name_perm l l' : NoDup (map fst l) -> Permutation l l' -> sort_by_name l = sort_by_name l'.
  Proof.
    intros Hn Hp. apply sorted_unique.
    - now apply sort_sorted.
    - apply sort_sorted. eapply Permutation_NoDup; [apply Permutation_map; exact Hp|exact Hn].
    - rewrite (sort_perm l), (sort_perm l'). exact Hp.
  Qed.
End Sort.

(** The order in which a directory lists its entries does not matter. *)
Section Listing.
  Context `{FileSystem}.
  Fixpoint dir_entry_size (e : dir_entry) : nat :=
    match e with FileEntry _ => 1 | DirEntry _ l => S (fold_right (fun e n => dir_entry_size e + n) 0 l) end.
  Lemma relisted_name e e' : relisted e e' -> dir_entry_name e = dir_entry_name e'.
  Proof. now destruct 1. Qed.
  Lemma relisted_names l l' : Forall2 relisted l l' -> map dir_entry_name l = map dir_entry_name l'.
  Proof. induction 1 as [|x y l l' Hx _ IH]; cbn; [reflexivity|]. now rewrite IH, (relisted_name _ _ Hx). Qed.
  Lemma listing_content path l l' l'' :
    (forall e e', In e l -> proper e -> relisted e e' -> walk_entry path e = walk_entry path e') ->
    Forall proper l -> NoDup (map dir_entry_name l) -> Forall2 relisted l l' -> Permutation l' l'' ->
    sort_by_name (map (fun c => (dir_entry_name c, walk_entry path c)) l) = sort_by_name (map (fun c => (dir_entry_name c, walk_entry path c)) l'').
  Proof.
    intros IH Hp Hn Hf Hpe.
    assert (E : map (fun c => (dir_entry_name c, walk_entry path c)) l = map (fun c => (dir_entry_name c, walk_entry path c)) l').
    { clear Hn Hpe. induction Hf as [|x y l l' Hx Hf IHf]; cbn; [reflexivity|]. inversion Hp as [|? ? Hp1 Hp2]; subst.
      rewrite IHf; [|intros e e' He; apply IH; now right|exact Hp2]. now rewrite (relisted_name _ _ Hx), (IH x y (or_introl eq_refl) Hp1 Hx). }
    rewrite E. apply sort_by_name_perm; [|now apply Permutation_map].
    rewrite map_map. change (NoDup (map dir_entry_name l')). now rewrite <- (relisted_names _ _ Hf).
  Qed.
  Lemma walk_entry_listing n : forall path e e', dir_entry_size e <= n -> proper e -> relisted e e' -> walk_entry path e = walk_entry path e'.
  Proof.
    induction n as [|n IH]; intros path e e' Hs Hp Hr; [destruct e; cbn in Hs; lia|].
    destruct Hr as [m|m l l' l'' Hf Hpe]; [reflexivity|]. inversion Hp as [|m' l0 Hpl Hnd]; subst. cbn [walk_entry]. do 2 f_equal.
    apply (listing_content _ l l' l''); try assumption. intros e e' He. apply IH.
    cbn in Hs. assert (dir_entry_size e <= fold_right (fun e n => dir_entry_size e + n) 0 l); [|lia].
    clear -He. induction l as [|x l IHl]; [contradiction|]. cbn. destruct He as [->|He]; [lia|]. specialize (IHl He). lia.
  Qed.

  (** [walk_entry] lists what it should. *)
  Lemma each_in path l lls : Forall2 (listing path) l lls -> each path l lls.
  Proof. induction 1; constructor; assumption. Qed.
  Lemma sort_map {A B} (f : A -> B) (l : list (string * A)) :
    sort_by_name (map (fun x => (fst x, f (snd x))) l) = map (fun x => (fst x, f (snd x))) (sort_by_name l).
  Proof.
    assert (I : forall x r, insert_by_name (fst x, f (snd x)) (map (fun x => (fst x, f (snd x))) r) = map (fun x => (fst x, f (snd x))) (insert_by_name x r)).
    { intros x r. induction r as [|y r IH]; [reflexivity|]. cbn. destruct (String.compare (fst x) (fst y)); cbn; try reflexivity. now rewrite IH. }
    unfold sort_by_name. induction l as [|x l IH]; [reflexivity|]. cbn. now rewrite IH, I.
  Qed.
  Lemma content_listed path l :
    (forall e, In e l -> proper e -> listing path e (walk_entry path e)) -> Forall proper l -> NoDup (map dir_entry_name l) ->
    listings path l (flat_map snd (sort_by_name (map (fun c => (dir_entry_name c, walk_entry path c)) l))).
  Proof.
    intros IH Hp Hn. pose (tagged := map (fun e => (dir_entry_name e, e)) l).
    assert (E : map (fun c => (dir_entry_name c, walk_entry path c)) l = map (fun x => (fst x, walk_entry path (snd x))) tagged) by (unfold tagged; rewrite map_map; reflexivity).
    rewrite E, sort_map. rewrite flat_map_concat_map, map_map. cbn [snd].
    change (map (fun x : string * dir_entry => walk_entry path (snd x)) (sort_by_name tagged)) with (map (fun x => walk_entry path (snd x)) (sort_by_name tagged)).
    assert (Pt : Permutation (sort_by_name tagged) tagged) by apply sort_perm.
    assert (Ht : forall x, In x (sort_by_name tagged) -> fst x = dir_entry_name (snd x) /\ In (snd x) l).
    { intros x Hx. apply (Permutation_in _ Pt) in Hx. unfold tagged in Hx. apply in_map_iff in Hx. destruct Hx as (e & <- & He). auto. }
    apply (li_content path l (map snd (sort_by_name tagged))).
    - apply Permutation_sym. eapply Permutation_trans; [apply Permutation_map; exact Pt|]. unfold tagged. rewrite map_map, map_id. reflexivity.
    - assert (Hs : StronglySorted name_lt (sort_by_name tagged)).
      { apply sort_sorted. unfold tagged. rewrite map_map. exact Hn. }
      clear -Hs Ht. induction Hs as [|x r Hr IHs Hx]; cbn; constructor.
      + apply IHs. intros y Hy. apply Ht. now right.
      + rewrite Forall_map. rewrite Forall_forall in *. intros y Hy. specialize (Hx y Hy). unfold name_lt, str_lt in Hx.
        destruct (Ht x (or_introl eq_refl)) as [<- _]. destruct (Ht y (or_intror Hy)) as [<- _]. exact Hx.
    - clear -Ht IH Hp. rewrite Forall_forall in Hp. induction (sort_by_name tagged) as [|x r IHr]; cbn; constructor.
      + destruct (Ht x (or_introl eq_refl)) as [_ Hi]. apply IH; auto.
      + apply IHr. intros y Hy. apply Ht. now right.
  Qed.
  Lemma walk_entry_listed n : forall path e, dir_entry_size e <= n -> proper e -> listing path e (walk_entry path e).
  Proof.
    induction n as [|n IH]; intros path e Hs Hp; [destruct e; cbn in Hs; lia|].
    destruct Hp as [m|m l Hpl Hnd]; [constructor|]. cbn [walk_entry]. constructor. apply content_listed; auto. intros e He. apply IH.
    cbn in Hs. assert (dir_entry_size e <= fold_right (fun e n => dir_entry_size e + n) 0 l); [|lia].
    clear -He. induction l as [|x l IHl]; [contradiction|]. cbn. destruct He as [->|He]; [lia|]. specialize (IHl He). lia.
  Qed.
  Lemma walk_dir_listed path : proper (DirEntry "" (fs_content path)) ->
    exists ls, listings path (fs_content path) ls /\ walk_dir path = (path, match fs_file_name path with Some n => n | None => "" end) :: ls.
  Proof.
    intro Hp. inversion Hp as [|m l Hpl Hnd]; subst. eexists. split; [|reflexivity]. apply content_listed; auto.
    intros e He Hpe. exact (walk_entry_listed _ path e (le_n _) Hpe).
  Qed.
End Listing.

Lemma walk_entry_relist FS content path e : @walk_entry (relist FS content) path e = @walk_entry FS path e.
Proof. reflexivity. Qed.
Lemma walk_dir_relist FS content path : proper (DirEntry "" (@fs_content FS path)) ->
  relisted (DirEntry "" (@fs_content FS path)) (DirEntry "" (content path)) ->
  @walk_dir (relist FS content) path = @walk_dir FS path.
Proof.
  intros Hp Hr. unfold walk_dir. cbn [relist fs_file_name fs_content]. f_equal. f_equal. inversion Hr as [|n l l' l'' Hf Hpe]; subst. inversion Hp as [|m l0 Hpl Hnd]; subst.
  change (fun c => (dir_entry_name c, @walk_entry (relist FS content) path c)) with (fun c => (dir_entry_name c, @walk_entry FS path c)).
  symmetry. apply (listing_content path _ l' (content path)); auto. intros e e' He. apply (walk_entry_listing _ path e e' (le_n _)).
Qed.

(** Names of .avdl files *)
Lemma is_avdl_iff name : is_avdl name = true <-> avdl_name name.
Proof.
  unfold is_avdl, extension, avdl_name. split.
  - destruct (rsplit_once_dot name) as [[a b]|] eqn:E; [|discriminate]. apply rsplit_Some in E as [-> _].
    destruct a as [|c a]; [discriminate|]. cbn [str_is_empty]. intro Hb. apply String.eqb_eq in Hb. subst b. exists (String c a). split; [discriminate|reflexivity].
  - intros (stem & Hs & ->). assert (E : rsplit_once_dot (stem ++ ".avdl") = Some (stem, "avdl")) by (apply rsplit_Some; split; reflexivity).
    rewrite E. destruct stem as [|c stem]; [now elim Hs|]. reflexivity.
Qed.
