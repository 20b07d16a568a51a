(** Converting and extracting compared. *)
From Verif Require Import Base Json Schema Serialize Registry Compile SpecAgree BaseProofs MeaningProofs ProtocolProofs RegistryProofs BuildProofs SpecRefs RefsProofs CompileProofs CliProofs PipelineProofs.
From Coq Require Import Permutation.

Section Agree.
  Context `{Unicode} `{Floats} `{Parser} `{FileSystem} `{JsonParser}.

  Lemma definition_once types t s fd : NoDup (map type_name types) -> In t types -> In s types -> named_meaning t = Some fd -> type_name s = fst fd ->
    is_named s = true -> named_meaning s = Some fd.
  Proof.
    intros N Ht Hs E Ef _. assert (Et : type_name t = fst fd).
    { destruct t; cbn in E; try discriminate; injection E as <-; reflexivity. }
    enough (t = s) as -> by exact E. rewrite <- Ef in Et. clear -N Ht Hs Et.
    induction types as [|u us IH]; [contradiction|]. cbn in N. inversion N as [|? ? A B]; subst. destruct Ht as [->|Ht], Hs as [->|Hs]; auto.
    - exfalso. apply A. rewrite Et. now apply in_map.
    - exfalso. apply A. rewrite <- Et. now apply in_map.
  Qed.

  (** An extracted schema defines its type, and nothing but registered types *)
  Lemma extracted_document types s j k : sound types -> In s types -> schema_to_json s [] None (build_lookup types None) = Some (j, k) ->
    exists d defs, named_meaning s = Some (type_name s, d) /\ read_document (jdepth j) j = Some (TNamed (type_name s), defs) /\ In (type_name s, d) defs
      /\ forall fd, In fd defs -> In (Some fd) (map named_meaning types).
  Proof.
    intros S Hs Ej. destruct (document_faithful types s (sound_registry_ok _ S) (or_introl Hs)) as (j' & known & defs & Ej' & Hrd & Hn & Hd & Hrch).
    rewrite Ej in Ej'. injection Ej' as <- <-. pose proof (proj2 (so_solid _ S s Hs)) as Fl. destruct (flat_named s Fl) as (d & Ed). exists d, defs.
    assert (Er : roots s = [type_name s]) by (unfold roots; destruct s; try discriminate; reflexivity).
    assert (Em : meaning s = TNamed (type_name s)) by (destruct s; try discriminate; reflexivity).
    split; [exact Ed|]. split; [now rewrite <- Em|]. split.
    - assert (Hk : In (type_name s) (keys defs)) by (apply Hrch; exists (type_name s); rewrite Er; split; [now left|constructor]).
      apply in_map_iff in Hk. destruct Hk as ([f d'] & E & Hfd). cbn in E. subst f. destruct (Hd _ _ Hfd) as (t & Ht & Et).
      pose proof (definition_once types t s _ (so_once _ S) Ht Hs Et eq_refl ltac:(destruct s; try discriminate; reflexivity)) as E. congruence.
    - intros [f d'] Hfd. destruct (Hd _ _ Hfd) as (t & Ht & Et). rewrite <- Et. now apply in_map.
  Qed.

  Lemma type_name_simply s n : flat_definition s = true -> schema_name s = Some n -> simply_named (type_name s) n.
  Proof.
    intros Fl E. assert (A : exists ns, type_name s = fullname n ns) by (destruct s; try discriminate; cbn in E; injection E as <-; eexists; reflexivity).
    destruct A as (ns & ->). unfold fullname, qualify. destruct (str_is_empty (nsof ns)); [now left|]. right. eexists. reflexivity.
  Qed.

  Lemma Forall2_defs types docs defs (R : string * adef -> named_schema -> Prop) : map named_meaning types = map (fun fd => Some fd) defs ->
    Forall2 (fun s x => forall fd, named_meaning s = Some fd -> R fd x) types docs -> Forall2 R defs docs.
  Proof.
    intros E F. revert defs E. induction F as [|s x types docs P _ IH]; intros [|fd defs] E; try discriminate; constructor; cbn in E; injection E as E1 E2; auto.
  Qed.
  Lemma named_all types : sound types -> exists defs, map named_meaning types = map (fun fd => Some fd) defs.
  Proof.
    intro S. assert (A : forall t, In t types -> exists fd, named_meaning t = Some fd).
    { intros t Ht. destruct (flat_named t (proj2 (so_solid _ S t Ht))) as (d & Ed). eauto. }
    clear S. induction types as [|t types IH]; [now exists []|]. destruct (A t (or_introl eq_refl)) as (fd & E). destruct IH as (defs & E'); [intros; apply A; now right|].
    exists (fd :: defs). cbn. congruence.
  Qed.
  Lemma extracted_defs types docs (all : list (string * adef)) : sound types ->
    Forall2 (fun s y => schema_name s = Some (nm_name y) /\ exists k, schema_to_json s [] None (build_lookup types None) = Some (nm_schema y, k)) types docs ->
    (forall fd, In (Some fd) (map named_meaning types) -> In fd all) ->
    exists defs, map named_meaning types = map (fun fd => Some fd) defs /\ Forall2 (own_document all) defs docs.
  Proof.
    intros S F A. destruct (named_all types S) as (defs & E). exists defs. split; [exact E|]. apply (Forall2_defs types docs defs _ E).
    apply (Forall2_in_imp _ _ _ _ F). intros s x Hs (En & k & Ej) fd Efd. destruct (extracted_document types s _ k S Hs Ej) as (d & ds & Ed & Hrd & Hin & Hall).
    rewrite Ed in Efd. injection Efd as <-. exists ds. cbn [fst snd]. split; [apply type_name_simply; [exact (proj2 (so_solid _ S s Hs))|exact En]|]. split; [exact Hrd|]. split; [exact Hin|]. intros y Hy. apply A, Hall, Hy.
  Qed.

  Lemma map_some_inj {A} (l l' : list A) : map (fun x => Some x) l = map (fun x => Some x) l' -> l = l'.
  Proof. revert l'. induction l as [|a l IH]; intros [|c m] E; try discriminate; [reflexivity|]. cbn in E. injection E as -> E. f_equal. now apply IH. Qed.
  Lemma agree_output o b :
    match extract_impl o, snd (convert_impl o b) with
    | Ok x, Ok r => so_warnings x = io_warnings r
    | Ok _, Err e => e = NoProtocolNorSchema
    | Err e, Err e' => e = e'
    | Err _, Ok _ => False
    end.
  Proof.
    destruct (extract_impl_total o) as (l & ->). pose proof (convert_impl_ends o b) as He. unfold convert_impl in *. destruct (co_file o) as [p|s|n]; [| |reflexivity].
    - destruct (protocol_to_json p); [reflexivity|]. now destruct (He _ _ eq_refl).
    - destruct (schema_to_json _ _ _ _) as [[]|]; [reflexivity|]. now destruct (He _ _ eq_refl).
  Qed.

  Lemma agree_protocol i b b' b1 b1' r x src name dir ip p items ws o p' :
    b_import_dirs b1 = b_import_dirs b -> run_convert i b = (b', Ok r) -> run_extract i b1 = (b1', Ok x) ->
    input_of i src name dir ip -> parse_idl name src = Ok (IProtocol p, items, ws) ->
    compile (b_import_dirs b) src name dir ip = (Ok o, []) -> co_file o = IProtocol p' -> proper_json (co_loads o) ->
    (forall q, ~ In (ImportProtocol, q) (co_loads o)) \/ no_inline_definitions p' ->
    protocol_apart p' -> plain_aliases (p_types p') ->
    exists ap defs, read_protocol (jdepth (io_json r)) (io_json r) = Some ap /\ Permutation (ap_defs ap) defs /\ Forall2 (own_document (ap_defs ap)) defs (so_schemas x).
  Proof.
    intros Eb Hr Hx Hi Ep Hc Ho W Hin Hap Hal. destruct (run_convert_ok _ _ _ _ _ _ _ _ Hr Hi) as (o' & b2 & Hc' & Hv). rewrite Hc in Hc'. injection Hc' as <-.
    destruct (run_extract_ok _ _ _ _ _ _ _ _ Hx Hi) as (o' & Hc' & Hz). rewrite Eb, Hc in Hc'. injection Hc' as <-.
    pose proof (compile_protocol_ok _ _ _ _ _ _ _ _ _ _ _ Hc Ep Ho W Hin Hap Hal) as Hok.
    destruct (protocol_faithful p' Hok) as (j & ap & Ej & Hrd & _ & _ & _ & _ & Hd & _).
    unfold convert_impl in Hv. rewrite Ho, Ej in Hv. injection Hv as _ <-. cbn [io_json]. exists ap.
    pose proof (compile_file_kind _ _ _ _ _ _ _ _ _ _ Hc Ep) as K. rewrite Ho in K. destruct K as (p0 & _ & _ & _ & _ & _ & K5). rewrite K5 in *.
    pose proof (compile_sound _ _ _ _ _ _ _ _ _ _ Hc Ep W Hal ltac:(destruct Hap as [Hap _]; now rewrite K5 in Hap)) as S.
    destruct (extract_impl_each _ _ _ _ _ _ _ _ Hc Hz) as [He _].
    assert (Back : forall fd, In (Some fd) (map named_meaning (reg_schemas (co_registry o))) -> In fd (ap_defs ap)).
    { intros fd Hf. apply (Permutation_in _ (Permutation_sym Hd)), in_map_iff in Hf. destruct Hf as (y & Ey & Hy). congruence. }
    destruct (extracted_defs _ _ (ap_defs ap) S He Back) as (defs & Ed & F). exists defs. split; [exact Hrd|]. split; [|exact F].
    rewrite Ed in Hd. apply Permutation_map_inv in Hd. destruct Hd as (m & Em & Pm). apply map_some_inj in Em. subst m. now symmetry.
  Qed.

  Lemma agree_schema i b b' b1 b1' r x src name dir ip s items ws o :
    b_import_dirs b1 = b_import_dirs b -> run_convert i b = (b', Ok r) -> run_extract i b1 = (b1', Ok x) ->
    input_of i src name dir ip -> parse_idl name src = Ok (ISchema s, items, ws) ->
    compile (b_import_dirs b) src name dir ip = (Ok o, []) -> proper_json (co_loads o) ->
    apart (reg_schemas (co_registry o)) -> plain_aliases (reg_schemas (co_registry o)) ->
    exists t defs all, read_document (jdepth (io_json r)) (io_json r) = Some (t, defs) /\ incl defs all /\ NoDup (keys all) /\ Forall2 (own_document all) all (so_schemas x).
  Proof.
    intros Eb Hr Hx Hi Ep Hc W Hap Hal.
    destruct (run_extract_ok _ _ _ _ _ _ _ _ Hx Hi) as (o' & Hc' & Hz). rewrite Eb, Hc in Hc'. injection Hc' as <-.
    destruct (run_convert_ok _ _ _ _ _ _ _ _ Hr Hi) as (o' & b2 & Hc' & Hv). rewrite Hc in Hc'. injection Hc' as <-.
    pose proof (compile_sound _ _ _ _ _ _ _ _ _ _ Hc Ep W Hal Hap) as S. destruct (extract_impl_each _ _ _ _ _ _ _ _ Hc Hz) as [He _].
    destruct (idl_schema_solid _ _ _ _ _ Ep) as [Hs Hni].
    pose proof (compile_file_kind _ _ _ _ _ _ _ _ _ _ Hc Ep) as K. destruct (compile_registry _ _ _ _ _ _ _ Hc) as [En _].
    assert (Ho : co_file o = ISchema s).
    { destruct (co_file o) as [q|q|q]; [destruct K as (p0 & K0 & _); discriminate| |discriminate]. congruence. }
    assert (Hk : forall full, mentions s full -> In full (map type_name (reg_schemas (co_registry o)))).
    { intros full Hm. rewrite En. pose proof Hc as Hc2. apply compile_ok in Hc2. destruct Hc2 as (f & its & w & c & _ & _ & _ & _ & -> & _ & Hv2). cbn [co_file co_registry] in *.
      apply (proj1 (check_passes _ _ _ _) Hv2 full). rewrite Ho. now constructor. }
    destruct (sound_ty_ok true _ s S Hs Hni Hk) as [Hty Hsub]; [discriminate|].
    destruct (document_faithful (reg_schemas (co_registry o)) s (sound_registry_ok _ S) (or_intror (conj Hty Hsub))) as (j & known & defs & Ej & Hrd & _ & Hd & _).
    unfold convert_impl in Hv. rewrite Ho, Ej in Hv. injection Hv as _ <-. cbn [io_json].
    destruct (named_all _ S) as (all & Ea).
    assert (Back : forall fd, In (Some fd) (map named_meaning (reg_schemas (co_registry o))) -> In fd all).
    { intros fd Hf. rewrite Ea in Hf. apply in_map_iff in Hf. destruct Hf as (y & Ey & Hy). congruence. }
    destruct (extracted_defs _ _ all S He Back) as (all' & Ed & F). rewrite Ea in Ed. apply map_some_inj in Ed. subst all'.
    exists (meaning s), defs, all. split; [exact Hrd|]. split; [|split; [|exact F]].
    - intros [f d] Hf. destruct (Hd f d Hf) as (t & Ht & Et). apply Back. rewrite <- Et. now apply in_map.
    - replace (keys all) with (map type_name (reg_schemas (co_registry o))); [exact (so_once _ S)|].
      clear -Ea. unfold keys. revert all Ea. induction (reg_schemas (co_registry o)) as [|t l IH]; intros [|[f d] all] Ea; try discriminate; [reflexivity|].
      cbn [map] in Ea. injection Ea as E1 E2. cbn [map fst]. f_equal; [|now apply IH]. destruct t; cbn in E1; try discriminate; injection E1 as <- _; reflexivity.
  Qed.
  (** ** Success, reasons for failure, warnings *)
  Lemma agree_run i b b1 : b_import_dirs b1 = b_import_dirs b ->
    match snd (run_extract i b1), snd (run_convert i b) with
    | Ok x, Ok r => so_warnings x = io_warnings r
    | Ok _, Err e => e = NoProtocolNorSchema
    | Err e, Err e' => e = e'
    | Err _, Ok _ => False
    end.
  Proof.
    intro Eb. destruct i as [path|text name]; cbn [run_extract run_convert].
    - unfold extract_file, convert, compile_file. destruct (fs_read path); [|reflexivity]. cbv zeta. rewrite Eb. destruct (compile _ _ _ _ _) as [[o|e] ws]; [|reflexivity].
      exact (agree_output o (mkBuilder (b_import_dirs b) ws)).
    - unfold extract_str, convert_str, compile_str. destruct fs_cwd; [|reflexivity]. rewrite Eb. destruct (compile _ _ _ _ _) as [[o|e] ws]; [|reflexivity].
      exact (agree_output o (mkBuilder (b_import_dirs b) ws)).
  Qed.
End Agree.
