(** C71: an import said again changes nothing.  C72: the order of statements,
    imports included, does not matter.  SpecStatements.v says what this means. *)
From Coq Require Import NArith Lia Permutation.
From Verif Require Import Compile SpecStatements SpecRewrite SampleFile SampleWorld PropSource PropLayout PropPlaces PropExpand.
From Verif Require Import RegistryProofs CompileProofs BuildProofs RewriteProofs ExpandProofs StatementProofs.

Section C71.
  Context `{Unicode} `{Floats} `{Parser} `{FileSystem} `{JsonParser}.

  (** Whatever the directories and the file: an import of a file already known
      where it stands can be put in or left out.  Both texts are rejected, or
      both are accepted, and what is written for them is the same. *)
  Theorem C71_compile dirs dir input src label src' label' file a b ws file' a' k n sp b' ws' p :
    parse_idl label src = Ok (file, a ++ b, ws) -> parse_idl label' src' = Ok (file', a' ++ DImport k n sp :: b', ws') ->
    same_header file file' -> Forall2 same_item a a' -> Forall2 same_item b b' ->
    found_in (dir :: dirs) n p -> known_after dirs dir input a p ->
    match fst (compile dirs src label dir input), fst (compile dirs src' label' dir input) with
    | Ok o, Ok o' =>
        (forall bu bu', same_fate io_json (snd (convert_impl o bu)) (snd (convert_impl o' bu')))
        /\ same_fate so_schemas (extract_impl o) (extract_impl o')
    | Err _, Err _ => True
    | _, _ => False
    end.
  Proof.
    intros Ep Ep' Hh Fa Fb Hfo Hk. apply (decided dirs dir input src label src' label' file (a ++ b) ws file' (a' ++ DImport k n sp :: b') ws' Ep Ep' Hh (same_header_sym _ _ Hh)).
    - intros ds tables seen X. exact (again_added _ _ _ _ _ _ _ _ _ _ _ _ _ _ Fa Fb Hfo Hk X).
    - intros ds tables seen X. exact (again_removed _ _ _ _ _ _ _ _ _ _ _ _ _ _ Fa Fb Hfo Hk X).
  Qed.

  (** The same for texts handed to the compiler *)
  Theorem C71_again cwd src name bu src' name' bu' file a b ws file' a' k n sp b' ws' p :
    fs_cwd = Some cwd -> b_import_dirs bu = b_import_dirs bu' ->
    parse_idl name src = Ok (file, a ++ b, ws) -> parse_idl name' src' = Ok (file', a' ++ DImport k n sp :: b', ws') ->
    same_header file file' -> Forall2 same_item a a' -> Forall2 same_item b b' ->
    found_in (cwd :: b_import_dirs bu) n p -> known_after (b_import_dirs bu) cwd None a p ->
    same_fate io_json (snd (convert_str src name bu)) (snd (convert_str src' name' bu'))
    /\ same_fate so_schemas (snd (extract_str src name bu)) (snd (extract_str src' name' bu')).
  Proof.
    intros Hcwd Ed Ep Ep' Hh Fa Fb Hfo Hk. unfold convert_str, extract_str, compile_str. rewrite Hcwd, <- Ed.
    pose proof (C71_compile (b_import_dirs bu) cwd None src name src' name' file a b ws file' a' k n sp b' ws' p Ep Ep' Hh Fa Fb Hfo Hk) as G.
    destruct (compile (b_import_dirs bu) src name cwd None) as [[o|e] w], (compile (b_import_dirs bu) src' name' cwd None) as [[o'|e'] w']; cbn [fst] in G; try contradiction.
    - destruct G as [G1 G2]. split; [apply G1|exact G2].
    - split; exact I.
  Qed.
End C71.
Print Assumptions C71_compile.
Print Assumptions C71_again.

Section Sample71.
  Existing Instance ascii_chars. Existing Instance few_floats. Existing Instance the_text_parser. Existing Instance world. Existing Instance no_json.
  (** The file of C59's example, and the same with the import said again *)
  Definition again_text := "@namespace(""org"") protocol Main {
  import idl ""a.avdl"";
  /** Two of them. */
  record P { A left; union { null, A } right = null; }
  import protocol ""a.avdl"";
  P swap(P p);
}".
  Definition again_read := Eval vm_compute in parse_idl "t" again_text.
  Lemma again_reads : parse_idl "t" again_text = again_read.
  Proof. vm_compute. reflexivity. Qed.
  Definition items_of (r : result (idl_file * list decl_item * list warning) read_error) : list decl_item := match r with Ok (_, items, _) => items | Err _ => [] end.
  Lemma finds_a : found_in ["/p"] "a.avdl" "/p/a.avdl".
  Proof. exists [], "/p", []. split; [reflexivity|]. split; [intros d []|]. split; reflexivity. Qed.
  Example C71_sample : exists file a b ws file' a' k n sp b' ws' p,
    parse_idl "t" main_text = Ok (file, a ++ b, ws) /\ parse_idl "t" again_text = Ok (file', a' ++ DImport k n sp :: b', ws')
    /\ same_header file file' /\ Forall2 same_item a a' /\ Forall2 same_item b b'
    /\ found_in ["/p"] n p /\ known_after [] "/p" None a p
    /\ exists o, snd (convert_str main_text "t" new_builder) = Ok o.
  Proof.
    rewrite main_reads, again_reads. unfold main_read, again_read.
    eexists _, (items_of main_read), [], _, _, (firstn 2 (items_of again_read)), ImportProtocol, "a.avdl", _, [], _, "/p/a.avdl".
    split; [reflexivity|]. split; [reflexivity|]. split; [cbn; auto 8|]. split; [repeat constructor|]. split; [constructor|].
    split; [exact finds_a|]. split; [eapply ka_import; [left; reflexivity|exact finds_a]|exact C65_main_accepted].
  Qed.
  (** Said first, it would be an error: the file is not a protocol in JSON. *)
  Example C71_sample_not : exists e, snd (convert_str "protocol P { import protocol ""a.avdl""; }" "t" new_builder) = Err e.
  Proof. vm_compute. eexists. reflexivity. Qed.
End Sample71.

(** ** C72: the order of statements *)
Section C72.
  Context `{Unicode} `{Floats} `{Parser} `{FileSystem} `{JsonParser}.

  (** Two texts with the same statements in another order, imports included.
      If no file is imported as two kinds of file, no name is declared twice, no
      two of the imported files have a message of one name, and the default values fit
      with all types known: if the first is accepted, so is the second, with the
      same types and the same main declaration. *)
  Theorem C72_compile dirs dir input src label src' label' file items ws file' items' ws' ds tables seen o w :
    parse_idl label src = Ok (file, items, ws) -> parse_idl label' src' = Ok (file', items', ws') ->
    same_header file file' -> reordered items items' -> one_kind dirs dir input items ->
    expands dirs dir (start input) items ds tables seen -> named_once (types_among ds) -> messages_once tables ->
    compile dirs src label dir input = (Ok o, w) ->
    (forall s, In (Written s) ds -> defaults_fit (co_registry o) s) ->
    exists o', compile dirs src' label' dir input = (Ok o', []) /\ same_content (co_file o) (co_file o')
      /\ same_types (reg_schemas (co_registry o)) (reg_schemas (co_registry o')).
  Proof.
    intros Ep Ep' Hh Hr Ho X Hn Hm Hc Hf.
    destruct (compile_reordered dirs dir input src label src' label' file items ws file' items' ws' ds tables seen o w Ep Ep' Hh Hr Ho X Hn Hm Hc Hf) as (o' & A & B & C).
    exists o'. split; [exact A|]. split; [exact B|]. now apply registry_types.
  Qed.

  (** Every type comes with the same schema file. *)
  Theorem C72_extract cwd src name bu src' name' bu' file items ws file' items' ws' ds tables seen known x :
    fs_cwd = Some cwd -> b_import_dirs bu = b_import_dirs bu' ->
    parse_idl name src = Ok (file, items, ws) -> parse_idl name' src' = Ok (file', items', ws') ->
    same_header file file' -> reordered items items' -> one_kind (b_import_dirs bu) cwd None items ->
    expands (b_import_dirs bu) cwd [] items ds tables seen -> named_once (types_among ds) -> messages_once tables ->
    adds_up [] ds known -> (forall s, In (Written s) ds -> defaults_fit known s) ->
    snd (extract_str src name bu) = Ok x ->
    exists x', snd (extract_str src' name' bu') = Ok x' /\ Permutation (so_schemas x) (so_schemas x').
  Proof.
    intros Hcwd Ed Ep Ep' Hh Hr Ho X Hn Hm A Hf. unfold extract_str, compile_str. rewrite Hcwd, <- Ed.
    destruct (compile (b_import_dirs bu) src name cwd None) as [[o|e] w] eqn:Ec; [|discriminate]. cbn [snd]. intro Hx.
    assert (Ek : co_registry o = known).
    { destruct (compile_sound _ _ _ _ _ _ _ _ _ _ Ep Ec) as (ds0 & t0 & s0 & X0 & A0 & _). destruct (expands_det _ _ _ _ _ _ _ X _ _ _ X0) as (<- & _ & _).
      destruct (entered_exists (types_among ds)) as [r E]. pose proof (entered_once _ _ E Hn) as Hnd.
      rewrite (entered_added _ _ _ A0 r E Hnd). symmetry. exact (entered_added _ _ _ A r E Hnd). }
    rewrite <- Ek in Hf.
    destruct (compile_reordered (b_import_dirs bu) cwd None src name src' name' file items ws file' items' ws' ds tables seen o w Ep Ep' Hh Hr Ho X Hn Hm Ec Hf) as (o' & Ec' & _ & P).
    rewrite Ec'. cbn [snd]. destruct (extract_impl_total o') as [x' Hx']. eexists. split; [exact Hx'|].
    exact (MoveProofs.extract_moved o o' x _ (compile_good _ _ _ _ _ _ _ Ec) (compile_good _ _ _ _ _ _ _ Ec') P Hx Hx').
  Qed.

  (** A main schema is written as the same JSON, a protocol as JSON that reads
      back as the same protocol up to the order of types and messages. *)
  Theorem C72_convert dirs dir input src label src' label' file items ws file' items' ws' ds tables seen o w b b' r :
    parse_idl label src = Ok (file, items, ws) -> parse_idl label' src' = Ok (file', items', ws') ->
    same_header file file' -> reordered items items' -> one_kind dirs dir input items ->
    expands dirs dir (start input) items ds tables seen -> named_once (types_among ds) -> messages_once tables ->
    compile dirs src label dir input = (Ok o, w) ->
    (forall s, In (Written s) ds -> defaults_fit (co_registry o) s) ->
    snd (convert_impl o b) = Ok r ->
    exists o' r', compile dirs src' label' dir input = (Ok o', []) /\ snd (convert_impl o' b') = Ok r'
      /\ match co_file o with
         | IProtocol p => protocol_ok p = true ->
             exists ap aq, SpecAvro.read_protocol (jdepth (io_json r)) (io_json r) = Some ap /\ SpecAvro.read_protocol (jdepth (io_json r')) (io_json r') = Some aq
               /\ ap_name ap = ap_name aq /\ ap_namespace ap = ap_namespace aq /\ ap_attrs ap = ap_attrs aq
               /\ Permutation (ap_defs ap) (ap_defs aq) /\ Permutation (ap_messages ap) (ap_messages aq)
         | _ => io_json r = io_json r'
         end.
  Proof.
    intros Ep Ep' Hh Hr Ho X Hn Hm Hc Hf Er.
    destruct (compile_reordered dirs dir input src label src' label' file items ws file' items' ws' ds tables seen o w Ep Ep' Hh Hr Ho X Hn Hm Hc Hf) as (o' & Hc' & S & P).
    assert (Hk : exists r', snd (convert_impl o' b') = Ok r').
    { apply convert_impl_ok. intros [l El]. apply (proj1 (convert_impl_ok o b) (ex_intro _ r Er)). destruct S; try discriminate. eauto. }
    destruct Hk as [r' Er']. exists o', r'. split; [exact Hc'|]. split; [exact Er'|].
    unfold convert_impl in Er, Er'. destruct S as [p q En Ens Ed Epp Pt Em|s s' E|l l' Pl].
    - intro Hp. destruct (content_read p q) as (jp & jq & ap & aq & B1 & B2 & B3 & B4 & B5); [now constructor|exact Hp|].
      rewrite B1 in Er. rewrite B3 in Er'. cbn in Er, Er'. injection Er as <-. injection Er' as <-. cbn [io_json]. exists ap, aq. auto.
    - pose proof (MoveProofs.schema_json_moved _ _ s s' (compile_good _ _ _ _ _ _ _ Hc) (compile_good _ _ _ _ _ _ _ Hc') P E) as G.
      destruct (schema_to_json s [] None _) as [[j k]|]; [|discriminate]. destruct (schema_to_json s' [] None _) as [[j' k']|]; [|discriminate].
      cbn in Er, Er', G. injection Er as <-. injection Er' as <-. cbn [io_json]. congruence.
    - discriminate.
  Qed.
End C72.
Print Assumptions C72_compile.
Print Assumptions C72_extract.
Print Assumptions C72_convert.

Section Sample72.
  Existing Instance ascii_chars. Existing Instance few_floats. Existing Instance the_text_parser. Existing Instance world. Existing Instance no_json.
  (** The file of C59's example, with the import last *)
  Definition late_text := "@namespace(""org"") protocol Main {
  /** Two of them. */
  record P { A left; union { null, A } right = null; }
  P swap(P p);
  import idl ""a.avdl"";
}".
  Definition late_read := Eval vm_compute in parse_idl "t" late_text.
  Lemma late_reads : parse_idl "t" late_text = late_read.
  Proof. vm_compute. reflexivity. Qed.
  Definition file_of (r : result (idl_file * list decl_item * list warning) read_error) : idl_file := match r with Ok (f, _, _) => f | Err _ => INamed [] end.
  Definition main_ds : list declaration := map Written (declared_types (items_of a_read) ++ declared_types (items_of main_read)).
  Lemma a_contains file its ws : idl_content "/p/a.avdl" file its ws -> its = items_of a_read.
  Proof. intros (text & E1 & E2). assert (text = a_avdl) as -> by (vm_compute in E1; injection E1 as <-; reflexivity). rewrite a_reads in E2. unfold a_read in *. injection E2 as <- <- <-. reflexivity. Qed.
  Lemma main_needs : one_kind [] "/p" None (items_of main_read).
  Proof.
    assert (G : forall k p, needed [] "/p" None (items_of main_read) k p -> k = ImportIdl /\ p = "/p/a.avdl").
    { intros k p Hn. induction Hn as [k n sp p Hi Hfo|q file its ws k n sp p Hq IH Hni Hc Hi Hfo].
      - destruct Hi as [E|[E|[]]]; [|discriminate]. injection E as <- <- <-. split; [reflexivity|]. exact (found_in_fun _ _ _ _ Hfo finds_a).
      - destruct IH as [_ ->]. apply a_contains in Hc. subst its. destruct Hi as [E|[]]. discriminate. }
    intros k k' p A B. apply G in A, B. destruct A as [-> _], B as [-> _]. reflexivity.
  Qed.
  Lemma main_expands : expands [] "/p" (start None) (items_of main_read) main_ds [[]] ["/p/a.avdl"].
  Proof.
    change main_ds with (map Written (declared_types (items_of a_read)) ++ map Written (declared_types (items_of main_read))).
    change [[]] with ((messages_of_file (file_of a_read) :: []) ++ ([] : list (list (string * message)))).
    apply (ex_idl [] "/p" [] "a.avdl" (mkSpan "t" 36) "/p/a.avdl" (file_of a_read) (items_of a_read) [] _ [] ["/p/a.avdl"] (tl (items_of main_read)) _ [] ["/p/a.avdl"]); [exact finds_a|intros []| | |].
    - exists a_avdl. split; [reflexivity|]. rewrite a_reads. reflexivity.
    - repeat constructor.
    - repeat constructor.
  Qed.
  Lemma main_named : named_once (types_among main_ds).
  Proof.
    intros a s b s' c full E R R'. apply LoadProofs.registrable_full_name in R, R'. unfold main_ds, main_read, a_read in E. cbn in E.
    destruct a as [|x a]; [|destruct a as [|y a]; [|destruct a; discriminate]; injection E as _ _ E; destruct b; discriminate].
    injection E as <- E. destruct b as [|y b]; [|destruct b; [discriminate|]; injection E as _ E; discriminate]. injection E as <- _. cbn in R, R'. congruence.
  Qed.
  Definition main_out := Eval vm_compute in compile [] main_text "t" "/p" None.
  Lemma main_comes : compile [] main_text "t" "/p" None = main_out.
  Proof. vm_compute. reflexivity. Qed.
  Definition out_of (x : result compile_output compile_error * list report) : compile_output := match x with (Ok o, _) => o | (Err _, _) => mkOutput (INamed []) [] [] [] end.
  Lemma main_compiles : exists o, compile [] main_text "t" "/p" None = (Ok o, []) /\ match co_file o with IProtocol p => protocol_ok p = true | _ => False end
    /\ exists r, snd (convert_impl o new_builder) = Ok r.
  Proof. rewrite main_comes. unfold main_out. eexists. split; [reflexivity|]. split; [vm_compute; reflexivity|]. destruct (convert_impl_ok (out_of main_out) new_builder) as [_ G]. apply G. intros [l E]. discriminate E. Qed.
  Lemma main_fits o : compile [] main_text "t" "/p" None = (Ok o, []) -> forall s, In (Written s) main_ds -> defaults_fit (co_registry o) s.
  Proof.
    intros _ s [E|[E|[]]]; injection E as <-; intros n ns d fs e al ps f j fuel t Es Hi Hd Hr; [discriminate|].
    injection Es as <- <- <- <- <- <- <-. destruct Hi as [<-|[<-|[]]]; [discriminate|]. injection Hd as <-.
    cbn [f_schema] in Hr. unfold resolve_for_validation in Hr. destruct fuel as [|[|fuel]]; try discriminate. cbn in Hr.
    destruct (assoc "org.A" (co_registry o)) as [u|]; [|discriminate]. destruct fuel as [|fuel]; [discriminate|].
    destruct (resolve_inner (S fuel) _ u []) as [[[u'|] v]|]; try discriminate. injection Hr as <-. reflexivity.
  Qed.
  Lemma one_table : messages_once [[]].
  Proof. intros a l b l' c n E. destruct a as [|x [|y a]]; try discriminate E. injection E as <- E. destruct b; discriminate E. Qed.
  Example C72_sample : exists file items ws file' items' ws' ds tables seen o,
    parse_idl "t" main_text = Ok (file, items, ws) /\ parse_idl "t" late_text = Ok (file', items', ws')
    /\ same_header file file' /\ reordered items items' /\ one_kind [] "/p" None items
    /\ expands [] "/p" (start None) items ds tables seen /\ named_once (types_among ds) /\ messages_once tables
    /\ compile [] main_text "t" "/p" None = (Ok o, [])
    /\ (forall s, In (Written s) ds -> defaults_fit (co_registry o) s)
    /\ match co_file o with IProtocol p => protocol_ok p = true | _ => False end
    /\ exists r, snd (convert_impl o new_builder) = Ok r.
  Proof.
    pose proof main_needs as Hone. pose proof main_expands as Hex. pose proof main_named as Hna. pose proof main_fits as Hfits. destruct main_compiles as (o & Ho & Hp & Hr).
    rewrite late_reads. rewrite main_reads. unfold late_read.
    exists (file_of main_read), (items_of main_read). do 4 eexists. exists main_ds, [[]], ["/p/a.avdl"], o.
    split; [reflexivity|]. split; [reflexivity|]. split; [cbn; auto 8|]. split.
    { eexists. split; [apply perm_swap|]. repeat constructor. }
    split; [exact Hone|]. split; [exact Hex|]. split; [exact Hna|]. split.
    { exact one_table. }
    split; [exact Ho|]. split; [exact (Hfits o Ho)|]. split; [exact Hp|exact Hr].
  Qed.
End Sample72.

(** ** Two files with a message of one name *)
Section Overriding.
  Definition pair_texts := [("/p/a.avdl", "protocol A { void f(); }"); ("/p/b.avdl", "protocol B { void f(int x); }")].
  Definition pair_canonical (p : string) : option string := if str_mem p (keys pair_texts) then Some p else None.
  Lemma pair_finite : forall p c, pair_canonical p = Some c -> In c (keys pair_texts).
  Proof.
    intros p c. unfold pair_canonical. destruct (str_mem p (keys pair_texts)) eqn:E; [|discriminate]. intro Ec. injection Ec as <-. now apply BaseProofs.str_mem_In.
  Qed.
  Definition pair_world : FileSystem :=
    {| fs_join := fun d n => (d ++ "/" ++ n)%string;
       fs_exists := fun p => str_mem p (keys pair_texts);
       fs_canonical := pair_canonical; fs_files := keys pair_texts; fs_finite := pair_finite;
       fs_read := fun p => assoc p pair_texts;
       fs_parent := parent; fs_file_name := fun p => Some (base_name p);
       fs_cwd := Some "/p"; fs_is_dir := fun _ => false; fs_content := fun _ => [] |}.
  Existing Instance ascii_chars. Existing Instance few_floats. Existing Instance the_text_parser. Existing Instance pair_world. Existing Instance no_json.
  Definition ab_text := "protocol P { import idl ""a.avdl""; import idl ""b.avdl""; }".
  Definition ba_text := "protocol P { import idl ""b.avdl""; import idl ""a.avdl""; }".
  Definition ab_read := Eval vm_compute in parse_idl "t" ab_text.
  Definition ba_read := Eval vm_compute in parse_idl "t" ba_text.
  Definition ab_out := Eval vm_compute in snd (convert_str ab_text "t" new_builder).
  Definition ba_out := Eval vm_compute in snd (convert_str ba_text "t" new_builder).
  Lemma ab_reads : parse_idl "t" ab_text = ab_read. Proof. vm_compute. reflexivity. Qed.
  Lemma ba_reads : parse_idl "t" ba_text = ba_read. Proof. vm_compute. reflexivity. Qed.
  Lemma ab_comes : snd (convert_str ab_text "t" new_builder) = ab_out. Proof. vm_compute. reflexivity. Qed.
  Lemma ba_comes : snd (convert_str ba_text "t" new_builder) = ba_out. Proof. vm_compute. reflexivity. Qed.
  (** The last import wins, so the order of imports matters. *)
  Theorem C72_messages_refuted : exists src src' file items ws file' items' ws' r r',
    parse_idl "t" src = Ok (file, items, ws) /\ parse_idl "t" src' = Ok (file', items', ws')
    /\ same_header file file' /\ reordered items items'
    /\ snd (convert_str src "t" new_builder) = Ok r /\ snd (convert_str src' "t" new_builder) = Ok r'
    /\ value_get "messages" (io_json r) <> value_get "messages" (io_json r').
  Proof.
    exists ab_text, ba_text.
    do 8 eexists. split; [rewrite ab_reads; reflexivity|]. split; [rewrite ba_reads; reflexivity|]. split; [cbn; auto 8|].
    split; [eexists; split; [apply perm_swap|]; repeat constructor|]. split; [rewrite ab_comes; reflexivity|]. split; [rewrite ba_comes; reflexivity|]. vm_compute. discriminate.
  Qed.
End Overriding.
Print Assumptions C72_messages_refuted.
