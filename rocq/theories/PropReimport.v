(** C75: the schemas that were extracted can be imported. *)
From Verif Require Import SpecReimport SampleFile SampleWorld PropSource PropLayout PropPlaces PropExpand PropStatements PipelineProofs BaseProofs MeaningProofs ExpandProofs ReimportProofs ReimportMessageProofs.
From Coq Require Import Permutation.

(** ** C75: importing extracted schemas gives the types they came from *)

(** The schemas of [o] are written to files, perhaps elsewhere, and the
    statements of another file import some of them, [ys].  If that file
    mentions no type that those do not define it is accepted, and the types it
    gets are those that the documents define, each as the documents say, which
    is as they were. *)
Theorem C75_imported :
  forall `(Unicode) `(Floats) `(Parser) `(FS : FileSystem) `(J : JsonParser) dirs src name dir ip file items ws o x,
  parse_idl name src = Ok (file, items, ws) -> compile dirs src name dir ip = (Ok o, []) -> extract_impl o = Ok x ->
  proper_json (co_loads o) -> apart (reg_schemas (co_registry o)) -> plain_aliases (reg_schemas (co_registry o)) ->
  forallb portable (reg_schemas (co_registry o)) = true ->
  forall (FS' : FileSystem) (J' : JsonParser) dirs' src' name' dir' ip' file' items' ws' ys,
  parse_idl name' src' = Ok (file', items', ws') -> incl ys (so_schemas x) ->
  Forall2 (imports_extracted (H2 := FS') (H3 := J') dirs' dir' ip') items' ys ->
  (forall full, uses file' [] [] full -> exists d, defined_by ys full d) ->
  exists o', compile (H2 := FS') (H3 := J') dirs' src' name' dir' ip' = (Ok o', [])
    /\ NoDup (keys (co_registry o'))
    /\ (forall full, In full (keys (co_registry o')) <-> exists d, known_as (co_registry o') full d)
    /\ (forall full d, known_as (co_registry o') full d <-> defined_by ys full d)
    /\ (forall full d, known_as (co_registry o') full d -> known_as (co_registry o) full d).
Proof.
  intros U F P FS J dirs src name dir ip file items ws o x Hp Hc Hx Hj Hap Hal Hpt FS' J' dirs' src' name' dir' ip' file' items' ws' ys Hp' Hin Hall Hu.
  pose proof (types_ok _ _ _ _ _ _ _ _ _ Hp Hc Hj Hap Hal) as Hok. pose proof (types_valid _ _ _ _ _ _ Hc) as Hv.
  set (types := reg_schemas (co_registry o)) in *.
  assert (C : exists chosen, Forall2 (fun s y => In s types /\ document_of types s (nm_schema y)) chosen ys).
  { clear Hall Hu. induction ys as [|y ys IH]; [exists []; constructor|]. destruct IH as (chosen & IH); [intros z Hz; apply Hin; now right|].
    destruct (document_each _ _ _ _ _ _ _ Hc Hx y (Hin y (or_introl eq_refl))) as (s & Hs & Hd). exists (s :: chosen). constructor; auto. }
  destruct C as (chosen & C).
  assert (W : forall full, (exists d, defined_by ys full d) <-> exists s, In s chosen /\ reaches types (type_name s) full).
  { intro full. clear Hall Hu Hin. induction C as [|s y chosen ys (Hs & Hd) _ IH]; [split; [intros (d & y & [] & _)|intros (s & [] & _)]|].
    pose proof (proj2 (document_writes _ _ _ _ _ _ _ _ _ Hp Hc Hj Hap Hal s _ Hs Hd) full) as G. split.
    - intros (d & z & [<-|Hz] & Hw); [exists s; split; [now left|apply G; eauto]|].
      destruct (proj1 IH) as (t & Ht & Hr); [exists d, z; auto|]. exists t. split; [now right|exact Hr].
    - intros (t & [<-|Ht] & Hr); [apply G in Hr; destruct Hr as (d & Hw); exists d, y; split; [now left|exact Hw]|].
      destruct (proj2 IH) as (d & z & Hz & Hw); [eauto|]. exists d, z. split; [now right|exact Hw]. }
  assert (Ha : Forall2 (imports_document (H2 := FS') (H3 := J') types dirs' dir' (start ip')) items' chosen).
  { clear - C Hall. revert chosen C. induction Hall as [|it y items' ys (n & sp & p & -> & Hfo & Hip & Hcn) _ IH]; intros chosen C; inversion C as [|s ? chosen' ? (Hs & Hd) C']; subst; constructor; auto.
    exists n, sp, p, (nm_schema y). split; [reflexivity|]. split; [exact Hfo|]. split; [|auto]. unfold start. destruct ip' as [q|]; [|intros []]. intros [->|[]]. now apply Hip. }
  destruct (imported_again types Hok Hpt Hv dirs' src' name' dir' ip' file' items' ws' chosen Hp' Ha) as (o' & Ec & Hn & Hf & Hk).
  { intros full Hus. apply W, Hu, Hus. }
  assert (T : forall y, In y ys -> forall full d, writes (nm_schema y) full d -> exists t, In t types /\ named_meaning t = Some (full, d)).
  { intros y Hy full d Hw. destruct (document_each _ _ _ _ _ _ _ Hc Hx y (Hin y Hy)) as (s & Hs & Hd).
    exact (proj1 (document_writes _ _ _ _ _ _ _ _ _ Hp Hc Hj Hap Hal s _ Hs Hd) full d Hw). }
  assert (N : forall t, In t types -> exists d, named_meaning t = Some (type_name t, d)).
  { intros t Ht. apply flat_named. exact (proj2 (PipelineProofs.so_solid _ (types_sound _ _ _ _ _ _ _ _ _ Hp Hc Hj Hap Hal) t Ht)). }
  assert (Hone : NoDup (map type_name types)) by exact (PipelineProofs.so_once _ (types_sound _ _ _ _ _ _ _ _ _ Hp Hc Hj Hap Hal)).
  assert (One : forall full d d', (exists t, In t types /\ named_meaning t = Some (full, d)) -> (exists t, In t types /\ named_meaning t = Some (full, d')) -> d = d').
  { intros full d d' (t & Ht & Et) (u & Hu' & Eu). destruct (N t Ht) as (e & E1). destruct (N u Hu') as (e' & E2).
    assert (t = u); [|congruence]. assert (type_name t = type_name u) as Etn by congruence. clear - Hone Ht Hu' Etn.
    induction types as [|z zs IH]; [contradiction|]. cbn in Hone. inversion Hone; subst. destruct Ht as [->|Ht], Hu' as [->|Hu']; auto; exfalso; [apply H1; rewrite Etn|apply H1; rewrite <- Etn]; now apply in_map. }
  assert (K : forall full d, known_as (co_registry o') full d -> (exists t, In t types /\ named_meaning t = Some (full, d)) /\ exists d', defined_by ys full d').
  { intros full d (t' & Hi & Em). destruct (Hf _ _ Hi) as (_ & t & Ht & _ & E). split; [exists t; split; [exact Ht|congruence]|].
    apply W, Hk. apply (in_map fst) in Hi. exact Hi. }
  exists o'. split; [exact Ec|]. split; [exact Hn|]. split; [|split].
  - intro full. split.
    + intro Hi. apply in_map_iff in Hi. destruct Hi as ([f t'] & <- & Hi). cbn. destruct (Hf _ _ Hi) as (_ & t & Ht & Etn & E).
      destruct (N t Ht) as (d & Ed). exists d, t'. split; [exact Hi|congruence].
    + intros (d & t & Hi & _). apply (in_map fst) in Hi. exact Hi.
  - intros full d. split.
    + intro Hka. destruct (K _ _ Hka) as (Ht & d' & y & Hy & Hw). assert (d = d') as ->; [|exists y; auto].
      exact (One _ _ _ Ht (T y Hy _ _ Hw)).
    + intros (y & Hy & Hw). assert (Hi : In full (keys (co_registry o'))) by (apply Hk, W; exists d, y; auto).
      apply in_map_iff in Hi. destruct Hi as ([f t'] & <- & Hi). cbn in *. exists t'. split; [exact Hi|].
      destruct (Hf _ _ Hi) as (_ & t & Ht & Etn & E). destruct (N t Ht) as (e & Ee). rewrite E, Ee, Etn. rewrite Etn in Ee. repeat f_equal.
      exact (One _ _ _ (ex_intro _ t (conj Ht Ee)) (T y Hy _ _ Hw)).
  - intros full d Hka. apply (known_types _ _ _ _ _ _ Hc). exact (proj1 (K _ _ Hka)).
Qed.
Print Assumptions C75_imported.

(** If all of them are imported, the types are the same. *)
Theorem C75_all :
  forall `(Unicode) `(Floats) `(Parser) `(FS : FileSystem) `(J : JsonParser) dirs src name dir ip file items ws o x,
  parse_idl name src = Ok (file, items, ws) -> compile dirs src name dir ip = (Ok o, []) -> extract_impl o = Ok x ->
  proper_json (co_loads o) -> apart (reg_schemas (co_registry o)) -> plain_aliases (reg_schemas (co_registry o)) ->
  forallb portable (reg_schemas (co_registry o)) = true ->
  forall (FS' : FileSystem) (J' : JsonParser) dirs' src' name' dir' ip' file' items' ws' ys,
  parse_idl name' src' = Ok (file', items', ws') -> incl ys (so_schemas x) -> incl (so_schemas x) ys ->
  Forall2 (imports_extracted (H2 := FS') (H3 := J') dirs' dir' ip') items' ys ->
  (forall full, uses file' [] [] full -> In full (keys (co_registry o))) ->
  exists o', compile (H2 := FS') (H3 := J') dirs' src' name' dir' ip' = (Ok o', [])
    /\ Permutation (keys (co_registry o')) (keys (co_registry o))
    /\ (forall full d, known_as (co_registry o') full d <-> known_as (co_registry o) full d).
Proof.
  intros U F P FS J dirs src name dir ip file items ws o x Hp Hc Hx Hj Hap Hal Hpt FS' J' dirs' src' name' dir' ip' file' items' ws' ys Hp' Hin Hout Hall Hu.
  assert (A : forall full d, known_as (co_registry o) full d -> exists d', defined_by ys full d').
  { intros full d Hka. apply (known_types _ _ _ _ _ _ Hc) in Hka. destruct Hka as (t & Ht & Et).
    destruct (each_document _ _ _ _ _ _ _ Hc Hx t Ht) as (y & Hy & Hd).
    pose proof (proj2 (document_writes _ _ _ _ _ _ _ _ _ Hp Hc Hj Hap Hal t _ Ht Hd) full) as G.
    destruct (proj2 G) as (d' & Hw); [|exists d', y; split; [now apply Hout|exact Hw]].
    assert (type_name t = full) as ->; [|constructor]. destruct t; cbn in Et; try discriminate; injection Et as Et _; exact Et. }
  assert (B : forall full, In full (keys (co_registry o)) -> exists d, known_as (co_registry o) full d).
  { intros full Hi. apply in_map_iff in Hi. destruct Hi as ([f t] & <- & Hi). cbn.
    assert (Ht : In t (reg_schemas (co_registry o))) by (unfold reg_schemas; apply (in_map snd) in Hi; exact Hi).
    destruct (flat_named t) as (d & Ed); [exact (proj2 (PipelineProofs.so_solid _ (types_sound _ _ _ _ _ _ _ _ _ Hp Hc Hj Hap Hal) t Ht))|].
    exists d, t. split; [exact Hi|]. rewrite Ed. repeat f_equal.
    pose proof (CliProofs.compile_registrable _ _ _ _ _ _ _ Hc) as Hr. rewrite Forall_forall in Hr. destruct (Hr _ Hi) as (n & ns & Hd & Hk & _). cbn in Hd, Hk.
    rewrite Hk. exact (proj1 (PipelineProofs.type_name_field _ _ _ Hd)). }
  destruct (C75_imported U F P FS J dirs src name dir ip file items ws o x Hp Hc Hx Hj Hap Hal Hpt FS' J' dirs' src' name' dir' ip' file' items' ws' ys Hp' Hin Hall)
    as (o' & Ec & Hn & Hk & Hd & Hs).
  { intros full Hus. destruct (B full (Hu full Hus)) as (d & Hka). exact (A _ _ Hka). }
  assert (K : forall full, In full (keys (co_registry o')) <-> In full (keys (co_registry o))).
  { intro full. split.
    - intro Hi. apply Hk in Hi. destruct Hi as (d & Hka). apply Hs in Hka. destruct Hka as (t & Hi & _). apply (in_map fst) in Hi. exact Hi.
    - intro Hi. destruct (B _ Hi) as (d & Hka). destruct (A _ _ Hka) as (d' & Hb). apply Hd in Hb. apply Hk. eauto. }
  exists o'. split; [exact Ec|]. split.
  - apply NoDup_Permutation; [exact Hn|exact (proj2 (PipelineProofs.compile_registry _ _ _ _ _ _ _ Hc))|exact K].
  - intros full d. split; [apply Hs|]. intro Hka. destruct (A _ _ Hka) as (d' & Hb). apply Hd in Hb. pose proof (Hs _ _ Hb) as Hka'.
    assert (d = d') as ->; [|exact Hb]. destruct Hka as (t & Hi & Em), Hka' as (t' & Hi' & Em').
    pose proof (proj2 (PipelineProofs.compile_registry _ _ _ _ _ _ _ Hc)) as Hno.
    pose proof (In_assoc_NoDup _ _ _ Hno Hi). pose proof (In_assoc_NoDup _ _ _ Hno Hi'). congruence.
Qed.
Print Assumptions C75_all.

(** The JSON written for a protocol, imported as a protocol: a file that holds
    nothing but the import, and mentions no other types, is accepted.  Its types
    are the same.  If it is a protocol, its messages are its own and, for other
    names, the same. *)
Theorem C75_protocol :
  forall `(Unicode) `(Floats) `(Parser) `(FS : FileSystem) `(J : JsonParser) dirs src name dir ip p items ws o p' b r,
  parse_idl name src = Ok (IProtocol p, items, ws) -> compile dirs src name dir ip = (Ok o, []) -> co_file o = IProtocol p' ->
  snd (convert_impl o b) = Ok r ->
  proper_json (co_loads o) -> (forall q, ~ In (ImportProtocol, q) (co_loads o)) \/ no_inline_definitions p' ->
  protocol_apart p' -> plain_aliases (p_types p') ->
  forallb portable (p_types p') = true -> forallb (fun nm => portable_message (snd nm)) (p_messages p') = true ->
  forall (FS' : FileSystem) (J' : JsonParser) dirs' src' name' dir' ip' file' ws' n sp q,
  parse_idl name' src' = Ok (file', [DImport ImportProtocol n sp], ws') ->
  found_in (H2 := FS') (dir' :: dirs') n q -> ip' <> Some q -> json_content (H2 := FS') (H3 := J') q (io_json r) ->
  (forall full, uses file' [] [] full -> In full (keys (co_registry o))) ->
  exists o', compile (H2 := FS') (H3 := J') dirs' src' name' dir' ip' = (Ok o', [])
    /\ Permutation (keys (co_registry o')) (keys (co_registry o))
    /\ (forall full d, known_as (co_registry o') full d <-> known_as (co_registry o) full d)
    /\ (forall mine, file' = IProtocol mine -> exists all, co_file o' = IProtocol all
          /\ p_name all = p_name mine /\ p_namespace all = p_namespace mine /\ p_doc all = p_doc mine /\ p_props all = p_props mine
          /\ forall k m, means (p_messages all) k m
               <-> means (p_messages mine) k m \/ ~ In k (keys (p_messages mine)) /\ means (p_messages p') k m).
Proof.
  intros U F P FS J dirs src name dir ip p items ws o p' b r Hp Hc Ho Hx Hj Hin Hap Hal Hpt Hpm FS' J' dirs' src' name' dir' ip' file' ws' n sp q Hp' Hfo Hne Hjc Hu.
  pose proof (compile_protocol_ok _ _ _ _ _ _ _ _ _ _ _ Hc Hp Ho Hj Hin Hap Hal) as Hok.
  assert (Et : p_types p' = reg_schemas (co_registry o)).
  { pose proof Hc as Hc'. apply BuildProofs.compile_ok in Hc'. destruct Hc' as (f & its & w & c & Ep' & _ & _ & _ & -> & _ & _). rewrite Hp in Ep'. injection Ep' as <- <- <-.
    cbn in *. injection Ho as <-. reflexivity. }
  assert (Ek : map type_name (p_types p') = keys (co_registry o)) by (rewrite Et; exact (proj1 (PipelineProofs.compile_registry _ _ _ _ _ _ _ Hc))).
  assert (Ej : protocol_to_json p' = Some (io_json r)).
  { unfold convert_impl in Hx. rewrite Ho in Hx. destruct (protocol_to_json p') as [j|]; [|discriminate]. cbn in Hx. injection Hx as <-. reflexivity. }
  rewrite <- Ek in Hu. pose proof (types_valid _ _ _ _ _ _ Hc) as Hv. rewrite <- Et in Hv.
  destruct (protocol_imported_again p' (io_json r) dirs' src' name' dir' ip' file' n sp ws' q Hok Hpt Hpm Hv Ej Hp' Hfo Hne Hjc Hu) as (o' & ms & Ec & A & B & C & Ef).
  destruct (ProtocolProofs.protocol_ok_facts p' Hok) as (Hdo & _ & Hnames & _ & _ & Hmn & _).
  assert (Hnn : NoDup (keys (co_registry o'))) by (eapply Permutation_NoDup; [symmetry; exact A|exact Hnames]).
  assert (N : forall t, In t (p_types p') -> exists d, named_meaning t = Some (type_name t, d)).
  { intros t Ht. apply flat_named. rewrite forallb_forall in Hdo. now apply def_ok_flat, Hdo. }
  exists o'. split; [exact Ec|]. split; [rewrite <- Ek; exact A|]. split.
  - intros full d. rewrite (known_types _ _ _ _ _ _ Hc), <- Et. split.
    + intros (t' & Hi & Em). assert (Hk : In full (map type_name (p_types p'))) by (apply (Permutation_in _ A); apply (in_map fst) in Hi; exact Hi).
      apply in_map_iff in Hk. destruct Hk as (t & <- & Ht). destruct (B t Ht) as (t2 & Ea & E2). rewrite (In_assoc_NoDup _ _ _ Hnn Hi) in Ea. injection Ea as <-.
      exists t. split; [exact Ht|congruence].
    + intros (t & Ht & Em). destruct (B t Ht) as (t' & Ea & E2). apply assoc_In in Ea. destruct (N t Ht) as (d' & Ed). rewrite Ed in Em. injection Em as <- <-.
      exists t'. split; [exact Ea|congruence].
  - intros mine ->. cbn [Compile.finish_file] in Ef. eexists. split; [exact Ef|]. cbn [p_name p_namespace p_doc p_props p_messages]. do 4 (split; [reflexivity|]).
    assert (Hmm : NoDup (keys (p_messages mine))) by exact (BuildProofs.parse_idl_messages _ _ _ _ _ Hp').
    assert (Hms : NoDup (keys ms)).
    { apply (Permutation_map fst) in C. rewrite !map_map in C. cbn in C. eapply Permutation_NoDup; [symmetry; exact C|exact Hmn]. }
    intros k m. cbn [cx_messages context_of Compile.cx_messages fold_left]. unfold means.
    assert (G : forall v, In (k, v) (hm_extend (hm_extend [] ms) (p_messages mine)) <-> In (k, v) (p_messages mine) \/ ~ In k (keys (p_messages mine)) /\ In (k, v) ms).
    { intro v. rewrite <- FileProofs.assoc_In_iff by (apply hm_extend_NoDup, hm_extend_NoDup; constructor).
      rewrite assoc_hm_extend, assoc_hm_extend, !assoc_rev_NoDup by assumption.
      rewrite <- !FileProofs.assoc_In_iff by assumption. destruct (assoc k (p_messages mine)) as [w|] eqn:Ea.
      - split; [auto|]. intros [E|[Hn _]]; [exact E|]. exfalso. apply Hn. now apply assoc_Some_In_keys in Ea.
      - apply assoc_None in Ea. cbn. destruct (assoc k ms); split; auto; intros [E|[_ E]]; auto; discriminate. }
    assert (M : (exists v, In (k, v) ms /\ message_meaning v = m) <-> exists v, In (k, v) (p_messages p') /\ message_meaning v = m).
    { assert (X : forall l, (exists v, In (k, v) l /\ message_meaning v = m) <-> In (k, m) (map (fun nm => (fst nm, message_meaning (snd nm))) l)).
      { intro l. rewrite in_map_iff. split; [intros (v & Hi & <-); exists (k, v); auto|]. intros ([k' v] & E & Hi). cbn [fst snd] in E. exists v.
        assert (k' = k) as -> by exact (f_equal fst E). split; [exact Hi|exact (f_equal snd E)]. }
      rewrite !X. split; apply Permutation_in; [exact C|symmetry; exact C]. }
    rewrite <- M. split.
    + intros (v & Hi & E). apply G in Hi. destruct Hi as [Hi|[Hn Hi]]; [left|right]; eauto.
    + intros [(v & Hi & E)|[Hn (v & Hi & E)]]; exists v; (split; [apply G|exact E]); auto.
Qed.
Print Assumptions C75_protocol.

(** The file of C59's example: a record that mentions an enum twice.  Both
    schemas are extracted; the file that imports them mentions the record. *)
Section Sample75.
  Existing Instance ascii_chars. Existing Instance few_floats. Existing Instance the_text_parser.
  Definition main_known := Eval vm_compute in out_of main_out.
  Definition main_extracted := Eval vm_compute in match extract_impl main_known with Ok x => x | Err _ => mkSchemata [] [] end.
  Definition again_texts := [("/q/P.avsc", "P"); ("/q/A.avsc", "A")].
  Definition again_canonical (p : string) : option string := if str_mem p (keys again_texts) then Some p else None.
  Lemma again_finite : forall p c, again_canonical p = Some c -> In c (keys again_texts).
  Proof.
    intros p c. unfold again_canonical. destruct (str_mem p (keys again_texts)) eqn:E; [|discriminate]. intro Ec. injection Ec as <-. now apply str_mem_In.
  Qed.
  Definition again_world : FileSystem :=
    {| fs_join := fun d n => (d ++ "/" ++ n)%string;
       fs_exists := fun p => str_mem p (keys again_texts);
       fs_canonical := again_canonical; fs_files := keys again_texts; fs_finite := again_finite;
       fs_read := fun p => assoc p again_texts;
       fs_parent := parent; fs_file_name := fun p => Some (base_name p);
       fs_cwd := Some "/q"; fs_is_dir := fun _ => false; fs_content := fun _ => [] |}.
  Definition again_json : JsonParser :=
    {| parse_json := fun text => option_map nm_schema (find (fun y => String.eqb (nm_name y) text) (so_schemas main_extracted)) |}.
  Definition again_text := "namespace org; schema array<P>; import schema ""P.avsc""; import schema ""A.avsc"";".
  Definition again_read := Eval vm_compute in parse_idl "t" again_text.
  Lemma again_reads : parse_idl "t" again_text = again_read.
  Proof. vm_compute. reflexivity. Qed.
  Example C75_sample : exists file items ws file' items' ws',
    parse_idl "t" main_text = Ok (file, items, ws)
    /\ compile (H2 := world) (H3 := no_json) [] main_text "t" "/p" None = (Ok main_known, [])
    /\ extract_impl main_known = Ok main_extracted /\ map nm_name (so_schemas main_extracted) = ["A"; "P"]
    /\ proper_json (H2 := world) (H3 := no_json) (co_loads main_known)
    /\ apart (reg_schemas (co_registry main_known)) /\ plain_aliases (reg_schemas (co_registry main_known))
    /\ forallb portable (reg_schemas (co_registry main_known)) = true
    /\ parse_idl "t" again_text = Ok (file', items', ws')
    /\ Forall2 (imports_extracted (H2 := again_world) (H3 := again_json) [] "/q" None) items' (rev (so_schemas main_extracted))
    /\ (exists full, uses file' [] [] full)
    /\ (forall full, uses file' [] [] full -> In full (keys (co_registry main_known))).
  Proof.
    rewrite main_reads, again_reads. rewrite main_comes.
    do 6 eexists. split; [reflexivity|]. split; [reflexivity|]. split; [vm_compute; reflexivity|]. split; [reflexivity|].
    split; [intros k q j _ _ (text & _ & E); discriminate E|]. split; [|split; [|split; [|split; [reflexivity|split; [|split]]]]].
    - intros t Ht He. cbn in Ht. destruct Ht as [<-|[<-|[]]]; discriminate He.
    - intros t a Ht. cbn in Ht. destruct Ht as [<-|[<-|[]]]; cbn; contradiction.
    - reflexivity.
    - constructor; [|constructor; [|constructor]].
      + do 2 eexists. exists "/q/P.avsc". split; [reflexivity|]. split; [exists [], "/q", []; split; [reflexivity|split; [intros d []|split; reflexivity]]|]. split; [discriminate|].
        exists "P". split; reflexivity.
      + do 2 eexists. exists "/q/A.avsc". split; [reflexivity|]. split; [exists [], "/q", []; split; [reflexivity|split; [intros d []|split; reflexivity]]|]. split; [discriminate|].
        exists "A". split; reflexivity.
    - exists "org.P". eapply us_schema; [reflexivity|]. apply refs_mentions. cbn. now left.
    - intros full Hus. inversion Hus as [k s f X1 X2|s f X1 X2|p n m t f X1 X2 X3 X4|p n m t f X1 X2 X3 X4 X5]; subst; try discriminate X1; [destruct X1|].
      injection X1 as <-. apply mentions_refs in X2. cbn in X2. destruct X2 as [<-|[]]. cbn. auto.
  Qed.

  (** The protocol itself, imported by one that has a message more *)
  Definition main_protocol := Eval vm_compute in match co_file main_known with IProtocol p => p | _ => mkProtocol "" None None [] [] [] end.
  Definition main_json := Eval vm_compute in match protocol_to_json main_protocol with Some j => j | None => JNull end.
  Definition more_canonical (p : string) : option string := if String.eqb p "/q/Main.avpr" then Some p else None.
  Lemma more_finite : forall p c, more_canonical p = Some c -> In c ["/q/Main.avpr"].
  Proof. intros p c. unfold more_canonical. destruct (String.eqb_spec p "/q/Main.avpr"); [|discriminate]. intro E. injection E as <-. left. congruence. Qed.
  Definition more_world : FileSystem :=
    {| fs_join := fun d n => (d ++ "/" ++ n)%string;
       fs_exists := fun p => String.eqb p "/q/Main.avpr";
       fs_canonical := more_canonical; fs_files := ["/q/Main.avpr"]; fs_finite := more_finite;
       fs_read := fun p => if String.eqb p "/q/Main.avpr" then Some "main" else None;
       fs_parent := parent; fs_file_name := fun p => Some (base_name p);
       fs_cwd := Some "/q"; fs_is_dir := fun _ => false; fs_content := fun _ => [] |}.
  Definition more_json : JsonParser := {| parse_json := fun text => if String.eqb text "main" then Some main_json else None |}.
  Definition more_text := "@namespace(""org"") protocol More { import protocol ""Main.avpr""; P make(A a); }".
  Definition more_read := Eval vm_compute in parse_idl "t" more_text.
  Lemma more_reads : parse_idl "t" more_text = more_read.
  Proof. vm_compute. reflexivity. Qed.
  Definition more_out := Eval vm_compute in compile (H2 := more_world) (H3 := more_json) [] more_text "t" "/q" None.
  Lemma more_comes : compile (H2 := more_world) (H3 := more_json) [] more_text "t" "/q" None = more_out.
  Proof. vm_compute. reflexivity. Qed.
  Example C75_protocol_sample : exists p items ws r file' n sp ws',
    parse_idl "t" main_text = Ok (IProtocol p, items, ws)
    /\ compile (H2 := world) (H3 := no_json) [] main_text "t" "/p" None = (Ok main_known, [])
    /\ co_file main_known = IProtocol main_protocol /\ snd (convert_impl main_known (mkBuilder [] [])) = Ok r
    /\ proper_json (H2 := world) (H3 := no_json) (co_loads main_known)
    /\ (forall q, ~ In (ImportProtocol, q) (co_loads main_known)) /\ protocol_apart main_protocol /\ plain_aliases (p_types main_protocol)
    /\ forallb portable (p_types main_protocol) = true /\ forallb (fun nm => portable_message (snd nm)) (p_messages main_protocol) = true
    /\ parse_idl "t" more_text = Ok (file', [DImport ImportProtocol n sp], ws')
    /\ found_in (H2 := more_world) ["/q"] n "/q/Main.avpr" /\ json_content (H2 := more_world) (H3 := more_json) "/q/Main.avpr" (io_json r)
    /\ (exists full, uses file' [] [] full) /\ (forall full, uses file' [] [] full -> In full (keys (co_registry main_known)))
    /\ match compile (H2 := more_world) (H3 := more_json) [] more_text "t" "/q" None with
       | (Ok o, []) => match co_file o with IProtocol all => keys (p_messages all) = ["swap"; "make"] | _ => False end
       | _ => False
       end.
  Proof.
    rewrite main_reads, more_reads, main_comes, more_comes.
    do 8 eexists. split; [reflexivity|]. split; [reflexivity|]. split; [reflexivity|]. split; [vm_compute; reflexivity|].
    split; [intros k q j _ _ (text & _ & E); discriminate E|]. split; [intros q Hq; cbn in Hq; destruct Hq as [E|[]]; discriminate E|].
    split; [|split; [|split; [reflexivity|split; [reflexivity|split; [reflexivity|split; [|split; [|split; [|split; [|reflexivity]]]]]]]]].
    - split; [intros t Ht He; cbn in Ht; destruct Ht as [<-|[<-|[]]]; discriminate He|].
      intros _ t Ht. cbn in Ht. destruct Ht as [<-|[<-|[]]]; (split; [discriminate|intro E; discriminate E]).
    - intros t a Ht. cbn in Ht. destruct Ht as [<-|[<-|[]]]; cbn; contradiction.
    - exists [], "/q", []. split; [reflexivity|]. split; [intros d []|]. split; reflexivity.
    - exists "main". split; reflexivity.
    - exists "org.P". eapply us_own with (n := "make"); [reflexivity|reflexivity|apply mt_response|]. apply refs_mentions. cbn. now left.
    - intros full Hus. inversion Hus as [k s f X1 X2|s f X1 X2|p n m t f X1 X2 X3 X4|p n m t f X1 X2 X3 X4 X5]; subst; try discriminate X1; [destruct X1| |].
      + injection X1 as <-. apply assoc_In in X2. destruct X2 as [E|[]]. injection E as <- <-. apply mentions_refs in X4.
        inversion X3 as [m'|m' f Hf|m' es e Ee He]; subst; [|destruct Hf as [<-|[]]|discriminate Ee]; cbn in X4; destruct X4 as [<-|[]]; cbn; auto.
      + destruct X3 as (b & l & a & E & _). destruct b; discriminate E.
  Qed.
End Sample75.
