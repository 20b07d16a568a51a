(** C65: an import stands for what it imports.  A compilation succeeds exactly
    if nothing is wrong with the declarations that remain when every import is
    replaced by what it imports, and its result depends on these only.
    SpecExpand.v says what this means. *)
From Coq Require Import NArith Lia.
From Verif Require Import Compile SpecExpand SpecRewrite SampleFile SampleWorld PropSource PropLayout PropPlaces.
From Verif Require Import RegistryProofs CompileProofs BuildProofs RewriteProofs ExpandProofs.

(** ** When a compilation succeeds *)
Section C65.
  Context `{Unicode} `{Floats} `{Parser} `{FileSystem} `{JsonParser}.

  (** Whatever the directories and the file: it compiles, with the declarations
      [known], exactly if it is sound and declares them. *)
  Theorem C65_compile dirs src name dir input file items ws known :
    parse_idl name src = Ok (file, items, ws) ->
    ((exists o ws', compile dirs src name dir input = (Ok o, ws') /\ co_registry o = known)
     <-> sound_file dirs dir input file items known).
  Proof.
    intro Ep. split.
    - intros (o & ws' & Hc & <-). exact (compile_sound _ _ _ _ _ _ _ _ _ _ Ep Hc).
    - intro Hs. destruct (sound_compile _ _ _ _ _ _ _ _ _ Ep Hs) as (o & Hc & Er). eauto.
  Qed.

  (** The file at [path], or a text, read in a directory *)
  Inductive sound_input (dirs : list string) (name src dir : string) (input : option string) : idl_file -> Prop :=
  | si_sound file items ws known :
      parse_idl name src = Ok (file, items, ws) -> sound_file dirs dir input file items known ->
      sound_input dirs name src dir input file.
  Definition home (path : string) : string :=
    match fs_canonical (fs_parent path) with Some d => d | None => fs_parent path end.

  Lemma compile_iff dirs src name dir input :
    (exists o ws', compile dirs src name dir input = (Ok o, ws')) <-> exists file, sound_input dirs name src dir input file.
  Proof.
    split.
    - intros (o & ws' & Hc). destruct (compile_parses _ _ _ _ _ _ _ Hc) as (file & items & ws & Ep). exists file. econstructor; [exact Ep|]. eapply compile_sound; eauto.
    - intros (file & [f items ws known Ep Hs]). destruct (sound_compile _ _ _ _ _ _ _ _ _ Ep Hs) as (o & Hc & _). eauto.
  Qed.
  Lemma convert_iff dirs src name dir input (b : builder) : 
    (exists r o ws', compile dirs src name dir input = (Ok o, ws') /\ snd (convert_impl o b) = Ok r)
    <-> exists file, sound_input dirs name src dir input file /\ forall l, file <> INamed l.
  Proof.
    split.
    - intros (r & o & ws' & Hc & E). destruct (compile_parses _ _ _ _ _ _ _ Hc) as (file & items & ws & Ep). exists file.
      split; [econstructor; [exact Ep|]; eapply compile_sound; eauto|]. intros l ->.
      apply (proj1 (convert_impl_ok o b)); [eauto|]. apply (compile_file_kind _ _ _ _ _ _ _ _ _ _ Ep Hc). eauto.
    - intros (file & [f items ws known Ep Hs] & Hn). destruct (sound_compile _ _ _ _ _ _ _ _ _ Ep Hs) as (o & Hc & _).
      destruct (proj2 (convert_impl_ok o b)) as [r Er]; [|exists r, o, []; auto].
      intro Hx. apply (compile_file_kind _ _ _ _ _ _ _ _ _ _ Ep Hc) in Hx. destruct Hx as [l ->]. exact (Hn l eq_refl).
  Qed.

  (** [Idl::convert] succeeds exactly if the file can be read, is sound and is
      not a list of types. *)
  Theorem C65_convert path b :
    (exists r, snd (convert path b) = Ok r) <->
    exists src file, fs_read path = Some src
      /\ sound_input (b_import_dirs b) path src (home path) (fs_canonical path) file /\ forall l, file <> INamed l.
  Proof.
    unfold convert, compile_file, home. destruct (fs_read path) as [src|]; [|split; [intros [r E]; discriminate|intros (src & file & E & _); discriminate]].
    destruct (compile _ src path _ _) as [res ws'] eqn:Ec.
    pose proof (convert_iff (b_import_dirs b) src path (home path) (fs_canonical path) (mkBuilder (b_import_dirs b) ws')) as G. unfold home in G. rewrite Ec in G. split.
    - intros [r E]. destruct res as [o|e]; [|discriminate]. destruct (proj1 G) as (file & A & B); [exists r, o, ws'; auto|]. exists src, file. auto.
    - intros (src' & file & E & A & B). injection E as <-. destruct (proj2 G (ex_intro _ file (conj A B))) as (r & o & w & E1 & E2).
      injection E1 as -> <-. eauto.
  Qed.
  Theorem C65_convert_str src name b :
    (exists r, snd (convert_str src name b) = Ok r) <->
    exists cwd file, fs_cwd = Some cwd /\ sound_input (b_import_dirs b) name src cwd None file /\ forall l, file <> INamed l.
  Proof.
    unfold convert_str, compile_str. destruct fs_cwd as [cwd|]; [|split; [intros [r E]; discriminate|intros (cwd & file & E & _); discriminate]].
    destruct (compile _ src name _ _) as [res ws'] eqn:Ec.
    pose proof (convert_iff (b_import_dirs b) src name cwd None (mkBuilder (b_import_dirs b) ws')) as G. rewrite Ec in G. split.
    - intros [r E]. destruct res as [o|e]; [|discriminate]. destruct (proj1 G) as (file & A & B); [exists r, o, ws'; auto|]. exists cwd, file. auto.
    - intros (cwd' & file & E & A & B). injection E as <-. destruct (proj2 G (ex_intro _ file (conj A B))) as (r & o & w & E1 & E2).
      injection E1 as -> <-. eauto.
  Qed.
  (** Extraction: any sound file will do. *)
  Theorem C65_extract path b : fs_is_dir path = false ->
    ((exists r, snd (extract path b) = Ok r) <->
     exists src file, fs_read path = Some src /\ sound_input (b_import_dirs b) path src (home path) (fs_canonical path) file).
  Proof.
    intro Hd. unfold extract. rewrite Hd. unfold extract_file, compile_file, home.
    destruct (fs_read path) as [src|]; [|split; [intros [r E]; discriminate|intros (src & file & E & _); discriminate]].
    destruct (compile _ src path _ _) as [res ws'] eqn:Ec.
    pose proof (compile_iff (b_import_dirs b) src path (home path) (fs_canonical path)) as G. unfold home in G. rewrite Ec in G. split.
    - intros [r E]. destruct res as [o|e]; [|discriminate]. destruct (proj1 G) as (file & A); [eauto|]. eauto.
    - intros (src' & file & E & A). injection E as <-. destruct (proj2 G (ex_intro _ file A)) as (o & w & E1). injection E1 as -> <-.
      destruct (extract_impl_total o) as [r Er]. cbn. rewrite Er. eauto.
  Qed.
  Theorem C65_extract_str src name b :
    (exists r, snd (extract_str src name b) = Ok r) <->
    exists cwd file, fs_cwd = Some cwd /\ sound_input (b_import_dirs b) name src cwd None file.
  Proof.
    unfold extract_str, compile_str. destruct fs_cwd as [cwd|]; [|split; [intros [r E]; discriminate|intros (cwd & file & E & _); discriminate]].
    destruct (compile _ src name _ _) as [res ws'] eqn:Ec.
    pose proof (compile_iff (b_import_dirs b) src name cwd None) as G. rewrite Ec in G. split.
    - intros [r E]. destruct res as [o|e]; [|discriminate]. destruct (proj1 G) as (file & A); [eauto|]. eauto.
    - intros (cwd' & file & E & A). injection E as <-. destruct (proj2 G (ex_intro _ file A)) as (o & w & E1). injection E1 as -> <-.
      destruct (extract_impl_total o) as [r Er]. cbn. rewrite Er. eauto.
  Qed.

  (** A file has one expansion. *)
  Theorem C65_one_expansion dirs dir seen items ds tables seen1 ds' tables' seen1' :
    expands dirs dir seen items ds tables seen1 -> expands dirs dir seen items ds' tables' seen1' ->
    ds = ds' /\ tables = tables' /\ seen1 = seen1'.
  Proof. intros X Y. exact (expands_det _ _ _ _ _ _ _ X _ _ _ Y). Qed.

  (** ** Only the expansion matters *)
  Lemma same_declaration_sym ds ds' : Forall2 same_declaration ds ds' -> Forall2 same_declaration ds' ds.
  Proof. induction 1 as [|d d' ds ds' E F IH]; constructor; [|exact IH]. destruct d, d'; cbn in *; try contradiction; congruence. Qed.
  Lemma same_header_sym f f' : same_header f f' -> same_header f' f.
  Proof. destruct f, f'; cbn; try contradiction; auto. intros (A & B & C & D & E). rewrite A, B, C, D, E. auto. Qed.

  (** Two texts, in one directory or two, that say the same but for their
      declarations and imports, and whose imports, replaced by what they import,
      leave the same declarations and messages: both fail, or the JSON is the
      same. *)
  Theorem C65_inlining src name b src' name' b' cwd file items ws file' items' ws' ds tables seen ds' tables' seen' :
    fs_cwd = Some cwd ->
    parse_idl name src = Ok (file, items, ws) -> parse_idl name' src' = Ok (file', items', ws') -> same_header file file' ->
    expands (b_import_dirs b) cwd [] items ds tables seen -> expands (b_import_dirs b') cwd [] items' ds' tables' seen' ->
    Forall2 same_declaration ds ds' -> unplaced_messages (concat tables) = unplaced_messages (concat tables') ->
    same_fate io_json (snd (convert_str src name b)) (snd (convert_str src' name' b'))
    /\ same_fate so_schemas (snd (extract_str src name b)) (snd (extract_str src' name' b')).
  Proof.
    intros Hcwd Ep Ep' Hh X X' D M. unfold convert_str, extract_str, compile_str. rewrite Hcwd.
    destruct (compile (b_import_dirs b) src name cwd None) as [[o|e] w] eqn:Ec.
    - destruct (expansion_decides name src name' src' file file' items items' ws ws' _ _ _ _ None None ds ds' tables tables' seen seen' Ep Ep' Hh X X' D M o w Ec)
        as (o' & known & known' & Ec' & Er & Er' & R & Ef & Ef').
      rewrite Ec'. split; [now apply (same_converted file file' known known' tables tables')|]. apply same_extracted. congruence.
    - destruct (compile (b_import_dirs b') src' name' cwd None) as [[o'|e'] w'] eqn:Ec'; [|split; exact I]. exfalso.
      destruct (expansion_decides name' src' name src file' file items' items ws' ws _ _ _ _ None None ds' ds tables' tables seen' seen Ep' Ep (same_header_sym _ _ Hh) X' X
        (same_declaration_sym _ _ D) (eq_sym M) o' w' Ec') as (o & known & known' & Ec1 & _). congruence.
  Qed.
End C65.
Print Assumptions C65_compile.
Print Assumptions C65_convert.
Print Assumptions C65_convert_str.
Print Assumptions C65_extract.
Print Assumptions C65_extract_str.
Print Assumptions C65_one_expansion.
Print Assumptions C65_inlining.

(** ** Samples *)

(** Two IDL files that import each other, and an enum of a JSON file *)
Example C65_sample : exists file items ws known,
  @parse_idl ascii_chars few_floats some_parser "/p/main.avdl" "main" = Ok (file, items, ws)
  /\ @sound_file ascii_chars few_floats some_parser some_files some_json ["/lib"] "/p" (Some "/p/main.avdl") file items known
  /\ keys known = ["B"; "A"; "C"; "M"].
Proof.
  assert (Hp : exists file items ws, @parse_idl ascii_chars few_floats some_parser "/p/main.avdl" "main" = Ok (file, items, ws)) by (vm_compute; do 3 eexists; reflexivity).
  assert (Hc : exists o, @compile ascii_chars few_floats some_parser some_files some_json ["/lib"] "main" "/p/main.avdl" "/p" (Some "/p/main.avdl") = (Ok o, []) /\ keys (co_registry o) = ["B"; "A"; "C"; "M"]) by (vm_compute; eexists; split; reflexivity).
  destruct Hp as (file & items & ws & Ep), Hc as (o & Ec & Ek). exists file, items, ws, (co_registry o).
  split; [exact Ep|]. split; [exact (compile_sound _ _ _ _ _ _ _ _ _ _ Ep Ec)|exact Ek].
Qed.

(** The file of C59's example, and the same with the import written out *)
Definition inlined_text := "@namespace(""org"") protocol Main {
  enum A { X, Y } = X;
  /** Two of them. */
  record P { A left; union { null, A } right = null; }
  P swap(P p);
}".
Section Sample.
  Existing Instance ascii_chars. Existing Instance few_floats. Existing Instance the_text_parser. Existing Instance world. Existing Instance no_json.
  Definition main_read := Eval vm_compute in parse_idl "t" main_text.
  Definition inlined_read := Eval vm_compute in parse_idl "t" inlined_text.
  Definition a_read := Eval vm_compute in parse_idl "/p/a.avdl" a_avdl.
  Lemma main_reads : parse_idl "t" main_text = main_read.
  Proof. vm_compute. reflexivity. Qed.
  Lemma inlined_reads : parse_idl "t" inlined_text = inlined_read.
  Proof. vm_compute. reflexivity. Qed.
  Lemma a_reads : parse_idl "/p/a.avdl" a_avdl = a_read.
  Proof. vm_compute. reflexivity. Qed.
  Example C65_main_accepted : exists o, snd (convert_str main_text "t" new_builder) = Ok o.
  Proof. vm_compute. eexists. reflexivity. Qed.
  Example C65_inlining_sample : exists file items ws file' items' ws' ds tables seen ds' tables' seen',
    parse_idl "t" main_text = Ok (file, items, ws) /\ parse_idl "t" inlined_text = Ok (file', items', ws') /\ same_header file file'
    /\ expands [] "/p" [] items ds tables seen /\ expands [] "/p" [] items' ds' tables' seen'
    /\ Forall2 same_declaration ds ds' /\ unplaced_messages (concat tables) = unplaced_messages (concat tables')
    /\ exists o, snd (convert_str main_text "t" new_builder) = Ok o.
  Proof.
    rewrite main_reads, inlined_reads. unfold main_read, inlined_read.
    do 12 eexists. split; [reflexivity|]. split; [reflexivity|]. split; [cbn; auto 8|]. split.
    { eapply ex_idl with (p := "/p/a.avdl"); [exists [], "/p", []; split; [reflexivity|]; split; [intros d []|]; split; reflexivity|intros []| | |].
      - exists a_avdl. split; [reflexivity|]. rewrite a_reads. reflexivity.
      - repeat constructor.
      - repeat constructor. }
    split; [repeat constructor|]. split; [repeat constructor|]. split; [reflexivity|]. exact C65_main_accepted.
  Qed.
End Sample.

(** ** Two declarations of one name *)
Section Clash.
  Existing Instance ascii_chars. Existing Instance few_floats. Existing Instance the_text_parser.
  Existing Instance two_json. Existing Instance their_json.
  (** A type declared in the file and in an imported JSON file is an error only
      if the import comes first. *)
  Theorem C65_clash_refuted :
    (exists e, snd (convert_str "protocol P { import schema ""a.avsc""; record A { } }" "t" new_builder) = Err e)
    /\ exists o, snd (convert_str "protocol P { record A { } import schema ""a.avsc""; }" "t" new_builder) = Ok o.
  Proof.
    split; eexists; vm_compute; reflexivity.
  Qed.
End Clash.
Print Assumptions C65_clash_refuted.
