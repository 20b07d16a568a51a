(** A run depends only on what it looks at. *)
From Verif Require Import SpecFrame Compile Cli CompileProofs LoadProofs.

Section Frame.
  Context `{U : Unicode} `{F : Floats} `{P : Parser} `{J : JsonParser}.
  Variables FS FS' : FileSystem.
  Variables dirs dirs' : list string.
  Variable dir0 : string.
  Variable items0 : list decl_item.
  Hypothesis Again : found_again FS FS' dirs dirs' dir0 items0.
  Local Notation part := (taking_part FS dirs dir0 items0).
  Definition again (o o' : outcome) : Prop := o' = o \/ exists e, snd o = Some e /\ import_missing e.

  Lemma single_again nested nested' k path sp d its c :
    (forall d its c, part d its -> again (nested d its c) (nested' d its c)) -> part d its -> In (DImport k path sp) its ->
    again (@resolve_single_import U F P FS J nested dirs k path sp d c) (@resolve_single_import U F P FS' J nested' dirs' k path sp d c).
  Proof.
    intros Hn Hp Hi. unfold resolve_single_import. destruct (@resolve_import FS dirs path d) as [p|e] eqn:E.
    - apply (@resolve_import_iff FS) in E. destruct (Again _ _ _ _ _ _ Hp Hi E) as (E' & Er & Ed & En). apply (@resolve_import_iff FS') in E'. rewrite E'.
      destruct (str_mem p (cx_imported c)); [now left|]. unfold load_import. rewrite Er. destruct k; [| now left| now left].
      destruct (@fs_read FS p) as [text|] eqn:Et; [|now left]. destruct (parse_idl p text) as [[[file its'] ws]|e] eqn:Ep; [|now left].
      unfold wrap_warnings. rewrite En, Ed. apply Hn. apply (tp_import _ _ _ _ d its path sp p file its' ws Hp Hi E). now exists text.
    - right. exists (At sp e). split; [reflexivity|]. exists sp, path. unfold resolve_import in E.
      destruct (@search FS path (d :: dirs)) as [[p|]|]; [discriminate| |]; injection E as <-; [now right|left; now exists (d :: dirs)].
  Qed.
  Lemma items_again nested nested' d its l c :
    (forall d its c, part d its -> again (nested d its c) (nested' d its c)) -> part d its -> incl l its ->
    again (@process_items U F P FS J nested dirs d l c) (@process_items U F P FS' J nested' dirs' d l c).
  Proof.
    intros Hn Hp. revert c. induction l as [|it l IH]; intros c Hl; [now left|]. cbn [process_items].
    assert (Hit : In it its) by (apply Hl; now left). assert (Hl' : incl l its) by (intros x Hx; apply Hl; now right).
    assert (S : again (match it with DImport k path sp => @resolve_single_import U F P FS J nested dirs k path sp d c | DType s sp fields => process_type s sp fields c end)
                      (match it with DImport k path sp => @resolve_single_import U F P FS' J nested' dirs' k path sp d c | DType s sp fields => process_type s sp fields c end)).
    { destruct it as [k path sp|s sp fs]; [now apply (single_again nested nested' k path sp d its c)|now left]. }
    destruct S as [->|(e & E & M)].
    - destruct (match it with DImport _ _ _ => _ | DType _ _ _ => _ end) as [c1 [e1|]]; [now left|now apply IH].
    - right. destruct (match it with DImport _ _ _ => _ | DType _ _ _ => _ end) as [c1 [e1|]]; [|discriminate]. cbn in E. exists e. now split.
  Qed.
  Lemma process_again n d its c : part d its -> again (@process_decl_items U F P FS J n dirs d its c) (@process_decl_items U F P FS' J n dirs' d its c).
  Proof.
    revert d its c. induction n as [|n IH]; intros d its c Hp; cbn [process_decl_items]; apply (items_again _ _ d its its); try exact Hp; try apply incl_refl.
    - intros. now left.
    - intros. now apply IH.
  Qed.
End Frame.

Section Runs.
  Context `{U : Unicode} `{F : Floats} `{P : Parser} `{J : JsonParser}.
  Lemma compile_again (FS FS' : FileSystem) dirs dirs' src name dir ip :
    (forall file items ws, parse_idl name src = Ok (file, items, ws) -> found_again FS FS' dirs dirs' dir items) ->
    (forall e, fst (@compile U F P FS J dirs src name dir ip) = Err e -> ~ import_missing e) ->
    @compile U F P FS' J dirs' src name dir ip = @compile U F P FS J dirs src name dir ip.
  Proof.
    intros A M. unfold compile, parse_and_resolve in *. destruct (parse_idl name src) as [[[file items] ws]|e] eqn:Ep; [|reflexivity].
    specialize (A _ _ _ eq_refl). pose proof (parse_idl_flat _ _ _ _ _ Ep) as Fl.
    set (c := mark_input ip _) in *. set (n := Nat.max (length (@fs_files FS)) (length (@fs_files FS'))).
    rewrite (@process_more U F P FS J _ n) in * by (try exact Fl; try apply remaining_max; apply Nat.le_max_l).
    rewrite (@process_more U F P FS' J _ n) by (try exact Fl; try apply remaining_max; apply Nat.le_max_r).
    destruct (process_again FS FS' dirs dirs' dir items A n dir items c (tp_input _ _ _ _)) as [->|(e & E & Hm)]; [reflexivity|].
    destruct (@process_decl_items U F P FS J n dirs dir items c) as [c' [e'|]]; [|discriminate]. cbn in E. injection E as ->. now destruct (M e eq_refl).
  Qed.

  Lemma convert_builder o b b1 : b_warnings b = b_warnings b1 ->
    b_warnings (fst (convert_impl o b)) = b_warnings (fst (convert_impl o b1)) /\ snd (convert_impl o b) = snd (convert_impl o b1).
  Proof. intro E. unfold convert_impl. destruct (co_file o); [destruct (protocol_to_json _)|destruct (schema_to_json _ _ _ _) as [[]|]|]; cbn; auto. Qed.

  Lemma run_convert_again (FS FS' : FileSystem) i b b1 src name dir ip :
    @input_of FS i src name dir ip -> @input_of FS' i src name dir ip ->
    (forall file items ws, parse_idl name src = Ok (file, items, ws) -> found_again FS FS' (b_import_dirs b) (b_import_dirs b1) dir items) ->
    (forall e, snd (@run_convert U F P FS J i b) = Err e -> ~ import_missing e) ->
    snd (@run_convert U F P FS' J i b1) = snd (@run_convert U F P FS J i b)
    /\ b_warnings (fst (@run_convert U F P FS' J i b1)) = b_warnings (fst (@run_convert U F P FS J i b)).
  Proof.
    intros I I' A M.
    assert (C : @compile U F P FS' J (b_import_dirs b1) src name dir ip = @compile U F P FS J (b_import_dirs b) src name dir ip).
    { apply compile_again; [exact A|]. intros e E. inversion I as [path text Ht|text nm cwd Hw]; subst; cbn [run_convert] in M.
      - unfold convert, compile_file in M. rewrite Ht in M. cbv zeta in M. destruct (@compile U F P FS J _ _ _ _ _) as [[o|x] ws]; [discriminate|]. apply M. cbn in E. cbn. congruence.
      - unfold convert_str, compile_str in M. rewrite Hw in M. destruct (@compile U F P FS J _ _ _ _ _) as [[o|x] ws]; [discriminate|]. apply M. cbn in E. cbn. congruence. }
    clear A M. inversion I as [path text Ht|text nm cwd Hw]; subst; inversion I' as [path' text' Ht' E1 E2 E3 E4 E5|text' nm' cwd' Hw']; subst; cbn [run_convert].
    - unfold convert, compile_file. rewrite Ht, Ht'. cbv zeta. rewrite E4, E5, C. destruct (@compile U F P FS J _ _ _ _ _) as [[o|x] ws]; [|now split].
      destruct (convert_builder o (mkBuilder (b_import_dirs b1) ws) (mkBuilder (b_import_dirs b) ws) eq_refl) as [A B]. now split.
    - unfold convert_str, compile_str. rewrite Hw, Hw', C. destruct (@compile U F P FS J _ _ _ _ _) as [[o|x] ws]; [|now split].
      destruct (convert_builder o (mkBuilder (b_import_dirs b1) ws) (mkBuilder (b_import_dirs b) ws) eq_refl) as [A B]. now split.
  Qed.
  Lemma run_extract_again (FS FS' : FileSystem) i b b1 src name dir ip :
    @input_of FS i src name dir ip -> @input_of FS' i src name dir ip ->
    (forall file items ws, parse_idl name src = Ok (file, items, ws) -> found_again FS FS' (b_import_dirs b) (b_import_dirs b1) dir items) ->
    (forall e, snd (@run_extract U F P FS J i b) = Err e -> ~ import_missing e) ->
    snd (@run_extract U F P FS' J i b1) = snd (@run_extract U F P FS J i b)
    /\ b_warnings (fst (@run_extract U F P FS' J i b1)) = b_warnings (fst (@run_extract U F P FS J i b)).
  Proof.
    intros I I' A M.
    assert (C : @compile U F P FS' J (b_import_dirs b1) src name dir ip = @compile U F P FS J (b_import_dirs b) src name dir ip).
    { apply compile_again; [exact A|]. intros e E. inversion I as [path text Ht|text nm cwd Hw]; subst; cbn [run_extract] in M.
      - unfold extract_file, compile_file in M. rewrite Ht in M. cbv zeta in M. destruct (@compile U F P FS J _ _ _ _ _) as [[o|x] ws]; [discriminate|]. apply M. cbn in E. cbn. congruence.
      - unfold extract_str, compile_str in M. rewrite Hw in M. destruct (@compile U F P FS J _ _ _ _ _) as [[o|x] ws]; [discriminate|]. apply M. cbn in E. cbn. congruence. }
    clear A M. inversion I as [path text Ht|text nm cwd Hw]; subst; inversion I' as [path' text' Ht' E1 E2 E3 E4 E5|text' nm' cwd' Hw']; subst; cbn [run_extract].
    - unfold extract_file, compile_file. rewrite Ht, Ht'. cbv zeta. rewrite E4, E5, C. now destruct (@compile U F P FS J _ _ _ _ _) as [[o|x] ws].
    - unfold extract_str, compile_str. rewrite Hw, Hw', C. now destruct (@compile U F P FS J _ _ _ _ _) as [[o|x] ws].
  Qed.

  (** ** More directories, in the same world *)
  Context `{FS : FileSystem}.
  Lemma input_known i : (exists src name dir ip, input_of i src name dir ip)
    \/ forall b b1, snd (run_convert i b1) = snd (run_convert i b) /\ snd (run_extract i b1) = snd (run_extract i b).
  Proof.
    destruct i as [path|text name].
    - destruct (fs_read path) as [text|] eqn:E; [left; do 4 eexists; exact (in_file path text E)|right]. intros b b1. cbn [run_convert run_extract].
      unfold convert, extract_file, compile_file. rewrite E. now split.
    - destruct fs_cwd as [cwd|] eqn:E; [left; do 4 eexists; exact (in_text text name cwd E)|right]. intros b b1. cbn [run_convert run_extract].
      unfold convert_str, extract_str, compile_str. rewrite E. now split.
  Qed.
  Lemma found_more dirs more name p : found_in dirs name p -> found_in (dirs ++ more) name p.
  Proof. intros (b & d & a & -> & Hb). exists b, d, (a ++ more). rewrite <- app_assoc. now split. Qed.
  Lemma again_more dirs more dir items : found_again FS FS dirs (dirs ++ more) dir items.
  Proof. intros d its k path sp p _ _ Hf. split; [exact (found_more (d :: dirs) more path p Hf)|]. auto. Qed.
  Lemma search_app name l m : search name (l ++ m) = match search name l with Some r => Some r | None => search name m end.
  Proof. induction l as [|d l IH]; [reflexivity|]. cbn. now destruct (fs_exists _). Qed.
  Lemma search_twice name before d mid after : search name (before ++ d :: mid ++ d :: after) = search name (before ++ d :: mid ++ after).
  Proof.
    rewrite !search_app. destruct (search name before); [reflexivity|]. cbn [search]. destruct (fs_exists (fs_join d name)) eqn:E; [reflexivity|].
    rewrite !search_app. destruct (search name mid); [reflexivity|]. cbn [search]. now rewrite E.
  Qed.
  Lemma again_twice before d mid after dir items :
    found_again FS FS (before ++ d :: mid ++ d :: after) (before ++ d :: mid ++ after) dir items
    /\ found_again FS FS (before ++ d :: mid ++ after) (before ++ d :: mid ++ d :: after) dir items.
  Proof.
    split; intros e its k path sp p _ _ Hf; (split; [|auto]); apply search_iff; apply search_iff in Hf; pose proof (search_twice path (e :: before) d mid after) as E; cbn [app] in E; congruence.
  Qed.

  (** ** The program *)
  Definition with_more (more : list string) (b b1 : builder) : Prop := b_import_dirs b1 = b_import_dirs b ++ more /\ b_warnings b1 = b_warnings b.
  Lemma extract_file_dirs p b : b_import_dirs (fst (extract_file p b)) = b_import_dirs b.
  Proof.
    unfold extract_file, compile_file. destruct (fs_read p); [|reflexivity]. cbv zeta. now destruct (compile _ _ _ _ _) as [[o|e] ws].
  Qed.
  Lemma convert_more p more b b1 : with_more more b b1 -> (forall e, snd (convert p b) = Err e -> ~ import_missing e) ->
    snd (convert p b1) = snd (convert p b) /\ b_warnings (fst (convert p b1)) = b_warnings (fst (convert p b)).
  Proof.
    intros [D W] M. destruct (fs_read p) as [text|] eqn:E; [|unfold convert, compile_file; rewrite E; now split].
    apply (run_convert_again FS FS (FromFile p) b b1 _ _ _ _ (in_file p text E) (in_file p text E)); [|exact M]. intros. rewrite D. apply again_more.
  Qed.
  Lemma convert_str_more s n more b b1 : with_more more b b1 -> (forall e, snd (convert_str s n b) = Err e -> ~ import_missing e) ->
    snd (convert_str s n b1) = snd (convert_str s n b) /\ b_warnings (fst (convert_str s n b1)) = b_warnings (fst (convert_str s n b)).
  Proof.
    intros [D W] M. destruct fs_cwd as [cwd|] eqn:E; [|unfold convert_str, compile_str; rewrite E; now split].
    apply (run_convert_again FS FS (FromText s n) b b1 _ _ _ _ (in_text s n cwd E) (in_text s n cwd E)); [|exact M]. intros. rewrite D. apply again_more.
  Qed.
  Lemma extract_file_more p more b b1 : with_more more b b1 -> (forall e, snd (extract_file p b) = Err e -> ~ import_missing e) ->
    snd (extract_file p b1) = snd (extract_file p b) /\ with_more more (fst (extract_file p b)) (fst (extract_file p b1)).
  Proof.
    intros [D W] M. assert (K : snd (extract_file p b1) = snd (extract_file p b) /\ b_warnings (fst (extract_file p b1)) = b_warnings (fst (extract_file p b))).
    { destruct (fs_read p) as [text|] eqn:E; [|unfold extract_file, compile_file; rewrite E; now split].
      apply (run_extract_again FS FS (FromFile p) b b1 _ _ _ _ (in_file p text E) (in_file p text E)); [|exact M]. intros. rewrite D. apply again_more. }
    destruct K as [K1 K2]. split; [exact K1|]. split; [rewrite !extract_file_dirs; exact D|exact K2].
  Qed.
  Lemma extract_all_more more l : forall acc b b1, with_more more b b1 -> (forall e, snd (extract_all l acc b) = Err e -> ~ import_missing e) ->
    snd (extract_all l acc b1) = snd (extract_all l acc b) /\ b_warnings (fst (extract_all l acc b1)) = b_warnings (fst (extract_all l acc b)).
  Proof.
    induction l as [|p l IH]; intros acc b b1 B M; cbn [extract_all] in *; [split; [reflexivity|apply B]|].
    pose proof (extract_file_more p more b b1 B) as K. destruct (extract_file p b) as [b' [o|e]], (extract_file p b1) as [b1' r1]; cbn [fst snd] in *.
    - destruct K as [-> K]; [discriminate|]. now apply IH.
    - destruct K as [-> K]; [exact M|]. split; [reflexivity|apply K].
  Qed.
  Lemma extract_more p more b b1 : with_more more b b1 -> (forall e, snd (extract p b) = Err e -> ~ import_missing e) ->
    snd (extract p b1) = snd (extract p b) /\ b_warnings (fst (extract p b1)) = b_warnings (fst (extract p b)).
  Proof.
    intros B M. unfold extract in *. destruct (fs_is_dir p); [now apply (extract_all_more more)|].
    destruct (extract_file_more p more b b1 B M) as [K1 [_ K2]]. now split.
  Qed.
  Lemma with_dirs_more dirs more : with_more more (with_dirs dirs) (with_dirs (dirs ++ more)).
  Proof.
    assert (E : forall l b, fold_left (fun b d => import_dir d b) l b = mkBuilder (b_import_dirs b ++ l) (b_warnings b)).
    { induction l as [|d l IH]; intros [x w]; cbn [fold_left]; [now rewrite app_nil_r|]. rewrite IH. cbn [import_dir b_import_dirs b_warnings]. now rewrite <- app_assoc. }
    unfold with_more, with_dirs. rewrite !E. now split.
  Qed.
  Context `{C : Console}.
  Lemma run_idl_more input output dirs more :
    (forall e, run_error (run_idl input output dirs) = Some (CompileError e) -> ~ import_missing e) ->
    run_idl input output (dirs ++ more) = run_idl input output dirs.
  Proof.
    unfold run_idl. cbv zeta. intro M. pose proof (with_dirs_more dirs more) as B.
    assert (S : forall n t, (forall e, run_error (let (b', r) := convert_str t n (with_dirs dirs) in match r with Ok o => write_output output (pretty (io_json o)) (io_warnings o) | Err e => mkRun (Some (CompileError e)) (snd (drain_warnings b')) "" [] end) = Some (CompileError e) -> ~ import_missing e) ->
      (let (b', r) := convert_str t n (with_dirs (dirs ++ more)) in match r with Ok o => write_output output (pretty (io_json o)) (io_warnings o) | Err e => mkRun (Some (CompileError e)) (snd (drain_warnings b')) "" [] end)
      = (let (b', r) := convert_str t n (with_dirs dirs) in match r with Ok o => write_output output (pretty (io_json o)) (io_warnings o) | Err e => mkRun (Some (CompileError e)) (snd (drain_warnings b')) "" [] end)).
    { intros n t N. pose proof (convert_str_more t n more _ _ B) as K. destruct (convert_str t n (with_dirs dirs)) as [b' [o|e]], (convert_str t n (with_dirs (dirs ++ more))) as [b1 r1]; cbn [fst snd] in K.
      - destruct K as [-> K]; [discriminate|reflexivity].
      - destruct K as [-> K]; [intros x Hx; apply N; cbn; congruence|]. cbn. now rewrite K. }
    destruct input as [path|]; [destruct (String.eqb path "-")|].
    - destruct stdin_text; [now apply S|reflexivity].
    - pose proof (convert_more path more _ _ B) as K. destruct (convert path (with_dirs dirs)) as [b' [o|e]], (convert path (with_dirs (dirs ++ more))) as [b1 r1]; cbn [fst snd] in K.
      + destruct K as [-> K]; [discriminate|reflexivity].
      + destruct K as [-> K]; [intros x Hx; apply M; cbn; congruence|]. cbn. now rewrite K.
    - destruct stdin_text; [now apply S|reflexivity].
  Qed.
  Lemma run_schemata_more input outdir dirs more :
    (forall e, run_error (run_idl2schemata input outdir dirs) = Some (CompileError e) -> ~ import_missing e) ->
    run_idl2schemata input outdir (dirs ++ more) = run_idl2schemata input outdir dirs.
  Proof.
    unfold run_idl2schemata. intro M. pose proof (with_dirs_more dirs more) as B. pose proof (extract_more input more _ _ B) as K.
    destruct (extract input (with_dirs dirs)) as [b' [o|e]], (extract input (with_dirs (dirs ++ more))) as [b1 r1]; cbn [fst snd] in K.
    - destruct K as [-> K]; [discriminate|reflexivity].
    - destruct K as [-> K]; [intros x Hx; apply M; cbn; congruence|]. cbn. now rewrite K.
  Qed.
End Runs.
