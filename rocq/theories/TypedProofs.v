(** The same text, in a file and given directly. *)
From Verif Require Import SpecTyped Compile CompileProofs LoadProofs BaseProofs OrderProofs MoveProofs RewriteProofs ForgetProofs ReadingProofs FileProofs CutProofs LexerProofs Cli.
From Verif Require RefsProofs SpecRefs.
From Coq Require Import Permutation.

(** ** Knowing a file that is not imported *)
Section Known.
  Context `{U : Unicode} `{F : Floats} `{P : Parser} `{FS : FileSystem} `{J : JsonParser}.
  Variable dirs : list string.
  Variable dir0 : string.
  Variable items0 : list decl_item.
  Variable self : string.
  Hypothesis Not : not_imported FS dirs dir0 items0 self.
  Local Notation part := (taking_part FS dirs dir0 items0).
  (** the same but for [self], which may be marked as imported *)
  Record but_self (c c' : context) : Prop := {
    bs_registry : cx_registry c = cx_registry c'; bs_messages : cx_messages c = cx_messages c'; bs_warnings : cx_warnings c = cx_warnings c';
    bs_json : cx_json_imports c = cx_json_imports c'; bs_loads : cx_loads c = cx_loads c';
    bs_imported : forall p, p <> self -> str_mem p (cx_imported c) = str_mem p (cx_imported c') }.
  Definition but_self_outcome (o o' : outcome) : Prop := but_self (fst o) (fst o') /\ snd o = snd o'.
  Definition but_self_nested (n n' : string -> list decl_item -> context -> outcome) : Prop :=
    forall d its c c', part d its -> but_self c c' -> but_self_outcome (n d its c) (n' d its c').
  Local Ltac bs := split; [constructor; cbn in *; auto; congruence|reflexivity].

  Lemma type_but_self s sp fs c c' : but_self c c' -> but_self_outcome (process_type s sp fs c) (process_type s sp fs c').
  Proof.
    intros [R M W Jn L I]. unfold process_type. rewrite <- R. destruct (register _ s) as [r|e]; [|bs].
    destruct (validate_record_field_defaults _ s _) as [[|x l]|]; bs.
  Qed.
  Lemma single_but_self n n' k path sp d its c c' : but_self_nested n n' -> part d its -> In (DImport k path sp) its -> but_self c c' ->
    but_self_outcome (resolve_single_import n dirs k path sp d c) (resolve_single_import n' dirs k path sp d c').
  Proof.
    intros Hn Hp Hi B. unfold resolve_single_import. destruct (resolve_import dirs path d) as [p|e] eqn:E; [|now split].
    apply resolve_import_iff in E. assert (Hs : p <> self) by (intros ->; exact (Not _ _ _ _ _ Hp Hi E)). rewrite <- (bs_imported _ _ B p Hs).
    destruct (str_mem p (cx_imported c)) eqn:Em; [now split|].
    assert (B' : but_self (log_load k p (mark p c)) (log_load k p (mark p c'))).
    { destruct B as [R M W Jn L I]. constructor; cbn; auto; [congruence|]. intros q Hq. unfold str_mem in *. cbn. now rewrite (I q Hq). }
    clear B Em. destruct B' as [R M W Jn L I]. unfold load_import. destruct k; (destruct (fs_read p) as [text|] eqn:Et; [|split; [now constructor|reflexivity]]).
    - destruct (parse_idl p text) as [[[file its'] ws]|e] eqn:Ep; [|split; [now constructor|reflexivity]]. apply Hn.
      + apply (tp_import _ _ _ _ d its path sp p file its' ws Hp Hi E). now exists text.
      + constructor; cbn in *; auto; congruence.
    - destruct (parse_json text) as [j|]; [|split; [now constructor|reflexivity]]. rewrite <- R. destruct (import_protocol j _) as [r [ms|e]]; bs.
    - destruct (parse_json text) as [j|]; [|split; [now constructor|reflexivity]]. rewrite <- R. destruct (import_schema j _) as [r [ms|e]]; bs.
  Qed.
  Lemma items_but_self n n' d its l : but_self_nested n n' -> part d its -> incl l its -> forall c c', but_self c c' ->
    but_self_outcome (process_items n dirs d l c) (process_items n' dirs d l c').
  Proof.
    intros Hn Hp. induction l as [|it l IH]; intros Hl c c' B; [now split|]. cbn [process_items].
    assert (Hit : In it its) by (apply Hl; now left). assert (Hl' : incl l its) by (intros x Hx; apply Hl; now right).
    assert (S : but_self_outcome (match it with DImport k path sp => resolve_single_import n dirs k path sp d c | DType s sp fields => process_type s sp fields c end)
                      (match it with DImport k path sp => resolve_single_import n' dirs k path sp d c' | DType s sp fields => process_type s sp fields c' end)).
    { destruct it as [k path sp|s sp fs]; [now apply (single_but_self n n' k path sp d its c)|now apply type_but_self]. }
    destruct (match it with DImport _ _ _ => _ | DType _ _ _ => process_type _ _ _ c end) as [c1 e1], (match it with DImport _ _ _ => _ | DType _ _ _ => process_type _ _ _ c' end) as [c2 e2].
    destruct S as [S1 S2]. cbn in S1, S2. subst e2. destruct e1; [now split|now apply IH].
  Qed.
  Lemma process_but_self n d its c c' : part d its -> but_self c c' ->
    but_self_outcome (process_decl_items n dirs d its c) (process_decl_items n dirs d its c').
  Proof.
    revert d its c c'. induction n as [|n IH]; intros d its c c' Hp B; cbn [process_decl_items]; apply (items_but_self _ _ d its its); try exact Hp; try apply incl_refl; try exact B.
    - intros d' its' x x' _ X. now split.
    - intros d' its' x x' Hp' X. now apply IH.
  Qed.
End Known.
Section Marked.
  Context `{U : Unicode} `{F : Floats} `{P : Parser} `{FS : FileSystem} `{J : JsonParser}.
  Lemma compile_marked dirs src name dir self :
    (forall file items ws, parse_idl name src = Ok (file, items, ws) -> not_imported FS dirs dir items self) ->
    compile dirs src name dir (Some self) = compile dirs src name dir None.
  Proof.
    intro N. unfold compile, parse_and_resolve. destruct (parse_idl name src) as [[[file items] ws]|e] eqn:Ep; [|reflexivity]. specialize (N _ _ _ eq_refl).
    set (c0 := add_warnings _ new_context). cbn [mark_input].
    assert (B : but_self self (mark self c0) c0).
    { constructor; try reflexivity. intros p Hp. unfold str_mem. cbn. destruct (String.eqb_spec p self); [contradiction|reflexivity]. }
    destruct (process_but_self dirs dir items self N (length fs_files) dir items _ _ (tp_input _ _ _ _) B) as [[R M W Jn L _] E].
    destruct (process_decl_items _ dirs dir items (mark self c0)) as [c1 e1], (process_decl_items _ dirs dir items c0) as [c2 e2]. cbn [fst snd] in *. subst e2.
    destruct e1 as [e|]; [congruence|]. assert (Ef : finish_file file c1 = finish_file file c2) by (destruct file; cbn; congruence).
    rewrite Ef, R, Jn, L, W. reflexivity.
  Qed.
End Marked.

(** ** Another name *)
Section Named.
  Context `{U : Unicode} `{F : Floats} `{M : LexerMessages} `{J : JsonParser}.
  Variable FS : FileSystem.
  Local Existing Instance text_parser.
  Lemma rewritten_same : rewritten FS (@fs_read FS) = FS.
  Proof. now destruct FS. Qed.
  Lemma same_tokens_refl t : same_tokens t t.
  Proof.
    exists (until_sub t), (until_sub t), (cut (chars (until_sub t))), (cut (chars (until_sub t))). repeat split; try apply until_visible; now apply cut_iff.
  Qed.
  Lemma only_layout_refl : only_changed same_tokens (@fs_read FS) (@fs_read FS).
  Proof. intro p. destruct (fs_read p); [|exact I]. split; [apply same_tokens_refl|reflexivity]. Qed.
  Lemma same_check_named f f' r r' name name' i i' : unplaced_file f = unplaced_file f' -> unplaced_registry r = unplaced_registry r' ->
    match Refs.validate_all_references (ref_file f) r name i, Refs.validate_all_references (ref_file f') r' name' i' with
    | None, None => True
    | Some d, Some d' => same_error (Undefined d) (Undefined d')
    | _, _ => False
    end.
  Proof.
    intros E R. pose proof (RefsProofs.check_report (ref_file f) r name i) as A. pose proof (RefsProofs.check_report (ref_file f') r' name' i') as B.
    assert (G : forall n, SpecRefs.undefined_in (ref_file f) r n <-> SpecRefs.undefined_in (ref_file f') r' n) by (intro n; split; apply same_undefined; auto).
    destruct (Refs.validate_all_references (ref_file f) r name i) as [d|], (Refs.validate_all_references (ref_file f') r' name' i') as [d'|].
    - destruct A as (l & N & I & _ & P), B as (l' & N' & I' & _ & P'). cbn. exists l, l'. split; [|auto]. apply NoDup_Permutation; [exact N|exact N'|]. intro x. now rewrite I, I', G.
    - destruct A as ([|x l] & N & I & Z & P); [contradiction|]. apply (B x), G, I. now left.
    - destruct B as ([|x l] & N & I & Z & P); [contradiction|]. apply (A x), G, I. now left.
    - exact Logic.I.
  Qed.
  Definition renamed_compiled (name name' : string) (x x' : result compile_output compile_error) : Prop :=
    match x, x' with Ok o, Ok o' => same_output o o' | Err e, Err e' => renamed_error name name' e e' | _, _ => False end.
  Lemma compile_named dirs t name name' dir ip :
    renamed_compiled name name' (fst (compile dirs t name dir ip)) (fst (compile dirs t name' dir ip))
    /\ same_warnings (snd (compile dirs t name dir ip)) (snd (compile dirs t name' dir ip)).
  Proof.
    unfold compile, parse_and_resolve. pose proof (layout_parse name name' t t (same_tokens_refl t)) as R.
    destruct (parse_idl name t) as [[[f i] w]|e], (parse_idl name' t) as [[[f' i'] w']|e']; [|contradiction|destruct e; contradiction|].
    - destruct R as (Rf & Ri & Rw).
      assert (C : same_context (mark_input ip (add_warnings (map (mkReport None) w) new_context)) (mark_input ip (add_warnings (map (mkReport None) w') new_context))).
      { destruct ip; constructor; cbn; try reflexivity; now apply same_warnings_map. }
      pose proof (same_decl_items FS (@fs_read FS) same_tokens (@layout_parse _ _ _) only_layout_refl (length fs_files) dirs dir i i' _ _ Ri C) as S. rewrite rewritten_same in S. destruct S as [S1 S2].
      destruct (process_decl_items _ _ _ i _) as [c1 [e1|]], (process_decl_items _ _ _ i' _) as [c2 [e2|]]; cbn [fst snd] in S1, S2; try contradiction; cbn [fst snd].
      + split; [left; exact S2|apply S1].
      + pose proof (same_check_named (finish_file f c1) (finish_file f' c2) _ _ name name' (cx_json_imports c1) (cx_json_imports c2) (same_finish _ _ _ _ Rf S1) (same_registry _ _ S1)) as K.
        destruct (Refs.validate_all_references (ref_file (finish_file f c1)) _ _ _) as [d|], (Refs.validate_all_references (ref_file (finish_file f' c2)) _ _ _) as [d'|]; try contradiction; cbn [fst snd].
        * split; [left; exact K|apply S1].
        * split; [|reflexivity]. constructor; cbn; [now apply same_finish|apply S1..].
    - cbn [fst snd renamed_compiled]. split; [|reflexivity]. right. exists e, e'. split; [reflexivity|]. split; [reflexivity|]. exact (same_error_at _ _ _ R).
  Qed.

  (** ** The entry points *)
  Lemma compile_here path text name b :
    file_here FS path text ->
    (forall dir self file items ws, fs_cwd = Some dir -> fs_canonical path = Some self -> parse_idl path text = Ok (file, items, ws) -> not_imported FS (b_import_dirs b) dir items self) ->
    same_builder (fst (compile_file path b)) (fst (compile_str text name b))
    /\ renamed_compiled path name (snd (compile_file path b)) (snd (compile_str text name b)).
  Proof.
    intros (Hr & Hc) N. unfold compile_file, compile_str. rewrite Hr, Hc. cbv zeta. rewrite Hc in N. set (dir := match fs_canonical (fs_parent path) with Some d => d | None => fs_parent path end) in *.
    assert (E : compile (b_import_dirs b) text path dir (fs_canonical path) = compile (b_import_dirs b) text path dir None).
    { destruct (fs_canonical path) as [self|]; [|reflexivity]. apply compile_marked. intros file items ws. now apply (N dir self file items ws). }
    rewrite E. clear E. destruct (compile_named (b_import_dirs b) text path name dir None) as [A B].
    destruct (compile _ _ path _ _) as [r w], (compile _ _ name _ _) as [r' w']. cbn [fst snd] in *. split; [split; [reflexivity|exact B]|exact A].
  Qed.
  Lemma convert_here path text name b :
    file_here FS path text ->
    (forall dir self file items ws, fs_cwd = Some dir -> fs_canonical path = Some self -> parse_idl path text = Ok (file, items, ws) -> not_imported FS (b_import_dirs b) dir items self) ->
    renamed_result path name same_json (convert path b) (convert_str text name b).
  Proof.
    intros Hf N. destruct (compile_here path text name b Hf N) as [B C]. unfold convert, convert_str.
    destruct (compile_file path b) as [b1 [o|e]], (compile_str text name b) as [b2 [o'|e']]; cbn [fst snd] in B, C; try contradiction; [|split; assumption].
    destruct (same_convert_impl o o' b1 b2 C B) as [K1 K2]. split; [exact K1|]. destruct (snd (convert_impl o b1)), (snd (convert_impl o' b2)); try contradiction; [exact K2|now left].
  Qed.
  Lemma extract_here path text name b :
    file_here FS path text ->
    (forall dir self file items ws, fs_cwd = Some dir -> fs_canonical path = Some self -> parse_idl path text = Ok (file, items, ws) -> not_imported FS (b_import_dirs b) dir items self) ->
    renamed_result path name same_schemas (extract_file path b) (extract_str text name b).
  Proof.
    intros Hf N. destruct (compile_here path text name b Hf N) as [B C]. unfold extract_file, extract_str.
    destruct (compile_file path b) as [b1 [o|e]], (compile_str text name b) as [b2 [o'|e']]; cbn [fst snd] in B, C; try contradiction; [|split; assumption].
    split; [exact B|]. cbn [snd]. pose proof (same_extract_impl o o' C) as K. destruct (extract_impl o), (extract_impl o'); try contradiction; [exact K|now left].
  Qed.
  Lemma run_here (C : Console) path text output dirs :
    file_here FS path text -> path <> "-" -> stdin_text = Some text ->
    (forall dir self file items ws, fs_cwd = Some dir -> fs_canonical path = Some self -> parse_idl path text = Ok (file, items, ws) -> not_imported FS dirs dir items self) ->
    renamed_run path "<stdin>" (run_idl (Some path) output dirs) (run_idl None output dirs)
    /\ renamed_run path "-" (run_idl (Some path) output dirs) (run_idl (Some "-") output dirs).
  Proof.
    intros Hf Hp Hs N. unfold run_idl. cbv zeta. rewrite Hs. destruct (String.eqb_spec path "-"); [contradiction|]. cbn [String.eqb].
    assert (E : forall l b, b_import_dirs (fold_left (fun b d => import_dir d b) l b) = b_import_dirs b ++ l).
    { induction l as [|d l IH]; intro b; cbn [fold_left]; [now rewrite app_nil_r|]. rewrite IH. cbn [import_dir b_import_dirs]. now rewrite <- app_assoc. }
    assert (K : forall name, renamed_result path name same_json (convert path (with_dirs dirs)) (convert_str text name (with_dirs dirs))).
    { intro name. apply convert_here; [exact Hf|]. unfold with_dirs. rewrite E. exact N. }
    assert (S : forall o o', same_json o o' -> forall name, renamed_run path name (write_output output (pretty (io_json o)) (io_warnings o)) (write_output output (pretty (io_json o')) (io_warnings o'))).
    { intros o o' [-> W] name. unfold write_output. destruct output as [x|]; [destruct (String.eqb x "-"); [|destruct (can_write x)]|]; repeat split; exact W. }
    split.
    - destruct (K "<stdin>") as [[_ B] R]. destruct (convert path _) as [b1 [o|e]], (convert_str text _ _) as [b2 [o'|e']]; cbn [fst snd] in *; try contradiction; [now apply S|]. repeat split; [exact B|exact R].
    - destruct (K "-") as [[_ B] R]. destruct (convert path _) as [b1 [o|e]], (convert_str text _ _) as [b2 [o'|e']]; cbn [fst snd] in *; try contradiction; [now apply S|]. repeat split; [exact B|exact R].
  Qed.
End Named.
