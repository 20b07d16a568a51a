(** C79: what the program writes to files can be imported from there. *)
From Coq Require Import Permutation Lia.
From Verif Require Import JsonFile SpecJsonFile JsonReadProofs JsonWriteProofs SpecSaved Cli.
From Verif Require Import SampleFile SampleWorld PropSource PropLayout PropPlaces PropExpand PropStatements PipelineProofs BaseProofs MeaningProofs ExpandProofs ReimportProofs ReimportMessageProofs PropReimport TidyProofs TidySourceProofs PropJsonFile SizeProofs.

Lemma read_loads_tidy `{Floats} `{JsonNumbers} (FS : FileSystem) loads : floats_kept -> tidy_loads (H2 := FS) (H3 := file_json) loads.
Proof.
  intros [_ K] k q j _ _ (text & _ & E). apply read_iff in E as (p & a & t & b & _ & _ & _ & V & _). exact (proj1 (read_tidy K) _ _ _ V).
Qed.
Lemma read_loads_proper `{JsonNumbers} (FS : FileSystem) loads : proper_json (H2 := FS) (H3 := file_json) loads.
Proof.
  intros k q j _ _ (text & _ & E). apply read_iff in E as (p & a & t & b & _ & _ & _ & V & _). exact (proj1 read_wf _ _ _ V).
Qed.
Lemma saved_content `{JsonNumbers} (FS : FileSystem) q j : tidy j -> nests 127 j -> saved q j -> json_content (H2 := FS) (H3 := file_json) q j.
Proof. intros T N (w & S & E). exists (to_string_pretty 0 j ++ w)%string. split; [exact E|]. exact (written_read j 0 w T N S). Qed.

(** What is written is read as the document that was made, provided it has at
    most 127 brackets inside one another. *)
Theorem C79_converted :
  forall `(Unicode) `(Floats) `(Parser) `(JsonNumbers) `(FS : FileSystem) dirs src name dir ip o ws b r,
  floats_kept -> compile (H3 := file_json) dirs src name dir ip = (Ok o, ws) -> snd (convert_impl o b) = Ok r ->
  forall w, spaces w -> (parse_json_with_comments (to_string_pretty 0 (io_json r) ++ w) = Some (io_json r) <-> nests 127 (io_json r)).
Proof.
  intros U F P J FS dirs src name dir ip o ws b r K Hc Hx w S. apply C78_written; [|exact S].
  exact (converted_tidy (proj1 K) _ _ _ _ _ _ _ _ _ Hc (read_loads_tidy FS _ K) Hx).
Qed.
Theorem C79_extracted :
  forall `(Unicode) `(Floats) `(Parser) `(JsonNumbers) `(FS : FileSystem) dirs src name dir ip o ws x y,
  floats_kept -> compile (H3 := file_json) dirs src name dir ip = (Ok o, ws) -> extract_impl o = Ok x -> In y (so_schemas x) ->
  forall w, spaces w -> (parse_json_with_comments (to_string_pretty 0 (nm_schema y) ++ w) = Some (nm_schema y) <-> nests 127 (nm_schema y)).
Proof.
  intros U F P J FS dirs src name dir ip o ws x y K Hc Hx Hy w S. apply C78_written; [|exact S].
  exact (extracted_tidy (proj1 K) _ _ _ _ _ _ _ _ _ Hc (read_loads_tidy FS _ K) Hx Hy).
Qed.
Print Assumptions C79_converted.
Print Assumptions C79_extracted.

(** So schemas that were extracted and saved can be imported, *)
Theorem C79_imported :
  forall `(Unicode) `(Floats) `(Parser) `(JsonNumbers) `(FS : FileSystem) dirs src name dir ip file items ws o x,
  floats_kept -> parse_idl name src = Ok (file, items, ws) -> compile (H3 := file_json) dirs src name dir ip = (Ok o, []) -> extract_impl o = Ok x ->
  apart (reg_schemas (co_registry o)) -> plain_aliases (reg_schemas (co_registry o)) -> forallb portable (reg_schemas (co_registry o)) = true ->
  forall (FS' : FileSystem) dirs' src' name' dir' ip' file' items' ws' ys,
  parse_idl name' src' = Ok (file', items', ws') -> incl ys (so_schemas x) -> (forall y, In y ys -> nests 127 (nm_schema y)) ->
  Forall2 (imports_saved (H := FS') dirs' dir' ip') items' ys ->
  (forall full, uses file' [] [] full -> exists d, defined_by ys full d) ->
  exists o', compile (H2 := FS') (H3 := file_json) dirs' src' name' dir' ip' = (Ok o', [])
    /\ NoDup (keys (co_registry o'))
    /\ (forall full, In full (keys (co_registry o')) <-> exists d, known_as (co_registry o') full d)
    /\ (forall full d, known_as (co_registry o') full d <-> defined_by ys full d)
    /\ (forall full d, known_as (co_registry o') full d -> known_as (co_registry o) full d).
Proof.
  intros U F P J FS dirs src name dir ip file items ws o x K Hp Hc Hx Hap Hal Hpt FS' dirs' src' name' dir' ip' file' items' ws' ys Hp' Hin Hn Hall Hu.
  eapply (C75_imported U F P FS file_json dirs src name dir ip file items ws o x Hp Hc Hx (read_loads_proper FS _) Hap Hal Hpt FS' file_json dirs' src' name' dir' ip' file' items' ws' ys Hp' Hin); [|exact Hu].
  clear Hu Hp'. induction Hall as [|it y items' ys (n & sp & p & -> & Hfo & Hip & Hs) _ IH]; constructor.
  - exists n, sp, p. split; [reflexivity|]. split; [exact Hfo|]. split; [exact Hip|]. apply saved_content; [|apply Hn; now left|exact Hs].
    exact (extracted_tidy (proj1 K) _ _ _ _ _ _ _ _ _ Hc (read_loads_tidy FS _ K) Hx (Hin _ (or_introl eq_refl))).
  - apply IH; [intros z Hz; apply Hin; now right|intros z Hz; apply Hn; now right].
Qed.
Print Assumptions C79_imported.
(** and so can a protocol that was converted. *)
Theorem C79_protocol :
  forall `(Unicode) `(Floats) `(Parser) `(JsonNumbers) `(FS : FileSystem) dirs src name dir ip p items ws o p' b r,
  floats_kept -> parse_idl name src = Ok (IProtocol p, items, ws) -> compile (H3 := file_json) dirs src name dir ip = (Ok o, []) -> co_file o = IProtocol p' ->
  snd (convert_impl o b) = Ok r ->
  (forall q, ~ In (ImportProtocol, q) (co_loads o)) \/ no_inline_definitions p' ->
  protocol_apart p' -> plain_aliases (p_types p') ->
  forallb portable (p_types p') = true -> forallb (fun nm => portable_message (snd nm)) (p_messages p') = true ->
  nests 127 (io_json r) ->
  forall (FS' : FileSystem) dirs' src' name' dir' ip' file' ws' n sp q,
  parse_idl name' src' = Ok (file', [DImport ImportProtocol n sp], ws') ->
  found_in (H2 := FS') (dir' :: dirs') n q -> ip' <> Some q -> saved (H := FS') q (io_json r) ->
  (forall full, uses file' [] [] full -> In full (keys (co_registry o))) ->
  exists o', compile (H2 := FS') (H3 := file_json) dirs' src' name' dir' ip' = (Ok o', [])
    /\ Permutation (keys (co_registry o')) (keys (co_registry o))
    /\ (forall full d, known_as (co_registry o') full d <-> known_as (co_registry o) full d)
    /\ (forall mine, file' = IProtocol mine -> exists all, co_file o' = IProtocol all
          /\ p_name all = p_name mine /\ p_namespace all = p_namespace mine /\ p_doc all = p_doc mine /\ p_props all = p_props mine
          /\ forall k m, means (p_messages all) k m
               <-> means (p_messages mine) k m \/ ~ In k (keys (p_messages mine)) /\ means (p_messages p') k m).
Proof.
  intros U F P J FS dirs src name dir ip p items ws o p' b r K Hp Hc Ho Hx Hin Hap Hal Hpt Hpm Hn FS' dirs' src' name' dir' ip' file' ws' n sp q Hp' Hfo Hne Hs Hu.
  eapply (C75_protocol U F P FS file_json dirs src name dir ip p items ws o p' b r Hp Hc Ho Hx (read_loads_proper FS _) Hin Hap Hal Hpt Hpm FS' file_json); eauto.
  apply saved_content; [|exact Hn|exact Hs].
  exact (converted_tidy (proj1 K) _ _ _ _ _ _ _ _ _ Hc (read_loads_tidy FS _ K) Hx).
Qed.
Print Assumptions C79_protocol.

(** Every text that the program writes, to a file or to standard output, is read
    as a document, if it is not nested too deeply. *)
Section Run.
  Context `{Unicode} `{Floats} `{Parser} `{JsonNumbers} `{FileSystem} `{Console}.
  Context (K : floats_kept).
  Local Instance the_file_json : JsonParser := file_json.
  Lemma file_comes path b b' o : compile_file path b = (b', Ok o) -> exists dirs src name dir ip ws, compile dirs src name dir ip = (Ok o, ws).
  Proof.
    unfold compile_file. destruct (fs_read path) as [src|]; [|discriminate].
    match goal with |- (let '(_, _) := compile ?a ?b ?c ?d ?e in _) = _ -> _ => destruct (compile a b c d e) as [res ws] eqn:E end.
    intro X. injection X as _ ->. do 6 eexists. exact E.
  Qed.
  Lemma str_comes src name b b' o : compile_str src name b = (b', Ok o) -> exists dirs src name dir ip ws, compile dirs src name dir ip = (Ok o, ws).
  Proof.
    unfold compile_str. destruct fs_cwd as [cwd|]; [|discriminate].
    match goal with |- (let '(_, _) := compile ?a ?b ?c ?d ?e in _) = _ -> _ => destruct (compile a b c d e) as [res ws] eqn:E end.
    intro X. injection X as _ ->. do 6 eexists. exact E.
  Qed.
  Lemma converted_file path b b' r : convert path b = (b', Ok r) -> tidy (io_json r).
  Proof.
    unfold convert. destruct (compile_file path b) as [b1 [o|e]] eqn:E; [|discriminate]. intro X. apply file_comes in E as (dirs & src & name & dir & ip & ws & E).
    refine (converted_tidy (proj1 K) _ _ _ _ _ _ _ b1 _ E (read_loads_tidy _ _ K) _). now rewrite X.
  Qed.
  Lemma converted_str src name b b' r : convert_str src name b = (b', Ok r) -> tidy (io_json r).
  Proof.
    unfold convert_str. destruct (compile_str src name b) as [b1 [o|e]] eqn:E; [|discriminate]. intro X. apply str_comes in E as (dirs & src' & name' & dir & ip & ws & E).
    refine (converted_tidy (proj1 K) _ _ _ _ _ _ _ b1 _ E (read_loads_tidy _ _ K) _). now rewrite X.
  Qed.
  Lemma extracted_file path b b' x : extract_file path b = (b', Ok x) -> forall y, In y (so_schemas x) -> tidy (nm_schema y).
  Proof.
    unfold extract_file. destruct (compile_file path b) as [b1 [o|e]] eqn:E; [|discriminate]. intro X. apply file_comes in E as (dirs & src & name & dir & ip & ws & E).
    intros y Hy. refine (extracted_tidy (proj1 K) _ _ _ _ _ _ _ _ _ E (read_loads_tidy _ _ K) _ Hy). congruence.
  Qed.
  Lemma extracted_files paths : forall acc b b' x, (forall y, In y (so_schemas acc) -> tidy (nm_schema y)) ->
    extract_all paths acc b = (b', Ok x) -> forall y, In y (so_schemas x) -> tidy (nm_schema y).
  Proof.
    induction paths as [|p paths IH]; intros acc b b' x A; cbn [extract_all]; [intro E; injection E as _ <-; exact A|].
    destruct (extract_file p b) as [b1 [o|e]] eqn:E; [|discriminate]. apply IH. cbn [so_schemas]. intros y Hy.
    apply in_app_iff in Hy as [Hy|Hy]; [now apply A|exact (extracted_file _ _ _ _ E y Hy)].
  Qed.
  Lemma extracted_from path b b' x : extract path b = (b', Ok x) -> forall y, In y (so_schemas x) -> tidy (nm_schema y).
  Proof. unfold extract. destruct (fs_is_dir path); [apply extracted_files; intros y []|apply extracted_file]. Qed.

  Definition leaves (r : run) (text : string) : Prop :=
    (exists path, In (path, text) (run_writes r)) \/ run_stdout r = text /\ text <> "".
  Lemma output_leaves output j ws text : tidy j -> leaves (write_output output (pretty j) ws) text -> exists j w, tidy j /\ spaces w /\ text = (pretty j ++ w)%string.
  Proof.
    assert (N : forall s, (s ++ "")%string = s) by (induction s; cbn; congruence).
    intros T L. unfold write_output in L. destruct output as [path|]; [destruct (String.eqb path "-"); [|destruct (can_write path)]|]; destruct L as [(q & I)|[E NE]]; cbn in *; try contradiction; try congruence.
    - exists j, "". split; [exact T|]. split; [apply spaces_nil|]. rewrite N. congruence.
    - destruct I as [I|[]]. injection I as _ <-. exists j, line_end. split; [exact T|]. split; [apply spaces_nl, spaces_nil|reflexivity].
    - exists j, "". split; [exact T|]. split; [apply spaces_nil|]. rewrite N. congruence.
  Qed.
  Lemma schemas_leave dir l e ws text path : (forall y, In y l -> tidy (nm_schema y)) -> write_schemas dir l = (e, ws) -> In (path, text) ws ->
    exists j w, tidy j /\ spaces w /\ text = (pretty j ++ w)%string.
  Proof.
    revert e ws. induction l as [|y l IH]; intros e ws A; cbn [write_schemas].
    - intros E I. injection E as _ <-. destruct I.
    - destruct (can_write _); [|intros E I; injection E as _ <-; destruct I]. destruct (write_schemas dir l) as [e' ws']. intros E I. injection E as _ <-.
      destruct I as [I|I]; [|exact (IH _ _ (fun z Hz => A z (or_intror Hz)) eq_refl I)]. injection I as _ <-.
      exists (nm_schema y), line_end. split; [apply A; now left|]. split; [apply spaces_nl, spaces_nil|reflexivity].
  Qed.
  Lemma nothing_left r text : run_writes r = [] -> run_stdout r = "" -> leaves r text -> False.
  Proof. intros W S [(p & I)|[E N]]; [rewrite W in I; destruct I|congruence]. Qed.
  Lemma main_leaves args text : leaves (main args) text -> exists j w, tidy j /\ spaces w /\ text = (pretty j ++ w)%string.
  Proof.
    assert (Nq : leaves quiet text -> False) by (apply nothing_left; reflexivity).
    assert (Nf : forall e, leaves (failing e) text -> False) by (intro e; apply nothing_left; reflexivity).
    assert (Nm : forall e ws, leaves (mkRun e ws "" []) text -> False) by (intros e ws; apply nothing_left; reflexivity).
    unfold main. destruct (lex_next LsNone args) as [[[a|] [st rest]]|e]; try (intro L; exfalso; eauto; fail).
    destruct a as [n|c|name]; try (destruct (_ || _); intro L; exfalso; eauto; fail).
    destruct (String.eqb name "idl").
    - destruct (parse_all st rest) as [ps dirs| | |]; try (intro L; exfalso; eauto; fail).
      assert (G : forall output x, (forall r, snd x = Ok r -> tidy (io_json r)) ->
        leaves (match x with (_, Ok o) => write_output output (pretty (io_json o)) (io_warnings o) | (b', Err e) => mkRun (Some (CompileError e)) (snd (drain_warnings b')) "" [] end) text ->
        exists j w, tidy j /\ spaces w /\ text = (pretty j ++ w)%string).
      { intros output [b' [r|e]] T L; [exact (output_leaves _ _ _ _ (T r eq_refl) L)|exfalso; eauto]. }
      assert (GS : forall output name, leaves (match stdin_text with None => failing CannotReadStdin | Some source =>
          match convert_str source name (with_dirs dirs) with (_, Ok o) => write_output output (pretty (io_json o)) (io_warnings o) | (b', Err e) => mkRun (Some (CompileError e)) (snd (drain_warnings b')) "" [] end end) text ->
        exists j w, tidy j /\ spaces w /\ text = (pretty j ++ w)%string).
      { intros output nm L. destruct stdin_text as [src|]; [|exfalso; eauto]. revert L. apply G. intros r E.
        destruct (convert_str src nm (with_dirs dirs)) as [b' x] eqn:X. cbn in E. subst x. exact (converted_str _ _ _ _ _ X). }
      unfold run_idl. destruct (nth_error ps 0) as [path|]; [destruct (String.eqb path "-")|]; [apply GS| |apply GS].
      apply G. intros r E. destruct (convert path (with_dirs dirs)) as [b' x] eqn:X. cbn in E. subst x. exact (converted_file _ _ _ _ X).
    - destruct (String.eqb name "idl2schemata"); [|intro L; exfalso; eauto].
      destruct (parse_all st rest) as [[|input ps] dirs| | |]; try (intro L; exfalso; eauto; fail).
      unfold run_idl2schemata. destruct (extract input (with_dirs dirs)) as [b' [x|e]] eqn:X; [|intro L; exfalso; eauto].
      destruct (fs_exists _ && _); [intro L; exfalso; eauto|]. destruct (can_create _); [|intro L; exfalso; eauto].
      match goal with |- leaves (let (_, _) := write_schemas ?d ?l in _) _ -> _ => destruct (write_schemas d l) as [e ws] eqn:W end.
      intros [(path & I)|[E N]]; [|cbn in E; congruence]. exact (schemas_leave _ _ _ _ _ _ (extracted_from _ _ _ _ X) W I).
  Qed.
End Run.
Theorem C79_run :
  forall `(Unicode) `(Floats) `(Parser) `(JsonNumbers) `(FileSystem) (C : Console) args text,
  floats_kept -> writes_texts C ->
  let r := main (H3 := file_json) args in
  (exists path, In (path, text) (run_writes r)) \/ run_stdout r = text /\ text <> "" ->
  exists j w, spaces w /\ text = (to_string_pretty 0 j ++ w)%string /\ (parse_json_with_comments text = Some j <-> nests 127 j).
Proof.
  intros U F P J FS C args text K W r L. destruct (main_leaves K args text L) as (j & w & T & S & ->). exists j, w. rewrite (W j).
  split; [exact S|]. split; [reflexivity|]. exact (C78_written j w T S).
Qed.
Print Assumptions C79_run.

(** A chain of records, each with a field of the next, is written with each
    inside the one before: forty-three of them are too many to be imported. *)
Section Chain.
  Existing Instance ascii_chars. Existing Instance few_floats. Existing Instance the_text_parser.
  Fixpoint chain_records (names : list ascii) : string :=
    match names with
    | [] => ""
    | a :: rest => "record " ++ String a ("{" ++ match rest with [] => "int" | b :: _ => String b "" end ++ " f;}" ++ chain_records rest)
    end%string.
  Definition chain_text : string := ("schema A;" ++ chain_records (list_ascii_of_string "ABCDEFGHIJKLMNOPQRSTUVWXYZabcdefghijklmnopq"))%string.
  (** One number with a fraction *)
  Local Instance one_number : JsonNumbers := {| read_float s := if String.eqb s "2.5" then Some (5, -1)%Z else None; show_float _ _ := "2.5" |}.
  Lemma one_number_kept : floats_kept.
  Proof.
    assert (T : number_text "2.5" (NFloat 5 (-1))).
    { apply (nt_float "" "2" 2 ".5" "" 5 (-1)); cbn; auto; try discriminate.
      - apply dm_dec; [discriminate|]. apply (spells_read 10 "2" "" _ 2); [lia|reflexivity|reflexivity].
      - right. exists "5". split; [|reflexivity]. exists 5%N. apply (spells_read 10 "5" "" _ 5); [lia|reflexivity|reflexivity].
      - now left. }
    split.
    - intros text m e E. unfold parse_float_text in E.
      repeat match type of E with (if ?b then _ else _) = _ => destruct b; [discriminate E|] end.
      cbn in E. destruct (String.eqb text "2.5"); [injection E as <- <-; exact T|discriminate E].
    - intros text m e E. cbn in E. destruct (String.eqb text "2.5"); [injection E as <- <-; exact T|discriminate E].
  Qed.
  Definition chain_out := Eval vm_compute in compile (H2 := world) (H3 := file_json) [] chain_text "t" "/p" None.
  Lemma chain_comes : compile (H2 := world) (H3 := file_json) [] chain_text "t" "/p" None = chain_out.
  Proof. vm_compute. reflexivity. Qed.
  Fixpoint brackets (j : json) : nat :=
    match j with
    | JArr l => S (fold_right (fun v n => Nat.max (brackets v) n) 0 l)
    | JObj o => S (fold_right (fun kv n => Nat.max (brackets (snd kv)) n) 0 o)
    | _ => 0
    end.
  Lemma nests_brackets : forall j d, nests d j -> brackets j <= d.
  Proof.
    fix IH 1. intros [| | | |l|o] d N; inversion N as [| | | |d' l' Hl|d' o' Ho]; subst; cbn [brackets]; try lia; apply le_n_S; clear N.
    - induction l as [|v l IHl]; cbn [fold_right]; [lia|]. apply Nat.max_lub; [apply IH, Hl; now left|apply IHl; intros w Hw; apply Hl; now right].
    - induction o as [|[k v] o IHo]; cbn [fold_right]; [lia|]. apply Nat.max_lub; [apply IH, (Ho k); now left|apply IHo; intros k' w Hw; apply (Ho k'); now right].
  Qed.
  Theorem C79_chain_refuted : exists src o r,
    compile (H2 := world) (H3 := file_json) [] src "t" "/p" None = (Ok o, [])
    /\ snd (convert_impl o (mkBuilder [] [])) = Ok r
    /\ parse_json_with_comments (to_string_pretty 0 (io_json r) ++ String "010" "") <> Some (io_json r).
  Proof.
    exists chain_text, (out_of chain_out). eexists. rewrite chain_comes. split; [reflexivity|]. split; [vm_compute; reflexivity|].
    intro E. apply (C79_converted ascii_chars few_floats the_text_parser one_number world [] chain_text "t" "/p" None (out_of chain_out) [] (mkBuilder [] [])) in E.
    - apply nests_brackets, Nat.leb_le in E. vm_compute in E. discriminate E.
    - exact one_number_kept.
    - exact chain_comes.
    - vm_compute. reflexivity.
    - apply spaces_nl, spaces_nil.
  Qed.

  (** ** Samples *)
  Definition nl := String "010" "".
  Lemma brackets_nest : forall j d, brackets j <= d -> nests d j.
  Proof.
    fix IH 1. intros [| | | |l|o] d N; cbn [brackets] in N; try constructor; (destruct d as [|d]; [inversion N|]); apply le_S_n in N; constructor.
    - induction l as [|v l IHl]; cbn [fold_right] in N; [intros v []|]. apply Nat.max_lub_iff in N as [N1 N2]. intros w [<-|Hw]; [exact (IH v d N1)|exact (IHl N2 w Hw)].
    - induction o as [|[k v] o IHo]; cbn [fold_right snd] in N; [intros k v []|]. apply Nat.max_lub_iff in N as [N1 N2]. intros k' w [E|Hw]; [injection E as _ <-; exact (IH v d N1)|exact (IHo N2 k' w Hw)].
  Qed.
  Definition kept_texts := Eval vm_compute in map (fun y => (("/q/" ++ nm_name y ++ ".avsc")%string, (to_string_pretty 0 (nm_schema y) ++ nl)%string)) (so_schemas main_extracted)
    ++ [("/q/Main.avpr", (to_string_pretty 0 main_json ++ nl)%string)].
  Definition kept_canonical (p : string) : option string := if str_mem p (keys kept_texts) then Some p else None.
  Lemma kept_finite : forall p c, kept_canonical p = Some c -> In c (keys kept_texts).
  Proof.
    intros p c. unfold kept_canonical. destruct (str_mem p (keys kept_texts)) eqn:E; [|discriminate]. intro Ec. injection Ec as <-. now apply str_mem_In.
  Qed.
  Definition kept_world : FileSystem :=
    {| fs_join := fun d n => (d ++ "/" ++ n)%string;
       fs_exists := fun p => str_mem p (keys kept_texts);
       fs_canonical := kept_canonical; fs_files := keys kept_texts; fs_finite := kept_finite;
       fs_read := fun p => assoc p kept_texts;
       fs_parent := parent; fs_file_name := fun p => Some (base_name p);
       fs_cwd := Some "/q"; fs_is_dir := fun _ => false; fs_content := fun _ => [] |}.
  Lemma main_comes_again : compile (H2 := world) (H3 := file_json) [] main_text "t" "/p" None = main_out.
  Proof. vm_compute. reflexivity. Qed.
  Example C79_sample : exists file items ws file' items' ws',
    parse_idl "t" main_text = Ok (file, items, ws)
    /\ compile (H2 := world) (H3 := file_json) [] main_text "t" "/p" None = (Ok main_known, [])
    /\ extract_impl main_known = Ok main_extracted
    /\ parse_idl "t" again_text = Ok (file', items', ws')
    /\ (forall y, In y (rev (so_schemas main_extracted)) -> nests 127 (nm_schema y))
    /\ Forall2 (imports_saved (H := kept_world) [] "/q" None) items' (rev (so_schemas main_extracted)).
  Proof.
    rewrite main_reads, again_reads, main_comes_again.
    do 6 eexists. split; [reflexivity|]. split; [reflexivity|]. split; [vm_compute; reflexivity|]. split; [reflexivity|]. split.
    - intros y Hy. apply brackets_nest. cbn in Hy. destruct Hy as [<-|[<-|[]]]; apply Nat.leb_le; reflexivity.
    - constructor; [|constructor; [|constructor]].
      + do 2 eexists. exists "/q/P.avsc". split; [reflexivity|]. split; [exists [], "/q", []; split; [reflexivity|split; [intros d []|split; reflexivity]]|]. split; [discriminate|].
        exists nl. split; [apply spaces_nl, spaces_nil|vm_compute; reflexivity].
      + do 2 eexists. exists "/q/A.avsc". split; [reflexivity|]. split; [exists [], "/q", []; split; [reflexivity|split; [intros d []|split; reflexivity]]|]. split; [discriminate|].
        exists nl. split; [apply spaces_nl, spaces_nil|vm_compute; reflexivity].
  Qed.
  Example C79_protocol_sample : exists r file' n sp ws',
    snd (convert_impl main_known (mkBuilder [] [])) = Ok r /\ nests 127 (io_json r)
    /\ parse_idl "t" more_text = Ok (file', [DImport ImportProtocol n sp], ws')
    /\ found_in (H2 := kept_world) ["/q"] n "/q/Main.avpr" /\ saved (H := kept_world) "/q/Main.avpr" (io_json r).
  Proof.
    rewrite more_reads. do 5 eexists. split; [vm_compute; reflexivity|]. split; [apply brackets_nest, Nat.leb_le; reflexivity|]. split; [reflexivity|].
    split; [exists [], "/q", []; split; [reflexivity|split; [intros d []|split; reflexivity]]|].
    exists nl. split; [apply spaces_nl, spaces_nil|vm_compute; reflexivity].
  Qed.
  Definition text_console : Console :=
    {| stdin_text := Some "schema array<int>;"; pretty := to_string_pretty 0; can_write := fun _ => true; can_create := fun _ => true |}.
  Example C79_run_sample : writes_texts text_console
    /\ run_writes (main (H2 := kept_world) (H3 := file_json) (H4 := text_console) ["idl"; "-"; "out.avsc"])
       = [("out.avsc", ("{" ++ nl ++ "  ""items"": ""int""," ++ nl ++ "  ""type"": ""array""" ++ nl ++ "}" ++ nl)%string)].
  Proof. split; [intro j; reflexivity|vm_compute; reflexivity]. Qed.
End Chain.
Print Assumptions C79_chain_refuted.
