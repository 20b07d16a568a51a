(** C62: errors found after a file was read point at the statement that caused
    them, and the text of the file says so at that place. *)
From Coq Require Import NArith Lia.
From Verif Require Import Compile SpecRewrite SpecPlaces SampleFile SampleWorld PropSource PropLayout.
From Verif Require Import BuildProofs PlaceProofs WhereProofs.
From Verif Require SpecRefs SpecLiterals.

(** ** Every error has its cause, and stands where the cause is *)
Section C62.
  Context `{Unicode} `{Floats} `{Parser} `{FileSystem} `{JsonParser}.

  (** [explained dirs label src dir e]: the error [e] of compiling the text [src],
      called [label], in the directory [dir] *)
  Definition explained_file (path : string) (b : builder) (e : compile_error) : Prop :=
    (e = CannotRead path /\ fs_read path = None)
    \/ exists src, fs_read path = Some src
         /\ explained (b_import_dirs b) path src (match fs_canonical (fs_parent path) with Some d => d | None => fs_parent path end) e.
  Definition explained_text (src name : string) (b : builder) (e : compile_error) : Prop :=
    (e = NoCurrentDirectory /\ fs_cwd = None)
    \/ exists cwd, fs_cwd = Some cwd /\ explained (b_import_dirs b) name src cwd e.
  (** The file has types only *)
  Definition only_types (name src : string) : Prop := exists l items ws, parse_idl name src = Ok (INamed l, items, ws).

  Lemma compile_file_explained path b e : snd (compile_file path b) = Err e -> explained_file path b e.
  Proof.
    unfold compile_file, explained_file. destruct (fs_read path) as [src|] eqn:Er; [|intro E; injection E as <-; now left].
    destruct (compile _ _ _ _ _) as [res ws] eqn:Ec. cbn. intros ->. right. exists src. split; [reflexivity|]. eapply compile_explained. exact Ec.
  Qed.
  Lemma compile_str_explained src name b e : snd (compile_str src name b) = Err e -> explained_text src name b e.
  Proof.
    unfold compile_str, explained_text. destruct fs_cwd as [cwd|] eqn:Er; [|intro E; injection E as <-; now left].
    destruct (compile _ _ _ _ _) as [res ws] eqn:Ec. cbn. intros ->. right. exists cwd. split; [reflexivity|]. eapply compile_explained. exact Ec.
  Qed.
  Lemma named_only dirs src name dir ip o ws l : compile dirs src name dir ip = (Ok o, ws) -> co_file o = INamed l -> only_types name src.
  Proof.
    intros E El. apply compile_ok in E as (file & items & w & c & Ep & _ & _ & _ & -> & _). cbn in El. destruct file as [| |l']; try discriminate. exists l', items, w. exact Ep.
  Qed.
  Lemma convert_impl_error o b e : snd (convert_impl o b) = Err e -> e = NoProtocolNorSchema /\ exists l, co_file o = INamed l.
  Proof.
    intro E. destruct (convert_impl o b) as [b' res] eqn:Ec. cbn in E. subst res. pose proof (convert_impl_ends _ _ _ _ Ec) as Hn. unfold convert_impl in Ec.
    destruct (co_file o) as [p|s|l]; [| |injection Ec as _ <-; eauto].
    - destruct (protocol_to_json p); [discriminate|]. injection Ec as _ <-. now elim Hn.
    - destruct (schema_to_json _ _ _ _) as [[j k]|]; [discriminate|]. injection Ec as _ <-. now elim Hn.
  Qed.

  Theorem C62_convert path b e : snd (convert path b) = Err e ->
    explained_file path b e \/ (e = NoProtocolNorSchema /\ exists src, fs_read path = Some src /\ only_types path src).
  Proof.
    unfold convert. destruct (compile_file path b) as [b' [o|e']] eqn:Ec; cbn; intro E.
    - right. apply convert_impl_error in E as [-> [l El]]. split; [reflexivity|]. unfold compile_file in Ec. destruct (fs_read path) as [src|]; [|discriminate]. exists src. split; [reflexivity|].
      destruct (compile _ _ _ _ _) as [res ws] eqn:E. injection Ec as _ ->. eapply named_only; eauto.
    - left. injection E as <-. apply compile_file_explained. now rewrite Ec.
  Qed.
  Theorem C62_convert_str src name b e : snd (convert_str src name b) = Err e ->
    explained_text src name b e \/ (e = NoProtocolNorSchema /\ only_types name src).
  Proof.
    unfold convert_str. destruct (compile_str src name b) as [b' [o|e']] eqn:Ec; cbn; intro E.
    - right. apply convert_impl_error in E as [-> [l El]]. split; [reflexivity|]. unfold compile_str in Ec. destruct fs_cwd as [cwd|]; [|discriminate].
      destruct (compile _ _ _ _ _) as [res ws] eqn:E. injection Ec as _ ->. eapply named_only; eauto.
    - left. injection E as <-. apply compile_str_explained. now rewrite Ec.
  Qed.
  Lemma extract_file_explained path b e : snd (extract_file path b) = Err e -> explained_file path b e.
  Proof.
    unfold extract_file. destruct (compile_file path b) as [b' [o|e']] eqn:Ec; cbn; intro E.
    - destruct (extract_impl_total o) as [r Er]. rewrite Er in E. discriminate.
    - injection E as <-. apply compile_file_explained. now rewrite Ec.
  Qed.
  Lemma explained_dirs path b b' e : b_import_dirs b = b_import_dirs b' -> explained_file path b e -> explained_file path b' e.
  Proof. unfold explained_file. now intros ->. Qed.
  Lemma extract_file_dirs path b : b_import_dirs (fst (extract_file path b)) = b_import_dirs b.
  Proof.
    unfold extract_file, compile_file. destruct (fs_read path); [|reflexivity]. destruct (compile _ _ _ _ _) as [[o|e'] ws]; reflexivity.
  Qed.
  (** A directory: one of its files *)
  Theorem C62_extract path b e : snd (extract path b) = Err e ->
    exists p, (if fs_is_dir path then In p (avdl_paths path) else p = path) /\ explained_file p b e.
  Proof.
    unfold extract. destruct (fs_is_dir path).
    - generalize (mkSchemata [] []) as acc. generalize (avdl_paths path) as l. intro l. assert (G : forall acc b', b_import_dirs b' = b_import_dirs b -> snd (extract_all l acc b') = Err e ->
        exists p, In p l /\ explained_file p b e).
      { induction l as [|p l IH]; intros acc b' Eb E; cbn in E; [discriminate|]. destruct (extract_file p b') as [b2 [o|e']] eqn:Ef.
        - destruct (IH _ b2 ltac:(pose proof (extract_file_dirs p b') as D; rewrite Ef in D; cbn in D; congruence) E) as (q & Hq & Eq). exists q. split; [now right|exact Eq].
        - cbn in E. injection E as ->. exists p. split; [now left|]. eapply explained_dirs; [exact Eb|]. apply extract_file_explained. now rewrite Ef. }
      intros acc E. eapply G; [reflexivity|exact E].
    - intro E. exists path. split; [reflexivity|]. now apply extract_file_explained.
  Qed.
  Theorem C62_extract_str src name b e : snd (extract_str src name b) = Err e -> explained_text src name b e.
  Proof.
    unfold extract_str. destruct (compile_str src name b) as [b' [o|e']] eqn:Ec; cbn; intro E.
    - destruct (extract_impl_total o) as [r Er]. rewrite Er in E. discriminate.
    - injection E as <-. apply compile_str_explained. now rewrite Ec.
  Qed.
End C62.
Print Assumptions C62_convert.
Print Assumptions C62_convert_str.
Print Assumptions C62_extract.
Print Assumptions C62_extract_str.

(** ** What the texts say at those places *)
Section Texts.
  Context `{Unicode} `{Floats} `{LexerMessages} `{FileSystem} `{JsonParser}.
  Existing Instance text_parser.
  (** An import statement, a declaration, the default of a field, a reference *)
  Theorem C62_import f text k path p : utf8 text -> statement f text (ItImport k path p) -> says f text p "import".
  Proof. apply import_says. Qed.
  Theorem C62_declaration f text d p : utf8 text -> statement f text (ItNamed d p) -> says f text p (first_word d).
  Proof. apply type_says. Qed.
  Theorem C62_default f text r p fd v j : utf8 text -> statement f text (ItNamed (NRecord r) p) -> In fd (r_fields r) -> In v (fd_variables fd) ->
    v_default v = Some j -> says f text (v_place v) (json_word j).
  Proof. apply default_says. Qed.
  Theorem C62_reference f text i o : utf8 text -> refers_to f text i o -> exists p, o = Some p /\ says f text p i.
  Proof. apply reference_says. Qed.
  (** The place tells which statement it is *)
  Theorem C62_one_statement f text it it' p : statement f text it -> statement f text it' -> item_place it = Some p -> item_place it' = Some p -> it = it'.
  Proof. apply one_statement. Qed.

  (** Undefined names: some place is shown, and each place that is shown is that of
      the name, as it is written there, or that of an import *)
  Theorem C62_undefined dirs label src dir d : (forall f text d', involved dirs label src dir f text d' -> utf8 text) ->
    explained dirs label src dir (Undefined d) ->
    SpecRefs.pointed d <> []
    /\ forall p m, In (p, m) (SpecRefs.pointed d) -> exists f text d', involved dirs label src dir f text d'
         /\ ((exists i ns n q, says f text p i /\ refers ns i (n, q) /\ m = ("Undefined name: " ++ fullname n q)%string) \/ says f text p "import").
  Proof.
    intros U E. inversion E as [| | | | |d0 Hp Hn]; subst.
    assert (N : forall f text d i, involved dirs label src dir f text d -> ~ refers_to f text i None).
    { intros f text d' i Hi Hr. destruct (C62_reference _ _ _ _ (U _ _ _ Hi) Hr) as (p & X & _). discriminate. }
    split.
    - intro X. destruct (Hn X) as (f & text & d' & i & Hi & Hr). exact (N _ _ _ _ Hi Hr).
    - intros p m Hi. destruct (Hp p m Hi) as [(f & text & d' & i & ns & n & q & Hin & Hr & Href & Em)|[(f & text & d' & k & path & Hin & Hk & Hs)|(_ & f & text & d' & i & Hin & Hr)]].
      + exists f, text, d'. split; [exact Hin|]. left. destruct (C62_reference _ _ _ _ (U _ _ _ Hin) Hr) as (p' & X & S). injection X as <-. eauto 8.
      + exists f, text, d'. split; [exact Hin|]. right. eapply C62_import; eauto.
      + elim (N _ _ _ _ Hin Hr).
  Qed.
End Texts.
Print Assumptions C62_import.
Print Assumptions C62_declaration.
Print Assumptions C62_default.
Print Assumptions C62_reference.
Print Assumptions C62_one_statement.
Print Assumptions C62_undefined.

(** ** Examples *)
Section Examples.
  Existing Instance ascii_chars. Existing Instance few_floats. Existing Instance the_text_parser. Existing Instance world. Existing Instance no_json.
  Definition answer (text : string) := match snd (convert_str text "t" new_builder) with Ok _ => None | Err e => Some e end.
  (** The import, the second declaration, the default and the name *)
  Example C62_sample_import : answer "protocol P { import idl ""b.avdl""; }" = Some (At (mkSpan "t" 13) (ImportNotFound "b.avdl" ["/p"])).
  Proof. vm_compute. reflexivity. Qed.
  Example C62_sample_type : answer "protocol P { record R { } @a(1) enum R { } }" = Some (At (mkSpan "t" 26) (CannotRegister (DuplicateName "R"))).
  Proof. vm_compute. reflexivity. Qed.
  Example C62_sample_default : match answer "protocol P { enum E { A } record R { int i = 1; E d = ""A"", e = 7; } }" with
                               | Some (BadDefault (Some "R") [("e", _, p)]) => p = mkSpan "t" 63
                               | _ => False
                               end.
  Proof. vm_compute. reflexivity. Qed.
  Example C62_sample_name : match answer "protocol P { record R { union { null, `T` } t; } void f() throws U; }" with
                            | Some (Undefined d) => SpecRefs.pointed d = [(mkSpan "t" 38, "Undefined name: T"); (mkSpan "t" 65, "Undefined name: U")]
                            | _ => False
                            end.
  Proof. vm_compute. reflexivity. Qed.
  Example C62_sample_says : says "t" "protocol P { record R { union { null, `T` } t; } void f() throws U; }" (mkSpan "t" 38) "`T`".
  Proof. exists "protocol P { record R { union { null, ", " } t; } void f() throws U; }". split; reflexivity. Qed.
  Example C62_sample_utf8 : utf8 "protocol P { record R { union { null, `T` } t; } void f() throws U; }".
  Proof.
    exists (chars "protocol P { record R { union { null, `T` } t; } void f() throws U; }"). split; [|vm_compute; reflexivity].
    assert (E : forallb (fun c => c <? 128)%N (chars "protocol P { record R { union { null, `T` } t; } void f() throws U; }") = true) by (vm_compute; reflexivity).
    apply Forall_forall. intros c Hc. rewrite forallb_forall in E. specialize (E c Hc). apply N.ltb_lt in E. unfold SpecLiterals.scalar. lia.
  Qed.
End Examples.

(** ** Which import *)
Section Blame.
  Existing Instance ascii_chars. Existing Instance few_floats. Existing Instance the_text_parser.
  Definition two_json_texts := [("/p/a.avsc", "a"); ("/p/b.avsc", "b")].
  Definition two_json_canonical (p : string) : option string := if str_mem p (keys two_json_texts) then Some p else None.
  Lemma two_json_finite : forall p c, two_json_canonical p = Some c -> In c (keys two_json_texts).
  Proof.
    intros p c. unfold two_json_canonical. destruct (str_mem p (keys two_json_texts)) eqn:E; [|discriminate]. intro Ec. injection Ec as <-.
    unfold str_mem in E. apply existsb_exists in E. destruct E as (x & Hx & Ex). apply String.eqb_eq in Ex. now subst.
  Qed.
  Definition two_json : FileSystem :=
    {| fs_join := fun d n => (d ++ "/" ++ n)%string; fs_exists := fun p => str_mem p (keys two_json_texts);
       fs_canonical := two_json_canonical; fs_files := keys two_json_texts; fs_finite := two_json_finite;
       fs_read := fun p => assoc p two_json_texts; fs_parent := parent; fs_file_name := fun p => Some (base_name p);
       fs_cwd := Some "/p"; fs_is_dir := fun _ => false; fs_content := fun _ => [] |}.
  Definition enum_json (name : string) : json := JObj [("name", JStr name); ("symbols", JArr [JStr "X"]); ("type", JStr "enum")].
  Definition record_json (name type : string) : json :=
    JObj [("fields", JArr [JObj [("name", JStr "f"); ("type", JStr type)]]); ("name", JStr name); ("type", JStr "record")].
  Definition their_json : JsonParser :=
    {| parse_json := fun s => if (s =? "a")%string then Some (enum_json "A") else if (s =? "b")%string then Some (record_json "B" "T") else None |}.
  Existing Instance two_json. Existing Instance their_json.
  Definition imports_both : string := "protocol P { import schema ""a.avsc""; import schema ""b.avsc""; }".
  (** The name is missing in the second file, the first import is shown. *)
  Theorem C62_blame_refuted : exists d, snd (convert_str imports_both "t" new_builder) = Err (Undefined d)
    /\ SpecRefs.pointed d = [(mkSpan "t" 13, "Undefined name: T")]
    /\ says "t" imports_both (mkSpan "t" 13) "import schema ""a.avsc"""
    /\ exists o, snd (convert_str "protocol P { import schema ""a.avsc""; }" "t" new_builder) = Ok o.
  Proof.
    destruct (snd (convert_str imports_both "t" new_builder)) as [o|e] eqn:E; [vm_compute in E; discriminate|]. vm_compute in E. injection E as <-.
    eexists. split; [reflexivity|]. split; [vm_compute; reflexivity|]. split; [exists "protocol P { ", "; import schema ""b.avsc""; }"; split; reflexivity|].
    destruct (snd (convert_str "protocol P { import schema ""a.avsc""; }" "t" new_builder)) as [o|e] eqn:E; [eauto|]. vm_compute in E. discriminate.
  Qed.
End Blame.
Print Assumptions C62_blame_refuted.
