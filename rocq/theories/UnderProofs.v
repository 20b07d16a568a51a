(** The walker gives the same for a namespace in an annotation and in the name. *)
From Verif Require Import SpecUnder Canon Reader ReaderProofs TypeProofs DeclProofs DenoteProofs DefectProofs ForgetProofs.
From Verif Require Import IdlParser Compile LayoutProofs ReadingProofs RewriteProofs FileProofs CutProofs LexerProofs NamingProofs BaseProofs TypedProofs.

Section Walk.
  Context `{Unicode} `{Floats}.

  (** ** Without documentation the numbers of tokens do not matter *)
  Lemma no_doc i : walk_doc [] i = wret None.
  Proof. unfold walk_doc, extract_doc_comment. now rewrite firstn_nil. Qed.
  Lemma wmap_over {A B C} (h : A -> B) (f : B -> walk C) g l : (forall x, f (h x) = g x) -> wmap f (map h l) = wmap g l.
  Proof. intro E. induction l as [|x l IH]; [reflexivity|]. cbn [map wmap]. now rewrite E, IH. Qed.
  Lemma variable_unnumbered v t doc : walk_variable [] (unnumber_variable v) t doc = walk_variable [] v t doc.
  Proof. unfold walk_variable. now rewrite !no_doc. Qed.
  Lemma field_unnumbered f ns : walk_field_declaration [] (unnumber_field f) ns = walk_field_declaration [] f ns.
  Proof.
    unfold walk_field_declaration. rewrite !no_doc. cbn [fd_type fd_variables unnumber_field]. apply wbind_same; [reflexivity|]. intros doc _ _. apply wbind_same; [reflexivity|]. intros t _ _.
    apply wmap_over. intro v. apply variable_unnumbered.
  Qed.
  Lemma fields_unnumbered l ns : forall seen, walk_fields [] seen (map unnumber_field l) ns = walk_fields [] seen l ns.
  Proof.
    induction l as [|f l IH]; intro seen; [reflexivity|]. cbn [map walk_fields]. rewrite field_unnumbered. apply wbind_same; [reflexivity|]. intros fs _ _.
    destruct (first_duplicate _ _); [|now rewrite IH]. cbn [fd_variables unnumber_field]. now rewrite map_map.
  Qed.
  Lemma named_unnumbered d ns : walk_named [] (unnumber_named d) ns = walk_named [] d ns.
  Proof.
    destruct d as [[st l i e fs]|[st l i sy df]|[st l i z]]; cbn [unnumber_named walk_named]; [unfold walk_record|unfold walk_enum|unfold walk_fixed]; rewrite !no_doc; [|reflexivity|reflexivity].
    cbn [r_annotations r_ident r_error r_fields]. apply wbind_same; [reflexivity|]. intros doc _ _. apply wbind_same; [reflexivity|]. intros sp _ _. cbv zeta. destruct (is_invalid_type_name _); [reflexivity|]. now rewrite fields_unnumbered.
  Qed.
  Lemma places_unnumbered d : field_places (unnumber_named d) = field_places d.
  Proof.
    destruct d as [[st l i e fs]|e|x]; [|reflexivity|reflexivity]. cbn [unnumber_named field_places r_fields]. induction fs as [|f fs IH]; [reflexivity|]. cbn [map flat_map]. rewrite IH. cbn [unnumber_field fd_variables]. now rewrite map_map.
  Qed.
  Lemma parameters_unnumbered l ns : forall seen, walk_parameters [] seen (map unnumber_parameter l) ns = walk_parameters [] seen l ns.
  Proof.
    induction l as [|p l IH]; intro seen; [reflexivity|]. cbn [map walk_parameters unnumber_parameter pa_type pa_variable]. rewrite !no_doc.
    apply wbind_same; [reflexivity|]. intros doc _ _. apply wbind_same; [reflexivity|]. intros t _ _. apply wbind_same; [apply variable_unnumbered|]. intros f _ _. destruct (str_mem _ _); [reflexivity|]. now rewrite IH.
  Qed.
  Lemma message_unnumbered m ns : walk_message [] (unnumber_message m) ns = walk_message [] m ns.
  Proof.
    unfold walk_message. rewrite !no_doc. cbn [unnumber_message md_annotations md_result md_place md_name md_parameters md_oneway md_errors]. apply wbind_same; [reflexivity|]. intros doc _ _. apply wbind_same; [reflexivity|]. intros sp _ _. apply wbind_same; [reflexivity|]. intros r _ _.
    destruct (_ && _); [reflexivity|]. now rewrite parameters_unnumbered.
  Qed.
  Lemma items_unnumbered l ns : walk_items [] (map unnumber_item l) ns = walk_items [] l ns.
  Proof.
    induction l as [|[k p sp|d sp|m] l IH]; [reflexivity| | |]; cbn [map unnumber_item walk_items].
    - now rewrite IH.
    - now rewrite IH, named_unnumbered, places_unnumbered.
    - now rewrite IH, message_unnumbered.
  Qed.
  Lemma tree_unnumbered t : walk_idl_file [] (unnumber_tree t) = walk_idl_file [] t.
  Proof.
    destruct t as [st l i its|ns m its]; cbn [unnumber_tree walk_idl_file]; [|now rewrite items_unnumbered]. rewrite !no_doc.
    apply wbind_same; [reflexivity|]. intros doc _ _. apply wbind_same; [reflexivity|]. intros sp _ _. cbv zeta. destruct (is_invalid_type_name _); [reflexivity|]. now rewrite items_unnumbered.
  Qed.

  (** ** An annotation with a namespace *)
  Definition set_namespace (q : option string) (p : schema_properties) : schema_properties := mkProperties q (sp_aliases p) (sp_order p) (sp_props p).
  Definition wover {A B} (f : A -> B) (m : walk A) : walk B := match m with Ok (a, l) => Ok (f a, l) | Err e => Err e end.
  Lemma wover_bind {A B C D} (f : A -> B) (g : C -> D) (m : walk A) k k' : (forall a, k' (f a) = wover g (k a)) -> wbind (wover f m) k' = wover g (wbind m k).
  Proof. intro E. destruct m as [[a l]|e]; cbn; [|reflexivity]. rewrite E. now destruct (k a) as [[c l']|e]. Qed.
  Lemma wbind_over {A B C} (f : A -> B) (m : walk A) (k : B -> walk C) : wbind (wover f m) k = wbind m (fun a => k (f a)).
  Proof. now destruct m as [[a l]|e]. Qed.
  Lemma property_over ctx q acc a : identifier_text (an_name a) <> "namespace" -> walk_property ctx (set_namespace q acc) a = wover (set_namespace q) (walk_property ctx acc a).
  Proof.
    intro N. apply String.eqb_neq in N. destruct acc as [ns al ord ps]. unfold walk_property, set_namespace. cbn [sp_aliases sp_order sp_props]. rewrite N, andb_false_r.
    destruct (walk_json_value (an_value a)) as [[v l]|e]; [|reflexivity]. cbn [wbind].
    destruct (with_aliases ctx && _).
    { destruct v as [| | | |l'|]; try reflexivity. now destruct (wmap _ l') as [[al' w]|e]. }
    destruct (with_order ctx && _).
    { destruct v as [| | |s| |]; try reflexivity. cbv zeta.
      generalize (same_chars (to_uppercase s) (chars "ASCENDING")), (same_chars (to_uppercase s) (chars "DESCENDING")), (same_chars (to_uppercase s) (chars "IGNORE")). intros [] [] []; reflexivity. }
    now destruct (str_mem _ _).
  Qed.
  Lemma properties_over ctx q l : forall acc, ~ mentioned l "namespace" -> walk_properties_from ctx (set_namespace q acc) l = wover (set_namespace q) (walk_properties_from ctx acc l).
  Proof.
    induction l as [|a l IH]; intros acc N; [reflexivity|]. cbn [walk_properties_from]. rewrite property_over by (intro E; apply N; exists a; cbn; auto).
    apply wover_bind. intro acc'. apply IH. intros (b & Hb & E). apply N. exists b. cbn. auto.
  Qed.
  Lemma properties_app ctx l l' : forall acc, walk_properties_from ctx acc (l ++ l') = wbind (walk_properties_from ctx acc l) (fun acc' => walk_properties_from ctx acc' l').
  Proof.
    induction l as [|a l IH]; intro acc.
    - cbn. now destruct (walk_properties_from ctx acc l') as [[? ?]|?].
    - cbn [app walk_properties_from]. destruct (walk_property ctx acc a) as [[acc' e]|e]; [|reflexivity]. cbn [wbind]. rewrite IH.
      destruct (walk_properties_from ctx acc' l) as [[acc2 e2]|e2]; [|reflexivity]. cbn [wbind]. destruct (walk_properties_from ctx acc2 l') as [[acc3 e3]|e3]; [|reflexivity]. now rewrite app_assoc.
  Qed.
  Lemma namespace_property ctx acc a q : with_namespace ctx = true -> identifier_text (an_name a) = "namespace" -> json_means (an_value a) (JStr q) ->
    walk_property ctx acc a = Ok (set_namespace (Some q) acc, []).
  Proof. intros W E M. destruct acc as [ns al ord ps]. unfold walk_property. rewrite (json_means_walk _ _ M), W, E. reflexivity. Qed.
  Lemma namespace_over ctx before a after q : with_namespace ctx = true -> identifier_text (an_name a) = "namespace" -> json_means (an_value a) (JStr q) ->
    ~ mentioned (before ++ after) "namespace" ->
    walk_schema_properties (before ++ a :: after) ctx = wover (set_namespace (Some q)) (walk_schema_properties (before ++ after) ctx).
  Proof.
    intros W E M N. unfold walk_schema_properties. rewrite !properties_app. destruct (walk_properties_from ctx _ before) as [[acc e]|e]; [|reflexivity]. cbn [wbind walk_properties_from].
    rewrite (namespace_property ctx acc a q W E M). cbn [wbind]. rewrite properties_over by (intros (b & Hb & Eb); apply N; exists b; split; [apply in_or_app; now right|exact Eb]).
    now destruct (walk_properties_from ctx acc after) as [[acc' e']|e'].
  Qed.
  (** What a declaration is made of: its properties but for the namespace, its name and its namespace *)
  Lemma under_walk {A} ctx l (i : located) l' (i' : located) (k : schema_properties -> walk A) (k' : schema_properties -> walk A) :
    with_namespace ctx = true -> under_namespace l i l' i' ->
    (forall sp sp', sp_aliases sp = sp_aliases sp' -> sp_order sp = sp_order sp' -> sp_props sp = sp_props sp' ->
      extract_name (identifier_text i) = extract_name (identifier_text i') -> w_place i = w_place i' ->
      compute_namespace (identifier_text i) (sp_namespace sp) = compute_namespace (identifier_text i') (sp_namespace sp') -> k sp = k' sp') ->
    wbind (walk_schema_properties l ctx) k = wbind (walk_schema_properties l' ctx) k'.
  Proof.
    intros W U K. destruct U as [l i|before a after i i' q E M N P Q].
    - destruct (walk_schema_properties l ctx) as [[sp e]|e]; [|reflexivity]. cbn. now rewrite (K sp sp).
    - rewrite (namespace_over ctx before a after q W E M N), wbind_over. destruct (walk_schema_properties (before ++ after) ctx) as [[sp e]|e]; [|reflexivity]. cbn [wbind].
      pose proof (proj2 (rsplit_qualified _ _ _) Q) as R. destruct Q as [_ Q]. apply rsplit_None in Q.
      rewrite (K (set_namespace (Some q) sp) sp); try reflexivity; try exact P; unfold extract_name, compute_namespace, split_full_name; now rewrite R, Q.
  Qed.

  Lemma under_named_walk d d' ns : under_named d d' -> walk_named [] d ns = walk_named [] d' ns.
  Proof.
    intros [st l i l' i' e fs U|st l i l' i' sy df U|st l i l' i' z U]; cbn [walk_named]; [unfold walk_record|unfold walk_enum|unfold walk_fixed];
      cbn [r_start r_annotations r_ident r_error r_fields e_start e_annotations e_ident e_symbols e_default x_start x_annotations x_ident x_size];
      (apply wbind_same; [reflexivity|]; intros doc _ _); (eapply under_walk; [reflexivity|exact U|]); intros sp sp' Ea _ Ep En Es Ec; cbv zeta; rewrite Ea, Ep, En, Es, Ec; reflexivity.
  Qed.
  Lemma under_items_walk l l' ns : Forall2 under_item l l' -> walk_items [] l ns = walk_items [] l' ns.
  Proof.
    induction 1 as [|it it' l l' S _ IH]; [reflexivity|]. destruct S as [[k p sp|d sp|m]|d d' sp S]; cbn [walk_items]; try (now rewrite IH).
    rewrite IH, (under_named_walk _ _ _ S). now destruct S.
  Qed.
  Lemma under_tree_walk t t' : under_tree t t' -> walk_idl_file [] t = walk_idl_file [] t'.
  Proof.
    intros [st l i l' i' its its' U S|ns m its its' S]; cbn [walk_idl_file].
    - apply wbind_same; [reflexivity|]. intros doc _ _. eapply under_walk; [reflexivity|exact U|]. intros sp sp' Ea _ Ep En Es Ec. cbv zeta. rewrite Ep, En, Es, Ec. now rewrite (under_items_walk _ _ _ S).
    - now rewrite (under_items_walk _ _ _ S).
  Qed.
End Walk.

(** ** Texts without documentation *)
Definition no_docs (l : list token) : Prop := forall t, In t l -> tk_kind t = TOther.
Lemma undocumented_stream l : forall o i, undocumented l -> no_docs (doc_tokens (stream l o i)).
Proof.
  intros o i U t Ht. unfold doc_tokens in Ht. apply in_app_or in Ht. destruct Ht as [Ht|[<-|[]]]; [|reflexivity].
  apply in_map_iff in Ht. destruct Ht as (x & <- & Hx). cbn. destruct (same_type (lx_type x) T_DocComment) eqn:E; [|reflexivity]. exfalso.
  assert (T : lx_type x = T_DocComment) by (unfold same_type in E; now destruct (token_type_dec (lx_type x) T_DocComment)). clear E.
  revert o i Hx U. induction l as [|[[k|] w] l IH]; intros o i Hx U; [destruct Hx| |]; cbn [stream] in Hx.
  - destruct (skipped k); [eapply IH; [exact Hx|]|destruct Hx as [<-|Hx]; [|eapply IH; [exact Hx|]]].
    + intros u Hu. apply (U u). now right.
    + cbn in T. subst k. apply (U w). now left.
    + intros u Hu. apply (U u). now right.
  - eapply IH; [exact Hx|]. intros u Hu. apply (U u). now right.
Qed.
Lemma no_docs_extract l i : no_docs l -> extract_doc_comment l i = extract_doc_comment [] i.
Proof.
  intro N. unfold extract_doc_comment. rewrite firstn_nil. cbn [rev scan_doc].
  destruct (rev (firstn i l)) as [|t r] eqn:E; [reflexivity|]. cbn [scan_doc]. rewrite (N t); [reflexivity|].
  assert (Ht : In t (firstn i l)) by (apply in_rev; rewrite E; now left).
  rewrite <- (firstn_skipn i l). apply in_or_app. now left.
Qed.
Lemma no_docs_orphaned l c : no_docs l -> orphaned_doc_comments l c = [].
Proof.
  intro N. unfold orphaned_doc_comments. generalize (seq 0 (List.length l)). induction l0 as [|i s IH]; [reflexivity|]. cbn [filter]. rewrite IH.
  destruct (nth_error l i) as [t|] eqn:E; [|reflexivity]. now rewrite (N t (nth_error_In _ _ E)).
Qed.

Lemma under_parse `{Unicode} `{Floats} `{LexerMessages} file file' t t' : same_under t t' ->
  same_reading_of (@parse_idl _ _ text_parser file t) (@parse_idl _ _ text_parser file' t').
Proof.
  intros [|x v v' l l' u u' V V' T T' D D' R R' S].
  { (* the same text, perhaps under another name *)
    apply layout_parse. apply same_tokens_refl. }
  apply visible_until in V, V'. apply cut_iff in T, T'. subst v v' l l'. unfold parse_idl. cbn [antlr_parse text_parser].
  assert (A : forall text file u, undocumented (cut (chars text)) -> file_rule true "" (visible (stream (cut (chars text)) 0 0)) u ->
    exists p, parse_text file text = Some p /\ forget_tree (pr_tree p) = forget_tree u /\ no_docs (pr_tokens p)).
  { intros text f w Dw Rw. set (p0 := mkParsed (doc_tokens (stream (cut (chars text)) 0 0)) w (lexer_warnings [] (cut (chars text)))).
    assert (E : parse_text "" text = Some p0) by (apply parse_text_some; repeat split; exact Rw).
    destruct (parse_text_kept "" f text text p0 eq_refl E) as (p & Ep & Et & Ef). exists p. split; [exact Ep|]. split; [exact Ef|]. rewrite Et. now apply undocumented_stream. }
  destruct (A _ file _ D R) as (p & E & Ef & N), (A _ file' _ D' R') as (p' & E' & Ef' & N'). rewrite E, E'.
  pose proof (canon_file_walk as_written ltac:(now split) (pr_tokens p) [] (fun i => eq_sym (no_docs_extract _ i N)) (pr_tree p)) as B.
  pose proof (canon_file_walk as_written ltac:(now split) (pr_tokens p') [] (fun i => eq_sym (no_docs_extract _ i N')) (pr_tree p')) as B'.
  rewrite written_tree in B, B'. rewrite Ef, <- tree_unnumbered in B. rewrite Ef', <- tree_unnumbered, <- (under_tree_walk _ _ S), B in B'. clear B.
  destruct (walk_idl_file (pr_tokens p) (pr_tree p)) as [[[f i] evs]|[e pl]], (walk_idl_file (pr_tokens p') (pr_tree p')) as [[[f' i'] evs']|[e' pl']]; try discriminate; cbn in B'.
  - injection B' as B1 B2 B3. cbn [same_reading_of]. rewrite !lexer_filtered, !lasting_app, !erased_warned, B3, !no_docs_orphaned by assumption. auto.
  - injection B' as ->. reflexivity.
Qed.
