(** The walker gives the same for files that differ only in how names are written. *)
From Verif Require Import SpecNaming Canon Reader ReaderProofs TypeProofs DeclProofs DenoteProofs DefectProofs ForgetProofs.
From Verif Require Import IdlParser Compile LayoutProofs ReadingProofs RewriteProofs FileProofs CutProofs LexerProofs.

Lemma wbind_same {A B} (m m' : walk A) (k k' : A -> walk B) : m = m' -> (forall a l, m = Ok (a, l) -> k a = k' a) -> wbind m k = wbind m' k'.
Proof. intros <- E. destruct m as [[a l]|e]; cbn; [|reflexivity]. now rewrite (E a l eq_refl). Qed.

Section Names.
  Context `{Unicode} `{Floats}.
  Lemma same_refers i i' sp ns : same_reference ns i i' -> reference i sp ns = reference i' sp ns.
  Proof.
    intros (r & R & R'). destruct (reference_denotes i sp ns) as (n & q & E & ->), (reference_denotes i' sp ns) as (n' & q' & E' & ->).
    pose proof (refers_det _ _ _ _ E R). pose proof (refers_det _ _ _ _ E' R'). congruence.
  Qed.
  Lemma same_base_walk b b' q ns : same_base ns b b' -> walk_nullable_type b q ns = walk_nullable_type b' q ns.
  Proof. intros [k p|i i' sp R]; [reflexivity|]. unfold walk_nullable_type. now rewrite (same_refers _ _ _ _ R). Qed.

  Lemma same_places ns l l' : equal_types ns l l' -> map full_place l = map full_place l'.
  Proof. induction 1 as [|t t' l l' T _ IH]; [reflexivity|]. cbn. f_equal; [now destruct T|exact IH]. Qed.
  Lemma full_step p l t ns : walk_full_type (FullType p l t) ns
    = wbind (walk_schema_properties l BARE_PROPS) (fun props => wbind (walk_plain_type t ns) (fun s => annotate_type p props s)).
  Proof. reflexivity. Qed.
  Lemma array_step t ns : walk_plain_type (PtArray t) ns = wbind (walk_full_type t ns) (fun s => wret (SArray s [])).
  Proof. reflexivity. Qed.
  Lemma map_step t ns : walk_plain_type (PtMap t) ns = wbind (walk_full_type t ns) (fun s => wret (SMap s [])).
  Proof. reflexivity. Qed.
  Scheme type_ind := Induction for equal_type Sort Prop
    with plain_ind := Induction for equal_plain Sort Prop
    with types_ind := Induction for equal_types Sort Prop.
  Lemma same_type_walk ns t t' : equal_type ns t t' -> walk_full_type t ns = walk_full_type t' ns.
  Proof.
    apply (type_ind ns (fun t t' _ => walk_full_type t ns = walk_full_type t' ns) (fun t t' _ => walk_plain_type t ns = walk_plain_type t' ns)
      (fun l l' T => walk_plain_type (PtUnion l) ns = walk_plain_type (PtUnion l') ns
        /\ wmap (fun x => walk_full_type x ns) l = wmap (fun x => walk_full_type x ns) l')); clear t t'; cbv beta.
    - intros p l t t' _ E. rewrite !full_step. now rewrite E.
    - intros t t' _ E. rewrite !array_step. now rewrite E.
    - intros t t' _ E. rewrite !map_step. now rewrite E.
    - intros l l' _ [E _]. exact E.
    - intros b b' q B. cbn [walk_plain_type]. now apply same_base_walk.
    - split; reflexivity.
    - intros t t' l l' T E Ts [_ IH]. assert (W : wmap (fun x => walk_full_type x ns) (t :: l) = wmap (fun x => walk_full_type x ns) (t' :: l')).
      { change (wbind (walk_full_type t ns) (fun y => wbind (wmap (fun x => walk_full_type x ns) l) (fun ys => wret (y :: ys))) = wbind (walk_full_type t' ns) (fun y => wbind (wmap (fun x => walk_full_type x ns) l') (fun ys => wret (y :: ys)))). now rewrite E, IH. }
      split; [|exact W]. pose proof (same_places ns (t :: l) (t' :: l') (sl_cons ns _ _ _ _ T Ts)) as P.
      change (wbind (wmap (fun x => walk_full_type x ns) (t :: l)) (check_union (map full_place (t :: l))) = wbind (wmap (fun x => walk_full_type x ns) (t' :: l')) (check_union (map full_place (t' :: l')))). now rewrite W, P.
  Qed.
  Lemma same_plain_walk ns t t' : equal_plain ns t t' -> walk_plain_type t ns = walk_plain_type t' ns.
  Proof.
    intro S. pose proof (same_type_walk ns (FullType no_place [] t) (FullType no_place [] t') (st_full ns _ _ _ _ S)) as E. rewrite !full_step in E. cbn in E.
    destruct (walk_plain_type t ns) as [[a l]|e], (walk_plain_type t' ns) as [[a' l']|e']; cbn in E; rewrite ?app_nil_r in E; congruence.
  Qed.

  Variable tokens : list token.
  Lemma same_field_walk ns f f' : same_field_decl ns f f' -> walk_field_declaration tokens f ns = walk_field_declaration tokens f' ns.
  Proof. intros (A & B & C). unfold walk_field_declaration. now rewrite A, (same_type_walk _ _ _ B), C. Qed.
  Lemma same_fields_walk ns fs fs' : Forall2 (same_field_decl ns) fs fs' -> forall seen, walk_fields tokens seen fs ns = walk_fields tokens seen fs' ns.
  Proof.
    induction 1 as [|f f' fs fs' S _ IH]; intro seen; [reflexivity|]. cbn [walk_fields]. rewrite (same_field_walk _ _ _ S). apply wbind_same; [reflexivity|]. intros l _ _.
    destruct S as (_ & _ & ->). destruct (first_duplicate _ _); [reflexivity|]. now rewrite IH.
  Qed.
  Lemma same_declared_walk p (i i' : located) l ns sp evs : In "namespace" (special p) -> walk_schema_properties l (context_of p) = Ok (sp, evs) -> same_declared ns l i i' ->
    extract_name (identifier_text i) = extract_name (identifier_text i')
    /\ opt_or (compute_namespace (identifier_text i) (sp_namespace sp)) ns = opt_or (compute_namespace (identifier_text i') (sp_namespace sp)) ns.
  Proof.
    intros Hs W (_ & D). pose proof (compute_declares p i l ns sp evs Hs W) as A. pose proof (compute_declares p i' l ns sp evs Hs W) as B.
    apply D in A. exact (declares_det _ _ _ _ _ _ _ A B).
  Qed.
  Lemma same_named_walk ns d d' : same_named ns d d' -> walk_named tokens d ns = walk_named tokens d' ns.
  Proof.
    intros [start l i i' e fs fs' D S|start l i i' sy df D|start l i i' z D]; cbn [walk_named].
    - unfold walk_record. cbn [r_start r_annotations r_ident r_error r_fields]. apply wbind_same; [reflexivity|]. intros doc _ _. apply wbind_same; [reflexivity|]. intros sp evs W.
      destruct (same_declared_walk OnRecord i i' l ns sp evs (or_introl eq_refl) W D) as (En & Eq). pose proof (compute_declares OnRecord i l ns sp evs (or_introl eq_refl) W) as Dc.
      cbv zeta. rewrite <- En, <- Eq. destruct D as [-> _]. destruct (is_invalid_type_name _); [reflexivity|].
      replace (match opt_or (compute_namespace (identifier_text i) (sp_namespace sp)) ns with Some _ => opt_or (compute_namespace (identifier_text i) (sp_namespace sp)) ns | None => ns end)
        with (opt_or (compute_namespace (identifier_text i) (sp_namespace sp)) ns) by (destruct (compute_namespace _ _), ns; reflexivity).
      now rewrite (same_fields_walk _ _ _ (S _ _ Dc)).
    - unfold walk_enum. cbn [e_start e_annotations e_ident e_symbols e_default]. apply wbind_same; [reflexivity|]. intros doc _ _. apply wbind_same; [reflexivity|]. intros sp evs W.
      destruct (same_declared_walk OnEnum i i' l ns sp evs (or_introl eq_refl) W D) as (En & Eq). cbv zeta. rewrite <- En, <- Eq. destruct D as [-> _]. reflexivity.
    - unfold walk_fixed. cbn [x_start x_annotations x_ident x_size]. apply wbind_same; [reflexivity|]. intros doc _ _. apply wbind_same; [reflexivity|]. intros sp evs W.
      destruct (same_declared_walk OnFixed i i' l ns sp evs (or_introl eq_refl) W D) as (En & Eq). cbv zeta. rewrite <- En, <- Eq. destruct D as [-> _]. reflexivity.
  Qed.
  Lemma same_named_places ns d d' : same_named ns d d' -> forall s evs, walk_named tokens d ns = Ok (s, evs) -> field_places d = field_places d'.
  Proof.
    intros [start l i i' e fs fs' D S|start l i i' sy df D|start l i i' z D] s evs W; [|reflexivity|reflexivity]. cbn [walk_named] in W. apply walk_record_spec in W as (n & q & _ & _ & _ & _ & _ & Dc & _).
    specialize (S n q Dc). cbn [field_places r_fields]. clear -S. induction S as [|f f' l l' F _ IH]; [reflexivity|]. cbn. rewrite IH. now destruct F as (_ & _ & ->).
  Qed.
  Lemma same_parameters_walk ns ps ps' : Forall2 (same_parameter ns) ps ps' -> forall seen, walk_parameters tokens seen ps ns = walk_parameters tokens seen ps' ns.
  Proof.
    induction 1 as [|p p' ps ps' (A & B & C) _ IH]; intro seen; [reflexivity|]. cbn [walk_parameters]. rewrite A, C, (same_type_walk _ _ _ B). destruct B. apply wbind_same; [reflexivity|]. intros ? _ _. apply wbind_same; [reflexivity|]. intros ? _ _. apply wbind_same; [reflexivity|]. intros ? _ _.
    destruct (str_mem _ _); [reflexivity|]. now rewrite IH.
  Qed.
  Lemma same_message_walk ns m m' : same_message_decl ns m m' -> walk_message tokens m ns = walk_message tokens m' ns.
  Proof.
    intros [start p l r r' n ps ps' o es es' R P E]. unfold walk_message. cbn [md_start md_place md_annotations md_result md_name md_parameters md_oneway md_errors].
    replace (walk_result_type r ns) with (walk_result_type r' ns) by (destruct R as [|t t' T]; cbn [walk_result_type]; [reflexivity|symmetry; now apply same_plain_walk]).
    rewrite (same_parameters_walk _ _ _ P). assert (M : map (fun e => reference (fst e) (snd e) ns) es = map (fun e => reference (fst e) (snd e) ns) es').
    { clear -E. induction E as [|e e' es es' [A B] _ IH]; [reflexivity|]. cbn. rewrite IH, B. f_equal. now apply same_refers. }
    destruct E as [|e e' es es' Ee E]; [reflexivity|]. now rewrite M.
  Qed.
  Lemma same_items_walk ns l l' : Forall2 (same_statement ns) l l' -> walk_items tokens l ns = walk_items tokens l' ns.
  Proof.
    induction 1 as [|it it' l l' S _ IH]; [reflexivity|]. destruct S as [k path p|d d' p D|m m' M]; cbn [walk_items].
    - now rewrite IH.
    - rewrite <- (same_named_walk _ _ _ D). apply wbind_same; [reflexivity|]. intros s evs W. now rewrite IH, (same_named_places _ _ _ D _ _ W).
    - rewrite (same_message_walk _ _ _ M). apply wbind_same; [reflexivity|]. intros. now rewrite IH.
  Qed.
  Lemma same_names_walk t t' : same_names t t' -> walk_idl_file tokens t = walk_idl_file tokens t'.
  Proof.
    intros [start l i i' its its' D S|ns m m' its its' M S]; cbn [walk_idl_file].
    - apply wbind_same; [reflexivity|]. intros doc _ _. apply wbind_same; [reflexivity|]. intros sp evs W.
      destruct (same_declared_walk OnProtocol i i' l None sp evs (or_introl eq_refl) W D) as (En & Eq). pose proof (compute_declares OnProtocol i l None sp evs (or_introl eq_refl) W) as Dc.
      assert (On : forall o : option string, opt_or o None = o) by (now intros []). rewrite !On in Eq. rewrite On in Dc.
      cbv zeta. rewrite <- En, <- Eq. destruct D as [-> _]. destruct (is_invalid_type_name _); [reflexivity|]. now rewrite (same_items_walk _ _ _ (S _ _ Dc)).
    - rewrite (same_items_walk _ _ _ S). apply wbind_same; [reflexivity|]. intros body _ _. destruct M as [|ft ft' T]; [reflexivity|]. now rewrite (same_type_walk _ _ _ T).
  Qed.
End Names.

Definition any_name : forms := mkForms (fun _ => "") (fun s => s) (fun s => s) (fun s => s).
Lemma naming_parse `{Unicode} `{Floats} `{LexerMessages} file file' t t' : same_naming t t' ->
  same_reading_of (@parse_idl _ _ text_parser file t) (@parse_idl _ _ text_parser file' t').
Proof.
  intros (v & v' & l & l' & V & V' & T & T' & K & S). apply visible_until in V, V'. apply cut_iff in T, T'.
  assert (K' : Forall2 (kin_piece any_name) (kept l) (kept l')).
  { clear -K. induction K as [|p p' k k' [->|[A B]] _ IH]; constructor; try exact IH; [repeat split|]. split; [congruence|]. split; [now rewrite A, B|]. rewrite A. discriminate. }
  subst v v' l l'. unfold parse_idl. cbn [antlr_parse text_parser].
  destruct (parse_text file (until_sub t)) as [p|] eqn:E; [|rewrite (parse_text_kin_none any_name file file' _ _ K' E); reflexivity].
  destruct (parse_text_kin any_name file file' _ _ p K' E) as (p' & E' & Et & _). rewrite E'.
  destruct (parse_text_kept file' file (until_sub t') (until_sub t') p' eq_refl E') as (p2 & E2 & _ & F2).
  assert (N : same_names (forget_tree (pr_tree p)) (forget_tree (pr_tree p'))).
  { rewrite <- F2. apply (S file); [exact (proj1 (proj1 (parse_text_some _ _ _) E))|exact (proj1 (proj1 (parse_text_some _ _ _) E2))]. }
  pose proof (canon_file_walk as_written ltac:(now split) (pr_tokens p) (pr_tokens p) (fun i => eq_refl) (pr_tree p)) as A.
  pose proof (canon_file_walk as_written ltac:(now split) (pr_tokens p') (pr_tokens p) (fun i => extract_same _ _ i Et) (pr_tree p')) as B.
  rewrite written_tree in A, B. rewrite <- (same_names_walk (pr_tokens p) _ _ N), A in B.
  destruct (walk_idl_file (pr_tokens p) (pr_tree p)) as [[[f i] evs]|[e pl]], (walk_idl_file (pr_tokens p') (pr_tree p')) as [[[f' i'] evs']|[e' pl']]; try discriminate; cbn in B.
  - injection B as B1 B2 B3. cbn [same_reading_of]. rewrite !lexer_filtered, !lasting_app, !erased_warned, <- (erased_consumed evs), <- (erased_consumed evs'), B3, (orphaned_same _ _ _ Et). auto.
  - injection B as ->. reflexivity.
Qed.
