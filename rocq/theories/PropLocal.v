(** C80: documents depend only on the types that are needed for them. *)
From Coq Require Import Lia.
From Verif Require Import SpecLocal LocalProofs SampleFile SampleWorld PropSource PropLayout PropPlaces MoveProofs StatementProofs BaseProofs CliProofs BuildProofs CompileProofs RefsProofs SpecRefs PropCompile.

(** What is extracted for a type is the same from any two files, as long as the
    types that it needs are the same. *)
Theorem C80_schema :
  forall `(Unicode) `(Floats) `(Parser) (FS FS' : FileSystem) (J J' : JsonParser) dirs src name dir ip o ws x dirs' src' name' dir' ip' o' ws' x' i i' full t t',
  compile (H2 := FS) (H3 := J) dirs src name dir ip = (Ok o, ws) -> extract_impl o = Ok x ->
  compile (H2 := FS') (H3 := J') dirs' src' name' dir' ip' = (Ok o', ws') -> extract_impl o' = Ok x' ->
  nth_error (co_registry o) i = Some (full, t) -> nth_error (co_registry o') i' = Some (full, t') -> unplaced t = unplaced t' ->
  (forall other, needs (co_registry o) t other -> knows (co_registry o) other = knows (co_registry o') other) ->
  exists y, nth_error (so_schemas x) i = Some y /\ nth_error (so_schemas x') i' = Some y.
Proof.
  intros U F P FS FS' J J' dirs src name dir ip o ws x dirs' src' name' dir' ip' o' ws' x' i i' full t t' Hc Hx Hc' Hx' Hi Hi' Et Hn.
  pose proof (compile_good _ _ _ _ _ _ _ Hc) as G. pose proof (compile_good _ _ _ _ _ _ _ Hc') as G'.
  pose proof (proj1 (extract_impl_each _ _ _ _ _ _ _ _ Hc Hx)) as E. pose proof (proj1 (extract_impl_each _ _ _ _ _ _ _ _ Hc' Hx')) as E'.
  assert (N : forall (A B : Type) (R : A -> B -> Prop) l m i a, Forall2 R l m -> nth_error l i = Some a -> exists b, nth_error m i = Some b /\ R a b).
  { intros A B R l m k a Hf. revert k. induction Hf as [|a0 b0 l m Hr _ IH]; intros [|k] Hk; cbn in Hk |- *; try discriminate; [injection Hk as ->; eauto|auto]. }
  assert (S : forall r k, nth_error r k = Some (full, t) -> nth_error (reg_schemas r) k = Some t) by (intros r k Hk; unfold reg_schemas; now rewrite nth_error_map, Hk).
  assert (S' : forall r k, nth_error r k = Some (full, t') -> nth_error (reg_schemas r) k = Some t') by (intros r k Hk; unfold reg_schemas; now rewrite nth_error_map, Hk).
  destruct (N _ _ _ _ _ _ _ E (S _ _ Hi)) as (y & Hy & Ny & k & Jy). destruct (N _ _ _ _ _ _ _ E' (S' _ _ Hi')) as (y' & Hy' & Ny' & k' & Jy').
  exists y. split; [exact Hy|]. rewrite Hy'. f_equal. pose proof (schema_local _ _ G G' _ _ _ _ _ _ Et Hn Jy Jy') as Ej.
  assert (En : schema_name t = schema_name t') by (rewrite <- (RewriteProofs.unplaced_name t), <- (RewriteProofs.unplaced_name t'); now rewrite Et).
  rewrite Ny, Ny' in En. injection En as En. destruct y as [yn yj], y' as [yn' yj']. cbn in *. congruence.
Qed.
Print Assumptions C80_schema.

(** So more types change nothing about what is extracted for the others. *)
Theorem C80_more :
  forall `(Unicode) `(Floats) `(Parser) (FS FS' : FileSystem) (J J' : JsonParser) dirs src name dir ip o ws x dirs' src' name' dir' ip' o' ws' x',
  compile (H2 := FS) (H3 := J) dirs src name dir ip = (Ok o, ws) -> extract_impl o = Ok x ->
  compile (H2 := FS') (H3 := J') dirs' src' name' dir' ip' = (Ok o', ws') -> extract_impl o' = Ok x' ->
  grows (co_registry o) (co_registry o') -> incl (so_schemas x) (so_schemas x').
Proof.
  intros U F P FS FS' J J' dirs src name dir ip o ws x dirs' src' name' dir' ip' o' ws' x' Hc Hx Hc' Hx' Hg y Hy.
  pose proof (compile_good _ _ _ _ _ _ _ Hc) as G. pose proof (compile_good _ _ _ _ _ _ _ Hc') as G'.
  pose proof (proj1 (extract_impl_each _ _ _ _ _ _ _ _ Hc Hx)) as E.
  apply In_nth_error in Hy as [i Hi].
  assert (L : length (reg_schemas (co_registry o)) = length (so_schemas x)) by (clear -E; induction E; cbn; congruence).
  destruct (nth_error (co_registry o) i) as [[full t]|] eqn:Ei.
  2: { apply nth_error_None in Ei. assert (Nn : nth_error (so_schemas x) i <> None) by congruence. apply nth_error_Some in Nn. unfold reg_schemas in L. rewrite map_length in L. lia. }
  assert (A : assoc full (co_registry o) = Some t) by (apply In_assoc_NoDup; [exact (proj1 G)|exact (nth_error_In _ _ Ei)]).
  assert (K : knows (co_registry o') full = Some (unplaced t)) by (apply Hg; unfold knows; now rewrite A).
  unfold knows in K. destruct (assoc full (co_registry o')) as [t'|] eqn:A'; [|discriminate]. injection K as K. apply assoc_In, In_nth_error in A' as [i' Ei'].
  destruct (C80_schema U F P FS FS' J J' _ _ _ _ _ _ _ _ _ _ _ _ _ _ _ _ i i' full t t' Hc Hx Hc' Hx' Ei Ei' (eq_sym K)) as (z & Z1 & Z2).
  - assert (R : forall s full, needs (co_registry o) s full -> forall k, In (k, s) (co_registry o) -> In full (keys (co_registry o))).
    { induction 1 as [s f M|s f u f' M Au _ IH]; intros k Hk.
      - refine (C10_compiled_references_resolve _ _ _ _ _ _ _ _ _ _ _ _ f Hc _). exact (in_registry _ _ _ _ _ Hk M).
      - apply (IH f). now apply assoc_In. }
    intros other No. specialize (R _ _ No full (nth_error_In _ _ Ei)). destruct (knows (co_registry o) other) as [s|] eqn:Ks; [symmetry; now apply Hg|].
    exfalso. unfold knows in Ks. destruct (assoc other (co_registry o)) eqn:Ao; [discriminate|]. apply assoc_None in Ao. contradiction.
  - rewrite Hi in Z1. injection Z1 as <-. exact (nth_error_In _ _ Z2).
Qed.
Print Assumptions C80_more.

(** The document of a file with a main schema depends only on what that needs. *)
Theorem C80_main :
  forall `(Unicode) `(Floats) `(Parser) (FS FS' : FileSystem) (J J' : JsonParser) dirs src name dir ip o ws b r s dirs' src' name' dir' ip' o' ws' b' r' s',
  compile (H2 := FS) (H3 := J) dirs src name dir ip = (Ok o, ws) -> co_file o = ISchema s -> snd (convert_impl o b) = Ok r ->
  compile (H2 := FS') (H3 := J') dirs' src' name' dir' ip' = (Ok o', ws') -> co_file o' = ISchema s' -> snd (convert_impl o' b') = Ok r' ->
  unplaced s = unplaced s' -> (forall other, needs (co_registry o) s other -> knows (co_registry o) other = knows (co_registry o') other) ->
  io_json r = io_json r'.
Proof.
  intros U F P FS FS' J J' dirs src name dir ip o ws b r s dirs' src' name' dir' ip' o' ws' b' r' s' Hc Ho Hx Hc' Ho' Hx' Es Hn.
  unfold convert_impl in Hx, Hx'. rewrite Ho in Hx. rewrite Ho' in Hx'.
  destruct (schema_to_json s _ _ _) as [[j k]|] eqn:E; [|discriminate Hx]. destruct (schema_to_json s' _ _ _) as [[j' k']|] eqn:E'; [|discriminate Hx'].
  injection Hx as <-. injection Hx' as <-. cbn. exact (schema_local _ _ (compile_good _ _ _ _ _ _ _ Hc) (compile_good _ _ _ _ _ _ _ Hc') _ _ _ _ _ _ Es Hn E E').
Qed.
Print Assumptions C80_main.

(** Types added at the end of a protocol appear at the end of its types, and
    nothing else in its document changes. *)
Theorem C80_protocol :
  forall `(Unicode) `(Floats) `(Parser) (FS FS' : FileSystem) (J J' : JsonParser) dirs src name dir ip o ws b r p dirs' src' name' dir' ip' o' ws' b' r' p' more,
  compile (H2 := FS) (H3 := J) dirs src name dir ip = (Ok o, ws) -> co_file o = IProtocol p -> snd (convert_impl o b) = Ok r ->
  compile (H2 := FS') (H3 := J') dirs' src' name' dir' ip' = (Ok o', ws') -> co_file o' = IProtocol p' -> snd (convert_impl o' b') = Ok r' ->
  p_name p = p_name p' -> p_namespace p = p_namespace p' -> p_doc p = p_doc p' -> p_props p = p_props p' ->
  unplaced_messages (p_messages p) = unplaced_messages (p_messages p') -> no_inline_definitions p ->
  unplaced_registry (co_registry o') = unplaced_registry (co_registry o) ++ more ->
  (forall t, In t (p_types p') -> ns_field t = None -> ns_empty (p_namespace p') = true) ->
  exists d d' types extra, io_json r = JObj d /\ io_json r' = JObj d' /\ (forall k, k <> "types" -> assoc k d = assoc k d')
    /\ assoc "types" d = Some (JArr types) /\ assoc "types" d' = Some (JArr (types ++ extra)).
Proof.
  intros U F P FS FS' J J' dirs src name dir ip o ws b r p dirs' src' name' dir' ip' o' ws' b' r' p' more Hc Ho Hx Hc' Ho' Hx' H1 H2 H3 H4 H5 Hi Hm Hns.
  unfold convert_impl in Hx, Hx'. rewrite Ho in Hx. rewrite Ho' in Hx'.
  destruct (protocol_to_json p) as [j|] eqn:E; [|discriminate Hx]. destruct (protocol_to_json p') as [j'|] eqn:E'; [|discriminate Hx'].
  injection Hx as <-. injection Hx' as <-. cbn [io_json].
  assert (R : forall full, mentioned (co_registry o) (ref_file (co_file o)) full -> In full (keys (co_registry o))) by (intros full M; exact (C10_compiled_references_resolve _ _ _ _ _ _ _ _ _ _ _ _ full Hc M)).
  refine (protocol_local _ _ p p' more j j' (compile_good _ _ _ _ _ _ _ Hc) (compile_good _ _ _ _ _ _ _ Hc') (C50_protocol _ _ _ _ _ _ _ _ _ _ _ _ _ Hc Ho) (C50_protocol _ _ _ _ _ _ _ _ _ _ _ _ _ Hc' Ho') Hm H1 H2 H3 H4 H5 Hi Hns _ _ E E').
  - intros k s full I M. apply R. exact (in_registry _ _ _ _ _ I M).
  - intros k m t full I T M. apply R. rewrite Ho. exact (in_message _ _ _ _ _ _ I T M).
Qed.
Print Assumptions C80_protocol.

Section Sample.
  Existing Instance ascii_chars. Existing Instance few_floats. Existing Instance the_text_parser.
  Definition b_file := "/p/b.avsc".
  Definition b_canonical (p : string) : option string := if String.eqb p b_file then Some p else None.
  Lemma b_finite : forall p c, b_canonical p = Some c -> In c [b_file].
  Proof. intros p c. unfold b_canonical. destruct (String.eqb_spec p b_file); [|discriminate]. intro E. injection E as <-. left. congruence. Qed.
  Definition b_world : FileSystem :=
    {| fs_join := fun d n => (d ++ "/" ++ n)%string;
       fs_exists := fun p => String.eqb p b_file;
       fs_canonical := b_canonical; fs_files := [b_file]; fs_finite := b_finite;
       fs_read := fun p => if String.eqb p b_file then Some "b" else None;
       fs_parent := parent; fs_file_name := fun p => Some (base_name p);
       fs_cwd := Some "/p"; fs_is_dir := fun _ => false; fs_content := fun _ => [] |}.
  Definition b_json : JsonParser :=
    {| parse_json := fun text => if String.eqb text "b" then Some (JObj [("name", JStr "B"); ("size", JNum (NPos 8)); ("type", JStr "fixed")]) else None |}.
  Definition less_text := "@namespace(""org"") protocol P { record A { B b; } fixed B(4); B get(A a); }".
  Definition more_types_text := "@namespace(""org"") protocol P { record A { B b; } fixed B(4); B get(A a); record C { A a; B b; } }".
  Definition shadow_text := "@namespace(""org"") protocol P { record A { B b; } fixed B(4); B get(A a); import schema ""b.avsc""; }".
  Definition b_compile t := compile (H2 := b_world) (H3 := b_json) [] t "t" "/p" None.
  Definition b_out t := match b_compile t with (Ok o, _) => o | _ => mkOutput (INamed []) [] [] [] end.
  Definition b_less := Eval vm_compute in b_out less_text.
  Definition b_more := Eval vm_compute in b_out more_types_text.
  Definition b_shadow := Eval vm_compute in b_out shadow_text.
  Lemma b_less_comes : b_compile less_text = (Ok b_less, []). Proof. vm_compute. reflexivity. Qed.
  Lemma b_more_comes : b_compile more_types_text = (Ok b_more, []). Proof. vm_compute. reflexivity. Qed.
  Lemma b_shadow_comes : b_compile shadow_text = (Ok b_shadow, []). Proof. vm_compute. reflexivity. Qed.
  Definition the_protocol o := match co_file o with IProtocol p => p | _ => mkProtocol "" None None [] [] [] end.
  Example C80_sample : exists r r' more,
    b_compile less_text = (Ok b_less, []) /\ b_compile more_types_text = (Ok b_more, [])
    /\ co_file b_less = IProtocol (the_protocol b_less) /\ co_file b_more = IProtocol (the_protocol b_more)
    /\ snd (convert_impl b_less (mkBuilder [] [])) = Ok r /\ snd (convert_impl b_more (mkBuilder [] [])) = Ok r'
    /\ unplaced_messages (p_messages (the_protocol b_less)) = unplaced_messages (p_messages (the_protocol b_more))
    /\ no_inline_definitions (the_protocol b_less) /\ length more = 1
    /\ unplaced_registry (co_registry b_more) = unplaced_registry (co_registry b_less) ++ more
    /\ (forall t, In t (p_types (the_protocol b_more)) -> ns_field t = None -> ns_empty (p_namespace (the_protocol b_more)) = true).
  Proof.
    do 2 eexists. exists (skipn 2 (unplaced_registry (co_registry b_more))). split; [exact b_less_comes|]. split; [exact b_more_comes|].
    split; [reflexivity|]. split; [reflexivity|]. split; [vm_compute; reflexivity|]. split; [vm_compute; reflexivity|]. split; [reflexivity|]. split; [|split; [reflexivity|split; [reflexivity|]]].
    - intros nm m u Hn Hm Hu Hd. cbn in Hn. destruct Hn as [<-|[]].
      assert (Hr : exists a b c d, m = SRef a b c d).
      { inversion Hm as [m0 E|m0 f Hf|m0 es e Ee He]; subst; [cbn; eauto| |discriminate Ee]. destruct Hf as [<-|[]]. cbn. eauto. }
      destruct Hr as (a & b & c & d & ->). inversion Hu; subst. exact Hd.
    - intros t Ht. cbn in Ht. destruct Ht as [<-|[<-|[<-|[]]]]; discriminate.
  Qed.
  Example C80_more_sample : grows (co_registry b_less) (co_registry b_more) /\ length (co_registry b_more) = 3.
  Proof.
    split; [|reflexivity]. intros full s. unfold knows. cbn [b_less b_more co_registry assoc].
    repeat match goal with |- context [String.eqb full ?k] => destruct (String.eqb full k) end; cbn [option_map]; try discriminate; auto.
  Qed.

  Definition main_less := "schema array<A>; record A { int i; }".
  Definition main_more := "schema array<A>; record Z { A a; } record A { int i; }".
  Definition m_less := Eval vm_compute in b_out main_less.
  Definition m_more := Eval vm_compute in b_out main_more.
  Lemma m_less_comes : b_compile main_less = (Ok m_less, []). Proof. vm_compute. reflexivity. Qed.
  Lemma m_more_comes : b_compile main_more = (Ok m_more, []). Proof. vm_compute. reflexivity. Qed.
  Example C80_main_sample : exists s s' t t',
    b_compile main_less = (Ok m_less, []) /\ b_compile main_more = (Ok m_more, [])
    /\ co_file m_less = ISchema s /\ co_file m_more = ISchema s' /\ unplaced s = unplaced s'
    /\ nth_error (co_registry m_less) 0 = Some ("A", t) /\ nth_error (co_registry m_more) 1 = Some ("A", t') /\ unplaced t = unplaced t'
    /\ (exists other, needs (co_registry m_less) s other)
    /\ (forall other, needs (co_registry m_less) s other -> knows (co_registry m_less) other = knows (co_registry m_more) other).
  Proof.
    do 4 eexists. split; [exact m_less_comes|]. split; [exact m_more_comes|]. do 6 (split; [reflexivity|]).
    split; [exists "A"; apply nd_here, men_array; apply (men_ref "A" None)|].
    assert (G : forall s other, needs (co_registry m_less) s other -> (forall f, mentions s f -> f = "A") -> other = "A").
    { induction 1 as [s f M|s f u f' M Au _ IH]; intro Hs; [now apply Hs|]. apply IH. intros g Mg. rewrite (Hs f M) in Au. cbn in Au. injection Au as <-.
      apply PipelineProofs.mentions_refs in Mg. destruct Mg. }
    intros other N. rewrite (G _ _ N); [reflexivity|]. intros f M. apply PipelineProofs.mentions_refs in M. cbn in M. destruct M as [<-|[]]. reflexivity.
  Qed.

  (** A type without namespace that is added to a protocol with one can take the
      place of a type of the protocol. *)
  Theorem C80_shadow_refuted : exists r r' more d d' types types',
    b_compile less_text = (Ok b_less, []) /\ b_compile shadow_text = (Ok b_shadow, [])
    /\ unplaced_registry (co_registry b_shadow) = unplaced_registry (co_registry b_less) ++ more
    /\ snd (convert_impl b_less (mkBuilder [] [])) = Ok r /\ snd (convert_impl b_shadow (mkBuilder [] [])) = Ok r'
    /\ io_json r = JObj d /\ io_json r' = JObj d' /\ assoc "types" d = Some (JArr types) /\ assoc "types" d' = Some (JArr types')
    /\ nth_error types 0 <> nth_error types' 0.
  Proof.
    do 2 eexists. exists (skipn 2 (unplaced_registry (co_registry b_shadow))). do 4 eexists. split; [exact b_less_comes|]. split; [exact b_shadow_comes|]. split; [reflexivity|].
    split; [vm_compute; reflexivity|]. split; [vm_compute; reflexivity|]. split; [reflexivity|]. split; [reflexivity|]. split; [reflexivity|]. split; [reflexivity|]. discriminate.
  Qed.
End Sample.
Print Assumptions C80_shadow_refuted.
