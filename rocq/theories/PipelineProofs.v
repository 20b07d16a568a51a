(** From files to documents. *)
From Verif Require Import SpecPipeline SpecImport SpecFile RegistryProofs MeaningProofs ImportProofs ImportDocProofs.
From Verif Require Import SpecRefs RefsProofs ReaderProofs TypeProofs AnnotProofs DeclProofs FileProofs DenoteProofs ObjectProofs.
From Verif Require Import DefaultsProofs CompileProofs LoadProofs BuildProofs ProtocolProofs CliProofs.
From Coq Require Import Permutation.

(** *** Well-built schemas: the conditions that do not depend on namespaces *)
Fixpoint solid (s : schema) : Prop :=
  match s with
  | SPrim _ => True
  | SAnnot _ ps | SLogical _ ps => props_avoid ["type"] ps
  | SArray i ps => props_avoid ["type"; "items"] ps /\ solid i
  | SMap i ps => props_avoid ["type"; "values"] ps /\ solid i
  | SUnion ts _ => fold_right (fun t P => solid t /\ P) True ts
  | SRef n _ _ _ => contains_dot n = false
  | SRecord n _ _ fs _ _ ps =>
      contains_dot n = false /\ props_avoid (structural s) ps
      /\ fold_right (fun f P => (props_avoid field_keys (f_props f) /\ solid (f_schema f)) /\ P) True fs
  | SEnum n _ _ _ _ _ ps | SFixed n _ _ _ _ ps => contains_dot n = false /\ props_avoid (structural s) ps
  end.

Lemma fold_and {A} (P : A -> Prop) l : fold_right (fun x Q => P x /\ Q) True l <-> forall x, In x l -> P x.
Proof.
  induction l as [|x l IH]; cbn; [split; [intros _ x []|trivial]|]. rewrite IH. split.
  - intros [Hx Hl] y [<-|Hy]; auto.
  - intro Hl. split; [apply Hl; now left|]. intros y Hy. apply Hl. now right.
Qed.

Lemma free_of_avoid ks ps : props_avoid ks ps -> free_of ks ps = true.
Proof.
  intros [Hn Hk]. unfold free_of. apply andb_true_iff. split; [now apply nodupb_NoDup|].
  apply forallb_forall. intros k Hi. apply negb_true_iff. destruct (str_mem k ks) eqn:E; [|reflexivity].
  apply str_mem_In in E. destruct (Hk k Hi E).
Qed.

(** *** Names *)
Lemma dotless_full n ns : contains_dot (fullname n ns) = false -> ns_empty ns = true.
Proof.
  intro Hf. unfold ns_empty. destruct (str_is_empty (nsof ns)) eqn:E; [reflexivity|].
  unfold fullname in Hf. rewrite qualify_dot in Hf; [discriminate|exact E].
Qed.
Lemma full_empty n ns : ns_empty ns = true -> fullname n ns = n.
Proof. unfold ns_empty, fullname, qualify. intros ->. reflexivity. Qed.
Lemma type_name_field t n ns : defines t n ns -> type_name t = fullname n ns /\ ns_field t = ns.
Proof. destruct 1; split; reflexivity. Qed.

Lemma refs_mentions s full : In full (refs_of s) -> mentions s full.
Proof.
  induction s as [p|n ns d fs e al ps Hfs|n ns d sy df al ps|n ns d sz al ps|i ps IHi|i ps IHi
                  |ts b Hts|k ps|l ps|n ns ps sp] using schema_ind'; cbn [refs_of]; intro Hi; try contradiction.
  - apply in_flat_map in Hi. destruct Hi as (f & Hf & Hi). rewrite Forall_forall in Hfs. eapply men_field; [exact Hf|]. exact (Hfs f Hf Hi).
  - constructor. auto.
  - constructor. auto.
  - apply in_flat_map in Hi. destruct Hi as (t & Ht & Hi). rewrite Forall_forall in Hts. eapply men_union; [exact Ht|]. exact (Hts t Ht Hi).
  - destruct Hi as [<-|[]]. apply men_ref.
Qed.

(** *** Types and definitions are in order *)
Lemma solid_ty_ok b s : solid s -> no_inline s = true ->
  (forall n ns, contains_dot n = false -> mentions s (fullname n ns) -> ns_empty ns = true -> ~ In n spec_primitives /\ b = true) ->
  ty_ok b s = true.
Proof.
  induction s as [p|n ns d fs e al ps Hfs|n ns d sy df al ps|n ns d sz al ps|i ps IHi|i ps IHi
                  |ts b' Hts|k ps|l ps|n ns ps sp] using schema_ind'; cbn [solid no_inline ty_ok]; intros Hs Hi Hm; try discriminate.
  - reflexivity.
  - apply andb_true_iff. split; [now apply free_of_avoid|]. apply IHi; [apply Hs|exact Hi|]. intros n ns Hn Hx. apply Hm; [exact Hn|now constructor].
  - apply andb_true_iff. split; [now apply free_of_avoid|]. apply IHi; [apply Hs|exact Hi|]. intros n ns Hn Hx. apply Hm; [exact Hn|now constructor].
  - apply forallb_forall. intros t Ht. rewrite Forall_forall in Hts. rewrite forallb_forall in Hi. apply (Hts t Ht); [|exact (Hi t Ht)|].
    + rewrite fold_and in Hs. exact (Hs t Ht).
    + intros n ns Hn Hx. apply Hm; [exact Hn|]. eapply men_union; eassumption.
  - now apply free_of_avoid.
  - now apply free_of_avoid.
  - specialize (Hm n ns Hs (men_ref n ns ps sp)). unfold name_ok. rewrite Hs. cbn [negb andb]. destruct (ns_empty ns); [|reflexivity].
    destruct (Hm eq_refl) as [Hp ->]. cbn [implb]. rewrite andb_true_r. apply negb_true_iff.
    destruct (str_mem n spec_primitives) eqn:E; [|reflexivity]. apply str_mem_In in E. contradiction.
Qed.

(** What a list of types needs to be a set of definitions *)
Record sound (types : list schema) : Prop := mkSound {
  so_solid : forall t, In t types -> solid t /\ flat_definition t = true;
  so_known : forall t full, In t types -> mentions t full -> In full (map type_name types);
  so_aliases : plain_aliases types;
  so_apart : apart types;
  so_once : NoDup (map type_name types)
}.

Lemma flat_defines t : flat_definition t = true -> exists n ns, defines t n ns.
Proof. destruct t; try discriminate; intros _; do 2 eexists; constructor. Qed.

(** A name without a dot that is known belongs to a type outside any namespace. *)
Lemma known_null types n ns : (forall t, In t types -> flat_definition t = true) -> contains_dot n = false -> ns_empty ns = true ->
  In (fullname n ns) (map type_name types) -> exists t, In t types /\ type_name t = n /\ ns_empty (ns_field t) = true.
Proof.
  intros Hd Hn He Hi. rewrite (full_empty _ _ He) in Hi. apply in_map_iff in Hi. destruct Hi as (t & Et & Ht). exists t. split; [exact Ht|].
  split; [exact Et|]. destruct (flat_defines t (Hd t Ht)) as (n' & ns' & Hx). destruct (type_name_field _ _ _ Hx) as [E ->].
  rewrite E in Et. subst n. now apply dotless_full in Hn.
Qed.

Lemma avoid_name n ns types t : sound types -> In t types -> defines t n ns -> contains_dot n = false -> name_ok n ns = true.
Proof.
  intros S Hi Hd Hn. destruct (type_name_field _ _ _ Hd) as [E1 E2]. unfold name_ok. rewrite Hn. cbn [negb andb].
  destruct (ns_empty ns) eqn:En; [|reflexivity]. cbn [implb]. apply negb_true_iff.
  destruct (str_mem n spec_primitives) eqn:E; [|reflexivity]. apply str_mem_In in E. exfalso.
  destruct (so_apart _ S t Hi) as [Hp _]; [now rewrite E2|]. apply Hp. now rewrite E1, (full_empty _ _ En).
Qed.

Lemma sound_def_ok types t : sound types -> In t types -> def_ok t = true.
Proof.
  intros S Hi. destruct (so_solid _ S t Hi) as [Hs Hf]. pose proof (so_aliases _ S t) as Ha.
  assert (Al : forallb alias_ok (aliases_of t) = true) by (apply forallb_forall; intros a; apply Ha; exact Hi).
  destruct t as [p|n q d fs e al ps|n q d sy df al ps|n q d sz al ps|i ps|i ps|ts b|k ps|l ps|n q ps sp];
    try discriminate; cbn [def_ok solid aliases_of structural] in *.
  - destruct Hs as (Hn & Hp & Hfs). rewrite (avoid_name n q types _ S Hi); [|constructor|exact Hn]. rewrite Al.
    rewrite (free_of_avoid _ _ Hp). cbn [andb]. apply forallb_forall. intros f Hif. rewrite fold_and in Hfs. destruct (Hfs f Hif) as [Hpf Hsf].
    unfold field_ok. change ["name"; "type"; "doc"; "default"; "order"; "aliases"] with field_keys. rewrite (free_of_avoid _ _ Hpf). cbn [andb]. cbn [flat_definition] in Hf. rewrite forallb_forall in Hf.
    apply solid_ty_ok; [exact Hsf|exact (Hf f Hif)|]. intros m ns Hd Hm He.
    assert (M : mentions (SRecord n q d fs e al ps) (fullname m ns)) by (eapply men_field; eassumption).
    destruct (known_null types m ns (fun t Ht => proj2 (so_solid _ S t Ht)) Hd He (so_known _ S _ _ Hi M)) as (t & Ht & Et & En).
    destruct (so_apart _ S t Ht En) as [Hpr Hu]. rewrite Et in *. split; [exact Hpr|].
    rewrite (full_empty _ _ He) in M. exact (Hu _ Hi M).
  - destruct Hs as (Hn & Hp). rewrite (avoid_name n q types _ S Hi); [|constructor|exact Hn]. rewrite Al. now rewrite (free_of_avoid _ _ Hp).
  - destruct Hs as (Hn & Hp). rewrite (avoid_name n q types _ S Hi); [|constructor|exact Hn]. rewrite Al. now rewrite (free_of_avoid _ _ Hp).
Qed.

Lemma subset_incl l m : (forall x, In x l -> In x m) -> subset l m = true.
Proof. intro Hi. apply forallb_forall. intros x Hx. apply str_mem_In. auto. Qed.

Lemma sound_registry_ok types : sound types -> registry_ok types = true.
Proof.
  intro S. unfold registry_ok. rewrite !andb_true_iff. split; [split|].
  - apply forallb_forall. intros t Ht. exact (sound_def_ok _ _ S Ht).
  - apply nodupb_NoDup, S.
  - apply forallb_forall. intros t Ht. apply subset_incl. intros x Hx. exact (so_known _ S t x Ht (refs_mentions _ _ Hx)).
Qed.

(** Types used outside definitions *)
Lemma sound_ty_ok b types s : sound types -> solid s -> no_inline s = true ->
  (forall full, mentions s full -> In full (map type_name types)) ->
  (b = false -> forall t, In t types -> ns_empty (ns_field t) = true -> ~ mentions s (type_name t)) ->
  ty_ok b s = true /\ subset (refs_of s) (map type_name types) = true.
Proof.
  intros S Hs Hi Hk Hb. split; [|apply subset_incl; intros x Hx; now apply Hk, refs_mentions].
  apply solid_ty_ok; [exact Hs|exact Hi|]. intros n ns Hd Hm He.
  destruct (known_null types n ns (fun t Ht => proj2 (so_solid _ S t Ht)) Hd He (Hk _ Hm)) as (t & Ht & Et & En).
  destruct (so_apart _ S t Ht En) as [Hpr Hu]. rewrite Et in Hpr. split; [exact Hpr|]. destruct b; [reflexivity|].
  exfalso. apply (Hb eq_refl t Ht En). now rewrite Et, <- (full_empty n ns He).
Qed.

(** *** Sources of types: IDL *)
Section Idl.
  Context `{Unicode} `{Floats}.
  Lemma refers_simple ns i n q : refers ns i (n, q) -> contains_dot n = false.
  Proof. inversion 1 as [q' n' Hq|Hd]; subst; [apply Hq|exact Hd]. Qed.
  Lemma shape_solid ns s : shape ns s -> solid s.
  Proof.
    induction s as [p|n q d fs e al ps Hfs|n q d sy df al ps|n q d sz al ps|i ps IHi|i ps IHi
                    |ts b Hts|k ps|l ps|n q ps sp] using schema_ind'; intro Hs; try contradiction; try exact I.
    - split; [exact (shape_avoid ns _ Hs)|apply IHi, Hs].
    - split; [exact (shape_avoid ns _ Hs)|apply IHi, Hs].
    - cbn [solid]. apply fold_and. intros t Ht. apply shape_union in Hs. rewrite Forall_forall in Hs, Hts. auto.
    - exact (shape_avoid ns _ Hs).
    - exact (shape_avoid ns _ Hs).
    - destruct Hs as [_ [i Hr]]. cbn. eapply refers_simple; eauto.
  Qed.
  Lemma shape_no_inline ns s : shape ns s -> no_inline s = true.
  Proof.
    induction s as [p|n q d fs e al ps Hfs|n q d sy df al ps|n q d sz al ps|i ps IHi|i ps IHi
                    |ts b Hts|k ps|l ps|n q ps sp] using schema_ind'; intro Hs; try contradiction; try reflexivity.
    - apply IHi, Hs.
    - apply IHi, Hs.
    - cbn. apply forallb_forall. intros t Ht. apply shape_union in Hs. rewrite Forall_forall in Hs, Hts. auto.
  Qed.

  Variable tokens : list token.
  Lemma declares_simple ident l ns n q : declares ident l ns n q -> contains_dot n = false.
  Proof. inversion 1; subst; auto. match goal with Hq : qualified _ _ _ |- _ => apply Hq end. Qed.
  Lemma named_solid d ns s e : walk_named tokens d ns = Ok (s, e) -> solid s.
  Proof.
    intro Hw. pose proof (named_avoid tokens _ _ _ _ Hw) as Hp. pose proof (walk_named_cases tokens _ _ _ _ Hw) as Hc.
    pose proof (walk_named_denotes tokens _ _ _ _ Hw) as Hd.
    inversion Hd as [r n q doc al ps fs Hh Hv|en n q doc al ps Hh|x n q doc al ps size Hh]; subst; cbn [solid props_of] in *.
    - split; [exact (declares_simple _ _ _ _ _ (nh_name _ _ _ _ _ _ _ _ Hh))|]. split; [exact Hp|]. apply fold_and. intros f Hf.
      destruct Hc as [(n' & q' & doc' & fs' & er & al' & ps' & E & Hf')|[(?&?&?&?&?&?&?&E)|(?&?&?&?&?&?&E)]]; try discriminate.
      injection E as <- <- <- <- <- <- <-. rewrite Forall_forall in Hf'. split.
      + destruct (Forall2_in_r _ _ _ _ Hv Hf) as (dv & _ & Hx). exact (variable_avoid _ _ _ _ _ _ Hx).
      + eapply shape_solid, typed_shape, Hf'; exact Hf.
    - split; [exact (declares_simple _ _ _ _ _ (nh_name _ _ _ _ _ _ _ _ Hh))|exact Hp].
    - split; [exact (declares_simple _ _ _ _ _ (nh_name _ _ _ _ _ _ _ _ Hh))|exact Hp].
  Qed.
End Idl.

(** *** Sources of types: JSON *)
Lemma extra_avoid o known ks : NoDup (map fst o) -> incl ks known -> props_avoid ks (collect_extra_properties o known).
Proof.
  intros Hn Hk. unfold collect_extra_properties. split.
  - unfold keys. induction o as [|[k v] o IH]; cbn; [constructor|]. inversion Hn as [|? ? Hx Hn']; subst. specialize (IH Hn').
    destruct (negb (str_mem k known)); [|exact IH]. cbn. constructor; [|exact IH]. intro Hi. apply Hx.
    apply in_map_iff in Hi. destruct Hi as ([k' v'] & E & Hi). cbn in E. subst k'. apply filter_In in Hi. apply in_map_iff. exists (k, v'). split; [reflexivity|apply Hi].
  - intros k Hi Hk'. apply in_map_iff in Hi. destruct Hi as ([k' v'] & E & Hi). cbn in E. subst k'. apply filter_In in Hi. destruct Hi as [_ Hb].
    cbn in Hb. apply negb_true_iff in Hb. assert (str_mem k known = true) by (apply str_mem_In; auto). congruence.
Qed.

Lemma wf_get k o j : wf_json (JObj o) -> jget k o = Some j -> wf_json j.
Proof. intros W E. apply wf_obj_inv in W. destruct W as [_ W]. apply (W k). now apply assoc_In. Qed.

Lemma map_res_in {A B Er} (f : A -> result B Er) l m : map_res f l = Ok m -> forall y, In y m -> exists x, In x l /\ f x = Ok y.
Proof.
  revert m. induction l as [|x l IH]; cbn; intros m E y Hy.
  - injection E as <-. destruct Hy.
  - destruct (f x) as [a|] eqn:Ex; [|discriminate]. destruct (map_res f l) as [b|]; [|discriminate]. injection E as <-.
    destruct Hy as [<-|Hy]; [exists x; split; [now left|exact Ex]|]. destruct (IH b eq_refl y Hy) as (z & Hz & Ez). exists z. split; [now right|exact Ez].
Qed.

Lemma json_solid m : forall j dns s, json_to_schema_n m j dns = Ok s -> wf_json j -> solid s.
Proof.
  induction m as [|m IH]; intros j dns s E W; [discriminate|]. cbn [json_to_schema_n] in E.
  destruct j as [ | b | k | x | l | o]; try discriminate.
  - injection E as <-. unfold string_to_schema. destruct (prim_of_str x); [exact I|].
    destruct (rsplit_once_dot x) as [[a b]|] eqn:Ex; cbn [solid]; [apply rsplit_Some in Ex; apply Ex|now apply rsplit_None].
  - destruct (map_res _ l) as [ts|] eqn:Em in E; [|discriminate]. injection E as <-. cbn [solid].
    apply fold_and. intros t Ht. destruct (map_res_in _ _ _ Em t Ht) as (x & Hx & Ex). exact (IH _ _ _ Ex (wf_arr_inv _ W x Hx)).
  - pose proof (proj1 (wf_obj_inv _ W)) as Wn.
    destruct (get_str "type" o) as [ty|]; [|discriminate].
    destruct (String.eqb ty "record" || String.eqb ty "error")%bool.
    { destruct (parse_name o dns) as [[n ns]|] eqn:En; [|discriminate].
      apply parse_name_simple in En.
      destruct (match jget "fields" o with Some (JArr fj) => _ | _ => _ end) as [fs|] eqn:Ef in E; [|discriminate].
      injection E as <-. cbn [solid structural]. split; [exact En|]. split; [apply extra_avoid; [exact Wn|apply incl_refl]|].
      apply fold_and. intros f Hf.
      destruct (jget "fields" o) as [[| | | |fj|]|] eqn:Efj; try (injection Ef as <-; contradiction).
      destruct (map_res_in _ _ _ Ef f Hf) as (x & Hx & Ex). cbv beta in Ex.
      pose proof (wf_arr_inv _ (wf_get _ _ _ W Efj) x Hx) as Wx.
      destruct x as [| | | | |fo]; try discriminate. destruct (get_str "name" fo); [|discriminate].
      destruct (jget "type" fo) as [tj|] eqn:Etj; [|discriminate].
      destruct (json_to_schema_n m tj (opt_or ns dns)) as [s1|] eqn:E1; [|discriminate]. injection Ex as <-. cbn [f_props f_schema]. split.
      - apply extra_avoid; [exact (proj1 (wf_obj_inv _ Wx))|apply incl_refl].
      - exact (IH _ _ _ E1 (wf_get _ _ _ Wx Etj)). }
    destruct (String.eqb ty "enum").
    { unfold parse_enum in E. destruct (parse_name o dns) as [[n ns]|] eqn:En; [|discriminate]. injection E as <-.
      apply parse_name_simple in En. split; [exact En|apply extra_avoid; [exact Wn|apply incl_refl]]. }
    destruct (String.eqb ty "fixed").
    { unfold parse_fixed in E. destruct (parse_name o dns) as [[n ns]|] eqn:En; [|discriminate].
      destruct (get_u64 "size" o); [|discriminate]. destruct (u32_of_u64 n0); [|discriminate]. injection E as <-.
      apply parse_name_simple in En. split; [exact En|apply extra_avoid; [exact Wn|apply incl_refl]]. }
    destruct (String.eqb ty "array").
    { destruct (jget "items" o) as [ij|] eqn:Eij; [|discriminate]. destruct (json_to_schema_n m ij dns) eqn:E1; [|discriminate].
      injection E as <-. split; [apply extra_avoid; [exact Wn|apply incl_refl]|exact (IH _ _ _ E1 (wf_get _ _ _ W Eij))]. }
    destruct (String.eqb ty "map").
    { destruct (jget "values" o) as [ij|] eqn:Eij; [|discriminate]. destruct (json_to_schema_n m ij dns) eqn:E1; [|discriminate].
      injection E as <-. split; [apply extra_avoid; [exact Wn|apply incl_refl]|exact (IH _ _ _ E1 (wf_get _ _ _ W Eij))]. }
    destruct (prim_of_str ty) as [p|]; [|discriminate]. unfold parse_annotated_primitive in E.
    assert (L : forall l, solid (SLogical l (collect_extra_properties o ["type"; "logicalType"; "precision"; "scale"]))).
    { intro l. cbn [solid]. apply extra_avoid; [exact Wn|]. intros x [<-|[]]. now left. }
    assert (A : forall q, solid (SAnnot q (collect_extra_properties o ["type"]))).
    { intro q. cbn [solid]. apply extra_avoid; [exact Wn|apply incl_refl]. }
    destruct (get_str "logicalType" o).
    + destruct (parse_logical_type s0 _ _) as [l|]; [|injection E as <-; apply A].
      destruct l; try (injection E as <-; apply L). destruct (N.ltb precision 1); [discriminate|]. injection E as <-; apply L.
    + specialize (A p). destruct (collect_extra_properties o ["type"]); injection E as <-; [exact I|exact A].
Qed.

Lemma json_schema_solid j dns s : json_to_schema j dns = Ok s -> wf_json j -> solid s.
Proof. apply json_solid. Qed.

Lemma json_field_solid j dns f : json_to_field j dns = Ok f -> wf_json j -> props_avoid field_keys (f_props f) /\ solid (f_schema f).
Proof.
  unfold json_to_field. destruct j as [| | | | |fo]; try discriminate. intros E W. destruct (get_str "name" fo); [|discriminate].
  destruct (jget "type" fo) as [tj|] eqn:Etj; [|discriminate].
  destruct (json_to_schema tj dns) as [s1|] eqn:E1; [|discriminate]. injection E as <-. cbn [f_props f_schema]. split.
  - apply extra_avoid; [exact (proj1 (wf_obj_inv _ W))|apply incl_refl].
  - exact (json_schema_solid _ _ _ E1 (wf_get _ _ _ W Etj)).
Qed.

(** What a message needs, apart from what it refers to *)
Definition message_solid (m : message) : Prop :=
  props_avoid message_keys (m_props m)
  /\ (forall f, In f (m_request m) -> props_avoid field_keys (f_props f))
  /\ (forall t, message_type m t -> solid t).

Lemma json_message_solid j dns m : json_to_message j dns = Ok m -> wf_json j -> message_solid m.
Proof.
  unfold json_to_message. destruct j as [| | | | |o]; try discriminate. intros E W.
  destruct (match jget "request" o with Some (JArr l) => _ | _ => _ end) as [req|] eqn:Er in E; [|discriminate].
  destruct (match jget "response" o with Some _ => _ | _ => _ end) as [res|] eqn:Es in E; [|discriminate].
  destruct (match jget "errors" o with Some (JArr l) => _ | _ => _ end) as [errs|] eqn:Ee in E; [|discriminate].
  injection E as <-.
  assert (Hr : forall f, In f req -> props_avoid field_keys (f_props f) /\ solid (f_schema f)).
  { intros f Hf. destruct (jget "request" o) as [[| | | |l|]|] eqn:Ej; try (injection Er as <-; contradiction).
    destruct (map_res_in _ _ _ Er f Hf) as (x & Hx & Ex). exact (json_field_solid _ _ _ Ex (wf_arr_inv _ (wf_get _ _ _ W Ej) x Hx)). }
  assert (Hs : solid res).
  { destruct (jget "response" o) as [rj|] eqn:Ej; [exact (json_schema_solid _ _ _ Es (wf_get _ _ _ W Ej))|injection Es as <-; exact I]. }
  assert (He : forall l t, errs = Some l -> In t l -> solid t).
  { intros l t -> Ht. destruct (jget "errors" o) as [[| | | |el|]|] eqn:Ej; try discriminate.
    destruct (map_res _ el) as [es|] eqn:Em in Ee; [|discriminate]. injection Ee as ->.
    destruct (map_res_in _ _ _ Em t Ht) as (x & Hx & Ex). exact (json_schema_solid _ _ _ Ex (wf_arr_inv _ (wf_get _ _ _ W Ej) x Hx)). }
  split; [|split].
  - apply extra_avoid; [exact (proj1 (wf_obj_inv _ W))|apply incl_refl].
  - intros f Hf. apply Hr, Hf.
  - intros t Ht. inversion Ht; subst; cbn [m_request m_response m_errors] in *; [exact Hs|now apply Hr|eapply He; eassumption].
Qed.

Lemma flatten_solid s : solid s -> solid (snd (flatten s)) /\ forall t, In t (fst (flatten s)) -> solid t.
Proof.
  induction s as [p|n ns d fs e al ps Hfs|n ns d sy df al ps|n ns d sz al ps|i ps IHi|i ps IHi
                  |ts b Hts|k ps|l ps|n ns ps sp] using schema_ind'; intro Hs; try (split; [exact Hs|intros t []]).
  - rewrite flatten_record. cbn [fst snd solid] in *. destruct Hs as (Hn & Hp & Hf). rewrite fold_and in Hf. rewrite Forall_forall in Hfs. split; [exact Hn|].
    intros t Ht. apply in_app_or in Ht. destruct Ht as [Ht|[<-|[]]].
    + apply in_flat_map in Ht. destruct Ht as (f & Hi & Ht). exact (proj2 (Hfs f Hi (proj2 (Hf f Hi))) t Ht).
    + cbn [solid structural]. split; [exact Hn|]. split; [exact Hp|]. apply fold_and. intros f Hi. apply in_map_iff in Hi. destruct Hi as (g & <- & Hg).
      destruct (Hf g Hg) as [H1 H2]. split; [exact H1|]. exact (proj1 (Hfs g Hg H2)).
  - split; [exact (proj1 Hs)|]. intros t [<-|[]]. exact Hs.
  - split; [exact (proj1 Hs)|]. intros t [<-|[]]. exact Hs.
  - cbn [flatten]. destruct (flatten i) as [c i'] eqn:Ei. destruct Hs as [Hp Hi]. destruct (IHi Hi) as [H1 H2]. split; [split; [exact Hp|exact H1]|exact H2].
  - cbn [flatten]. destruct (flatten i) as [c i'] eqn:Ei. destruct Hs as [Hp Hi]. destruct (IHi Hi) as [H1 H2]. split; [split; [exact Hp|exact H1]|exact H2].
  - cbn [flatten fst snd solid] in *. rewrite fold_and in Hs. rewrite Forall_forall in Hts. split.
    + apply fold_and. intros t Ht. apply in_map_iff in Ht. destruct Ht as (p & <- & Ht). apply in_map_iff in Ht. destruct Ht as (u & <- & Hu). exact (proj1 (Hts u Hu (Hs u Hu))).
    + intros t Ht. apply in_flat_map in Ht. destruct Ht as (p & Hp & Ht). apply in_map_iff in Hp. destruct Hp as (u & <- & Hu). exact (proj2 (Hts u Hu (Hs u Hu)) t Ht).
Qed.

(** *** Compilations *)
Section World.
  Context `{Unicode} `{Floats} `{Parser} `{FileSystem} `{JsonParser}.

  Lemma idl_walk label src file items ws : parse_idl label src = Ok (file, items, ws) ->
    exists tokens t evs, walk_idl_file tokens t = Ok ((file, items), evs).
  Proof.
    unfold parse_idl. destruct (antlr_parse _ _) as [pr|]; [|discriminate]. destruct (walk_idl_file _ _) as [[[f its] evs]|[? ?]] eqn:E; [|discriminate].
    intro Hx. injection Hx as -> -> _. eauto.
  Qed.

  Lemma idl_type_solid label src file items ws s sp fs : parse_idl label src = Ok (file, items, ws) -> In (DType s sp fs) items -> solid s /\ flat_definition s = true.
  Proof.
    intros Hp Hi. split; [|exact (parse_idl_flat _ _ _ _ _ Hp s sp fs Hi)]. destruct (idl_walk _ _ _ _ _ Hp) as (tokens & t & evs & Hw).
    destruct (gives_cases tokens _ _ _ _ _ Hw (gv_item _ _ _ _ _ Hi)) as (ns & _ & [(d & e & _ & Hd)|Ht]).
    - exact (named_solid tokens _ _ _ _ Hd).
    - exact (shape_solid _ _ (typed_shape _ _ Ht)).
  Qed.

  Lemma idl_schema_solid label src items ws s : parse_idl label src = Ok (ISchema s, items, ws) -> solid s /\ no_inline s = true.
  Proof.
    intros Hp. destruct (idl_walk _ _ _ _ _ Hp) as (tokens & t & evs & Hw). apply walk_file_denotes in Hw as Hd. inversion Hd as [|nsd ft its ns s' items' t' Hn Hde Hit|]; subst.
    split; [|exact (proj1 denotes_inline _ _ _ Hde)].
    destruct (gives_cases tokens _ _ _ _ _ Hw (gv_schema _ _ _ eq_refl)) as (ns' & _ & [(d & e & _ & Hd')|Ht]).
    - exact (named_solid tokens _ _ _ _ Hd').
    - exact (shape_solid _ _ (typed_shape _ _ Ht)).
  Qed.

  Definition inline_free (m : message) : Prop := forall t, message_type m t -> no_inline t = true.

  Lemma idl_message_solid label src p items ws nm : parse_idl label src = Ok (IProtocol p, items, ws) -> In nm (p_messages p) ->
    message_solid (snd nm) /\ inline_free (snd nm).
  Proof.
    intros Hp Hi. destruct (idl_walk _ _ _ _ _ Hp) as (tokens & t & evs & Hw). apply walk_file_denotes in Hw as Hd.
    inversion Hd as [start l ident its p' items' t' Hde Hw' Hdo Ha Hh Hit Hn Hm _ _ _| |]; subst. destruct nm as [name msg].
    destruct (Hm name msg Hi) as (m & _ & Hmd).
    assert (T : forall t, message_type msg t -> no_inline t = true).
    { intros s Ht. inversion Ht as [m'|m' f Hf|m' es e Ee He]; subst.
      - pose proof (me_response _ _ _ _ Hmd) as Hr. inversion Hr as [|pl s Hpl]; [reflexivity|]. eapply (proj2 denotes_inline); eauto.
      - destruct (Forall2_in_r _ _ _ _ (me_request _ _ _ _ Hmd) Hf) as (x & _ & Hx). exact (variable_inline _ _ _ _ (vd_type _ _ _ _ _ _ Hx)).
      - pose proof (me_errors _ _ _ _ Hmd) as He'. rewrite Ee in He'. inversion He' as [|e0 es0 ss Hf]; subst.
        destruct (Forall2_in_r _ _ _ _ Hf He) as (x & _ & n & q & _ & ->). reflexivity. }
    split; [|exact T]. split; [exact (message_avoid tokens _ _ _ Hmd)|]. split.
    - intros f Hf. destruct (Forall2_in_r _ _ _ _ (me_request _ _ _ _ Hmd) Hf) as (x & _ & Hx). exact (variable_avoid _ _ _ _ _ _ Hx).
    - intros s Ht. destruct (gives_cases tokens _ _ _ _ _ Hw (gv_message _ _ p (name, msg) s eq_refl Hi Ht)) as (ns' & _ & [(d & e & _ & Hd')|Hty]).
      + exact (named_solid tokens _ _ _ _ Hd').
      + exact (shape_solid _ _ (typed_shape _ _ Hty)).
  Qed.

  Lemma declared_solid label src file items ws dir loads s : parse_idl label src = Ok (file, items, ws) -> proper_json loads ->
    declared_in_files dir items loads s -> solid s /\ flat_definition s = true.
  Proof.
    intros Hp W Hd. inversion Hd as [d its sp fs Hs Hi|q j t Hi Hj Ht Hf|q j tj t types Hi Hj Hty Htj Ht Hf]; subst.
    - inversion Hs as [|q f its' ws' Hq (text & _ & Hc)]; subst; eapply idl_type_solid; eauto.
    - assert (Wj : wf_json j) by (eapply W; [exact Hi|discriminate|exact Hj]). split.
      + exact (proj2 (flatten_solid _ (json_schema_solid _ _ _ Ht Wj)) _ Hf).
      + pose proof (flatten_flat t) as F'. rewrite Forall_forall in F'. exact (F' s Hf).
    - assert (Wj : wf_json j) by (eapply W; [exact Hi|discriminate|exact Hj]).
      assert (Wt : wf_json tj).
      { destruct j as [| | | | |o]; try discriminate. exact (wf_arr_inv _ (wf_get _ _ _ Wj Hty) _ Htj). }
      split.
      + exact (proj2 (flatten_solid _ (json_schema_solid _ _ _ Ht Wt)) _ Hf).
      + pose proof (flatten_flat t) as F'. rewrite Forall_forall in F'. exact (F' s Hf).
  Qed.

  Lemma steps_NoDup dirs a b : steps dirs a b -> NoDup (keys (cx_registry a)) -> NoDup (keys (cx_registry b)).
  Proof.
    induction 1 as [|a b d Hs _ IH]; intro G; [exact G|]. apply IH.
    inversion Hs as [s r c1 Hr Hfl|k name dir p c1 l ms js Hk Hfo Hni Hl|name dir p c1 Hfo Hni Hc|name dir p c1 file its ws0 Hfo Hni Hc]; subst; cbn; try exact G.
    - pose proof (register_cases (cx_registry a) s) as Hc. rewrite Hr in Hc. destruct Hc as (full & _ & Hn & ->). unfold keys. rewrite map_app. cbn.
      eapply Permutation_NoDup; [apply Permutation_cons_append|]. constructor; [exact Hn|exact G].
    - now apply registry_after_NoDup.
  Qed.

  Lemma registered_names r : Forall (fun kv => registrable (snd kv) (fst kv)) r -> map type_name (reg_schemas r) = keys r.
  Proof.
    unfold reg_schemas, keys. induction 1 as [|[k s] r Hr _ IH]; [reflexivity|]. cbn [map fst snd]. f_equal; [|exact IH].
    destruct Hr as (n & ns & Hd & Hk & _). cbn in Hd, Hk. rewrite Hk. exact (proj1 (type_name_field _ _ _ Hd)).
  Qed.

  Lemma compile_registry dirs src name dir ip o ws : compile dirs src name dir ip = (Ok o, ws) ->
    map type_name (reg_schemas (co_registry o)) = keys (co_registry o) /\ NoDup (keys (co_registry o)).
  Proof.
    intro Hc. apply compile_ok in Hc. destruct Hc as (f & its0 & w & c & _ & Hf & _ & Hh & -> & _ & _). cbn [co_registry].
    pose proof (handled_steps _ _ _ _ _ Hf Hh) as Hs. destruct (start_fields w ip) as (Er0 & _). split.
    - apply registered_names. apply (steps_registrable _ _ _ Hs). rewrite Er0. constructor.
    - apply (steps_NoDup _ _ _ Hs). rewrite Er0. constructor.
  Qed.

  Lemma compile_sound dirs src name dir ip o ws' file items ws : compile dirs src name dir ip = (Ok o, ws') ->
    parse_idl name src = Ok (file, items, ws) -> proper_json (co_loads o) ->
    plain_aliases (reg_schemas (co_registry o)) -> apart (reg_schemas (co_registry o)) -> sound (reg_schemas (co_registry o)).
  Proof.
    intros Hc Hp W Hal Hap. destruct (compile_registry _ _ _ _ _ _ _ Hc) as [En Hn]. destruct (compile_types _ _ _ _ _ _ _ _ _ _ Hc Hp) as (_ & _ & Hd).
    constructor; auto.
    - intros t Ht. exact (declared_solid _ _ _ _ _ _ _ _ Hp W (Hd t Ht)).
    - intros t full Ht Hm. rewrite En. apply compile_ok in Hc. destruct Hc as (f & its & w & c & _ & _ & _ & _ & -> & _ & Hv).
      cbn [co_registry] in *. apply (proj1 (check_passes _ _ _ _) Hv full). unfold reg_schemas in Ht. apply in_map_iff in Ht. destruct Ht as ([k s] & <- & Ht).
      eapply in_registry; eassumption.
    - rewrite En. exact Hn.
  Qed.

  (** *** Messages *)
  Lemma no_inline_of p : no_inline_definitions p -> forall nm, In nm (p_messages p) -> inline_free (snd nm).
  Proof.
    intros Hn nm Hi t Ht. assert (K : forall u, occurs u t -> ~ definition_of u) by (intros u Hu; eapply Hn; eauto). clear Hn Hi Ht.
    induction t as [p0|n ns d fs e al ps Hfs|n ns d sy df al ps|n ns d sz al ps|i ps IHi|i ps IHi
                    |ts b Hts|k ps|l ps|n ns ps sp] using schema_ind'; try reflexivity; try (destruct (K _ (oc_self _)); exact I).
    - cbn. apply IHi. intros u Hu. apply K. now constructor.
    - cbn. apply IHi. intros u Hu. apply K. now constructor.
    - cbn. apply forallb_forall. intros t Ht. rewrite Forall_forall in Hts. apply (Hts t Ht). intros u Hu. apply K. econstructor; eauto.
  Qed.

  Lemma load_message_solid k q l nm : load_messages (k, q) l -> (k <> ImportIdl -> forall j, json_content q j -> wf_json j) -> In nm l ->
    message_solid (snd nm) /\ (k <> ImportProtocol -> inline_free (snd nm)).
  Proof.
    intros Hl W Hi. inversion Hl as [q' file items ws (text & _ & Hc)|q' j ms Hj Hm|q']; subst.
    - destruct file as [p| |]; cbn [messages_of_file] in Hi; try contradiction. destruct (idl_message_solid _ _ _ _ _ _ Hc Hi). auto.
    - split; [|contradiction]. assert (Wj : wf_json j) by (apply W; [discriminate|exact Hj]).
      destruct (value_get "messages" j) as [[| | | | |o]|] eqn:Em; try (subst; contradiction).
      destruct (Forall2_in_r _ _ _ _ Hm Hi) as ([k v] & Hkv & _ & Ev). cbn [fst snd] in *.
      destruct j as [| | | | |jo]; try discriminate. eapply json_message_solid; [exact Ev|].
      pose proof (wf_get _ _ _ Wj Em) as Wo. apply wf_obj_inv in Wo. exact (proj2 Wo k v Hkv).
    - contradiction.
  Qed.

  Lemma last_declared_in tables n m : last_declared tables n m -> exists l, In l tables /\ In (n, m) l.
  Proof.
    intros (before & l & after & -> & Ha & _). exists l. split; [apply in_or_app; right; now left|]. apply assoc_In in Ha. now apply in_rev.
  Qed.

  Lemma fold_NoDup tables : forall m : list (string * message), NoDup (keys m) -> NoDup (keys (fold_left hm_extend tables m)).
  Proof. induction tables as [|l tables IH]; intros m Hm; [exact Hm|]. cbn. apply IH. now apply hm_extend_NoDup. Qed.

  Lemma compile_messages_once dirs src name dir ip o ws' p : compile dirs src name dir ip = (Ok o, ws') -> co_file o = IProtocol p -> NoDup (keys (p_messages p)).
  Proof.
    intros Hc Ho. apply compile_ok in Hc. destruct Hc as (f & its0 & w & c & Ep' & Hf & _ & Hh & -> & _ & _).
    cbn [co_file] in Ho. destruct f as [p0| |]; try discriminate. cbn [finish_file] in Ho. injection Ho as <-. cbn [p_messages].
    apply hm_extend_NoDup. destruct (start_fields w ip) as (Er0 & Em0 & El0 & Ew0 & Ei0).
    destruct (handled_messages _ _ _ _ _ Hh) as (new & tables & E1 & Hft & E2). rewrite E2, Em0. apply fold_NoDup. constructor.
  Qed.

  Lemma compile_messages_solid dirs src name dir ip o ws' p p' items ws : compile dirs src name dir ip = (Ok o, ws') ->
    parse_idl name src = Ok (IProtocol p, items, ws) -> co_file o = IProtocol p' -> proper_json (co_loads o) ->
    (forall q, ~ In (ImportProtocol, q) (co_loads o)) \/ no_inline_definitions p' ->
    forall nm, In nm (p_messages p') -> message_solid (snd nm) /\ inline_free (snd nm).
  Proof.
    intros Hc Ep Ho W Hin [n m] Hi. destruct (compile_messages _ _ _ _ _ _ _ _ _ _ _ Hc Ep Ho) as (tables & Hft & Ha).
    assert (K : message_solid m /\ ((forall q, ~ In (ImportProtocol, q) (co_loads o)) -> inline_free m)).
    { apply (assoc_in_nodup _ _ _ (compile_messages_once _ _ _ _ _ _ _ _ Hc Ho)) in Hi. apply Ha in Hi. destruct Hi as [Hi|[_ Hi]].
      - apply assoc_In in Hi. destruct (idl_message_solid _ _ _ _ _ _ Ep Hi). auto.
      - apply last_declared_in in Hi. destruct Hi as (l & Hl & Hi). destruct (Forall2_in_r _ _ _ _ Hft Hl) as ([k q] & Hkq & Hlm).
        destruct (load_message_solid _ _ _ _ Hlm (fun Hk j Hj => W k q j Hkq Hk Hj) Hi) as [A B]. split; [exact A|].
        intro Hq. apply B. intros ->. exact (Hq q Hkq). }
    split; [apply K|]. destruct Hin as [Hq|Hn]; [now apply K|exact (no_inline_of _ Hn _ Hi)].
  Qed.

  Lemma idl_protocol_props label src p items ws : parse_idl label src = Ok (IProtocol p, items, ws) -> props_avoid protocol_keys (p_props p).
  Proof.
    intros Hp. destruct (idl_walk _ _ _ _ _ Hp) as (tokens & t & evs & Hw). apply walk_file_denotes in Hw as Hd.
    inversion Hd as [start l ident its p' items' t' Hde Hw' Hdo Ha Hh Hit Hn Hm _ _ _| |]; subst.
    apply (holds_avoid OnProtocol _ _ _ Hh). intros k Hk. cbn in *. tauto.
  Qed.

  (** *** The protocol *)
  Lemma compile_protocol_ok dirs src name dir ip o ws' p p' items ws : compile dirs src name dir ip = (Ok o, ws') ->
    parse_idl name src = Ok (IProtocol p, items, ws) -> co_file o = IProtocol p' -> proper_json (co_loads o) ->
    (forall q, ~ In (ImportProtocol, q) (co_loads o)) \/ no_inline_definitions p' ->
    protocol_apart p' -> plain_aliases (p_types p') -> protocol_ok p' = true.
  Proof.
    intros Hc Ep Ho W Hin [Hap Hns] Hal.
    assert (Et : p_types p' = reg_schemas (co_registry o) /\ p_props p' = p_props p).
    { apply compile_ok in Hc. destruct Hc as (f & its & w & c & Ep' & _ & _ & _ & -> & _ & _). rewrite Ep in Ep'. injection Ep' as <- <- <-.
      cbn in *. injection Ho as <-. split; reflexivity. }
    destruct Et as [Et Epr]. pose proof (compile_messages_solid _ _ _ _ _ _ _ _ _ _ _ Hc Ep Ho W Hin) as Hms.
    assert (Hk : forall nm t full, In nm (p_messages p') -> message_type (snd nm) t -> mentions t full -> In full (map type_name (p_types p'))).
    { intros [n m] t full Hi Ht Hm. rewrite Et. destruct (compile_registry _ _ _ _ _ _ _ Hc) as [-> _].
      pose proof Hc as Hc'. apply compile_ok in Hc'. destruct Hc' as (f & its & w & c & _ & _ & _ & _ & -> & _ & Hv). cbn [co_file co_registry] in *.
      apply (proj1 (check_passes _ _ _ _) Hv full). rewrite Ho. cbn [ref_file]. eapply in_message; eassumption. }
    rewrite Et in *. pose proof (compile_sound _ _ _ _ _ _ _ _ _ _ Hc Ep W Hal Hap) as S. pose proof (sound_registry_ok _ S) as R.
    unfold registry_ok in R. apply andb_true_iff in R. destruct R as [R R3]. apply andb_true_iff in R. destruct R as [R1 R2].
    unfold protocol_ok. rewrite Et. cbv zeta. rewrite R1, R2, R3. cbn [andb]. rewrite Epr.
    change ["protocol"; "namespace"; "doc"; "types"; "messages"] with protocol_keys. rewrite (free_of_avoid _ _ (idl_protocol_props _ _ _ _ _ Ep)).
    rewrite (proj2 (nodupb_NoDup _) (compile_messages_once _ _ _ _ _ _ _ _ Hc Ho)). rewrite !andb_true_r. apply andb_true_iff. split.
    - apply forallb_forall. intros t Ht. destruct (ns_field t) eqn:En; [reflexivity|]. cbn [implb].
      destruct (ns_empty (p_namespace p')) eqn:Ee; [reflexivity|]. destruct (Hns eq_refl t Ht) as [Hne _]. congruence.
    - apply forallb_forall. intros nm Hi. destruct (Hms nm Hi) as [(M1 & M2 & M3) M4].
      assert (T : forall t, message_type (snd nm) t -> ty_ok (ns_empty (p_namespace p')) t = true /\ subset (refs_of t) (map type_name (reg_schemas (co_registry o))) = true).
      { intros t Ht. apply sound_ty_ok; [exact S|exact (M3 t Ht)|exact (M4 t Ht)|intros full; apply (Hk nm t full Hi Ht)|].
        intros Eb u Hu Hue. destruct (Hns Eb u Hu) as [_ Hx]. exact (Hx Hue nm t Hi Ht). }
      clear - M1 M2 T. destruct nm as [n m]. cbn [snd] in *. apply andb_true_iff. unfold message_ok. split.
      + change ["doc"; "request"; "response"; "errors"; "one-way"] with message_keys. rewrite (free_of_avoid _ _ M1). cbn [andb].
        rewrite (proj1 (T _ (mt_response m))). apply andb_true_iff. split; [apply andb_true_iff; split; [|reflexivity]|].
        * apply forallb_forall. intros f Hf. unfold field_ok. change ["name"; "type"; "doc"; "default"; "order"; "aliases"] with field_keys.
          rewrite (free_of_avoid _ _ (M2 f Hf)). exact (proj1 (T _ (mt_request m f Hf))).
        * destruct (m_errors m) as [es|] eqn:Ee; [|reflexivity]. apply forallb_forall. intros e He. exact (proj1 (T _ (mt_error m es e Ee He))).
      + apply subset_incl. intros x Hx. unfold message_refs in Hx.
        assert (G : forall t, message_type m t -> In x (refs_of t) -> In x (map type_name (reg_schemas (co_registry o)))).
        { intros t Ht Hr. pose proof (proj2 (T t Ht)) as Hs. unfold subset in Hs. rewrite forallb_forall in Hs. specialize (Hs x Hr). now apply str_mem_In. }
        apply in_app_or in Hx. destruct Hx as [Hx|Hx]; [|apply in_app_or in Hx; destruct Hx as [Hx|Hx]].
        * apply in_flat_map in Hx. destruct Hx as (f & Hf & Hx). eapply G; [exact (mt_request m f Hf)|exact Hx].
        * eapply G; [exact (mt_response m)|exact Hx].
        * destruct (m_errors m) as [es|] eqn:Ee; [|contradiction]. apply in_flat_map in Hx. destruct Hx as (e & He & Hx).
          eapply G; [exact (mt_error m es e Ee He)|exact Hx].
  Qed.

  (** *** What the documents say *)
  Lemma run_convert_ok i b b' r src name dir ip : run_convert i b = (b', Ok r) -> input_of i src name dir ip ->
    exists o b1, compile (b_import_dirs b) src name dir ip = (Ok o, []) /\ convert_impl o b1 = (b', Ok r).
  Proof.
    intros Hr Hi. inversion Hi as [path text Ht|text nm cwd Hw]; subst; cbn [run_convert] in Hr.
    - unfold convert, compile_file in Hr. rewrite Ht in Hr. cbv zeta in Hr.
      destruct (compile _ _ _ _ _) as [[o|e] ws] eqn:E in Hr; [|discriminate]. exists o, (mkBuilder (b_import_dirs b) ws).
      split; [|exact Hr]. rewrite E. f_equal. apply compile_ok in E. destruct E as (f & its & w & c & _ & _ & _ & _ & _ & -> & _). reflexivity.
    - unfold convert_str, compile_str in Hr. rewrite Hw in Hr.
      destruct (compile _ _ _ _ _) as [[o|e] ws] eqn:E in Hr; [|discriminate]. exists o, (mkBuilder (b_import_dirs b) ws).
      split; [|exact Hr]. rewrite E. f_equal. apply compile_ok in E. destruct E as (f & its & w & c & _ & _ & _ & _ & _ & -> & _). reflexivity.
  Qed.
  Lemma run_extract_ok i b b' r src name dir ip : run_extract i b = (b', Ok r) -> input_of i src name dir ip ->
    exists o, compile (b_import_dirs b) src name dir ip = (Ok o, []) /\ extract_impl o = Ok r.
  Proof.
    intros Hr Hi. inversion Hi as [path text Ht|text nm cwd Hw]; subst; cbn [run_extract] in Hr.
    - unfold extract_file, compile_file in Hr. rewrite Ht in Hr. cbv zeta in Hr.
      destruct (compile _ _ _ _ _) as [[o|e] ws] eqn:E in Hr; [|discriminate]. exists o.
      split; [|congruence]. rewrite E. f_equal. apply compile_ok in E. destruct E as (f & its & w & c & _ & _ & _ & _ & _ & -> & _). reflexivity.
    - unfold extract_str, compile_str in Hr. rewrite Hw in Hr.
      destruct (compile _ _ _ _ _) as [[o|e] ws] eqn:E in Hr; [|discriminate]. exists o.
      split; [|congruence]. rewrite E. f_equal. apply compile_ok in E. destruct E as (f & its & w & c & _ & _ & _ & _ & _ & -> & _). reflexivity.
  Qed.

  Lemma Forall2_in_imp {A B} (P Q : A -> B -> Prop) l m : Forall2 P l m -> (forall x y, In x l -> P x y -> Q x y) -> Forall2 Q l m.
  Proof. induction 1 as [|x y l m Hp _ IH]; intro Hi; constructor; [apply Hi; [now left|exact Hp]|]. apply IH. intros a b Ha. apply Hi. now right. Qed.
  Lemma sublist_in {A} (l m : list A) x : sublist l m -> In x l -> In x m.
  Proof. induction 1; cbn; intuition. Qed.
  Lemma flat_named s : flat_definition s = true -> exists d, named_meaning s = Some (type_name s, d).
  Proof. destruct s; try discriminate; intros _; eexists; reflexivity. Qed.

  Lemma compile_file_kind dirs src name dir ip o ws' file items ws : compile dirs src name dir ip = (Ok o, ws') ->
    parse_idl name src = Ok (file, items, ws) ->
    match co_file o with
    | IProtocol p' => exists p, file = IProtocol p /\ p_name p' = p_name p /\ p_namespace p' = p_namespace p /\ p_doc p' = p_doc p
                        /\ p_props p' = p_props p /\ p_types p' = reg_schemas (co_registry o)
    | other => file = other
    end.
  Proof.
    intros Hc Hp. apply compile_ok in Hc. destruct Hc as (f & its & w & c & Ep' & _ & _ & _ & -> & _ & _). rewrite Hp in Ep'. injection Ep' as <- <- <-.
    cbn [co_file co_registry]. destruct file as [p| |]; cbn [finish_file]; [|reflexivity|reflexivity]. exists p. repeat split.
  Qed.

  Lemma protocol_declared i b b' r src name dir ip p items ws o p' :
    run_convert i b = (b', Ok r) -> input_of i src name dir ip -> parse_idl name src = Ok (IProtocol p, items, ws) ->
    compile (b_import_dirs b) src name dir ip = (Ok o, []) -> co_file o = IProtocol p' -> proper_json (co_loads o) ->
    (forall q, ~ In (ImportProtocol, q) (co_loads o)) \/ no_inline_definitions p' ->
    protocol_apart p' -> plain_aliases (p_types p') ->
    exists ap, read_protocol (jdepth (io_json r)) (io_json r) = Some ap /\ declared_protocol p dir items (co_loads o) ap.
  Proof.
    intros Hr Hi Ep Hc Ho W Hin Hap Hal. destruct (run_convert_ok _ _ _ _ _ _ _ _ Hr Hi) as (o' & b1 & Hc' & Hx). rewrite Hc in Hc'. injection Hc' as <-.
    pose proof (compile_protocol_ok _ _ _ _ _ _ _ _ _ _ _ Hc Ep Ho W Hin Hap Hal) as Hok.
    destruct (protocol_faithful p' Hok) as (j & ap & Ej & Hrd & E1 & E2 & E3 & Hn & Hd & Hm & _).
    unfold convert_impl in Hx. rewrite Ho, Ej in Hx. injection Hx as _ <-. cbn [io_json]. exists ap. split; [exact Hrd|].
    pose proof (compile_file_kind _ _ _ _ _ _ _ _ _ _ Hc Ep) as K. rewrite Ho in K. destruct K as (p0 & K0 & K1 & K2 & K3 & K4 & K5). injection K0 as <-.
    destruct (compile_types _ _ _ _ _ _ _ _ _ _ Hc Ep) as (T1 & T2 & T3). destruct (compile_registry _ _ _ _ _ _ _ Hc) as [En _].
    constructor.
    - congruence.
    - congruence.
    - now rewrite E3, K3, K4.
    - rewrite K5 in Hd.
      assert (Hin' : forall s, In s (reg_schemas (co_registry o)) -> exists fd, named_meaning s = Some fd /\ fst fd = type_name s /\ In fd (ap_defs ap)).
      { intros s Hs. destruct (flat_named s (proj2 (declared_solid _ _ _ _ _ _ _ _ Ep W (T3 s Hs)))) as (d & Ed). exists (type_name s, d).
        split; [exact Ed|]. split; [reflexivity|]. apply (in_map named_meaning) in Hs. rewrite Ed in Hs.
        apply (Permutation_in _ (Permutation_sym Hd)) in Hs. apply in_map_iff in Hs. destruct Hs as (x & Ex & Hx). congruence. }
      constructor.
      + exact Hn.
      + intros f d Hfd. apply (in_map (fun fd => Some fd)) in Hfd. apply (Permutation_in _ Hd) in Hfd. apply in_map_iff in Hfd.
        destruct Hfd as (s & Es & Hs). exists s. split; [exact (T3 s Hs)|exact Es].
      + intros d its s sp fs Hs Hds. destruct (Hin' s) as (fd & A & _ & B); [|eauto]. apply (sublist_in _ _ _ (T1 d its Hs)). unfold type_items. apply in_flat_map. exists (DType s sp fs).
        split; [exact Hds|now left].
      + intros s full Hs Hreg. specialize (T2 s full Hs Hreg). unfold reg_names in T2. change (map fst (co_registry o)) with (keys (co_registry o)) in T2. rewrite <- En in T2.
        apply in_map_iff in T2. destruct T2 as (t & <- & Ht). destruct (Hin' t Ht) as (fd & _ & <- & Hf). now apply in_map.
    - eapply Permutation_NoDup; [apply Permutation_map, Permutation_sym, Hm|]. rewrite map_map. cbn [fst].
      exact (compile_messages_once _ _ _ _ _ _ _ _ Hc Ho).
    - destruct (compile_messages _ _ _ _ _ _ _ _ _ _ _ Hc Ep Ho) as (tables & Hft & Ha). exists tables. split; [exact Hft|]. intros n a.
      pose proof (compile_messages_once _ _ _ _ _ _ _ _ Hc Ho) as Hon. pose proof (parse_idl_messages _ _ _ _ _ Ep) as Hop.
      assert (Q : In (n, a) (ap_messages ap) <-> exists m, a = message_meaning m /\ In (n, m) (p_messages p')).
      { split.
        - intro Hna. apply (Permutation_in _ Hm) in Hna. apply in_map_iff in Hna. destruct Hna as ([n' m] & E & Hnm). cbn in E. injection E as <- <-. eauto.
        - intros (m & -> & Hnm). apply (Permutation_in _ (Permutation_sym Hm)). apply in_map_iff. exists (n, m). split; [reflexivity|exact Hnm]. }
      rewrite Q. split; intros (m & Em & Hx); exists m; (split; [exact Em|]).
      + apply (assoc_in_nodup _ _ _ Hon) in Hx. apply Ha in Hx. destruct Hx as [Hx|Hx]; [left; now apply (assoc_in_nodup _ _ _ Hop)|right; exact Hx].
      + apply (assoc_in_nodup _ _ _ Hon). apply Ha. destruct Hx as [Hx|Hx]; [left; now apply (assoc_in_nodup _ _ _ Hop)|right; exact Hx].
  Qed.

  Lemma mentions_refs s full : mentions s full -> In full (refs_of s).
  Proof.
    induction 1 as [n ns ps sp|n ns d fs e al ps f full Hf _ IH|i ps full _ IH|i ps full _ IH|ts b t full Ht _ IH]; cbn [refs_of]; auto.
    - now left.
    - apply in_flat_map. eauto.
    - apply in_flat_map. eauto.
  Qed.

  Lemma schema_declared i b b' r src name dir ip s items ws o :
    run_convert i b = (b', Ok r) -> input_of i src name dir ip -> parse_idl name src = Ok (ISchema s, items, ws) ->
    compile (b_import_dirs b) src name dir ip = (Ok o, []) -> proper_json (co_loads o) ->
    apart (reg_schemas (co_registry o)) -> plain_aliases (reg_schemas (co_registry o)) ->
    exists defs, declared_document dir items (co_loads o)
      (fun f => exists n, mentions s n /\ reaches (reg_schemas (co_registry o)) n f) s (io_json r) defs.
  Proof.
    intros Hr Hi Ep Hc W Hap Hal. destruct (run_convert_ok _ _ _ _ _ _ _ _ Hr Hi) as (o' & b1 & Hc' & Hx). rewrite Hc in Hc'. injection Hc' as <-.
    pose proof (compile_sound _ _ _ _ _ _ _ _ _ _ Hc Ep W Hal Hap) as S. destruct (idl_schema_solid _ _ _ _ _ Ep) as [Hs Hni].
    pose proof (compile_file_kind _ _ _ _ _ _ _ _ _ _ Hc Ep) as K. destruct (compile_registry _ _ _ _ _ _ _ Hc) as [En _].
    assert (Ho : co_file o = ISchema s).
    { destruct (co_file o) as [q|q|q]; [destruct K as (p0 & K0 & _); discriminate| |discriminate]. congruence. }
    assert (Hk : forall full, mentions s full -> In full (map type_name (reg_schemas (co_registry o)))).
    { intros full Hm. rewrite En. pose proof Hc as Hc2. apply compile_ok in Hc2. destruct Hc2 as (f & its & w & c & _ & _ & _ & _ & -> & _ & Hv). cbn [co_file co_registry] in *.
      apply (proj1 (check_passes _ _ _ _) Hv full). rewrite Ho. now constructor. }
    destruct (sound_ty_ok true _ s S Hs Hni Hk) as [Hty Hsub]; [discriminate|].
    destruct (document_faithful (reg_schemas (co_registry o)) s (sound_registry_ok _ S) (or_intror (conj Hty Hsub))) as (j & known & defs & Ej & Hrd & Hn & Hd & Hrch).
    unfold convert_impl in Hx. rewrite Ho, Ej in Hx. injection Hx as _ <-. cbn [io_json]. exists defs.
    destruct (compile_types _ _ _ _ _ _ _ _ _ _ Hc Ep) as (_ & _ & T3). constructor; [exact Hrd|exact Hn| |].
    - intros f d Hfd. destruct (Hd f d Hfd) as (t & Ht & Et). exists t. split; [exact (T3 t Ht)|exact Et].
    - intro f. rewrite Hrch. assert (roots s = refs_of s) as -> by (destruct s; try discriminate Hni; reflexivity).
      split; intros (n & Hm & Hre); exists n; (split; [|exact Hre]); [now apply refs_mentions|now apply mentions_refs].
  Qed.

  Lemma schemata_declared i b b' r src name dir ip file items ws o :
    run_extract i b = (b', Ok r) -> input_of i src name dir ip -> parse_idl name src = Ok (file, items, ws) ->
    compile (b_import_dirs b) src name dir ip = (Ok o, []) -> proper_json (co_loads o) ->
    apart (reg_schemas (co_registry o)) -> plain_aliases (reg_schemas (co_registry o)) ->
    exists types, Forall2 (fun s x => schema_name s = Some (nm_name x) /\
        exists defs, declared_document dir items (co_loads o) (reaches types (type_name s)) s (nm_schema x) defs
          /\ exists fd, named_meaning s = Some fd /\ In fd defs) types (so_schemas r)
      /\ NoDup (map type_name types)
      /\ (forall s, In s types -> declared_in_files dir items (co_loads o) s)
      /\ (forall d its, source dir items (co_loads o) d its -> sublist (type_items its) types)
      /\ (forall s full, declared_in_files dir items (co_loads o) s -> registrable s full -> In full (map type_name types)).
  Proof.
    intros Hr Hi Ep Hc W Hap Hal. destruct (run_extract_ok _ _ _ _ _ _ _ _ Hr Hi) as (o' & Hc' & Hx). rewrite Hc in Hc'. injection Hc' as <-.
    pose proof (compile_sound _ _ _ _ _ _ _ _ _ _ Hc Ep W Hal Hap) as S.
    destruct (compile_types _ _ _ _ _ _ _ _ _ _ Hc Ep) as (T1 & T2 & T3). destruct (compile_registry _ _ _ _ _ _ _ Hc) as [En Hnd].
    destruct (extract_impl_each _ _ _ _ _ _ _ _ Hc Hx) as [He _]. exists (reg_schemas (co_registry o)). split; [|split; [|split; [|split]]].
    - apply (Forall2_in_imp _ _ _ _ He). intros s x Hs (E1 & k & Ej).
      split; [exact E1|].
      destruct (document_faithful (reg_schemas (co_registry o)) s (sound_registry_ok _ S) (or_introl Hs)) as (j & known & defs & Ej' & Hrd & Hn & Hd & Hrch).
      rewrite Ej in Ej'. injection Ej' as <- <-. exists defs.
      destruct (flat_named s (proj2 (so_solid _ S s Hs))) as (d & Ed).
      assert (Er : roots s = [type_name s]) by (unfold roots; pose proof (proj2 (so_solid _ S s Hs)); destruct s; try discriminate; reflexivity).
      split.
      + constructor; [exact Hrd|exact Hn| |].
        * intros f d' Hfd. destruct (Hd f d' Hfd) as (t & Ht & Et). exists t. split; [exact (T3 t Ht)|exact Et].
        * intro f. rewrite Hrch, Er. split; [intros (n & [<-|[]] & Hre); exact Hre|]. intro Hre. exists (type_name s). split; [now left|exact Hre].
      + exists (type_name s, d). split; [exact Ed|].
        assert (Hk : In (type_name s) (keys defs)) by (apply Hrch; exists (type_name s); rewrite Er; split; [now left|constructor]).
        apply in_map_iff in Hk. destruct Hk as ([f d'] & E & Hfd). cbn in E. subst f. destruct (Hd _ _ Hfd) as (t & Ht & Et).
        assert (Etn : type_name t = type_name s).
        { destruct (flat_named t (proj2 (so_solid _ S t Ht))) as (d2 & Ed2). congruence. }
        assert (t = s) as ->; [|congruence].
        pose proof (so_once _ S) as Ho. clear - Ho Ht Hs Etn. induction (reg_schemas (co_registry o)) as [|u us IH]; [contradiction|]. cbn in Ho. inversion Ho as [|? ? Hu Hus]; subst.
        destruct Ht as [->|Ht], Hs as [->|Hs]; auto; exfalso; apply Hu; [rewrite Etn|rewrite <- Etn]; now apply in_map.
    - exact (so_once _ S).
    - exact T3.
    - exact T1.
    - intros s full Hs Hreg. rewrite En. exact (T2 s full Hs Hreg).
  Qed.
End World.
