(** Lemmas about moving type declarations around. *)
From Verif Require Import SpecCompile SpecFile SpecImport SpecMeaning RegistryProofs BaseProofs DefaultsProofs SerializeProofs OrderProofs ReaderProofs CompileProofs LoadProofs BuildProofs.
From Verif Require Import SpecDefaults SpecNames.
From Verif Require RefsProofs SpecRefs.
From Coq Require Import Lia Permutation.

Lemma unplaced_fields fs : map (fun f => mkField (f_name f) (unplaced (f_schema f)) (f_doc f) (f_default f) (f_order f) (f_aliases f) (f_props f)) fs = map unplaced_field fs.
Proof. reflexivity. Qed.

(** ** What does not depend on positions *)
Lemma unplaced_mentions s full : mentions (unplaced s) full <-> mentions s full.
Proof.
  revert full. induction s as [p|nm ns d fs e al ps IH|nm ns d sy df al ps|nm ns d sz al ps|i ps IH|i ps IH
                 |ts b IH|k ps|l ps|nm ns ps sp] using schema_ind'; intro full; cbn [unplaced]; try tauto.
  - rewrite Forall_forall in IH. split; intro H; inversion H as [|? ? ? ? ? ? ? f ? Hi Hm| | |]; subst.
    + apply in_map_iff in Hi. destruct Hi as (g & <- & Hg). eapply men_field; [exact Hg|]. now apply (IH g Hg).
    + eapply men_field; [apply in_map_iff; exists f; split; [reflexivity|exact Hi]|]. now apply (IH f Hi).
  - split; intro H; inversion H; subst; constructor; now apply IH.
  - split; intro H; inversion H; subst; constructor; now apply IH.
  - rewrite Forall_forall in IH. split; intro H; inversion H as [| | | |? ? t ? Hi Hm]; subst.
    + apply in_map_iff in Hi. destruct Hi as (g & <- & Hg). eapply men_union; [exact Hg|]. now apply (IH g Hg).
    + eapply men_union; [apply in_map_iff; exists t; split; [reflexivity|exact Hi]|]. now apply (IH t Hi).
  - split; intro H; inversion H; subst; constructor.
Qed.
Lemma unplaced_defines s n ns : defines (unplaced s) n ns <-> defines s n ns.
Proof. destruct s; cbn [unplaced]; try tauto; split; intro H; inversion H; subst; constructor. Qed.
Lemma unplaced_full_name s : full_name (unplaced s) = full_name s.
Proof. now destruct s. Qed.
Lemma unplaced_inline s : no_inline (unplaced s) = no_inline s.
Proof.
  induction s as [p|nm ns d fs e al ps IH|nm ns d sy df al ps|nm ns d sz al ps|i ps IH|i ps IH
                 |ts b IH|k ps|l ps|nm ns ps sp] using schema_ind'; cbn [unplaced no_inline]; auto.
  rewrite forallb_map. rewrite Forall_forall in IH. clear -IH. induction ts as [|t ts IHt]; cbn; [reflexivity|].
  rewrite (IH t (or_introl eq_refl)), IHt; [reflexivity|]. intros x Hx. apply IH. now right.
Qed.
Lemma unplaced_flat s : flat_definition (unplaced s) = flat_definition s.
Proof.
  destruct s; cbn [unplaced flat_definition]; try reflexivity. rewrite forallb_map. apply forallb_ext. intro f. cbn. apply unplaced_inline.
Qed.
Lemma unplaced_meaning s : meaning (unplaced s) = meaning s.
Proof.
  induction s as [p|nm ns d fs e al ps IH|nm ns d sy df al ps|nm ns d sz al ps|i ps IH|i ps IH
                 |ts b IH|k ps|l ps|nm ns ps sp] using schema_ind'; cbn [unplaced meaning]; try reflexivity; try (now rewrite IH).
  f_equal. rewrite map_map. apply map_ext_in. rewrite Forall_forall in IH. exact IH.
Qed.
Lemma unplaced_field_meaning f : field_meaning (unplaced_field f) = field_meaning f.
Proof. unfold field_meaning, unplaced_field. cbn. now rewrite unplaced_meaning. Qed.
Lemma unplaced_named_meaning s : named_meaning (unplaced s) = named_meaning s.
Proof.
  destruct s; cbn; try reflexivity. rewrite unplaced_fields, map_map. do 3 f_equal. apply map_ext. apply unplaced_field_meaning.
Qed.
Lemma unplaced_message_meaning m : message_meaning (unplaced_message m) = message_meaning m.
Proof.
  unfold message_meaning, unplaced_message. cbn. rewrite unplaced_meaning, map_map. f_equal.
  - apply map_ext. apply unplaced_field_meaning.
  - destruct (m_errors m); cbn; [|reflexivity]. rewrite map_map. f_equal. apply map_ext. apply unplaced_meaning.
Qed.
Lemma unplaced_ty_ok b s : ty_ok b (unplaced s) = ty_ok b s.
Proof.
  induction s as [p|nm ns d fs e al ps IH|nm ns d sy df al ps|nm ns d sz al ps|i ps IH|i ps IH
                 |ts b' IH|k ps|l ps|nm ns ps sp] using schema_ind'; cbn [unplaced ty_ok]; try reflexivity; try (now rewrite IH).
  rewrite forallb_map. rewrite Forall_forall in IH. clear -IH. induction ts as [|t ts IHt]; cbn; [reflexivity|].
  rewrite (IH t (or_introl eq_refl)), IHt; [reflexivity|]. intros x Hx. apply IH. now right.
Qed.
Lemma unplaced_field_ok b f : field_ok b (unplaced_field f) = field_ok b f.
Proof. unfold field_ok, unplaced_field. cbn. now rewrite unplaced_ty_ok. Qed.
Lemma unplaced_def_ok s : def_ok (unplaced s) = def_ok s.
Proof.
  destruct s; try reflexivity. cbn [unplaced def_ok]. f_equal. rewrite unplaced_fields, forallb_map. apply forallb_ext. apply unplaced_field_ok.
Qed.
Lemma unplaced_type_name s : type_name (unplaced s) = type_name s.
Proof. now destruct s. Qed.
Lemma unplaced_ns_field s : ns_field (unplaced s) = ns_field s.
Proof. now destruct s. Qed.
Lemma flat_map_ext_in' {A B} (f g : A -> list B) l : (forall x, In x l -> f x = g x) -> flat_map f l = flat_map g l.
Proof. induction l as [|x l IH]; cbn; intro E; [reflexivity|]. rewrite (E x (or_introl eq_refl)), IH; [reflexivity|]. intros y Hy. apply E. now right. Qed.
Lemma unplaced_refs s : refs_of (unplaced s) = refs_of s.
Proof.
  induction s as [p|nm ns d fs e al ps IH|nm ns d sy df al ps|nm ns d sz al ps|i ps IH|i ps IH
                 |ts b' IH|k ps|l ps|nm ns ps sp] using schema_ind'; cbn [unplaced refs_of]; try reflexivity; try (now rewrite IH).
  - rewrite flat_map_map. apply flat_map_ext_in'. rewrite Forall_forall in IH. exact IH.
  - rewrite flat_map_map. apply flat_map_ext_in'. rewrite Forall_forall in IH. exact IH.
Qed.
Lemma unplaced_message_refs m : message_refs (unplaced_message m) = message_refs m.
Proof.
  unfold message_refs, unplaced_message. cbn. rewrite unplaced_refs, flat_map_map. f_equal.
  - apply flat_map_ext_in'. intros f _. apply unplaced_refs.
  - f_equal. destruct (m_errors m); cbn; [|reflexivity]. rewrite flat_map_map. apply flat_map_ext_in'. intros x _. apply unplaced_refs.
Qed.
Lemma unplaced_message_ok b m : message_ok b (unplaced_message m) = message_ok b m.
Proof.
  unfold message_ok, unplaced_message. cbn. rewrite unplaced_ty_ok, forallb_map.
  rewrite (forallb_ext _ (field_ok b) _ (unplaced_field_ok b)). f_equal.
  destruct (m_errors m); cbn; [|reflexivity]. rewrite forallb_map. apply forallb_ext. apply unplaced_ty_ok.
Qed.

Lemma forallb_Permutation {A} (f : A -> bool) l l' : Permutation l l' -> forallb f l = forallb f l'.
Proof.
  induction 1 as [|x l l' _ IH|x y l|l l' l'' _ IH1 _ IH2]; cbn; [reflexivity|now rewrite IH| |congruence].
  destruct (f x), (f y); reflexivity.
Qed.
Lemma nodupb_Permutation l l' : Permutation l l' -> nodupb l = nodupb l'.
Proof.
  intro P. destruct (nodupb l) eqn:E, (nodupb l') eqn:E'; try reflexivity; exfalso.
  - apply nodupb_NoDup in E. apply (Permutation_NoDup P) in E. apply nodupb_NoDup in E. congruence.
  - apply nodupb_NoDup in E'. apply (Permutation_NoDup (Permutation_sym P)) in E'. apply nodupb_NoDup in E'. congruence.
Qed.
Lemma subset_Permutation a l l' : Permutation l l' -> subset a l = subset a l'.
Proof.
  intro P. unfold subset. apply forallb_ext. intro x. destruct (str_mem x l) eqn:E, (str_mem x l') eqn:E'; try reflexivity; exfalso.
  - apply str_mem_In in E. apply (Permutation_in _ P) in E. apply str_mem_In in E. congruence.
  - apply str_mem_In in E'. apply (Permutation_in _ (Permutation_sym P)) in E'. apply str_mem_In in E'. congruence.
Qed.

(** A boolean that ignores positions holds of the same types alike. *)
Lemma same_types_forallb (f : schema -> bool) l l' : (forall s, f (unplaced s) = f s) -> same_types l l' -> forallb f l = forallb f l'.
Proof.
  intros Hf P. unfold same_types in P. 
  assert (G : forall x, forallb f x = forallb f (map unplaced x)) by (intro x; rewrite forallb_map; apply forallb_ext; intro y; now rewrite Hf).
  rewrite (G l), (G l'). now apply forallb_Permutation.
Qed.
Lemma same_types_map {A} (f : schema -> A) l l' : (forall s, f (unplaced s) = f s) -> same_types l l' -> Permutation (map f l) (map f l').
Proof.
  intros Hf P. 
  assert (G : forall x, map f x = map f (map unplaced x)) by (intro x; rewrite map_map; apply map_ext; intro y; now rewrite Hf).
  rewrite (G l), (G l'). now apply Permutation_map.
Qed.
Lemma unplaced_messages_map {A} (f : string -> message -> A) l l' : (forall n m, f n (unplaced_message m) = f n m) ->
  unplaced_messages l = unplaced_messages l' -> map (fun nm => f (fst nm) (snd nm)) l = map (fun nm => f (fst nm) (snd nm)) l'.
Proof.
  intros Hf E.
  assert (G : forall x, map (fun nm => f (fst nm) (snd nm)) x = map (fun nm => f (fst nm) (snd nm)) (unplaced_messages x)).
  { intro x. unfold unplaced_messages. rewrite map_map. apply map_ext. intros [n m]. cbn. now rewrite Hf. }
  now rewrite (G l), (G l'), E.
Qed.

Lemma same_protocol_ok p q : same_main (IProtocol p) (IProtocol q) -> protocol_ok p = protocol_ok q.
Proof.
  intro S. inversion S as [p' q' En Ens Ed Ep Pt Em| |]; subst. unfold protocol_ok. cbv zeta.
  pose proof (same_types_map type_name _ _ unplaced_type_name Pt) as Pn.
  rewrite (same_types_forallb def_ok _ _ unplaced_def_ok Pt), Ens, Ep.
  rewrite (same_types_forallb (fun t => implb match ns_field t with Some _ => false | None => true end (ns_empty (p_namespace q))) _ _
             (fun s => ltac:(cbn beta; rewrite unplaced_ns_field; reflexivity)) Pt).
  rewrite (nodupb_Permutation _ _ Pn).
  rewrite (same_types_forallb (fun t => subset (refs_of t) (map type_name (p_types p))) _ _
             (fun s => ltac:(cbn beta; rewrite unplaced_refs; reflexivity)) Pt).
  rewrite (forallb_ext _ (fun t => subset (refs_of t) (map type_name (p_types q))) _ (fun s => subset_Permutation _ _ _ Pn)).
  rewrite (unplaced_messages_map (fun n _ => n) _ _ (fun _ _ => eq_refl) Em : keys (p_messages p) = keys (p_messages q)).
  f_equal.
  set (F := fun (names : list string) (m : message) => message_ok (ns_empty (p_namespace q)) m && subset (message_refs m) names).
  assert (E1 : forall names l, forallb (fun nm : string * message => message_ok (ns_empty (p_namespace q)) (snd nm) && subset (message_refs (snd nm)) names) l
               = forallb (fun b => b) (map (fun nm => F names (snd nm)) l)) by (intros; rewrite forallb_map; reflexivity).
  rewrite !E1. clear E1.
  rewrite (unplaced_messages_map (fun _ m => F (map type_name (p_types p)) m) (p_messages p) (p_messages q)); [|intros _ m; unfold F; now rewrite unplaced_message_ok, unplaced_message_refs|exact Em].
  rewrite !forallb_map. apply forallb_ext. intro nm. unfold F. now rewrite (subset_Permutation _ _ _ Pn).
Qed.

(** ** Serialisation *)
Lemma ser_unplaced lk lk' n : (forall k, assoc k lk' = option_map unplaced (assoc k lk)) ->
  forall s enc known, ser lk' n (unplaced s) enc known = ser lk n s enc known.
Proof.
  intro Hlk. induction n as [n IHn] using lt_wf_ind. intros s.
  induction s as [p|nm ns d fs e al ps IH|nm ns d sy df al ps|nm ns d sz al ps|i ps IH|i ps IH
                 |ts b IH|k ps|l ps|nm ns ps sp] using schema_ind'; intros enc known;
    try (cbn [unplaced]; (rewrite !ser_prim || rewrite !ser_enum || rewrite !ser_fixed || rewrite !ser_annot || rewrite !ser_logical); reflexivity).
  - change (unplaced (SRecord nm ns d fs e al ps)) with (SRecord nm ns d (map unplaced_field fs) e al ps). rewrite !ser_record. destruct (named_type_preamble _ nm ns d known enc) as [bare|[o k1]]; [reflexivity|].
    rewrite map_st_map.
    rewrite (map_st_ext_in _ (fun f k => ser_field lk n f (opt_or ns enc) k)); [reflexivity|].
    intros f st Hin. rewrite Forall_forall in IH. unfold ser_field. change (f_schema (unplaced_field f)) with (unplaced (f_schema f)). rewrite (IH f Hin).
    destruct (ser lk n (f_schema f) (opt_or ns enc) st) as [[]|]; reflexivity.
  - cbn [unplaced]. rewrite !ser_array, IH. reflexivity.
  - cbn [unplaced]. rewrite !ser_map, IH. reflexivity.
  - cbn [unplaced]. rewrite !ser_union, map_st_map. rewrite (map_st_ext_in _ (fun t k => ser lk n t enc k)); [reflexivity|].
    intros t st Hin. rewrite Forall_forall in IH. apply (IH t Hin).
  - cbn [unplaced]. rewrite !ser_ref. destruct (str_mem (make_full_name nm ns) known); [reflexivity|]. rewrite Hlk.
    destruct (assoc (make_full_name nm ns) lk) as [t|]; cbn [option_map]; [|reflexivity]. destruct n as [|n']; [reflexivity|]. apply (IHn n' ltac:(lia)).
Qed.

Lemma collect_no_inline s : forall dns lk, no_inline s = true -> collect_named_types s dns lk = lk.
Proof.
  induction s as [p|nm ns d fs e al ps IH|nm ns d sy df al ps|nm ns d sz al ps|i ps IH|i ps IH
                 |ts b IH|k ps|l ps|nm ns ps sp] using schema_ind'; intros dns lk Hs; cbn [collect_named_types no_inline] in *; try reflexivity; try discriminate; auto.
  revert lk. induction IH as [|t ts Ht _ IHts]; intro lk; [reflexivity|]. cbn in *. apply andb_true_iff in Hs. destruct Hs as [H1 H2]. rewrite (Ht _ _ H1). now apply IHts.
Qed.
Lemma collect_flat s full lk : flat_definition s = true -> full_name s = Some full -> collect_named_types s None lk = (full, s) :: lk.
Proof.
  destruct s as [ |nm ns d fs e al ps|nm ns d sy df al ps|nm ns d sz al ps| | | | | | ]; try discriminate; cbn [flat_definition full_name collect_named_types];
    intros Hs E; injection E as <-; replace (opt_or ns None) with ns by (now destruct ns); try reflexivity.
  generalize ((make_full_name nm ns, SRecord nm ns d fs e al ps) :: lk). clear -Hs. intro lk. revert lk. induction fs as [|f fs IH]; intro lk; [reflexivity|].
  cbn in *. apply andb_true_iff in Hs. destruct Hs as [H1 H2]. rewrite (collect_no_inline _ _ _ H1). now apply IH.
Qed.
Lemma build_lookup_registry r : Forall (fun kv => flat_definition (snd kv) = true /\ full_name (snd kv) = Some (fst kv)) r ->
  build_lookup (reg_schemas r) None = rev r.
Proof.
  intro Hr. unfold build_lookup, reg_schemas. enough (G : forall acc, fold_left (fun acc s => collect_named_types s None acc) (map snd r) acc = rev r ++ acc) by (now rewrite G, app_nil_r).
  induction Hr as [|[k s] r [Hf Hn] _ IH]; intro acc; [reflexivity|]. cbn [map fold_left snd rev]. cbn in Hf, Hn. rewrite (collect_flat _ _ _ Hf Hn), IH, <- app_assoc. reflexivity.
Qed.

Definition unplaced_registry (r : registry) : registry := map (fun kv => (fst kv, unplaced (snd kv))) r.
Definition good_registry (r : registry) : Prop :=
  NoDup (keys r) /\ Forall (fun kv => flat_definition (snd kv) = true /\ full_name (snd kv) = Some (fst kv)) r.
Lemma unplaced_registry_keys r : keys (unplaced_registry r) = keys r.
Proof. unfold keys, unplaced_registry. rewrite map_map. reflexivity. Qed.
Lemma assoc_Permutation {A} k (l l' : list (string * A)) : NoDup (keys l) -> Permutation l l' -> assoc k l = assoc k l'.
Proof.
  intros Hn P. assert (Hn' : NoDup (keys l')) by (eapply Permutation_NoDup; [apply Permutation_map; exact P|exact Hn]).
  destruct (assoc k l) as [v|] eqn:E.
  - symmetry. apply In_assoc_NoDup; [exact Hn'|]. eapply Permutation_in; [exact P|]. now apply assoc_In.
  - symmetry. apply assoc_None. apply assoc_None in E. intro Hi. apply E. eapply Permutation_in; [apply Permutation_sym, Permutation_map; exact P|exact Hi].
Qed.
Lemma schema_json_moved r r' s s' : good_registry r -> good_registry r' -> Permutation (unplaced_registry r) (unplaced_registry r') -> unplaced s = unplaced s' ->
  option_map fst (schema_to_json s [] None (build_lookup (reg_schemas r) None)) = option_map fst (schema_to_json s' [] None (build_lookup (reg_schemas r') None)).
Proof.
  intros [Hn Hr] [Hn' Hr'] P E. rewrite !build_lookup_registry by assumption. unfold schema_to_json, lookup_fuel.
  assert (El : length (rev r) = length (rev r')).
  { rewrite !rev_length. apply Permutation_length in P. unfold unplaced_registry in P. now rewrite !map_length in P. }
  assert (A1 : forall k, assoc k (unplaced_registry r) = option_map unplaced (assoc k (rev r))).
  { intro k. rewrite (assoc_rev k r Hn). apply assoc_map. }
  assert (A2 : forall k, assoc k (unplaced_registry r) = option_map unplaced (assoc k (rev r'))).
  { intro k. rewrite (assoc_rev k r' Hn'). rewrite (assoc_Permutation k _ _ ltac:(rewrite unplaced_registry_keys; exact Hn) P). apply assoc_map. }
  rewrite <- (ser_unplaced _ _ _ A1), <- (ser_unplaced _ _ _ A2), El, E. reflexivity.
Qed.

Section World.
  Context `{Unicode} `{Floats} `{Parser} `{FileSystem} `{JsonParser}.

  Lemma unplaced_registrable s full : registrable (unplaced s) full <-> registrable s full.
  Proof. unfold registrable. split; intros (n & ns & D & R); exists n, ns; (split; [apply unplaced_defines, D || now apply unplaced_defines|exact R]). Qed.

  Definition only_types (items : list decl_item) : Prop := forall k p sp, ~ In (DImport k p sp) items.

  (** registering a list of types *)
  Definition filed (r : registry) (l : list schema) (r' : registry) : Prop :=
    exists new, r' = r ++ new /\ map snd new = l /\ Forall (fun kv => registrable (snd kv) (fst kv)) new /\ NoDup (keys r').
  Lemma handled_types dirs dir items c c' : only_types items -> handled dirs dir items c c' -> NoDup (keys (cx_registry c)) ->
    filed (cx_registry c) (type_items items) (cx_registry c') /\ c' = set_registry (cx_registry c') c.
  Proof.
    intros Ho Hh. induction Hh as [dir c|dir s sp fs r items c c' Hr _ _ IH| | | | ]; intro Hn.
    - split; [|destruct c; reflexivity]. exists []. cbn. rewrite app_nil_r. repeat split; auto.
    - cbn [type_items flat_map app]. destruct IH as [(new & E & Em & Hf & Hnd) Ec].
      + intros k p sp' Hi. apply (Ho k p sp'). now right.
      + pose proof (register_cases (cx_registry c) s) as Hc. rewrite Hr in Hc. destruct Hc as (full & _ & Hni & ->). cbn [cx_registry set_registry].
        rewrite keys_app. cbn [keys map fst]. apply (Permutation_NoDup (Permutation_cons_append (keys (cx_registry c)) full)). now constructor.
      + pose proof (register_cases (cx_registry c) s) as Hc. rewrite Hr in Hc. destruct Hc as (full & Hreg & Hni & ->). cbn in E. split.
        * exists ((full, s) :: new). rewrite E, <- app_assoc. repeat split; [cbn [map snd]; f_equal; exact Em|now constructor|]. rewrite E, <- app_assoc in Hnd. exact Hnd.
        * rewrite Ec. reflexivity.
    - exfalso. eapply Ho. left. reflexivity.
    - exfalso. eapply Ho. left. reflexivity.
    - exfalso. eapply Ho. left. reflexivity.
    - exfalso. eapply Ho. left. reflexivity.
  Qed.
  (** the way back *)
  Lemma process_filed nested dirs dir items c new : only_types items -> types_flat items -> flat_registry (cx_registry c) ->
    map snd new = type_items items -> Forall (fun kv => registrable (snd kv) (fst kv)) new -> NoDup (keys (cx_registry c ++ new)) ->
    process_items nested dirs dir items c = (set_registry (cx_registry c ++ new) c, None)
    \/ exists c' t es, process_items nested dirs dir items c = (c', Some (BadDefault t es)).
  Proof.
    intros Ho Hfl. revert c new. induction items as [|it items IH]; intros c new Hfr Em Hf Hn.
    - destruct new; [|discriminate]. left. cbn. rewrite app_nil_r. destruct c; reflexivity.
    - destruct it as [k p sp|s sp fs]; [exfalso; eapply Ho; now left|]. cbn [process_items type_items flat_map app] in *.
      destruct new as [|[full s'] new]; [discriminate|]. cbn in Em. injection Em as -> Em. inversion Hf as [|x xs Hreg Hf']; subst. cbn in Hreg.
      assert (Hr : register (cx_registry c) s = Ok (cx_registry c ++ [(full, s)])).
      { pose proof (register_cases (cx_registry c) s) as Hc. destruct (register (cx_registry c) s) as [r|[]]; try (exfalso; exact (Hc _ Hreg)).
        - destruct Hc as (f & Hr & _ & ->). now rewrite (registrable_fun _ _ _ Hreg Hr).
        - destruct Hc as [Hr Hi]. exfalso. rewrite <- (registrable_fun _ _ _ Hreg Hr) in Hi.
          rewrite keys_app in Hn. apply NoDup_remove_2 in Hn. apply Hn. apply in_or_app. now left. }
      assert (Hs : flat_definition s = true) by (apply (Hfl s sp fs); now left).
      unfold process_type. rewrite Hr. cbv zeta.
      pose proof (defaults_terminate _ s (register_flat _ _ _ Hfr Hs Hr) Hs) as Hd.
      destruct (validate_record_field_defaults _ _ _) as [[|x l]|]; [| |contradiction].
      + destruct (IH (fun k p q Hi => Ho k p q (or_intror Hi)) (fun x y z Hx => Hfl x y z (or_intror Hx)) (set_registry (cx_registry c ++ [(full, s)]) c) new) as [E|(c' & t & es & E)].
        * cbn. eapply register_flat; eauto.
        * exact Em.
        * exact Hf'.
        * cbn. rewrite <- app_assoc. exact Hn.
        * left. rewrite E. cbn. rewrite <- app_assoc. reflexivity.
        * right. eauto.
      + right. eauto.
  Qed.

  Definition filing (l : list schema) (new : registry) : Prop := map snd new = l /\ Forall (fun kv => registrable (snd kv) (fst kv)) new.
  Lemma filing_moved l l' new : filing l new -> same_types l l' -> exists new', filing l' new' /\ Permutation (unplaced_registry new) (unplaced_registry new').
  Proof.
    intros [<- Hf] P. unfold same_types in P. rewrite map_map in P.
    change (map (fun x : string * schema => unplaced (snd x)) new) with (map (fun x => unplaced (snd x)) new) in P.
    assert (E : map (fun x => unplaced (snd x)) new = map snd (unplaced_registry new)) by (unfold unplaced_registry; rewrite map_map; reflexivity).
    rewrite E in P. clear E.
    destruct (Permutation_map_inv snd (unplaced_registry new) (Permutation_sym P)) as (reg & Ereg & Preg). clear P.
    assert (Hreg : Forall (fun kv => registrable (snd kv) (fst kv)) reg).
    { eapply Permutation_Forall; [exact Preg|]. unfold unplaced_registry. rewrite Forall_map. eapply Forall_impl; [|exact Hf].
      intros [k s] Hk. cbn in *. now apply unplaced_registrable. }
    exists (combine (map fst reg) l'). split.
    - clear Preg Hf. revert l' Ereg. induction Hreg as [|[k s] reg Hk _ IH]; intros l' Ereg; destruct l' as [|t l']; try discriminate; [split; constructor|].
      cbn in Ereg. injection Ereg as <- Ereg. destruct (IH _ Ereg) as [A B]. cbn. split; cbn; [now rewrite A|]. constructor; [|exact B]. apply unplaced_registrable. exact Hk.
    - eapply Permutation_trans; [exact Preg|]. clear Preg Hf Hreg. revert l' Ereg.
      induction reg as [|[k s] reg IH]; intros l' Ereg; destruct l' as [|t l']; try discriminate; [constructor|].
      cbn in Ereg. injection Ereg as <- Ereg. cbn. constructor. now apply IH.
  Qed.

  Lemma mentioned_moved f f' r r' full : same_main f f' -> Permutation (unplaced_registry r) (unplaced_registry r') ->
    SpecRefs.mentioned r (ref_file f) full -> SpecRefs.mentioned r' (ref_file f') full.
  Proof.
    intros S P M.
    assert (Hreg : forall k s, In (k, s) r -> mentions s full -> SpecRefs.mentioned r' (ref_file f') full).
    { intros k s Hi Hm. assert (Hu : In (k, unplaced s) (unplaced_registry r')).
      { eapply Permutation_in; [exact P|]. unfold unplaced_registry. apply in_map_iff. exists (k, s). auto. }
      unfold unplaced_registry in Hu. apply in_map_iff in Hu. destruct Hu as ([k' s'] & E & Hu). cbn in E. injection E as -> E.
      eapply SpecRefs.in_registry; [exact Hu|]. apply unplaced_mentions. rewrite E. now apply unplaced_mentions. }
    destruct S as [p q En Ens Ed Ep Pt Em|s s' E|l l' Pl]; cbn [ref_file] in *; inversion M as [f0 k s0 fl Hi Hm|s0 fl Hm|ss s0 fl Hi Hm|p0 k m t fl Hi Ht Hm]; subst; try (eapply Hreg; eassumption).
    - assert (Hu : In (k, unplaced_message m) (unplaced_messages (p_messages q))).
      { rewrite <- Em. unfold unplaced_messages. apply in_map_iff. exists (k, m). auto. }
      unfold unplaced_messages in Hu. apply in_map_iff in Hu. destruct Hu as ([k' m'] & E & Hu). cbn in E. injection E as -> E1 E2 E3 E4 E5 E6.
      apply unplaced_mentions in Hm. destruct Ht as [m|m f Hf|m es e Hes He].
      + eapply SpecRefs.in_message; [exact Hu|apply mt_response|]. apply unplaced_mentions. now rewrite E4.
      + assert (Hg : In (unplaced_field f) (map unplaced_field (m_request m'))) by (rewrite E3; now apply in_map).
        apply in_map_iff in Hg. destruct Hg as (g & Eg & Hg). eapply SpecRefs.in_message; [exact Hu|apply mt_request; exact Hg|].
        apply unplaced_mentions. unfold unplaced_field in Eg. injection Eg as _ Eg _ _ _ _ _. now rewrite Eg.
      + rewrite Hes in E5. destruct (m_errors m') as [es'|] eqn:Ees; [|discriminate]. cbn in E5. injection E5 as E5.
        assert (Hg : In (unplaced e) (map unplaced es')) by (rewrite E5; now apply in_map).
        apply in_map_iff in Hg. destruct Hg as (g & Eg & Hg). eapply SpecRefs.in_message; [exact Hu|eapply mt_error; [exact Ees|exact Hg]|].
        apply unplaced_mentions. now rewrite Eg.
    - apply SpecRefs.in_schema. apply unplaced_mentions. rewrite <- E. now apply unplaced_mentions.
    - assert (Hu : In (unplaced s0) (map unplaced l')) by (eapply Permutation_in; [exact Pl|]; now apply in_map).
      apply in_map_iff in Hu. destruct Hu as (t & E & Hu). eapply SpecRefs.in_named; [exact Hu|]. apply unplaced_mentions. rewrite E. now apply unplaced_mentions.
  Qed.

  Lemma unplaced_insert k m acc : unplaced_messages (hm_insert k m acc) = hm_insert k (unplaced_message m) (unplaced_messages acc).
  Proof.
    induction acc as [|[k' m'] acc IH]; [reflexivity|]. cbn [hm_insert unplaced_messages map fst snd].
    destruct (String.eqb k k'); [reflexivity|]. cbn [map fst snd]. f_equal. exact IH.
  Qed.
  Lemma unplaced_extend acc l : unplaced_messages (hm_extend acc l) = hm_extend (unplaced_messages acc) (unplaced_messages l).
  Proof.
    revert acc. induction l as [|[k m] l IH]; intro acc; [reflexivity|]. change (unplaced_messages (hm_extend (hm_insert k m acc) l) = hm_extend (hm_insert k (unplaced_message m) (unplaced_messages acc)) (unplaced_messages l)).
    now rewrite IH, unplaced_insert.
  Qed.

  Lemma compile_moved dirs src src' name dir ip file items ws file' items' ws' o w :
    parse_idl name src = Ok (file, items, ws) -> parse_idl name src' = Ok (file', items', ws') ->
    only_types items -> only_types items' -> same_types (type_items items) (type_items items') -> same_main file file' ->
    compile dirs src name dir ip = (Ok o, w) ->
    (exists o', compile dirs src' name dir ip = (Ok o', []) /\ same_main (co_file o) (co_file o')
       /\ Permutation (unplaced_registry (co_registry o)) (unplaced_registry (co_registry o'))
       /\ good_registry (co_registry o) /\ good_registry (co_registry o'))
    \/ (exists t es w', compile dirs src' name dir ip = (Err (BadDefault t es), w')).
  Proof.
    intros Ep Ep' Ho Ho' P S Hc. apply compile_ok in Hc. destruct Hc as (f & its & w0 & c & Epx & Hfl & _ & Hh & -> & -> & Hv).
    rewrite Ep in Epx. injection Epx as <- <- <-. cbn [co_file co_registry].
    destruct (start_fields ws ip) as (Er & Em & El & Ew & Ei).
    destruct (handled_types _ _ _ _ _ Ho Hh) as [(new & Enew & Eitems & Hreg & Hnd) Ec]; [rewrite Er; constructor|].
    rewrite Er in Enew. cbn in Enew. rewrite Enew in Hnd.
    destruct (filing_moved _ _ _ (conj Eitems Hreg) P) as (new' & [Eitems' Hreg'] & Pn).
    assert (Hnd' : NoDup (keys new')).
    { rewrite <- (unplaced_registry_keys new'). eapply Permutation_NoDup; [apply Permutation_map; exact Pn|]. change (NoDup (keys (unplaced_registry new))). now rewrite unplaced_registry_keys. }
    pose proof (parse_idl_flat _ _ _ _ _ Ep') as Hfl'.
    destruct (start_fields ws' ip) as (Er' & Em' & El' & Ew' & Ei').
    pose proof (process_filed (match length fs_files with O => fun _ _ c => (c, Some OutOfFuel) | S n => process_decl_items n dirs end) dirs dir items' (start_context ws' ip) new' Ho' Hfl' (start_flat ws' ip) Eitems' Hreg') as Hp.
    rewrite Er' in Hp. specialize (Hp Hnd'). cbn [app] in Hp.
    assert (Eproc : process_decl_items (length fs_files) dirs dir items' (start_context ws' ip)
                    = process_items (match length fs_files with O => fun _ _ c => (c, Some OutOfFuel) | S n => process_decl_items n dirs end) dirs dir items' (start_context ws' ip)) by (now destruct (length fs_files)).
    unfold compile, parse_and_resolve. rewrite Ep'.
    change (mark_input ip (add_warnings (map (mkReport None) ws') new_context)) with (start_context ws' ip). rewrite Eproc.
    assert (Hgood : forall l r, (forall s sp fs, In (DType s sp fs) l -> flat_definition s = true) -> map snd r = type_items l -> Forall (fun kv => registrable (snd kv) (fst kv)) r -> NoDup (keys r) -> good_registry r).
    { intros l r Hl E Hr Hd. split; [exact Hd|]. rewrite Forall_forall in *. intros [k s] Hi. split; [|apply registrable_full_name; exact (Hr _ Hi)].
      assert (Hs : In s (type_items l)) by (rewrite <- E; apply in_map_iff; exists (k, s); auto).
      unfold type_items in Hs. apply in_flat_map in Hs. destruct Hs as ([|t sp fs] & Ht & Hs); cbn in Hs; [contradiction|]. destruct Hs as [->|[]]. exact (Hl _ _ _ Ht). }
    destruct Hp as [->|(c' & t & es & ->)].
    - left.
      assert (Smain : same_main (finish_file file c) (finish_file file' (set_registry new' (start_context ws' ip)))).
      { rewrite Ec. destruct S as [p q E1 E2 E3 E4 Pt Emm|s s' E|l l' Pl]; cbn [finish_file]; [|now constructor|now constructor].
        constructor; cbn [p_name p_namespace p_doc p_props p_types p_messages cx_registry set_registry cx_messages]; auto.
        - unfold same_types, reg_schemas. rewrite Enew. rewrite Eitems, Eitems'. exact P.
        - rewrite Em, Em'. rewrite !unplaced_extend. now rewrite Emm. }
      assert (Pn' : Permutation (unplaced_registry (cx_registry c)) (unplaced_registry (cx_registry (set_registry new' (start_context ws' ip))))) by (rewrite Enew; exact Pn).
      assert (Ev : Refs.validate_all_references (ref_file (finish_file file' (set_registry new' (start_context ws' ip)))) (cx_registry (set_registry new' (start_context ws' ip))) name
                     (cx_json_imports (set_registry new' (start_context ws' ip))) = None).
      { apply RefsProofs.check_passes. intros full Hm. apply RefsProofs.check_passes with (full := full) in Hv.
        - change (In full (keys (cx_registry c))) in Hv. rewrite <- unplaced_registry_keys in Hv. apply (Permutation_in _ (Permutation_map fst Pn')) in Hv.
          change (In full (keys new')). rewrite <- unplaced_registry_keys. exact Hv.
        - eapply mentioned_moved; [|apply Permutation_sym; exact Pn'|exact Hm].
          destruct Smain as [p q E1 E2 E3 E4 Pt Emm|s s' E|l l' Pl]; constructor; auto; now apply Permutation_sym. }
      rewrite Ev. eexists. split; [reflexivity|]. cbn [co_file co_registry]. split; [exact Smain|]. split; [exact Pn'|]. split.
      + rewrite Enew. apply (Hgood items); auto.
      + apply (Hgood items'); auto.
    - right. eauto.
  Qed.

  Definition one_schema (lk : lookup_table) (s : schema) : option named_schema :=
    match schema_name s, option_map fst (schema_to_json s [] None lk) with Some n, Some j => Some (mkNamedSchema n j) | _, _ => None end.
  Lemma extract_schemas_each lk l r : Forall (fun s => flat_definition s = true) l -> extract_schemas lk l = Some r -> map Some r = map (one_schema lk) l.
  Proof.
    intro Hl. revert r. induction Hl as [|s l Hs _ IH]; intros r; cbn [extract_schemas map]; [intro E; injection E as <-; reflexivity|]. unfold one_schema at 1.
    destruct (schema_name s) as [n|] eqn:En; [|destruct s; discriminate].
    destruct (schema_to_json s [] None lk) as [[j k]|]; [|discriminate]. destruct (extract_schemas lk l) as [r'|]; [|discriminate].
    intro E. injection E as <-. cbn. now rewrite (IH _ eq_refl).
  Qed.
  Lemma good_flat r : good_registry r -> Forall (fun s => flat_definition s = true) (reg_schemas r).
  Proof. intros [_ Hr]. unfold reg_schemas. rewrite Forall_map. eapply Forall_impl; [|exact Hr]. intros kv [A _]. exact A. Qed.
  Lemma Permutation_Some {A} (l l' : list A) : Permutation (map Some l) (map Some l') -> Permutation l l'.
  Proof.
    intro P. apply Permutation_map_inv in P. destruct P as (l2 & E & P). assert (l = l2) as ->; [|now apply Permutation_sym].
    clear P. revert l2 E. induction l as [|x l IH]; intros [|y l2] E; try discriminate; [reflexivity|]. cbn in E. injection E as <- E. f_equal. now apply IH.
  Qed.
  Lemma extract_moved o o' x x' : good_registry (co_registry o) -> good_registry (co_registry o') ->
    Permutation (unplaced_registry (co_registry o)) (unplaced_registry (co_registry o')) ->
    extract_impl o = Ok x -> extract_impl o' = Ok x' -> Permutation (so_schemas x) (so_schemas x').
  Proof.
    intros G G' P. unfold extract_impl. cbv zeta.
    destruct (extract_schemas (build_lookup (reg_schemas (co_registry o)) None) _) as [r|] eqn:E; [|discriminate].
    destruct (extract_schemas (build_lookup (reg_schemas (co_registry o')) None) _) as [r'|] eqn:E'; [|discriminate].
    intros Hx Hx'. injection Hx as <-. injection Hx' as <-. cbn [so_schemas].
    apply extract_schemas_each in E; [|now apply good_flat]. apply extract_schemas_each in E'; [|now apply good_flat].
    apply Permutation_Some. rewrite E, E'. clear E E' r r'.
    set (lk := build_lookup (reg_schemas (co_registry o)) None). set (lk' := build_lookup (reg_schemas (co_registry o')) None).
    assert (Sc : forall s s', unplaced s = unplaced s' -> one_schema lk s = one_schema lk' s').
    { intros s s' Hs. unfold one_schema. replace (schema_name s') with (schema_name s).
      - unfold lk, lk'. now rewrite (schema_json_moved _ _ s s' G G' P Hs).
      - destruct s, s'; cbn in Hs; try discriminate; cbn; congruence. }
    assert (Su : forall s, one_schema lk s = one_schema lk' (unplaced s)).
    { intro s. apply Sc. clear. induction s as [p|nm ns d fs e al ps IH|nm ns d sy df al ps|nm ns d sz al ps|i ps IH|i ps IH
                 |ts b IH|k ps|l ps|nm ns ps sp] using schema_ind'; cbn [unplaced]; try reflexivity; try congruence.
      - f_equal. rewrite map_map. apply map_ext_in. intros f Hf. rewrite Forall_forall in IH. cbn. now rewrite <- (IH f Hf).
      - f_equal. rewrite map_map. apply map_ext_in. intros f Hf. rewrite Forall_forall in IH. now rewrite <- (IH f Hf). }
    assert (Su' : forall s, one_schema lk' s = one_schema lk' (unplaced s)).
    { intro s. rewrite <- Su. symmetry. now apply Sc. }
    rewrite (map_ext _ _ Su), (map_ext _ _ Su'), <- !(map_map unplaced). apply Permutation_map.
    apply (Permutation_map snd) in P. unfold unplaced_registry in P. rewrite !map_map in P. unfold reg_schemas. rewrite !map_map. exact P.
  Qed.
End World.

(** Protocols that differ in the order of their types are written as documents
    with the same content. *)
Lemma protocol_moved p q : same_main (IProtocol p) (IProtocol q) -> protocol_ok p = true ->
  exists jp jq ap aq,
    protocol_to_json p = Some jp /\ read_protocol (jdepth jp) jp = Some ap
    /\ protocol_to_json q = Some jq /\ read_protocol (jdepth jq) jq = Some aq
    /\ ap_name ap = ap_name aq /\ ap_namespace ap = ap_namespace aq /\ ap_attrs ap = ap_attrs aq
    /\ Permutation (ap_defs ap) (ap_defs aq) /\ Permutation (ap_messages ap) (ap_messages aq).
Proof.
  intros S Hp. assert (Hq : protocol_ok q = true) by (rewrite <- (same_protocol_ok _ _ S); exact Hp).
  destruct (protocol_faithful p Hp) as (jp & ap & A1 & A2 & A3 & A4 & A5 & _ & A6 & A7 & _).
  destruct (protocol_faithful q Hq) as (jq & aq & B1 & B2 & B3 & B4 & B5 & _ & B6 & B7 & _).
  inversion S as [p' q' En Ens Ed Ep Pt Em| |]; subst. exists jp, jq, ap, aq.
  split; [exact A1|]. split; [exact A2|]. split; [exact B1|]. split; [exact B2|].
  split; [congruence|]. split; [congruence|]. split; [congruence|]. split.
  - apply Permutation_Some. etransitivity; [exact A6|]. etransitivity; [|symmetry; exact B6]. exact (same_types_map named_meaning _ _ unplaced_named_meaning Pt).
  - etransitivity; [exact A7|]. etransitivity; [|symmetry; exact B7].
    rewrite (unplaced_messages_map (fun n m => (n, message_meaning m)) _ _ (fun n m => f_equal (fun x => (n, x)) (unplaced_message_meaning m)) Em). reflexivity.
Qed.
