(** Proofs about types: unions, references, annotations, logical types. *)
From Verif Require Import SpecReader BaseProofs NameProofs ReaderProofs.

Lemma fullname_make n ns : make_full_name n ns = fullname n ns.
Proof. unfold make_full_name, fullname, qualify, nsof. destruct ns as [s|]; [destruct s; reflexivity|reflexivity]. Qed.

Lemma base_of_expected lt : expected_base_type lt = base_of lt.
Proof. destruct lt; reflexivity. Qed.

Lemma prim_eqb_eq a b : prim_eqb a b = true <-> a = b.
Proof. destruct a, b; cbn; split; congruence. Qed.

(** ** Parts *)
Lemma occurs_prim u p : occurs u (SPrim p) -> u = SPrim p.
Proof. inversion 1; auto. Qed.
Lemma occurs_array u i ps : occurs u (SArray i ps) -> u = SArray i ps \/ occurs u i.
Proof. inversion 1; auto. Qed.
Lemma occurs_map u i ps : occurs u (SMap i ps) -> u = SMap i ps \/ occurs u i.
Proof. inversion 1; auto. Qed.
Lemma occurs_union u ts b : occurs u (SUnion ts b) -> u = SUnion ts b \/ exists t, In t ts /\ occurs u t.
Proof. inversion 1; subst; eauto. Qed.
Lemma occurs_record u n ns d fs e al ps : occurs u (SRecord n ns d fs e al ps) ->
  u = SRecord n ns d fs e al ps \/ exists f, In f fs /\ occurs u (f_schema f).
Proof. inversion 1; subst; eauto. Qed.

Lemma occurs_trans u s t : occurs u s -> occurs s t -> occurs u t.
Proof. intros Hu Hs. revert u Hu. induction Hs; intros w Hw; [exact Hw| | | |]; econstructor; eauto. Qed.

(** Every union inside is legal. *)
Definition unions_legal (s : schema) : Prop := forall ts b, occurs (SUnion ts b) s -> legal_union ts.

Lemma unions_leaf s : (forall u, occurs u s -> u = s) -> ~ (exists ts b, s = SUnion ts b) -> unions_legal s.
Proof. intros Hl Hn ts b Ho. apply Hl in Ho. exfalso. eauto. Qed.
Lemma unions_array i ps : unions_legal (SArray i ps) <-> unions_legal i.
Proof.
  split; intros Hu ts b Ho.
  - apply (Hu ts b). now constructor.
  - apply occurs_array in Ho. destruct Ho as [Ho|Ho]; [discriminate|]. now apply (Hu ts b).
Qed.
Lemma unions_map i ps : unions_legal (SMap i ps) <-> unions_legal i.
Proof.
  split; intros Hu ts b Ho.
  - apply (Hu ts b). now constructor.
  - apply occurs_map in Ho. destruct Ho as [Ho|Ho]; [discriminate|]. now apply (Hu ts b).
Qed.
Lemma unions_union ts b : unions_legal (SUnion ts b) <-> legal_union ts /\ Forall unions_legal ts.
Proof.
  split.
  - intro Hu. split; [apply (Hu ts b); constructor|]. apply Forall_forall. intros t Ht us c Ho. apply (Hu us c). econstructor; eauto.
  - intros [Hl Hf] us c Ho. apply occurs_union in Ho. destruct Ho as [Ho|(t & Ht & Ho)]; [now injection Ho as -> ->|].
    rewrite Forall_forall in Hf. exact (Hf t Ht us c Ho).
Qed.
Lemma unions_record n ns d fs e al ps : unions_legal (SRecord n ns d fs e al ps) <-> Forall (fun f => unions_legal (f_schema f)) fs.
Proof.
  split.
  - intro Hu. apply Forall_forall. intros f Hf ts b Ho. apply (Hu ts b). econstructor; eauto.
  - intros Hf ts b Ho. apply occurs_record in Ho. destruct Ho as [Ho|(f & Hi & Ho)]; [discriminate|].
    rewrite Forall_forall in Hf. exact (Hf f Hi ts b Ho).
Qed.

(** ** Annotating *)
Lemma promote_class s : class_of (try_promote_logical_type s) = class_of s.
Proof.
  destruct s; try reflexivity. cbn. destruct (assoc "logicalType" ps) as [[]|]; try reflexivity.
  destruct (parse_logical_type _ _ _) as [lt|]; [|reflexivity]. destruct (prim_eqb _ _) eqn:E; [|reflexivity].
  apply prim_eqb_eq in E. subst kind. reflexivity.
Qed.
Lemma apply_one_class s ps : class_of (apply_properties_to_schema s ps) = class_of s.
Proof. unfold apply_properties_to_schema. rewrite promote_class. destruct s; reflexivity. Qed.

Lemma promote_cases s : try_promote_logical_type s = s \/
  exists k ps lt, s = SAnnot k ps /\ expected_base_type lt = k /\
    exists ps', try_promote_logical_type s = SLogical lt ps'.
Proof.
  destruct s; auto. cbn. destruct (assoc "logicalType" ps) as [[]|]; auto.
  destruct (parse_logical_type _ _ _) as [lt|]; auto. destruct (prim_eqb _ _) eqn:E; auto.
  apply prim_eqb_eq in E. right. exists kind, ps, lt. split; [reflexivity|]. split; [exact E|]. eauto.
Qed.

Lemma apply_one_unions s ps : unions_legal s -> unions_legal (apply_properties_to_schema s ps).
Proof.
  intro Hu. unfold apply_properties_to_schema.
  assert (Hm : unions_legal (with_merged_properties s ps)).
  { destruct s; cbn; try (intros ts b Ho; now inversion Ho); try assumption.
    - rewrite unions_record in *. exact Hu.
    - rewrite unions_array in *. exact Hu.
    - rewrite unions_map in *. exact Hu. }
  destruct (promote_cases (with_merged_properties s ps)) as [->|(k & ps' & lt & _ & _ & ps2 & ->)]; [exact Hm|].
  intros ts b Ho. now inversion Ho.
Qed.

Lemma apply_class s ps : class_of (apply_properties s ps) = class_of s.
Proof.
  unfold apply_properties. destruct s; try apply apply_one_class.
  destruct types as [|a [|b [|]]], is_nullable_type; try apply apply_one_class.
  destruct a as [[]| | | | | | | | |]; reflexivity.
Qed.

Lemma apply_unions s ps : unions_legal s -> unions_legal (apply_properties s ps).
Proof.
  intro Hu. unfold apply_properties. destruct s; try now apply apply_one_unions.
  destruct types as [|a [|b [|]]], is_nullable_type; try now apply apply_one_unions.
  assert (K1 : unions_legal (SUnion [a; apply_properties_to_schema b ps] true)).
  { rewrite unions_union in *. destruct Hu as [[Hn Hi] Hf]. split.
    - unfold legal_union in *. cbn in *. now rewrite apply_one_class.
    - inversion Hf as [|? ? Fa Fb]; subst. inversion Fb; subst. constructor; [auto using apply_one_unions|]. constructor; [auto using apply_one_unions|constructor]. }
  assert (K2 : unions_legal (SUnion [apply_properties_to_schema a ps; b] true)).
  { rewrite unions_union in *. destruct Hu as [[Hn Hi] Hf]. split.
    - unfold legal_union in *. cbn in *. now rewrite apply_one_class.
    - inversion Hf as [|? ? Fa Fb]; subst. inversion Fb; subst. constructor; [auto using apply_one_unions|]. constructor; [auto using apply_one_unions|constructor]. }
  destruct a as [[]| | | | | | | | |]; assumption.
Qed.

Section Walker.
  Context `{Unicode} `{Floats}.

  Lemma annotate_type_cases pl props s s' evs : annotate_type pl props s = Ok (s', evs) ->
    (sp_props props = [] /\ s' = s /\ evs = []) \/
    (sp_props props <> [] /\ is_type_reference s = false /\ s' = apply_properties s (sp_props props) /\
     evs = if is_non_nullable_union s then [Warned (AnnotationsDropped (keys (sp_props props)) pl)] else []).
  Proof.
    unfold annotate_type. destruct (sp_props props) as [|kv ps] eqn:E.
    - intro Hx. winv Hx. auto.
    - destruct (is_type_reference s); [discriminate|]. intro Hx. right. split; [discriminate|]. split; [reflexivity|].
      winv Hx. winv Hx. split; [reflexivity|]. rewrite app_nil_r. destruct (is_non_nullable_union s); now winv E0.
  Qed.
  Lemma annotate_class pl props s s' evs : annotate_type pl props s = Ok (s', evs) -> class_of s' = class_of s.
  Proof. intro Hx. apply annotate_type_cases in Hx. destruct Hx as [(_ & -> & _)|(_ & _ & -> & _)]; [reflexivity|apply apply_class]. Qed.
  Lemma annotate_unions pl props s s' evs : annotate_type pl props s = Ok (s', evs) -> unions_legal s -> unions_legal s'.
  Proof. intro Hx. apply annotate_type_cases in Hx. destruct Hx as [(_ & -> & _)|(_ & _ & -> & _)]; [auto|apply apply_unions]. Qed.

  (** ** Unions *)
  Lemma prim_type_leaf k s evs : walk_primitive_type k = Ok (s, evs) ->
    evs = [] /\ ((exists p, s = SPrim p) \/ exists lt, s = SLogical lt []).
  Proof.
    destruct k; cbn; intro Hx; try (winv Hx; split; [reflexivity|eauto]; fail).
    unfold walk_decimal in Hx. winv Hx. winv E. destruct (_ =? _)%N; [discriminate|]. winv Hx.
    destruct (_ <? _)%N; [discriminate|]. winv Hx. split; [|eauto].
    destruct scale; winv E; reflexivity.
  Qed.

  Lemma nullable_shape b o ns s evs : walk_nullable_type b o ns = Ok (s, evs) ->
    evs = [] /\ exists base, (o = false /\ s = base \/ o = true /\ s = SUnion [SPrim PNull; base] true /\ base <> SPrim PNull) /\
      ((exists k pl, b = BPrimitive k pl /\ walk_primitive_type k = Ok (base, [])) \/
       (exists i sp, b = BReference i sp /\ base = reference i sp ns)).
  Proof.
    unfold walk_nullable_type. intro Hx. winv Hx.
    assert (K : l = [] /\ ((exists k pl, b = BPrimitive k pl /\ walk_primitive_type k = Ok (a, [])) \/
       (exists i sp, b = BReference i sp /\ a = reference i sp ns))).
    { destruct b as [k pl|i sp].
      - destruct (prim_type_leaf _ _ _ E) as [-> _]. eauto 6.
      - winv E. split; [reflexivity|]. right. eauto. }
    destruct K as [-> K]. destruct o.
    - destruct a as [[]| | | | | | | | |]; try discriminate Hx; winv Hx; (split; [reflexivity|]); eexists; (split; [right; repeat split; congruence|exact K]).
    - winv Hx. split; [reflexivity|]. eauto.
  Qed.

  Lemma reference_shape i sp ns : exists n q, reference i sp ns = SRef n q [] sp.
  Proof. unfold reference. destruct (rsplit_once_dot (identifier_text i)) as [[q n]|]; eauto. Qed.

  Lemma base_class b base ns :
    ((exists k pl, b = BPrimitive k pl /\ walk_primitive_type k = Ok (base, [])) \/ (exists i sp, b = BReference i sp /\ base = reference i sp ns)) ->
    unions_legal base /\ class_of base <> BcUnion /\ (class_of base = BcPrimitive PNull -> base = SPrim PNull).
  Proof.
    intros [(k & pl & -> & Hx)|(i & sp & -> & ->)].
    - destruct (prim_type_leaf _ _ _ Hx) as [_ [(p & ->)|(lt & ->)]].
      + split; [intros ts c Ho; now inversion Ho|]. split; [discriminate|]. cbn. congruence.
      + split; [intros ts c Ho; now inversion Ho|]. split; [discriminate|]. destruct lt; discriminate.
    - destruct (reference_shape i sp ns) as (n & q & ->).
      split; [intros ts c Ho; now inversion Ho|]. split; discriminate.
  Qed.

  Definition key_of (c : branch_class) : string :=
    match c with
    | BcPrimitive p => prim_str p
    | BcArray => "array" | BcMap => "map" | BcUnion => "union"
    | BcNamed f => f
    end.
  Lemma union_key s : union_type_key s = key_of (class_of s).
  Proof. destruct s; cbn; rewrite ?fullname_make; reflexivity. Qed.

  Lemma first_duplicate_none seen l : first_duplicate seen l = None <-> NoDup l /\ (forall x, In x l -> ~ In x seen).
  Proof.
    revert seen. induction l as [|x l IH]; intro seen; cbn.
    - split; [intros _; split; [constructor|tauto]|auto].
    - destruct (str_mem x seen) eqn:E.
      + split; [discriminate|]. intros [_ Hx]. apply str_mem_In in E. exfalso. exact (Hx x (or_introl eq_refl) E).
      + apply str_mem_not_In in E. rewrite IH. split.
        * intros [Hn Hs]. split.
          -- constructor; [|exact Hn]. intro Hi. apply (Hs x Hi). now left.
          -- intros y [<-|Hy]; [exact E|]. intro Hc. apply (Hs y Hy). now right.
        * intros [Hn Hs]. inversion Hn; subst. split; [assumption|]. intros y Hy [<-|Hc]; [contradiction|]. exact (Hs y (or_intror Hy) Hc).
  Qed.

  Lemma check_union_ok pls ts s evs : check_union pls ts = Ok (s, evs) -> s = SUnion ts false /\ evs = [] /\ legal_union ts.
  Proof.
    unfold check_union. destruct (existsb is_union ts) eqn:E; [discriminate|].
    destruct (first_duplicate [] (map union_type_key ts)) eqn:E2; [discriminate|]. intro Hx. winv Hx.
    split; [reflexivity|]. split; [reflexivity|]. apply first_duplicate_none in E2. destruct E2 as [Hn _]. split.
    - rewrite (map_ext _ _ union_key), <- (map_map class_of key_of) in Hn. now apply NoDup_map_inv in Hn.
    - intro Hi. apply in_map_iff in Hi. destruct Hi as (t & Hc & Hi).
      assert (E3 : existsb is_union ts = true) by (apply existsb_exists; exists t; split; [exact Hi|]; destruct t; try discriminate; reflexivity).
      congruence.
  Qed.

  Lemma walk_union_eq ts ns : walk_plain_type (PtUnion ts) ns = let* types := wmap (fun t => walk_full_type t ns) ts in check_union (map full_place ts) types.
  Proof. reflexivity. Qed.

  Lemma walk_unions_legal :
    (forall t ns s evs, walk_full_type t ns = Ok (s, evs) -> unions_legal s) /\
    (forall p ns s evs, walk_plain_type p ns = Ok (s, evs) -> unions_legal s).
  Proof.
    apply types_ind.
    - intros pl l p IH ns s evs Hx. cbn in Hx. winv Hx. winv Hx. eapply annotate_unions; eauto.
    - intros t IH ns s evs Hx. cbn in Hx. winv Hx. winv Hx. apply unions_array. eauto.
    - intros t IH ns s evs Hx. cbn in Hx. winv Hx. winv Hx. apply unions_map. eauto.
    - intros ts IH ns s evs Hx. rewrite walk_union_eq in Hx. winv Hx. apply check_union_ok in Hx. destruct Hx as (-> & -> & Hl).
      apply unions_union. split; [exact Hl|]. apply wmap_Forall2 in E. clear Hl. induction E as [|x y ts ys (e & Hx) E IH']; [constructor|].
      inversion IH; subst. constructor; eauto.
    - intros b o ns s evs Hx. cbn in Hx. apply nullable_shape in Hx. destruct Hx as (-> & base & Hs & Hb).
      apply base_class in Hb. destruct Hb as (Hu & Hc & Hn). destruct Hs as [[-> ->]|(-> & -> & Hne)]; [exact Hu|].
      apply unions_union. split; [|constructor; [intros ts b' Ho; now inversion Ho|constructor; [exact Hu|constructor]]]. split.
      + cbn. constructor; [|repeat constructor; intros []]. intros [E|[]]. auto.
      + cbn. intros [E|[E|[]]]; [discriminate|]. auto.
  Qed.

  (** ** References *)
  Lemma promote_refs s : schema_refs (try_promote_logical_type s) = schema_refs s.
  Proof. destruct (promote_cases s) as [->|(k & ps & lt & -> & _ & ps' & ->)]; reflexivity. Qed.
  Lemma apply_one_refs s ps : schema_refs (apply_properties_to_schema s ps) = schema_refs s.
  Proof. unfold apply_properties_to_schema. rewrite promote_refs. destruct s; reflexivity. Qed.
  Lemma apply_refs s ps : schema_refs (apply_properties s ps) = schema_refs s.
  Proof.
    unfold apply_properties. destruct s; try apply apply_one_refs.
    destruct types as [|a [|b [|]]], is_nullable_type; try apply apply_one_refs.
    destruct a as [[]| | | | | | | | |]; cbn [schema_refs flat_map]; rewrite apply_one_refs; reflexivity.
  Qed.
  Lemma annotate_refs pl props s s' evs : annotate_type pl props s = Ok (s', evs) -> schema_refs s' = schema_refs s.
  Proof. intro Hx. apply annotate_type_cases in Hx. destruct Hx as [(_ & -> & _)|(_ & _ & -> & _)]; [reflexivity|apply apply_refs]. Qed.

  Lemma rsplit_qualified s q n : rsplit_once_dot s = Some (q, n) <-> qualified s q n.
  Proof.
    split.
    - intro Hx. apply rsplit_Some in Hx. exact Hx.
    - intro Hx. destruct (rsplit_once_dot s) as [[q' n']|] eqn:E.
      + pose proof E as E'. apply rsplit_Some in E. apply rsplit_Some in Hx. congruence.
      + apply rsplit_None in E. destruct Hx as [-> _]. rewrite !contains_dot_app in E. cbn in E. rewrite orb_true_r in E. discriminate.
  Qed.

  Lemma reference_refers i sp ns : exists r, schema_refs (reference i sp ns) = [r] /\ refers ns i r.
  Proof.
    unfold reference. destruct (rsplit_once_dot (identifier_text i)) as [[q n]|] eqn:E.
    - exists (n, Some q). split; [reflexivity|]. constructor. now apply rsplit_qualified.
    - exists (identifier_text i, ns). split; [reflexivity|]. constructor. now apply rsplit_None.
  Qed.

  Lemma walk_refs :
    (forall t ns s evs, walk_full_type t ns = Ok (s, evs) -> Forall2 (refers ns) (type_idents t) (schema_refs s)) /\
    (forall p ns s evs, walk_plain_type p ns = Ok (s, evs) -> Forall2 (refers ns) (plain_idents p) (schema_refs s)).
  Proof.
    apply types_ind.
    - intros pl l p IH ns s evs Hx. cbn in Hx. winv Hx. winv Hx. cbn. rewrite (annotate_refs _ _ _ _ _ Hx). eauto.
    - intros t IH ns s evs Hx. cbn in Hx. winv Hx. winv Hx. cbn. eauto.
    - intros t IH ns s evs Hx. cbn in Hx. winv Hx. winv Hx. cbn. eauto.
    - intros ts IH ns s evs Hx. rewrite walk_union_eq in Hx. winv Hx. apply check_union_ok in Hx. destruct Hx as (-> & -> & Hl).
      cbn [plain_idents schema_refs]. apply wmap_Forall2 in E. clear Hl. induction E as [|x y ts ys (e & Hx) E IH']; [constructor|].
      inversion IH; subst. cbn [flat_map]. apply Forall2_app; eauto.
    - intros b o ns s evs Hx. cbn in Hx. apply nullable_shape in Hx. destruct Hx as (-> & base & Hs & Hb).
      assert (E : schema_refs s = schema_refs base).
      { destruct Hs as [[-> ->]|(-> & -> & _)]; [reflexivity|]. cbn. apply app_nil_r. }
      rewrite E. destruct Hb as [(k & pl & -> & Hx)|(i & sp & -> & ->)].
      + destruct (prim_type_leaf _ _ _ Hx) as [_ [(p & ->)|(lt & ->)]]; constructor.
      + destruct (reference_refers i sp ns) as (r & -> & Hr). cbn. constructor; [exact Hr|constructor].
  Qed.

  (** Types consume no comments. *)
  Lemma annotate_quiet pl props s s' evs : annotate_type pl props s = Ok (s', evs) -> consumed_of evs = [].
  Proof.
    intro Hx. apply annotate_type_cases in Hx. destruct Hx as [(_ & _ & ->)|(_ & _ & _ & ->)]; [reflexivity|].
    destruct (is_non_nullable_union s); reflexivity.
  Qed.
  Lemma walk_type_quiet :
    (forall t ns s evs, walk_full_type t ns = Ok (s, evs) -> consumed_of evs = []) /\
    (forall p ns s evs, walk_plain_type p ns = Ok (s, evs) -> consumed_of evs = []).
  Proof.
    apply types_ind.
    - intros pl l p IH ns s evs Hx. cbn in Hx. winv Hx. winv Hx. rewrite !consumed_app, (walk_properties_quiet _ _ _ _ E), (IH _ _ _ E0).
      exact (annotate_quiet _ _ _ _ _ Hx).
    - intros t IH ns s evs Hx. cbn in Hx. winv Hx. winv Hx. rewrite app_nil_r. eauto.
    - intros t IH ns s evs Hx. cbn in Hx. winv Hx. winv Hx. rewrite app_nil_r. eauto.
    - intros ts IH ns s evs Hx. rewrite walk_union_eq in Hx. winv Hx. apply check_union_ok in Hx. destruct Hx as (-> & -> & _).
      rewrite app_nil_r. apply wmap_ok in E. destruct E as (zs & H2 & _ & ->).
      induction H2 as [|x [y e] ts zs Hx H2 IH']; [reflexivity|]. inversion IH as [|? ? Px Pl]; subst.
      change (flat_map snd ((y, e) :: zs)) with (e ++ flat_map snd zs). rewrite consumed_app, (Px _ _ _ Hx). auto.
    - intros b o ns s evs Hx. cbn in Hx. apply nullable_shape in Hx. destruct Hx as (-> & _). reflexivity.
  Qed.
End Walker.
