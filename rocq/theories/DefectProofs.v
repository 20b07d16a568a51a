(** The walker refuses exactly the trees with a defect, and says which one: C64 *)
From Coq Require Import Lia.
From Verif Require Import SpecDefects BaseProofs NameProofs DefaultsProofs ReaderProofs TypeProofs PatternProofs DeclProofs FileProofs AnnotProofs AttrProofs DenoteProofs ReadProofs.

(** ** The monad *)
Lemma wbind_err {A B} (m : walk A) (f : A -> walk B) e : wbind m f = Err e -> m = Err e \/ exists a l, m = Ok (a, l) /\ f a = Err e.
Proof. unfold wbind. destruct m as [[a l]|e']; [|intro E; left; now injection E as ->]. destruct (f a) as [[b l']|e'] eqn:Ef; [discriminate|]. intro E. injection E as ->. right. eauto. Qed.
Lemma wopt_err {A} p e0 (o : option A) e at_ : wopt p e0 o = Err (e, at_) -> o = None /\ e = e0 /\ at_ = p.
Proof. destruct o; cbn; [discriminate|]. intro E. now injection E as -> ->. Qed.
Lemma wmap_err {A B} (f : A -> walk B) l e : wmap f l = Err e -> exists a x b ys evs, l = a ++ x :: b /\ wmap f a = Ok (ys, evs) /\ f x = Err e.
Proof.
  induction l as [|x l IH]; [discriminate|]. rewrite wmap_cons. intro E. apply wbind_err in E as [E|(y & ev & Ey & E)]; [exists [], x, l, [], []; auto|].
  apply wbind_err in E as [E|(ys & ev2 & Eys & E)]; [|discriminate]. destruct (IH E) as (a & z & b & ys & evs & -> & Ea & Ez).
  exists (x :: a), z, b. rewrite wmap_cons, Ey. cbn. rewrite Ea. cbn. eauto 8.
Qed.
Lemma wmap_err_in {A B} (f : A -> walk B) l e : wmap f l = Err e -> exists x, In x l /\ f x = Err e.
Proof. intro E. apply wmap_err in E as (a & x & b & _ & _ & -> & _ & Ex). exists x. split; [apply in_or_app; right; now left|exact Ex]. Qed.
Ltac werr_step E :=
  match type of E with
  | wbind _ _ = Err _ =>
      let a := fresh "a" in let l := fresh "l" in let Ea := fresh "Ea" in
      apply wbind_err in E as [E|(a & l & Ea & E)]
  | wret _ = Err _ => discriminate E
  | emit _ = Err _ => discriminate E
  | werr _ _ = Err _ => injection E as <- <-
  | wopt _ _ _ = Err _ => apply wopt_err in E as (E & -> & ->)
  end.

(** ** Lists *)
Lemma forallb_same {A} (f g : A -> bool) l : (forall x, f x = g x) -> forallb f l = forallb g l.
Proof. intro E. induction l; cbn; [reflexivity|]. now rewrite E, IHl. Qed.
Lemma twice_NoDup x p l : twice x p l -> ~ NoDup (map fst l).
Proof. intros (a & p0 & b & c & ->) N. rewrite map_app in N. cbn in N. apply NoDup_remove_2 in N. apply N. apply in_or_app. right. rewrite map_app. apply in_or_app. right. now left. Qed.
Lemma NoDup_twice {A} (x : A) a b c : ~ NoDup (a ++ x :: b ++ x :: c).
Proof. intro N. apply NoDup_remove_2 in N. apply N. apply in_or_app. right. apply in_or_app. right. now left. Qed.
Lemma first_duplicate_some l : forall seen x, first_duplicate seen (map fst l) = Some x ->
  (In x seen /\ In (x, nth (duplicate_index seen (map fst l)) (map snd l) no_place) l) \/ twice x (nth (duplicate_index seen (map fst l)) (map snd l) no_place) l.
Proof.
  induction l as [|[y p] l IH]; intros seen x; cbn; [discriminate|]. destruct (str_mem y seen) eqn:E.
  - intro Ex. injection Ex as ->. left. apply str_mem_In in E. auto.
  - intro Ex. destruct (IH _ _ Ex) as [[[->|Hs] Hl]|(a & p0 & b & c & El)].
    + right. apply in_split in Hl as (b & c & Hl). exists [], p, b, c. cbn [app]. now rewrite Hl at 1.
    + left. auto.
    + right. exists ((y, p) :: a), p0, b, c. cbn [app]. now rewrite El at 1.
Qed.
Lemma twice_app_l x p l m : twice x p l -> twice x p (l ++ m).
Proof. intros (a & p0 & b & c & ->). exists a, p0, b, (c ++ m). now rewrite <- app_assoc; cbn; rewrite <- app_assoc. Qed.
Lemma twice_app_r x p l m : twice x p m -> twice x p (l ++ m).
Proof. intros (a & p0 & b & c & ->). exists (l ++ a), p0, b, c. now rewrite <- app_assoc. Qed.
Lemma twice_two x p l m : In x (map fst l) -> In (x, p) m -> twice x p (l ++ m).
Proof. intros Hl Hm. apply in_map_iff in Hl as ([y p0] & E & Hl). cbn in E. subst y. apply in_split in Hl as (a & b & ->). apply in_split in Hm as (c & d & ->). exists a, p0, (b ++ c), d. now rewrite <- !app_assoc. Qed.
Lemma map_fst_combine {A B} (l : list A) (m : list B) : List.length l = List.length m -> map fst (combine l m) = l.
Proof. revert m. induction l as [|x l IH]; intros [|y m] E; try discriminate; [reflexivity|]. cbn in *. rewrite IH; [reflexivity|lia]. Qed.
Lemma map_snd_combine {A B} (l : list A) (m : list B) : List.length l = List.length m -> map snd (combine l m) = m.
Proof. revert m. induction l as [|x l IH]; intros [|y m] E; try discriminate; [reflexivity|]. cbn in *. rewrite IH; [reflexivity|lia]. Qed.
Lemma Forall2_combine {A B} (R : A -> B -> Prop) l m : Forall2 R l m -> forall x y, In (y, x) (combine m l) -> R x y.
Proof. induction 1 as [|x y l m Hr F IH]; intros x' y' Hi; [destruct Hi|]. destruct Hi as [E|Hi]; [injection E as <- <-; exact Hr|auto]. Qed.

Section Defects.
  Context `{Unicode} `{Floats}.

  (** ** JSON *)
  Lemma json_err t : forall e at_, walk_json_value t = Err (e, at_) -> bad_json t e at_.
  Proof.
    induction t as [| | |raw|raw|raw|l IH|o IH] using json_tree_ind'; intros e at_ E; cbn in E; try discriminate.
    - apply wopt_err in E as (E & -> & ->). constructor. intros j J. inversion J; congruence.
    - apply wopt_err in E as (E & -> & ->). constructor. intros j J. unfold parse_floating_point_literal in E. inversion J; subst; match goal with X : parse_float_text (w_text raw) = _ |- _ => rewrite X in E end; discriminate.
    - werr_step E; [|discriminate]. apply wmap_err_in in E as (x & Hx & Ex). rewrite Forall_forall in IH. econstructor; [exact Hx|]. now apply IH.
    - werr_step E; [|discriminate]. apply wmap_err_in in E as ([k x] & Hx & Ex). cbn in Ex. werr_step Ex; [|discriminate]. rewrite Forall_forall in IH. econstructor; [exact Hx|]. apply (IH (k, x) Hx). exact Ex.
  Qed.
  Lemma bad_json_means t e at_ : bad_json t e at_ -> forall j, ~ json_means t j.
  Proof.
    induction 1 as [raw Hr|raw Hr|l t e at_ Hi Hb IH|o k t e at_ Hi Hb IH]; intros j J; [exact (Hr _ J)|exact (Hr _ J)| |].
    - inversion J as [| | | | | | | | |l' js F|]; subst. destruct (Forall2_in_l _ _ _ _ F Hi) as (j & _ & Hj). exact (IH _ Hj).
    - inversion J as [| | | | | | | | | |o' pairs members F S A]; subst. destruct (Forall2_in_l _ _ _ _ F Hi) as (kj & _ & _ & Hj). exact (IH _ Hj).
  Qed.

  (** ** Annotations *)
  Lemma alias_err p l e at_ : wmap (walk_alias p) l = Err (e, at_) -> (e = BadAliases /\ at_ = p) /\ forall al, l <> map JStr al.
  Proof.
    intro E. destruct (wmap_err_in _ _ _ E) as (x & Hx & Ex). split.
    - unfold walk_alias in Ex. destruct x; try (now injection Ex as <- <-). destruct (forallb _ _); discriminate.
    - intros al ->. destruct (wmap_alias_ok p al) as (ev & Eo). congruence.
  Qed.
  Lemma property_err p sp a e at_ : walk_property (context_of p) sp a = Err (e, at_) -> bad_annotation p a e at_.
  Proof.
    intro E. unfold walk_property in E. werr_step E; [constructor 1; now apply json_err|]. apply walk_json_iff in Ea as [Hv ->]. destruct sp as [ns al ord ps].
    destruct (with_namespace (context_of p) && String.eqb (identifier_text (an_name a)) "namespace")%bool eqn:E1.
    { apply andb_true_iff in E1 as [E1 E2]. apply special_namespace in E1. apply String.eqb_eq in E2.
      destruct a0; try discriminate; injection E as <- <-; eapply ba_namespace; eauto; discriminate. }
    destruct (with_aliases (context_of p) && String.eqb (identifier_text (an_name a)) "aliases")%bool eqn:E2.
    { apply andb_true_iff in E2 as [E2 E3]. apply special_aliases in E2. apply String.eqb_eq in E3.
      destruct a0 as [| | | |l|]; try (injection E as <- <-; eapply ba_aliases; eauto; discriminate). werr_step E; [|discriminate]. apply alias_err in E as [[-> ->] E]. eapply ba_aliases; eauto. intros al' X. injection X as ->. exact (E al' eq_refl). }
    destruct (with_order (context_of p) && String.eqb (identifier_text (an_name a)) "order")%bool eqn:E3.
    { apply andb_true_iff in E3 as [E3 E4]. apply special_order in E3. apply String.eqb_eq in E4.
      destruct a0 as [| | |s| |]; try (injection E as <- <-; eapply ba_order; eauto; discriminate).
      destruct (same_chars (to_uppercase s) (chars "ASCENDING")) eqn:W1; [discriminate|]. destruct (same_chars (to_uppercase s) (chars "DESCENDING")) eqn:W2; [discriminate|]. destruct (same_chars (to_uppercase s) (chars "IGNORE")) eqn:W3; [discriminate|].
      injection E as <- <-. eapply ba_order; eauto. intros o s' X (w & Hw & Hf). injection X as <-. pose proof (word_uppercase _ _ (order_word_letters _ _ Hw) Hf) as K.
      destruct Hw as [X|[X|[X|[]]]]; injection X as <- <-; congruence. }
    destruct (str_mem (identifier_text (an_name a)) (reserved (context_of p))) eqn:E4; [|discriminate]. injection E as <- <-. apply str_mem_In in E4. apply ba_reserved. apply forbidden_reserved; [|exact E4].
    intro Hs. pose proof (special_cases _ _ Hs) as [X|[X|X]]; rewrite X in *.
    - apply special_namespace in Hs. rewrite Hs in E1. discriminate.
    - apply special_aliases in Hs. rewrite Hs in E2. discriminate.
    - apply special_order in Hs. rewrite Hs in E3. discriminate.
  Qed.
  Lemma properties_err p l e at_ : walk_schema_properties l (context_of p) = Err (e, at_) -> bad_annotations p l e at_.
  Proof.
    unfold walk_schema_properties. generalize (mkProperties None [] None []) as sp. induction l as [|a l IH]; intros sp E; cbn in E; [discriminate|].
    werr_step E; [exists a; split; [now left|]; eapply property_err; exact E|]. destruct (IH _ E) as (b & Hb & Hbb). exists b. split; [now right|exact Hbb].
  Qed.
  Lemma bad_acceptable p a e at_ : bad_annotation p a e at_ -> ~ acceptable p a.
  Proof.
    intros B A. pose proof (special_not_forbidden p (identifier_text (an_name a))) as Sf.
    destruct B as [e at_ B|v N S V B|v N S V B|v N S V B|R].
    - destruct (acceptable_means _ _ A) as (v & Hv). exact (bad_json_means _ _ _ B _ Hv).
    - destruct A as [v' A1 A2 A3|s A1 A2 A3|al A1 A2 A3|o s A1 A2 A3 A4]; try congruence. apply (B s). eapply json_means_det; eauto.
    - destruct A as [v' A1 A2 A3|s A1 A2 A3|al A1 A2 A3|o s A1 A2 A3 A4]; try congruence. apply (B al). eapply json_means_det; eauto.
    - destruct A as [v' A1 A2 A3|s A1 A2 A3|al A1 A2 A3|o s A1 A2 A3 A4]; try congruence. apply (B o s); [|exact A4]. eapply json_means_det; eauto.
    - destruct A as [v' A1 A2 A3|s A1 A2 A3|al A1 A2 A3|o s A1 A2 A3 A4]; [contradiction| | |]; rewrite A1 in *; exact (Sf A2 R).
  Qed.
  Lemma bad_annotations_acceptable p l e at_ : bad_annotations p l e at_ -> ~ Forall (acceptable p) l.
  Proof. intros (a & Ha & B) F. rewrite Forall_forall in F. exact (bad_acceptable _ _ _ _ B (F a Ha)). Qed.

  (** ** Types *)
  Lemma primitive_err k kp o ns e at_ : walk_primitive_type k = Err (e, at_) -> bad_plain ns (PtNullable (BPrimitive k kp) o) e at_.
  Proof.
    destruct k; cbn; try discriminate. unfold walk_decimal. intro E. werr_step E; [apply wopt_err in E as (E & -> & ->); constructor; congruence|]. apply wopt_ok in Ea as [Ep _].
    destruct (a =? 0)%N eqn:Ez; [injection E as <- <-; apply N.eqb_eq in Ez; subst; constructor; congruence|]. werr_step E.
    - destruct scale as [t|]; [|discriminate]. apply wopt_err in E as (E & -> & ->). constructor. now left.
    - destruct (a <? a0)%N eqn:El; [|discriminate]. injection E as <- <-. apply N.ltb_lt in El. destruct scale as [t|].
      + apply wopt_ok in Ea as [Es _]. constructor. right. eauto.
      + apply wret_ok in Ea as [-> _]. lia.
  Qed.
  Lemma nullable_err b o ns e at_ : walk_nullable_type b o ns = Err (e, at_) -> bad_plain ns (PtNullable b o) e at_.
  Proof.
    unfold walk_nullable_type. intro E. werr_step E; [destruct b; [now apply primitive_err|discriminate]|]. destruct o; [|discriminate].
    destruct a as [[]| | | | | | | | |]; try discriminate. injection E as <- <-. destruct b as [k kp|i sp].
    - destruct (prim_type_leaf _ _ _ Ea) as [_ _]. destruct k; cbn in Ea; try discriminate; [constructor|]. exfalso. unfold walk_decimal in Ea. winv Ea. destruct (a =? 0)%N; [discriminate|]. winv Ea. destruct (a <? a0)%N; [discriminate|]. winv Ea. discriminate.
    - destruct (reference_shape i sp ns) as (n & q & Er). rewrite Er in Ea. discriminate.
  Qed.
  Lemma branch_key s : union_type_key s = branch_name (class_of s).
  Proof. destruct s; cbn; rewrite ?fullname_make; reflexivity. Qed.
  Lemma union_class pl l p ns s ev : walk_full_type (FullType pl l p) ns = Ok (s, ev) -> (class_of s = BcUnion <-> union_type (FullType pl l p)).
  Proof.
    intro W. rewrite walk_full_eq in W. winv W. winv W. apply annotate_class in W. rewrite W. destruct p as [t|t|ts|b o].
    - cbn in E0. winv E0. winv E0. split; [discriminate|]. intros (pl' & l' & [(ts & X)|(b & X)]); discriminate.
    - cbn in E0. winv E0. winv E0. split; [discriminate|]. intros (pl' & l' & [(ts & X)|(b & X)]); discriminate.
    - rewrite walk_union_eq in E0. winv E0. apply check_union_ok in E0 as (-> & _). split; [intros _; exists pl, l; left; eauto|reflexivity].
    - apply (nullable_shape b o ns) in E0 as (_ & base & Hs & Hb). assert (Hc : class_of base <> BcUnion).
      { destruct Hb as [(k & kp & _ & Hk)|(i & sp & _ & ->)]; [destruct (prim_type_leaf _ _ _ Hk) as [_ [(p & ->)|(lt & ->)]]; discriminate|]. destruct (reference_shape i sp ns) as (n & q & ->). discriminate. }
      destruct Hs as [[-> ->]|(-> & -> & _)]; [split; [contradiction|intros (pl' & l' & [(ts & X)|(b' & X)]); discriminate]|]. split; [intros _; exists pl, l; right; eauto|reflexivity].
  Qed.
  Lemma is_union_class s : is_union s = true <-> class_of s = BcUnion.
  Proof. destruct s; cbn; split; congruence. Qed.
  Lemma Forall2_app_inv_l' {A B} (R : A -> B -> Prop) l m1 y m2 : Forall2 R l (m1 ++ y :: m2) -> exists l1 x l2, l = l1 ++ x :: l2 /\ Forall2 R l1 m1 /\ R x y /\ Forall2 R l2 m2.
  Proof. intro F. apply Forall2_app_inv_r in F as (l1 & l2 & F1 & F2 & ->). inversion F2; subst. eauto 8. Qed.
  Lemma Forall2_length {A B} (R : A -> B -> Prop) l m : Forall2 R l m -> List.length l = List.length m.
  Proof. induction 1; cbn; congruence. Qed.
  Lemma first_union (ss : list schema) : forall ts : list full_type, List.length ss = List.length ts -> existsb is_union ss = true ->
    exists s t, In (s, t) (combine ss ts) /\ is_union s = true /\ nth (union_index ss) (map full_place ts) no_place = full_place t.
  Proof.
    induction ss as [|s ss IH]; intros [|t ts] L E; try discriminate. cbn in E |- *. destruct (is_union s) eqn:Es; [exists s, t; auto|].
    destruct (IH ts) as (s' & t' & Hi & Hs & Hn); [cbn in L; lia|exact E|]. exists s', t'. auto.
  Qed.
  Lemma check_err ts ns ss evs e at_ : wmap (fun t => walk_full_type t ns) ts = Ok (ss, evs) -> check_union (map full_place ts) ss = Err (e, at_) -> bad_plain ns (PtUnion ts) e at_.
  Proof.
    intros W E. apply wmap_Forall2 in W. pose proof (Forall2_length _ _ _ W) as L. pose proof (Forall2_combine _ _ _ W) as C. unfold check_union in E. destruct (existsb is_union ss) eqn:Eu.
    - injection E as <- <-. destruct (first_union ss ts (eq_sym L) Eu) as (s & t & Hi & Es & ->). destruct (C _ _ Hi) as (ev & Hw). destruct t as [pl l p]. apply is_union_class in Es. apply (union_class _ _ _ _ _ _ Hw) in Es.
      eapply bp_nested; [|exact Es]. eapply in_combine_r. exact Hi.
    - destruct (first_duplicate [] (map union_type_key ss)) as [k|] eqn:Ed; [|discriminate]. injection E as <- <-.
      set (pairs := map (fun st => (union_type_key (fst st), full_place (snd st))) (combine ss ts)).
      assert (E1 : map union_type_key ss = map fst pairs) by (unfold pairs; rewrite map_map; cbn [fst]; rewrite <- (map_map fst union_type_key), map_fst_combine by congruence; reflexivity).
      assert (E2 : map full_place ts = map snd pairs) by (unfold pairs; rewrite map_map; cbn [snd]; rewrite <- (map_map snd full_place), map_snd_combine by congruence; reflexivity).
      rewrite E1 in *. rewrite E2. destruct (first_duplicate_some _ _ _ Ed) as [[[] _]|(a & p0 & b & c & Em)]. remember (nth _ _ _) as at_ eqn:Hat. clear Hat Ed E1 E2. unfold pairs in Em. clear pairs.
      assert (Ets : ts = map snd (combine ss ts)) by (now rewrite map_snd_combine). rewrite Ets. clear Ets L W.
      apply map_eq_app in Em as (sa & sr & Ec & <- & Em). apply map_eq_cons in Em as ([s t] & sr' & -> & Ek & Em). apply map_eq_app in Em as (sb & sr & -> & <- & Em). apply map_eq_cons in Em as ([s' t'] & sc & -> & Ek' & <-).
      cbn in Ek, Ek'. injection Ek as Ek _. injection Ek' as Ek' <-. rewrite Ec in *. rewrite map_app. cbn [map snd]. rewrite map_app. cbn [map snd].
      destruct (C t s) as (ev & Ht); [apply in_or_app; right; now left|]. destruct (C t' s') as (ev' & Ht'); [apply in_or_app; right; right; apply in_or_app; right; now left|].
      eapply bp_duplicate; [eapply (proj1 walk_denotes); exact Ht|eapply (proj1 walk_denotes); exact Ht'|rewrite <- Ek; symmetry; apply branch_key|rewrite <- Ek'; symmetry; apply branch_key].
  Qed.
  Lemma reference_plain p ns s ev : walk_plain_type p ns = Ok (s, ev) -> is_type_reference s = true -> is_reference p.
  Proof.
    intros W R. destruct p as [t|t|ts|b o].
    - cbn in W. winv W. winv W. discriminate.
    - cbn in W. winv W. winv W. discriminate.
    - rewrite walk_union_eq in W. winv W. apply check_union_ok in W as (-> & _). destruct a as [|x [|y [|z r']]]; discriminate.
    - destruct b as [k kp|i sp]; [|exists i, sp, o; reflexivity]. exfalso. apply (nullable_shape (BPrimitive k kp) o ns) in W as (_ & base & Hs & Hb). destruct Hb as [(k' & kp' & _ & Hk)|(i & sp & X & _)]; [|discriminate].
      destruct (prim_type_leaf _ _ _ Hk) as [_ [(p & ->)|(lt & ->)]]; destruct Hs as [[_ ->]|(_ & -> & _)]; discriminate.
  Qed.
  Lemma type_err :
    (forall t ns e at_, walk_full_type t ns = Err (e, at_) -> bad_type ns t e at_) /\ (forall p ns e at_, walk_plain_type p ns = Err (e, at_) -> bad_plain ns p e at_).
  Proof.
    apply types_ind.
    - intros pl l p IH ns e at_ E. rewrite walk_full_eq in E. werr_step E; [constructor; now apply (properties_err OnType)|]. werr_step E; [constructor 2; auto|].
      unfold annotate_type in E. destruct (sp_props a) as [|kv r] eqn:Ep; [discriminate|]. destruct (is_type_reference a0) eqn:Er; [|werr_step E; destruct (is_non_nullable_union a0); discriminate].
      injection E as <- <-. constructor 3.
      + intros ->. cbn in Ea. injection Ea as <- _. discriminate.
      + eapply reference_plain; eauto.
    - intros t IH ns e at_ E. cbn in E. werr_step E; [|discriminate]. constructor. auto.
    - intros t IH ns e at_ E. cbn in E. werr_step E; [|discriminate]. constructor. auto.
    - intros ts IH ns e at_ E. rewrite walk_union_eq in E. werr_step E; [|eapply check_err; eauto]. apply wmap_err_in in E as (t & Ht & E). rewrite Forall_forall in IH. econstructor; [exact Ht|]. now apply IH.
    - intros b o ns e at_ E. now apply nullable_err.
  Qed.

  (** ** The class of a type, and the defaults it takes, depend on the tree only. *)
  Definition alike (s s' : schema) : Prop := class_of s = class_of s' /\ forall j, is_valid_default j s = is_valid_default j s'.
  Lemma class_default s p : class_of s = BcPrimitive p -> forall j, is_valid_default j s = is_valid_prim_default j p.
  Proof. intros E j. destruct s as [| | | | | | | |lt| ]; try discriminate; cbn in E; injection E as <-; reflexivity. Qed.
  Lemma annotated_alike l s s' : annotated_as l s s' -> alike s s'.
  Proof.
    intro A. split; [symmetry; eapply annotated_class_of; exact A|]. induction A as [s Hl|s s' A IH|ts|s s' S _|p q ps]; intro j; try reflexivity.
    - cbn. now rewrite IH.
    - destruct S as [s t p E E'|i ps ps'|i ps ps']; [|reflexivity..]. now rewrite (class_default _ _ E), (class_default _ _ E').
  Qed.
  Lemma alike_trans s1 s2 s3 : alike s1 s2 -> alike s2 s3 -> alike s1 s3.
  Proof. intros [A B] [C D]. split; [congruence|]. intro j. now rewrite B. Qed.
  Lemma alike_sym s s' : alike s s' -> alike s' s.
  Proof. intros [A B]. split; [congruence|]. intro j. now rewrite B. Qed.
  Lemma alike_refl s : alike s s.
  Proof. split; reflexivity. Qed.
  Lemma base_det b ns s s' : denotes_plain ns (PtNullable b false) s -> denotes_plain ns (PtNullable b false) s' -> s = s'.
  Proof. intros D D'. apply base_accepts in D, D'. rewrite D in D'. now injection D' as ->. Qed.
  Lemma union_alike ss ss' b b' : Forall2 alike ss ss' -> alike (SUnion ss b) (SUnion ss' b').
  Proof.
    intro F. split; [reflexivity|]. intro j. cbn. assert (E : existsb (fun t => is_valid_default j t) ss = existsb (fun t => is_valid_default j t) ss').
    { induction F as [|x y l l' [_ D] F IH]; [reflexivity|]. cbn. now rewrite D, IH. }
    destruct F; [reflexivity|exact E].
  Qed.
  Lemma denotes_alike :
    (forall t ns s s', denotes ns t s -> denotes ns t s' -> alike s s') /\ (forall p ns s s', denotes_plain ns p s -> denotes_plain ns p s' -> alike s s').
  Proof.
    apply types_ind.
    - intros pl l p IH ns s s' D D'. inversion D as [pl1 l1 p1 b b1 P _ _ A]; inversion D' as [pl2 l2 p2 b' b2 P' _ _ A']; subst.
      eapply alike_trans; [apply alike_sym; eapply annotated_alike; exact A|]. eapply alike_trans; [|eapply annotated_alike; exact A']. eapply IH; eauto.
    - intros t IH ns s s' D D'. inversion D; inversion D'; subst. match goal with X : denotes ns t ?a, Y : denotes ns t ?b |- alike (SArray ?a _) (SArray ?b _) => destruct (IH _ _ _ X Y) as [_ K] end.
      split; [reflexivity|]. intro j. cbn. destruct j as [| | | |l|]; try reflexivity. apply forallb_same. intro. apply K.
    - intros t IH ns s s' D D'. inversion D; inversion D'; subst. match goal with X : denotes ns t ?a, Y : denotes ns t ?b |- alike (SMap ?a _) (SMap ?b _) => destruct (IH _ _ _ X Y) as [_ K] end.
      split; [reflexivity|]. intro j. cbn. destruct j as [| | | | |o]; try reflexivity. apply forallb_same. intro. apply K.
    - intros ts IH ns s s' D D'. inversion D as [| | | | | | | |x ss F _]; inversion D' as [| | | | | | | |x' ss' F' _]; subst. apply union_alike. clear D D'.
      revert ss ss' F F'. induction IH as [|t ts It Its IH]; intros ss ss' F F'; inversion F; inversion F'; subst; constructor; eauto.
    - intros b o ns s s' D D'. destruct o; [|rewrite (base_det _ _ _ _ D D'); apply alike_refl].
      inversion D as [| | | | |b1 x P _| | |]; inversion D' as [| | | | |b2 x' P' _| | |]; subst. rewrite (base_det _ _ _ _ P P'). apply alike_refl.
  Qed.

  (** ** A type that is accepted has no defect. *)
  Lemma nullable_fine b o ns s ev : walk_nullable_type b o ns = Ok (s, ev) -> forall e at_, ~ bad_plain ns (PtNullable b o) e at_.
  Proof.
    intros W e at_ B. unfold walk_nullable_type in W. inversion B; subst.
    - cbn in W. discriminate.
    - cbn in W. unfold walk_decimal in W. winv W. winv E. apply wopt_ok in E0 as [E0 _]. match goal with X : forall n, _ |- _ => rewrite (X _ E0) in E end. discriminate.
    - cbn in W. unfold walk_decimal in W. winv W. winv E. apply wopt_ok in E0 as [E0 _]. destruct (a0 =? 0)%N; [discriminate|]. winv E. apply wopt_ok in E1 as [E1 _].
      match goal with X : _ \/ _ |- _ => destruct X as [X|(n & m & X & Y & K)]; [congruence|] end. assert (n = a0) as -> by congruence. assert (m = a1) as -> by congruence. apply N.ltb_lt in K. rewrite K in E. discriminate.
  Qed.
  Lemma type_fine :
    (forall t ns s ev, walk_full_type t ns = Ok (s, ev) -> forall e at_, ~ bad_type ns t e at_) /\
    (forall p ns s ev, walk_plain_type p ns = Ok (s, ev) -> forall e at_, ~ bad_plain ns p e at_).
  Proof.
    apply types_ind.
    - intros pl l p IH ns s ev W e at_ B. pose proof (proj1 walk_denotes _ _ _ _ W) as D. inversion D as [pl1 l1 p1 b b1 P Ac R A]; subst. rewrite walk_full_eq in W. winv W. winv W.
      inversion B as [pl' l' p' e' at' Ba|pl' l' p' e' at' Bp|pl' l' p' Hl Hr]; subst; [exact (bad_annotations_acceptable _ _ _ _ Ba Ac)|exact (IH _ _ _ E0 _ _ Bp)|]. exact (Hl (R Hr)).
    - intros t IH ns s ev W e at_ B. cbn in W. winv W. inversion B; subst. eapply IH; eauto.
    - intros t IH ns s ev W e at_ B. cbn in W. winv W. inversion B; subst. eapply IH; eauto.
    - intros ts IH ns s ev W e at_ B. rewrite walk_union_eq in W. winv W. rename a into ss. apply wmap_Forall2 in E. rewrite Forall_forall in IH. pose proof W as C. unfold check_union in C.
      destruct (existsb is_union ss) eqn:Eu; [discriminate|]. destruct (first_duplicate [] (map union_type_key ss)) as [k|] eqn:Ed; [discriminate|]. apply first_duplicate_none in Ed as [Nd _].
      inversion B as [| |ts' t e' at' Ht Bt|ts' t Ht Ut|a t b t' c s1 s2 k D1 D2 K1 K2 Q1 Q2| | |]; subst.
      + destruct (Forall2_in_l _ _ _ _ E Ht) as (x & _ & ev & Hx). exact (IH _ Ht _ _ _ Hx _ _ Bt).
      + destruct (Forall2_in_l _ _ _ _ E Ht) as (x & Hi & ev & Hx). destruct t as [pla la pa]. apply (union_class _ _ _ _ _ _ Hx) in Ut. apply is_union_class in Ut.
        assert (X : existsb is_union ss = true) by (apply existsb_exists; eauto). congruence.
      + apply Forall2_app_inv_l in E as (xa & xr & _ & E & ->). inversion E as [|? x1 ? xr' (ev1 & W1) E']; subst. apply Forall2_app_inv_l in E' as (xb & xr & _ & E' & ->). inversion E' as [|? x2 ? xr' (ev2 & W2) E2]; subst.
        apply (proj1 walk_denotes) in W1, W2. destruct (proj1 denotes_alike _ _ _ _ D1 W1) as [C1 _]. destruct (proj1 denotes_alike _ _ _ _ D2 W2) as [C2 _].
        revert Nd. rewrite map_app. cbn [map]. rewrite map_app. cbn [map]. rewrite !branch_key, <- C1, <- C2, K2. apply NoDup_twice.
    - intros b o ns s ev W. eapply nullable_fine. exact W.
  Qed.

  (** ** Variables *)
  Context (tokens : list token).
  Lemma doc_err start e : walk_doc tokens start <> Err e.
  Proof. unfold walk_doc. destruct (extract_doc_comment tokens start) as [[i d]|]; discriminate. Qed.
  Ltac werr E := werr_step E; [try (exfalso; exact (doc_err _ _ E))|].

  Lemma variable_err ns ft v ty ev dd e at_ : walk_full_type ft ns = Ok (ty, ev) -> walk_variable tokens v ty dd = Err (e, at_) -> bad_variable ns ft v e at_.
  Proof.
    intros W E. unfold walk_variable in E. werr E. werr E; [constructor; now apply (properties_err OnField)|]. werr E.
    - destruct (v_default v) as [d|] eqn:Ed; [|discriminate]. werr E; [|discriminate]. eapply bv_json; [exact Ed|]. now apply json_err.
    - destruct (v_default v) as [d|] eqn:Ed.
      + winv Ea1. winv Ea1. apply walk_json_iff in E0 as [Hj _]. destruct (validate_default _ _) as [m|] eqn:Ev; [|discriminate]. injection E as <- <-.
        eapply bv_default; [exact Ed|exact Hj| |].
        * eapply variable_typed; [exact W| |reflexivity]. right. eauto.
        * destruct (is_valid_default _ _) eqn:Ei; [|reflexivity]. rewrite (validate_default_valid _ _ Ei) in Ev. discriminate.
      + winv Ea1. discriminate.
  Qed.
  Lemma variable_alike ns v ft s s' : variable_type ns v ft s -> variable_type ns v ft s' -> alike s s'.
  Proof.
    intros D D'. destruct D as [pl l b s D N|pl l b s D N|pl l p s N D]; inversion D' as [pl' l' b' s1 D1 N1|pl' l' b' s1 D1 N1|pl' l' p' s1 N1 D1]; subst; try contradiction; try (now destruct (N1 b)); try (now destruct (N b')).
    - apply union_alike. repeat constructor; try reflexivity; apply (proj1 denotes_alike _ _ _ _ D D1).
    - apply union_alike. repeat constructor; try reflexivity; apply (proj1 denotes_alike _ _ _ _ D D1).
    - exact (proj1 denotes_alike _ _ _ _ D D1).
  Qed.
  Lemma variable_fine ns ft v ty ev dd f evs e at_ : walk_full_type ft ns = Ok (ty, ev) -> walk_variable tokens v ty dd = Ok (f, evs) -> ~ bad_variable ns ft v e at_.
  Proof.
    intros W V B. pose proof (variable_acceptable _ _ _ _ _ _ V) as Ac. apply walk_variable_spec in V as (d & _ & Hs & _ & _ & Hd & Hv & _).
    destruct B as [e at_ B|t e at_ Ht B|t j s Ht Hj Hty Hf].
    - exact (bad_annotations_acceptable _ _ _ _ B Ac).
    - destruct Hd as [[X _]|(t' & j & X & _ & Hj)]; [congruence|]. rewrite Ht in X. injection X as <-. exact (bad_json_means _ _ _ B _ Hj).
    - pose proof (variable_typed _ _ _ _ _ _ _ W Hd Hs) as Hty'. destruct Hd as [[X _]|(t' & j' & X & X' & Hj')]; [congruence|]. rewrite Ht in X. injection X as <-.
      assert (j' = j) by (eapply json_means_det; eauto). subst j'. destruct (variable_alike _ _ _ _ _ Hty Hty') as [_ K]. rewrite K in Hf. destruct (validate_default_some _ _ Hf) as (m & Em). rewrite (Hv _ X') in Em. discriminate.
  Qed.
  Lemma field_err f ns e at_ : walk_field_declaration tokens f ns = Err (e, at_) -> bad_field ns f e at_.
  Proof.
    intro E. unfold walk_field_declaration in E. werr E. werr E; [constructor; now apply type_err|]. apply wmap_err_in in E as (v & Hv & E). eapply bf_variable; [exact Hv|]. eapply variable_err; eauto.
  Qed.
  Lemma field_fine f ns fs ev e at_ : walk_field_declaration tokens f ns = Ok (fs, ev) -> ~ bad_field ns f e at_.
  Proof.
    intros W B. unfold walk_field_declaration in W. winv W. winv W. apply wmap_Forall2 in W. destruct B as [e at_ B|v e at_ Hv B]; [exact (proj1 type_fine _ _ _ _ E0 _ _ B)|].
    destruct (Forall2_in_l _ _ _ _ W Hv) as (x & _ & ev' & Hx). eapply variable_fine; eauto.
  Qed.
  Lemma field_names f ns fs ev : walk_field_declaration tokens f ns = Ok (fs, ev) -> map f_name fs = map (fun v => identifier_text (v_ident v)) (fd_variables f).
  Proof.
    intro W. unfold walk_field_declaration in W. winv W. winv W. apply wmap_Forall2 in W. induction W as [|v x la la' (e & Hx) W IH]; [reflexivity|].
    cbn. f_equal; [|exact IH]. apply walk_variable_spec in Hx as (d & Hn & _). exact Hn.
  Qed.
  Definition names_of (l : list field_decl) : list string := map (fun dv => identifier_text (v_ident (snd dv))) (variables_of l).
  Definition places_of (l : list field_decl) : list (string * span) := map (fun dv => spelt (v_ident (snd dv))) (variables_of l).
  Lemma names_places l : names_of l = map fst (places_of l).
  Proof. unfold names_of, places_of. now rewrite map_map. Qed.
  Lemma places_cons f l : places_of (f :: l) = map (fun v => spelt (v_ident v)) (fd_variables f) ++ places_of l.
  Proof. unfold places_of. cbn. rewrite map_app, map_map. reflexivity. Qed.
  Lemma fields_err l : forall seen ns e at_, walk_fields tokens seen l ns = Err (e, at_) ->
    (exists f, In f l /\ bad_field ns f e at_) \/ exists x, e = DuplicateField x /\ (In x seen /\ In (x, at_) (places_of l) \/ twice x at_ (places_of l)).
  Proof.
    induction l as [|f l IH]; intros seen ns e at_ E; cbn in E; [discriminate|]. werr E; [left; exists f; split; [now left|now apply field_err]|]. rename a into fs.
    pose proof (field_names _ _ _ _ Ea) as N. rewrite places_cons. set (pairs := map (fun v => spelt (v_ident v)) (fd_variables f)).
    assert (E1 : map f_name fs = map fst pairs) by (unfold pairs; rewrite N, map_map; reflexivity).
    assert (E2 : map (fun v => w_place (v_ident v)) (fd_variables f) = map snd pairs) by (unfold pairs; rewrite map_map; reflexivity).
    rewrite E1, E2 in E. clear N E2. destruct (first_duplicate seen (map fst pairs)) as [x|] eqn:Ed.
    - injection E as <- <-. right. exists x. split; [reflexivity|]. destruct (first_duplicate_some _ _ _ Ed) as [[A B]|T]; [left; split; [exact A|]; apply in_or_app; now left|right; now apply twice_app_l].
    - werr E; [|discriminate]. destruct (IH _ _ _ _ E) as [(g & Hg & Bg)|(x & -> & K)]; [left; exists g; split; [now right|exact Bg]|]. right. exists x. split; [reflexivity|].
      destruct K as [[A B]|T]; [|right; now apply twice_app_r]. apply in_app_or in A as [A|A]; [right; now apply twice_two|]. left. split; [exact A|]. apply in_or_app. now right.
  Qed.
  Lemma fields_fine l : forall seen ns fs ev, walk_fields tokens seen l ns = Ok (fs, ev) -> forall f e at_, In f l -> ~ bad_field ns f e at_.
  Proof.
    induction l as [|f l IH]; intros seen ns fs ev W g e at_ Hg; [destruct Hg|]. cbn in W. winv W. destruct (first_duplicate _ _); [discriminate|]. winv W.
    destruct Hg as [<-|Hg]; [eapply field_fine; eauto|eapply IH; eauto].
  Qed.

  (** ** Named types *)
  Lemma invalid_in n : is_invalid_type_name n = true -> In n type_words.
  Proof.
    unfold is_invalid_type_name. intro E. destruct (prim_of_str n) as [p|] eqn:Ep.
    - unfold prim_of_str in Ep. unfold type_words. clear E. repeat (match type of Ep with (if String.eqb n ?w then _ else _) = _ => destruct (String.eqb_spec n w) as [->|_]; [cbn; tauto|] end). discriminate.
    - apply str_mem_In in E. unfold INVALID_LOGICAL_TYPE_NAMES in E. unfold type_words. do 8 right. exact E.
  Qed.
  Lemma extracted_name i : simple_name i (extract_name (identifier_text i)).
  Proof.
    unfold extract_name, split_full_name, simple_name. destruct (rsplit_once_dot (identifier_text i)) as [[q n]|] eqn:E; cbn; [left; exists q; now apply rsplit_qualified|right]. apply rsplit_None in E. auto.
  Qed.
  Lemma simple_det i n m : simple_name i n -> simple_name i m -> n = m.
  Proof.
    intros [(q & A)|[A ->]] [(q' & B)|[B ->]]; [apply rsplit_qualified in A, B; congruence| | |reflexivity].
    - apply rsplit_qualified in A. apply rsplit_None in B. congruence.
    - apply rsplit_qualified in B. apply rsplit_None in A. congruence.
  Qed.
  Lemma declares_simple i l ns n q : declares i l ns n q -> simple_name i n.
  Proof. intros [q' n' A|s A _|A _]; [left; eauto|right; auto..]. Qed.
  Lemma declares_det i l ns n q n' q' : declares i l ns n q -> declares i l ns n' q' -> n = n' /\ q = q'.
  Proof.
    intros D1 D2'. inversion D1 as [r a Q1|s Q1 A1|Q1 A1]; inversion D2' as [r' a' Q2|s' Q2 A2|Q2 A2]; subst; auto; try congruence.
    - apply rsplit_qualified in Q1, Q2. split; congruence.
    - apply rsplit_qualified in Q1. apply rsplit_None in Q2. congruence.
    - apply rsplit_qualified in Q1. apply rsplit_None in Q2. congruence.
    - apply rsplit_qualified in Q2. apply rsplit_None in Q1. congruence.
    - pose proof (annotated_det _ _ _ _ A1 A2) as E. injection E as ->. auto.
    - exfalso. apply A2. eapply annotated_mentioned; eauto.
    - apply rsplit_qualified in Q2. apply rsplit_None in Q1. congruence.
    - exfalso. apply A1. eapply annotated_mentioned; eauto.
  Qed.
  Lemma inner_namespace (q ns : option string) : match opt_or q ns with Some _ => opt_or q ns | None => ns end = opt_or q ns.
  Proof. destruct q, ns; reflexivity. Qed.

  Lemma named_err d ns e at_ : walk_named tokens d ns = Err (e, at_) -> bad_named ns d e at_.
  Proof.
    destruct d as [r|en|x]; cbn; intro E.
    - unfold walk_record in E. werr E. werr E; [constructor; now apply (properties_err OnRecord)|].
      destruct (is_invalid_type_name _) eqn:Ei; [injection E as <- <-; apply bn_name; [apply extracted_name|now apply invalid_in]|].
      pose proof (compute_declares OnRecord (r_ident r) _ ns _ _ (or_introl eq_refl) Ea0) as D. cbv zeta in E. rewrite inner_namespace in E. werr E; [|discriminate].
      destruct (fields_err _ _ _ _ _ E) as [(f & Hf & Bf)|(y & -> & [[[] _]|T])]; [eapply bn_field; eauto|]. now apply bn_fields.
    - unfold walk_enum in E. werr E. werr E; [constructor; now apply (properties_err OnEnum)|].
      destruct (is_invalid_type_name _) eqn:Ei; [injection E as <- <-; apply bn_name; [apply extracted_name|now apply invalid_in]|]. cbv zeta in E.
      rewrite <- (map_map spelt fst), <- (map_map spelt snd) in E. destruct (first_duplicate [] (map fst _)) as [y|] eqn:Ed; [injection E as <- <-; destruct (first_duplicate_some _ _ _ Ed) as [[[] _]|T]; now apply bn_symbols|].
      destruct (e_default en) as [y|] eqn:Edf; [|discriminate]. destruct (str_mem _ _) eqn:Em; [discriminate|]. injection E as <- <-. apply bn_default; [exact Edf|]. intro Hi. apply str_mem_In in Hi. rewrite map_map in Em. unfold symbols_of in Hi. cbn [spelt fst] in Em. congruence.
    - unfold walk_fixed in E. werr E. werr E; [constructor; now apply (properties_err OnFixed)|].
      destruct (is_invalid_type_name _) eqn:Ei; [injection E as <- <-; apply bn_name; [apply extracted_name|now apply invalid_in]|]. cbv zeta in E. werr E; [|discriminate].
      apply wopt_err in E as (E & -> & ->). now constructor.
  Qed.
  Lemma variable_names ns l fs : Forall2 (fun dv f => variable_denotes tokens ns (fd_type (fst dv)) (fd_start (fst dv)) (snd dv) f) (variables_of l) fs -> map f_name fs = names_of l.
  Proof. unfold names_of. induction 1 as [|x y m m' V F IH]; [reflexivity|]. cbn. f_equal; [apply (vd_name _ _ _ _ _ _ V)|exact IH]. Qed.
  Lemma header_fine ns d n q doc al ps : named_header tokens ns d n q doc al ps ->
    (forall e at_, ~ bad_annotations (named_place d) (named_annotations d) e at_) /\ (forall m, simple_name (named_ident d) m -> ~ In m type_words).
  Proof.
    intros [D W _ A _ _]. split; [intros e at_ B; exact (bad_annotations_acceptable _ _ _ _ B A)|]. intros m S. rewrite (simple_det _ _ _ S (declares_simple _ _ _ _ _ D)). exact W.
  Qed.
  Lemma named_fine d ns s ev e at_ : walk_named tokens d ns = Ok (s, ev) -> ~ bad_named ns d e at_.
  Proof.
    intros W B. pose proof (walk_named_denotes _ _ _ _ _ W) as D. destruct B as [d e at_ B|d n S I|r n q f e at_ Dr Hf B|r x at_ T|en x at_ T|en x Ed Ni|x Sz].
    - destruct D as [r n q doc al ps fs Hh _ _|en n q doc al ps Hh _ _|x n q doc al ps sz Hh _]; eapply (proj1 (header_fine _ _ _ _ _ _ _ Hh)); exact B.
    - destruct D as [r n' q doc al ps fs Hh _ _|en n' q doc al ps Hh _ _|x n' q doc al ps sz Hh _]; exact (proj2 (header_fine _ _ _ _ _ _ _ Hh) _ S I).
    - cbn in W. unfold walk_record in W. winv W. winv W. destruct (is_invalid_type_name _); [discriminate|]. cbv zeta in W. rewrite inner_namespace in W. winv W.
      pose proof (compute_declares OnRecord (r_ident r) _ ns _ _ (or_introl eq_refl) E0) as D'. destruct (declares_det _ _ _ _ _ _ _ Dr D') as [_ ->]. eapply fields_fine; eauto.
    - inversion D as [r' n q doc al ps fs Hh F N| |]; subst. rewrite (variable_names _ _ _ F), names_places in N. exact (twice_NoDup _ _ _ T N).
    - inversion D as [|e' n q doc al ps Hh N Df|]; subst. apply twice_NoDup in T. rewrite map_map in T. exact (T N).
    - inversion D as [|e' n q doc al ps Hh N Df|]; subst. exact (Ni (Df _ Ed)).
    - inversion D; subst; congruence.
  Qed.

  (** ** Messages *)
  Lemma parameters_err l : forall seen ns e at_, walk_parameters tokens seen l ns = Err (e, at_) ->
    (exists pa, In pa l /\ (bad_type ns (pa_type pa) e at_ \/ bad_variable ns (pa_type pa) (pa_variable pa) e at_)) \/
    exists x, e = DuplicateParameter x /\ let names := map (fun pa => (identifier_text (v_ident (pa_variable pa)), full_place (pa_type pa))) l in In x seen /\ In (x, at_) names \/ twice x at_ names.
  Proof.
    induction l as [|pa l IH]; intros seen ns e at_ E; cbn in E; [discriminate|]. werr E. werr E; [left; exists pa; split; [now left|left; now apply type_err]|].
    werr E; [left; exists pa; split; [now left|right; eapply variable_err; eauto]|]. apply walk_variable_spec in Ea1 as (d & Hn & _). cbn [map]. rewrite <- Hn.
    destruct (str_mem (f_name a1) seen) eqn:Em.
    - injection E as <- <-. right. apply str_mem_In in Em. exists (f_name a1). split; [reflexivity|]. left. split; [exact Em|now left].
    - werr E; [|discriminate]. destruct (IH _ _ _ _ E) as [(g & Hg & Bg)|(x & -> & K)]; [left; exists g; split; [now right|exact Bg]|]. right. exists x. split; [reflexivity|]. cbv zeta in K |- *.
      destruct K as [[[->|A] B]|T]; [|left; split; [exact A|now right]|].
      + right. apply in_split in B as (b & c & ->). eexists [], _, b, c. reflexivity.
      + right. destruct T as (a' & p0 & b & c & ->). eexists (_ :: a'), p0, b, c. reflexivity.
  Qed.
  Lemma parameters_fine l : forall seen ns fs ev, walk_parameters tokens seen l ns = Ok (fs, ev) ->
    forall pa e at_, In pa l -> ~ bad_type ns (pa_type pa) e at_ /\ ~ bad_variable ns (pa_type pa) (pa_variable pa) e at_.
  Proof.
    induction l as [|p l IH]; intros seen ns fs ev W pa e at_ Hp; [destruct Hp|]. cbn in W. winv W. winv W. winv W. destruct (str_mem _ _); [discriminate|]. winv W.
    destruct Hp as [<-|Hp]; [|eapply IH; eauto]. split; [now apply (proj1 type_fine _ _ _ _ E0)|]. eapply variable_fine; eauto.
  Qed.
  Lemma null_plain ns p s ev : walk_plain_type p ns = Ok (s, ev) -> is_null_schema s = true <-> exists sp, p = PtNullable (BPrimitive KNull sp) false.
  Proof.
    intro W. split.
    - intro N. destruct s as [[]| | | | | | | | |]; try discriminate. clear N. destruct p as [t|t|ts|b o].
      + cbn in W. winv W. unfold wret in W. congruence.
      + cbn in W. winv W. unfold wret in W. congruence.
      + rewrite walk_union_eq in W. winv W. apply check_union_ok in W as (X & _). discriminate.
      + pose proof (nullable_denotes _ _ _ _ _ W) as D. inversion D as [|k kp Hk Hd| | | | | | |]; subst. destruct k; try discriminate. eauto.
    - intros (sp & ->). cbn in W. now injection W as <- _.
  Qed.
  Lemma message_err m ns e at_ : walk_message tokens m ns = Err (e, at_) -> bad_message ns m e at_.
  Proof.
    intro E. unfold walk_message in E. werr E. werr E; [constructor; now apply (properties_err OnMessage)|]. werr E.
    { destruct (md_result m) as [p|] eqn:Er; [|discriminate]. eapply bm_result; [exact Er|]. now apply type_err. }
    destruct (negb _ && is_type_reference a1)%bool eqn:Ec.
    { injection E as <- <-. apply andb_true_iff in Ec as [Ec Ec2]. destruct (md_result m) as [p|] eqn:Er; [|cbn in Ea1; injection Ea1 as <- _; discriminate].
      eapply bm_reference; [exact Er|eapply reference_plain; eauto|]. intro X. rewrite X in Ea0. cbn in Ea0. injection Ea0 as <- _. discriminate. }
    werr E.
    { destruct (parameters_err _ _ _ _ _ E) as [(pa & Hp & [B|B])|(x & -> & [[[] _]|T])]; [eapply bm_type; eauto|eapply bm_parameter; eauto|now apply bm_parameters]. }
    destruct (md_oneway m && negb (is_null_schema a1))%bool eqn:Eo; [|discriminate]. injection E as <- <-. apply andb_true_iff in Eo as [Eo En]. apply negb_true_iff in En.
    destruct (md_result m) as [p|] eqn:Er; [|cbn in Ea1; injection Ea1 as <- _; discriminate]. eapply bm_oneway; [exact Eo|exact Er|]. intros sp X. assert (K : is_null_schema a1 = true) by (apply (null_plain _ _ _ _ Ea1); eauto). congruence.
  Qed.
  Lemma message_fine m ns nm ev e at_ : walk_message tokens m ns = Ok (nm, ev) -> ~ bad_message ns m e at_.
  Proof.
    intros W B. pose proof (walk_message_denotes _ _ _ _ _ W) as D. unfold walk_message in W. winv W. winv W. winv W. destruct (negb _ && _)%bool; [discriminate|]. winv W.
    destruct (md_oneway m && negb (is_null_schema a1))%bool eqn:Eo; [discriminate|].
    destruct B as [e at_ B|p e at_ Er B|p Er R A|pa e at_ Hp B|pa e at_ Hp B|x at_ T|p O Er Np].
    - exact (bad_annotations_acceptable _ _ _ _ B (me_acceptable _ _ _ _ D)).
    - rewrite Er in E1. exact (proj2 type_fine _ _ _ _ E1 _ _ B).
    - exact (A (me_not_annotated _ _ _ _ D _ Er R)).
    - exact (proj1 (parameters_fine _ _ _ _ _ E2 _ _ _ Hp) B).
    - exact (proj2 (parameters_fine _ _ _ _ _ E2 _ _ _ Hp) B).
    - pose proof (me_distinct _ _ _ _ D) as N. pose proof (me_request _ _ _ _ D) as F.
      assert (X : map f_name (m_request (snd nm)) = map (fun pa => identifier_text (v_ident (pa_variable pa))) (md_parameters m)).
      { clear -F. induction F as [|x y l l' V F IH]; [reflexivity|]. cbn. f_equal; [apply (vd_name _ _ _ _ _ _ V)|exact IH]. }
      rewrite X in N. apply twice_NoDup in T. rewrite map_map in T. exact (T N).
    - rewrite O in Eo. cbn in Eo. apply negb_false_iff in Eo. rewrite Er in E1. apply (null_plain _ _ _ _ E1) in Eo as (sp & Eo). exact (Np sp Eo).
  Qed.

  (** ** Files *)
  Lemma items_err l : forall ns e at_, walk_items tokens l ns = Err (e, at_) -> (exists d p, In (ItNamed d p) l /\ bad_named ns d e at_) \/ exists m, In (ItMessage m) l /\ bad_message ns m e at_.
  Proof.
    induction l as [|it l IH]; intros ns e at_ E; [discriminate|]. destruct it as [k path p|d p|m]; cbn in E.
    - werr E; [|discriminate]. destruct (IH _ _ _ E) as [(d & p' & Hi & B)|(m & Hi & B)]; [left; exists d, p'; split; [now right|exact B]|right; exists m; split; [now right|exact B]].
    - werr E; [left; exists d, p; split; [now left|now apply named_err]|]. werr E; [|discriminate].
      destruct (IH _ _ _ E) as [(d' & p' & Hi & B)|(m & Hi & B)]; [left; exists d', p'; split; [now right|exact B]|right; exists m; split; [now right|exact B]].
    - werr E; [right; exists m; split; [now left|now apply message_err]|]. werr E; [|discriminate].
      destruct (IH _ _ _ E) as [(d' & p' & Hi & B)|(m' & Hi & B)]; [left; exists d', p'; split; [now right|exact B]|right; exists m'; split; [now right|exact B]].
  Qed.
  Lemma items_fine l : forall ns r ev, walk_items tokens l ns = Ok (r, ev) ->
    (forall d p e at_, In (ItNamed d p) l -> ~ bad_named ns d e at_) /\ (forall m e at_, In (ItMessage m) l -> ~ bad_message ns m e at_).
  Proof.
    induction l as [|it l IH]; intros ns r ev W; [split; intros; contradiction|]. destruct it as [k path p|d p|m]; cbn in W; winv W.
    - destruct (IH _ _ _ E) as [A B]. split; [intros d p' e at_ [X|X]; [discriminate|eauto]|intros m e at_ [X|X]; [discriminate|eauto]].
    - winv W. destruct (IH _ _ _ E0) as [A B]. split; [intros d' p' e at_ [X|X]; [injection X as <- <-; eapply named_fine; eauto|eauto]|intros m e at_ [X|X]; [discriminate|eauto]].
    - winv W. destruct (IH _ _ _ E0) as [A B]. split; [intros d' p' e at_ [X|X]; [discriminate|eauto]|intros m' e at_ [X|X]; [injection X as <-; eapply message_fine; eauto|eauto]].
  Qed.
  Lemma schema_namespace nsd main its : tree_namespace (TreeSchema nsd main its) (option_map identifier_text nsd).
  Proof. destruct nsd; constructor. Qed.
  Lemma protocol_namespace start l (x : located) its sp ev : walk_schema_properties l (context_of OnProtocol) = Ok (sp, ev) ->
    declares x l None (extract_name (identifier_text x)) (compute_namespace (identifier_text x) (sp_namespace sp)) /\
    tree_namespace (TreeProtocol start l x its) (compute_namespace (identifier_text x) (sp_namespace sp)).
  Proof.
    intro E. pose proof (compute_declares OnProtocol x _ None _ _ (or_introl eq_refl) E) as D.
    assert (X : opt_or (compute_namespace (identifier_text x) (sp_namespace sp)) None = compute_namespace (identifier_text x) (sp_namespace sp)) by (destruct (compute_namespace _ _); reflexivity).
    rewrite X in D. split; [exact D|]. econstructor. exact D.
  Qed.

  Lemma file_err t e at_ : walk_idl_file tokens t = Err (e, at_) -> defect t e at_.
  Proof.
    intro E. destruct t as [start l x its|nsd main its]; cbn in E.
    - werr E. werr E; [constructor; now apply (properties_err OnProtocol)|]. destruct (protocol_namespace start l x its _ _ Ea0) as [D N].
      destruct (is_invalid_type_name _) eqn:Ei; [injection E as <- <-; apply df_name; [apply extracted_name|now apply invalid_in]|]. werr E; [|discriminate].
      destruct (items_err _ _ _ _ E) as [(d & p & Hi & B)|(m & Hi & B)]; [eapply df_named; eauto|eapply df_message; eauto].
    - pose proof (schema_namespace nsd main its) as N. werr E.
      + destruct (items_err _ _ _ _ E) as [(d & p & Hi & B)|(m & Hi & B)]; [eapply df_named; eauto|eapply df_message; eauto].
      + destruct main as [ft|]; [|discriminate]. werr E; [|discriminate]. eapply df_main; [exact N|]. now apply type_err.
  Qed.
  Lemma file_fine t r ev e at_ : walk_idl_file tokens t = Ok (r, ev) -> ~ defect t e at_.
  Proof.
    intros W B. destruct t as [start l x its|nsd main its]; cbn in W.
    - winv W. winv W. destruct (protocol_namespace start l x its _ _ E0) as [D N]. destruct (is_invalid_type_name _) eqn:Ei; [discriminate|]. winv W. destruct (items_fine _ _ _ _ E1) as [A C].
      inversion B as [? ? ? ? ? ? Ba|? ? ? ? n S I|t' ns d p e' at' Tn Hi Bn|t' ns m e' at' Tn Hi Bn|]; subst.
      + eapply bad_annotations_acceptable; [exact Ba|]. apply (accepted_iff OnProtocol). eauto.
      + apply invalid_word in Ei. apply Ei. rewrite <- (simple_det _ _ _ S (extracted_name x)). exact I.
      + rewrite (tree_namespace_det _ _ _ Tn N) in Bn. exact (A _ _ _ _ Hi Bn).
      + rewrite (tree_namespace_det _ _ _ Tn N) in Bn. exact (C _ _ _ Hi Bn).
    - pose proof (schema_namespace nsd main its) as N. winv W. destruct (items_fine _ _ _ _ E) as [A C].
      inversion B as [| |t' ns d p e' at' Tn Hi Bn|t' ns m e' at' Tn Hi Bn|nsd' ft its' ns e' at' Tn Bt]; subst.
      + rewrite (tree_namespace_det _ _ _ Tn N) in Bn. exact (A _ _ _ _ Hi Bn).
      + rewrite (tree_namespace_det _ _ _ Tn N) in Bn. exact (C _ _ _ Hi Bn).
      + rewrite (tree_namespace_det _ _ _ Tn N) in Bt. winv W. exact (proj1 type_fine _ _ _ _ E0 _ _ Bt).
  Qed.
End Defects.
