(** Proofs about annotated types: logical types, properties, attributes. *)
From Verif Require Import SpecReader BaseProofs NameProofs ReaderProofs TypeProofs PatternProofs DeclProofs FileProofs.

Section Annotations.
  Context `{Unicode} `{Floats}.

  (** ** Shapes of types *)
  Definition good_props (ps : props) : Prop := NoDup (keys ps) /\ forall k, In k (keys ps) -> ~ In k (forbidden OnType).

  Fixpoint shape (ns : option string) (s : schema) : Prop :=
    match s with
    | SPrim _ => True
    | SAnnot _ ps | SLogical _ ps => good_props ps
    | SArray i ps | SMap i ps => good_props ps /\ shape ns i
    | SUnion ts _ => fold_right (fun t P => shape ns t /\ P) True ts
    | SRef n q ps _ => ps = [] /\ exists ident, refers ns ident (n, q)
    | SRecord _ _ _ _ _ _ _ | SEnum _ _ _ _ _ _ _ | SFixed _ _ _ _ _ _ => False
    end.
  Lemma shape_union ns ts b : shape ns (SUnion ts b) <-> Forall (shape ns) ts.
  Proof. cbn. induction ts as [|t ts IH]; cbn; [split; constructor|]. rewrite IH. split; [intros [? ?]; now constructor|]. intro Hf. now inversion Hf. Qed.

  Lemma good_nil : good_props [].
  Proof. split; [constructor|intros k []]. Qed.
  Lemma holds_good l ps : holds_annotations OnType l ps -> good_props ps.
  Proof.
    intros (H1 & H2 & H3). split; [exact H2|]. intros k Hk. apply In_keys_assoc in Hk. destruct Hk as [v Hv].
    apply H1 in Hv. destruct Hv as [Hv _]. apply H3. eapply annotated_mentioned; eauto.
  Qed.
  Lemma good_extend ps qs : good_props ps -> good_props qs -> good_props (hm_extend ps qs).
  Proof.
    intros [N1 F1] [N2 F2]. split; [now apply hm_extend_NoDup|]. intros k Hk. apply hm_extend_keys in Hk. destruct Hk; auto.
  Qed.
  Lemma hm_remove_cons {A} k k' (v : A) l : hm_remove k ((k', v) :: l) = if String.eqb k k' then hm_remove k l else (k', v) :: hm_remove k l.
  Proof. unfold hm_remove. cbn. now destruct (String.eqb k k'). Qed.
  Lemma keys_hm_remove {A} k x (l : list (string * A)) : In x (keys (hm_remove k l)) <-> In x (keys l) /\ x <> k.
  Proof.
    induction l as [|[k' v] l IH]; [cbn; tauto|]. rewrite hm_remove_cons. change (keys ((k', v) :: l)) with (k' :: keys l).
    destruct (String.eqb_spec k k') as [<-|n].
    - rewrite IH. cbn. split; [tauto|]. intros [[<-|Hx] Hn]; [congruence|auto].
    - change (keys ((k', v) :: hm_remove k l)) with (k' :: keys (hm_remove k l)). cbn [In]. rewrite IH.
      split; [intros [<-|Hx]; split; auto; tauto|]. tauto.
  Qed.
  Lemma hm_remove_NoDup {A} k (l : list (string * A)) : NoDup (keys l) -> NoDup (keys (hm_remove k l)).
  Proof.
    induction l as [|[k' v] l IH]; [auto|]. rewrite hm_remove_cons. change (keys ((k', v) :: l)) with (k' :: keys l). intro Hn. inversion Hn; subst.
    destruct (String.eqb k k'); [auto|]. change (keys ((k', v) :: hm_remove k l)) with (k' :: keys (hm_remove k l)).
    constructor; [|auto]. rewrite keys_hm_remove. tauto.
  Qed.
  Lemma assoc_hm_remove {A} k x (l : list (string * A)) : assoc x (hm_remove k l) = if String.eqb x k then None else assoc x l.
  Proof.
    induction l as [|[k' v] l IH]; [cbn; now destruct (String.eqb x k)|]. rewrite hm_remove_cons. destruct (String.eqb_spec k k') as [<-|n]; cbn [assoc].
    - rewrite IH. now destruct (String.eqb_spec x k).
    - rewrite IH. destruct (String.eqb_spec x k') as [->|n']; [|reflexivity]. destruct (String.eqb_spec k' k); congruence.
  Qed.
  Lemma good_remove k ps : good_props ps -> good_props (hm_remove k ps).
  Proof. intros [N F]. split; [now apply hm_remove_NoDup|]. intros x Hx. apply keys_hm_remove in Hx. now apply F. Qed.

  Lemma promote_shape ns s : shape ns s -> shape ns (try_promote_logical_type s).
  Proof.
    intro Hs. destruct s; try exact Hs. cbn in *. destruct (assoc "logicalType" ps) as [[]|]; try exact Hs.
    destruct (parse_logical_type _ _ _) as [lt|]; [|exact Hs]. destruct (prim_eqb _ _); [|exact Hs].
    cbn. destruct lt; auto using good_remove.
  Qed.
  Lemma apply_one_shape ns s ps : shape ns s -> (forall n q p sp, s <> SRef n q p sp) -> good_props ps -> shape ns (apply_properties_to_schema s ps).
  Proof.
    intros Hs Hr Hp. unfold apply_properties_to_schema. apply promote_shape.
    destruct s; cbn in *; try tauto; try (destruct Hs as [? ?]; split; auto); try now apply good_extend.
    exfalso. eapply Hr; reflexivity.
  Qed.
  Lemma apply_shape ns s ps : shape ns s -> is_type_reference s = false -> good_props ps -> shape ns (apply_properties s ps).
  Proof.
    intros Hs Hr Hp. unfold apply_properties.
    assert (K : forall n q p sp, s <> SRef n q p sp) by (intros n q p sp ->; discriminate).
    destruct s; try now apply apply_one_shape. destruct types as [|a [|b [|]]], is_nullable_type; try now apply apply_one_shape.
    cbn in Hr. rewrite orb_false_r in Hr. apply orb_false_iff in Hr. destruct Hr as [Ra Rb].
    cbn in Hs. destruct Hs as (Sa & Sb & _).
    assert (Ka : forall n q p sp, a <> SRef n q p sp) by (intros n q p sp ->; discriminate).
    assert (Kb : forall n q p sp, b <> SRef n q p sp) by (intros n q p sp ->; discriminate).
    pose proof (apply_one_shape ns a ps Sa Ka Hp). pose proof (apply_one_shape ns b ps Sb Kb Hp).
    destruct a as [[]| | | | | | | | |]; cbn [shape fold_right]; auto.
  Qed.

  Lemma reference_shape' i sp ns : shape ns (reference i sp ns).
  Proof.
    destruct (reference_refers i sp ns) as (r & E & Hr). destruct (reference_shape i sp ns) as (n & q & Es). rewrite Es in *.
    cbn in E. injection E as <-. cbn. split; [reflexivity|]. eauto.
  Qed.

  Lemma walk_shape :
    (forall t ns s evs, walk_full_type t ns = Ok (s, evs) -> shape ns s) /\
    (forall p ns s evs, walk_plain_type p ns = Ok (s, evs) -> shape ns s).
  Proof.
    apply types_ind.
    - intros pl l p IH ns s evs Hx. cbn in Hx. winv Hx. winv Hx. specialize (IH _ _ _ E0).
      apply annotate_type_cases in Hx. destruct Hx as [(_ & -> & _)|(_ & Hr & -> & _)]; [exact IH|].
      apply apply_shape; [exact IH|exact Hr|]. apply (walk_schema_properties_inv OnType) in E. destruct E as (Hh & _). now apply holds_good in Hh.
    - intros t IH ns s evs Hx. cbn in Hx. winv Hx. winv Hx. split; [apply good_nil|eauto].
    - intros t IH ns s evs Hx. cbn in Hx. winv Hx. winv Hx. split; [apply good_nil|eauto].
    - intros ts IH ns s evs Hx. rewrite walk_union_eq in Hx. winv Hx. apply check_union_ok in Hx. destruct Hx as (-> & -> & Hl).
      apply shape_union. apply wmap_Forall2 in E. clear Hl. induction E as [|x y ts ys (e & Hx) E IH']; [constructor|].
      inversion IH; subst. constructor; eauto.
    - intros b o ns s evs Hx. cbn in Hx. apply nullable_shape in Hx. destruct Hx as (-> & base & Hs & Hb).
      assert (K : shape ns base).
      { destruct Hb as [(k & pl & -> & Hk)|(i & sp & -> & ->)]; [|apply reference_shape'].
        destruct (prim_type_leaf _ _ _ Hk) as [_ [(p & ->)|(lt & ->)]]; cbn; [exact I|apply good_nil]. }
      destruct Hs as [[-> ->]|(-> & -> & _)]; [exact K|]. cbn. auto.
  Qed.

  Lemma fix_shape ns s d : shape ns s -> shape ns (fix_optional_schema s d).
  Proof.
    intro Hs. destruct s; try exact Hs. destruct types as [|a [|b [|]]], is_nullable_type; try exact Hs.
    cbn in *. destruct d as [[]|]; cbn; tauto.
  Qed.

  (** ** Every type read from a file *)
  Definition typed (ns : option string) (s : schema) : Prop :=
    exists ft e s0 d, walk_full_type ft ns = Ok (s0, e) /\ s = fix_optional_schema s0 d.
  Lemma typed_full ft ns s e : walk_full_type ft ns = Ok (s, e) -> typed ns s.
  Proof. intro Hx. exists ft, e, s, None. split; [exact Hx|]. destruct s; try reflexivity. destruct types as [|a [|b [|]]], is_nullable_type; reflexivity. Qed.
  Lemma typed_plain p ns s e : walk_plain_type p ns = Ok (s, e) -> typed ns s.
  Proof. intro Hx. apply (typed_full (FullType no_place [] p) ns s e). now rewrite walk_full_plain. Qed.
  Lemma typed_reference i sp ns : typed ns (reference i sp ns).
  Proof. apply (typed_plain (PtNullable (BReference i sp) false) ns _ []). reflexivity. Qed.
  Lemma typed_null ns : typed ns (SPrim PNull).
  Proof. apply (typed_plain (PtNullable (BPrimitive KNull no_place) false) ns _ []). reflexivity. Qed.
  Lemma typed_result r ns s e : walk_result_type r ns = Ok (s, e) -> typed ns s.
  Proof. destruct r; cbn; intro Hx; [eapply typed_plain; eauto|winv Hx; apply typed_null]. Qed.
  Lemma typed_field tokens ns ft start v f : field_from tokens ns ft start v f -> typed ns (f_schema f).
  Proof. intros (ty & evs & d & dd & Hw & _ & -> & _). exists ft, evs, ty, (f_default f). auto. Qed.

  Lemma typed_shape ns s : typed ns s -> shape ns s.
  Proof. intros (ft & e & s0 & d & Hw & ->). apply fix_shape. eapply (proj1 walk_shape); eauto. Qed.
  Lemma typed_unions ns s : typed ns s -> unions_legal s.
  Proof. intros (ft & e & s0 & d & Hw & ->). apply fix_optional_unions. eapply (proj1 walk_unions_legal); eauto. Qed.

  Variable tokens : list token.

  Lemma walk_named_cases d ns s e : walk_named tokens d ns = Ok (s, e) ->
    (exists n q doc fs er al ps, s = SRecord n q doc fs er al ps /\ Forall (fun f => typed q (f_schema f)) fs) \/
    (exists n q doc sy df al ps, s = SEnum n q doc sy df al ps) \/
    (exists n q doc sz al ps, s = SFixed n q doc sz al ps).
  Proof.
    destruct d as [r|en|x]; cbn [walk_named]; intro Hx.
    - left. apply walk_record_spec in Hx. destruct Hx as (n & q & doc & fs & al & ps & -> & _ & _ & _ & _ & _ & Hf & _).
      exists n, q, doc, fs, (r_error r), al, ps. split; [reflexivity|]. apply Forall_forall. intros f Hi.
      destruct (Forall2_in_r _ _ _ _ Hf Hi) as (dv & _ & Hff). eapply typed_field; eauto.
    - right; left. apply walk_enum_spec in Hx. destruct Hx as (n & q & doc & sy & df & al & ps & -> & _). eauto 10.
    - right; right. apply walk_fixed_spec in Hx. destruct Hx as (n & q & doc & sz & al & ps & -> & _). eauto 10.
  Qed.

  Lemma message_typed m ns nm e s : walk_message tokens m ns = Ok (nm, e) -> message_type (snd nm) s -> typed ns s.
  Proof.
    intros Hm Ht. apply walk_message_spec in Hm. destruct Hm as (_ & _ & _ & (e' & Hr) & Hp & _ & _ & _ & He & _).
    inversion Ht as [m' Em|m' f Hf Em|m' es x Ees Hx Em]; subst.
    - eapply typed_result; eauto.
    - destruct (Forall2_in_r _ _ _ _ Hp Hf) as (p & _ & Hff). eapply typed_field; eauto.
    - rewrite Ees in He. destruct (md_errors m) as [|a l]; [discriminate|]. injection He as ->.
      apply (in_map_iff (fun e0 => reference (fst e0) (snd e0) ns) (a :: l)) in Hx. destruct Hx as (y & <- & _). apply typed_reference.
  Qed.

  Lemma gives_cases t file items evs s : walk_idl_file tokens t = Ok ((file, items), evs) -> gives file items s ->
    exists ns, tree_namespace t ns /\
      ((exists d e, In d (tree_types t) /\ walk_named tokens d ns = Ok (s, e)) \/ typed ns s).
  Proof.
    intros Hw Hg. destruct (walk_file_read tokens t file items evs Hw) as (ns & Hn & Hi & Hd & _ & Hf).
    assert (K : In s (declared_types items) -> exists d e, In d (tree_types t) /\ walk_named tokens d ns = Ok (s, e)).
    { intro Hx. destruct (Forall2_in_r _ _ _ _ Hd Hx) as (d & Hdi & e & He). eauto. }
    exists ns. split; [exact Hn|]. inversion Hg as [s' pl fs Hs|s' Hs|l s' Hl Hs|p nm s' Hp Hm Ht]; subst.
    - left. apply K. unfold declared_types. apply in_flat_map. exists (DType s pl fs). split; [exact Hs|now left].
    - right. destruct Hf as (nsd & ft & is & e & -> & He). eapply typed_full; eauto.
    - left. destruct Hf as [-> _]. now apply K.
    - right. destruct Hf as (start & l & ident & is & _ & _ & _ & _ & _ & _ & _ & _ & Hms & _).
      destruct (Hms nm Hm) as (m & e & _ & He). eapply message_typed; eauto.
  Qed.

  (** ** C22 *)
  Lemma file_unions t file items evs s : walk_idl_file tokens t = Ok ((file, items), evs) -> gives file items s -> unions_legal s.
  Proof.
    intros Hw Hg. destruct (gives_cases _ _ _ _ _ Hw Hg) as (ns & _ & [(d & e & _ & Hd)|Ht]); [|eapply typed_unions; eauto].
    apply walk_named_cases in Hd. destruct Hd as [(n & q & doc & fs & er & al & ps & -> & Hf)|[(n & q & doc & sy & df & al & ps & ->)|(n & q & doc & sz & al & ps & ->)]].
    - apply unions_record. eapply Forall_impl; [|exact Hf]. intros f. apply typed_unions.
    - intros ts b Ho. now inversion Ho.
    - intros ts b Ho. now inversion Ho.
  Qed.

  (** ** Which annotations are accepted *)
  Lemma upper_same_letter u c : (65 <= u <= 90)%N -> same_letter u c -> upper_char c = u.
  Proof.
    unfold upper_char, same_letter. intros Hu [->|[->|[[-> ->]|[-> ->]]]]; try reflexivity.
    - destruct ((97 <=? u) && (u <=? 122))%N eqn:E; [apply andb_true_iff in E; rewrite !N.leb_le in E; lia|].
      destruct (N.eqb_spec u 305); [lia|]. destruct (N.eqb_spec u 383); [lia|]. reflexivity.
    - destruct ((97 <=? u + 32) && (u + 32 <=? 122))%N eqn:E; [lia|]. apply andb_false_iff in E. rewrite !N.leb_gt in E. lia.
  Qed.
  Lemma word_uppercase w s : Forall (fun u => 65 <= u <= 90)%N w -> Forall2 same_letter w (chars s) -> same_chars (to_uppercase s) w = true.
  Proof.
    intros Hw Hf. assert (E : to_uppercase s = w).
    { unfold to_uppercase. induction Hf as [|u c w cs Hc Hf IH]; [reflexivity|]. inversion Hw; subst. cbn. f_equal; [now apply upper_same_letter|auto]. }
    unfold same_chars. rewrite E. destruct (list_eq_dec N.eq_dec w w); congruence.
  Qed.

  Lemma wmap_alias_ok pl al : exists e, wmap (walk_alias pl) (map JStr al) = Ok (al, e).
  Proof.
    induction al as [|a al (e & IH)]; [now exists []|]. cbn [map]. rewrite wmap_cons, IH. cbn.
    destruct (forallb _ _); cbn; eauto.
  Qed.

  Lemma walk_property_accepts p sp a : acceptable p a -> exists sp' e, walk_property (context_of p) sp a = Ok (sp', e).
  Proof.
    intro Ha. unfold walk_property. destruct sp as [ns al ord ps].
    assert (Hk : forall k, In k (special p) -> k = "namespace" /\ with_namespace (context_of p) = true \/
                 k = "aliases" /\ with_aliases (context_of p) = true \/ k = "order" /\ with_order (context_of p) = true).
    { intros k Hi. destruct (special_cases _ _ Hi) as [->|[->| ->]]; [left|right; left|right; right]; (split; [reflexivity|]);
        [now apply special_namespace|now apply special_aliases|now apply special_order]. }
    destruct Ha as [v Hs Hf Hv|s Hn Hs Hv|xs Hn Hs Hv|o s Hn Hs Hv Ho]; apply json_means_walk in Hv; rewrite Hv; cbn [wbind app];
      set (k := identifier_text (an_name a)) in *.
    - assert (G : forall b name, (b = true -> In name (special p)) -> b && String.eqb k name = false).
      { intros b name Hb. destruct b; [|reflexivity]. cbn. apply String.eqb_neq. intros ->. apply Hs. auto. }
      rewrite (G _ "namespace"), (G _ "aliases"), (G _ "order");
        [|intro E; now apply special_order|intro E; now apply special_aliases|intro E; now apply special_namespace].
      destruct (str_mem k (reserved (context_of p))) eqn:E; [|cbn; eauto]. apply str_mem_In in E. apply forbidden_reserved in E; [contradiction|exact Hs].
    - apply special_namespace in Hs. rewrite Hs, Hn. cbn. eauto.
    - apply special_aliases in Hs. rewrite Hs, Hn. rewrite andb_false_r. cbn. destruct (wmap_alias_ok (an_place a) xs) as (e & ->). cbn. eauto.
    - apply special_order in Hs. rewrite Hs, Hn. rewrite !andb_false_r. cbn [andb String.eqb Ascii.eqb Bool.eqb]. cbv zeta.
      destruct Ho as (w & Hw & Hl). pose proof (word_uppercase w s (order_word_letters _ _ Hw) Hl) as E.
      assert (K : same_chars (to_uppercase s) (chars "ASCENDING") = true \/ same_chars (to_uppercase s) (chars "DESCENDING") = true \/
                  same_chars (to_uppercase s) (chars "IGNORE") = true).
      { destruct Hw as [Hw|[Hw|[Hw|[]]]]; injection Hw as _ <-; [left|right; left|right; right]; exact E. }
      generalize dependent (same_chars (to_uppercase s) (chars "ASCENDING")). intros b1.
      generalize dependent (same_chars (to_uppercase s) (chars "DESCENDING")). intros b2.
      generalize dependent (same_chars (to_uppercase s) (chars "IGNORE")). intros b3 K.
      destruct b1; [cbn; eauto|]. destruct b2; [cbn; eauto|]. destruct b3; [cbn; eauto|]. destruct K as [K|[K|K]]; discriminate.
  Qed.

  Lemma walk_property_acceptable p sp a sp' e : walk_property (context_of p) sp a = Ok (sp', e) -> acceptable p a.
  Proof.
    intro Hx. unfold walk_property in Hx. winv Hx. rename a0 into v. apply walk_json_iff in E. destruct E as [Hv ->]. destruct sp as [ns al ord ps].
    set (k := identifier_text (an_name a)) in *.
    destruct (with_namespace (context_of p) && String.eqb k "namespace") eqn:E1.
    { apply andb_true_iff in E1. destruct E1 as [E1 E2]. apply special_namespace in E1. apply String.eqb_eq in E2.
      destruct v; try discriminate. eapply ac_namespace; eauto. }
    destruct (with_aliases (context_of p) && String.eqb k "aliases") eqn:E2.
    { apply andb_true_iff in E2. destruct E2 as [E2 E3]. apply special_aliases in E2. apply String.eqb_eq in E3.
      destruct v; try discriminate. winv Hx. apply walk_alias_ok in E. subst. eapply ac_aliases; eauto. }
    destruct (with_order (context_of p) && String.eqb k "order") eqn:E3.
    { apply andb_true_iff in E3. destruct E3 as [E3 E4]. apply special_order in E3. apply String.eqb_eq in E4.
      destruct v; try discriminate. cbv zeta in Hx.
      assert (K : forall o w, In (o, w) order_words -> same_chars (to_uppercase s) w = true -> acceptable p a).
      { intros o w Hw Hs. eapply (ac_order p a o s); eauto. exists w. split; [exact Hw|]. apply to_uppercase_word; [eapply order_word_letters; exact Hw|exact Hs]. }
      destruct (same_chars _ (chars "ASCENDING")) eqn:S1; [eapply K; [left; reflexivity|exact S1]|].
      destruct (same_chars _ (chars "DESCENDING")) eqn:S2; [eapply K; [right; left; reflexivity|exact S2]|].
      destruct (same_chars _ (chars "IGNORE")) eqn:S3; [eapply K; [right; right; left; reflexivity|exact S3]|discriminate]. }
    assert (Ns : ~ In k (special p)).
    { intro Hk. apply andb_false_iff in E1, E2, E3. destruct (special_cases _ _ Hk) as [Hc|[Hc|Hc]]; rewrite Hc in *.
      - apply special_namespace in Hk. destruct E1; [congruence|discriminate].
      - apply special_aliases in Hk. destruct E2; [congruence|discriminate].
      - apply special_order in Hk. destruct E3; [congruence|discriminate]. }
    destruct (str_mem k (reserved (context_of p))) eqn:E4; [discriminate|]. apply str_mem_not_In in E4.
    rewrite forbidden_reserved in E4 by exact Ns. eapply ac_custom; eauto.
  Qed.

  Lemma accepted_iff p l : (exists sp e, walk_schema_properties l (context_of p) = Ok (sp, e)) <-> Forall (acceptable p) l.
  Proof.
    unfold walk_schema_properties. generalize (mkProperties None [] None []). induction l as [|a l IH]; intro sp0; cbn.
    - split; [constructor|]. intros _. unfold wret. eauto.
    - split.
      + intros (sp & e & Hx). winv Hx. constructor; [eapply walk_property_acceptable; eauto|]. apply (IH a0). eauto.
      + intro Hf. inversion Hf as [|? ? Ha Hl]; subst. destruct (walk_property_accepts p sp0 a Ha) as (sp1 & e1 & ->).
        destruct (proj2 (IH sp1) Hl) as (sp2 & e2 & E2). exists sp2, (e1 ++ e2). cbn. now rewrite E2.
  Qed.

  Lemma acceptable_means p a : acceptable p a -> exists v, json_means (an_value a) v.
  Proof. destruct 1; eauto. Qed.
  Lemma mentioned_annotated p l k : Forall (acceptable p) l -> mentioned l k -> exists v, annotated l k v.
  Proof.
    induction l as [|a l IH] using rev_ind; intros Hf Hm; [destruct Hm as (x & [] & _)|].
    apply Forall_app in Hf. destruct Hf as [Hf Ha]. inversion Ha as [|? ? Ha' _]; subst. destruct (acceptable_means _ _ Ha') as [v Hv].
    destruct (string_dec (identifier_text (an_name a)) k) as [E|n].
    - exists v. apply annotated_snoc. auto.
    - apply mentioned_snoc in Hm. destruct Hm as [Hm|Hm]; [contradiction|]. destruct (IH Hf Hm) as [w Hw]. exists w. apply annotated_snoc. auto.
  Qed.
End Annotations.
