(** What is read from files gives tidy documents. *)
From Coq Require Import Lia.
From Verif Require Import JsonFile SpecJsonFile JsonReadProofs JsonWriteProofs.
From Verif Require Import SpecPipeline SpecImport SpecFile RegistryProofs MeaningProofs ImportProofs ImportDocProofs.
From Verif Require Import SpecRefs RefsProofs ReaderProofs TypeProofs AnnotProofs DeclProofs FileProofs DenoteProofs ObjectProofs.
From Verif Require Import DefaultsProofs CompileProofs LoadProofs BuildProofs ProtocolProofs CliProofs PipelineProofs BaseProofs SerializeProofs TidyProofs.

Lemma promoted_fits name p s l : (forall n, p = Some n -> fits n) -> (forall n, s = Some n -> fits n) -> parse_logical_type name p s = Some l -> fits_logical l.
Proof.
  intros P S. unfold parse_logical_type. repeat (match goal with |- (if ?b then _ else _) = _ -> _ => destruct b end; [intro E; try (injection E as <-; exact I)|]); try discriminate.
  destruct p as [n|]; [|discriminate E]. injection E as <-. cbn. split; [now apply P|]. destruct s as [m|]; [now apply S|]. unfold fits. lia.
Qed.

Section Json.
  Context `{JsonNumbers}.
  Lemma tidy_wf j : tidy j -> wf_json j.
  Proof.
    induction j as [|b|n|s|l IH|o IH] using json_ind'; intro T; inversion T; subst; constructor; auto.
    - rewrite Forall_forall in IH. auto.
    - apply sorted_NoDup. assumption.
    - rewrite Forall_forall in IH. intros k v Hi. apply (IH (k, v) Hi). eauto.
  Qed.
  Lemma tidy_get k o j : tidy (JObj o) -> jget k o = Some j -> tidy j.
  Proof. intros T E. inversion T; subst. apply assoc_In in E. eauto. Qed.
  Lemma tidy_el l : tidy (JArr l) -> forall x, In x l -> tidy x.
  Proof. intros T. now inversion T. Qed.
  Lemma tidy_extra o known : tidy (JObj o) -> tidy_props (collect_extra_properties o known).
  Proof. intros T k v I. unfold collect_extra_properties in I. apply filter_In in I as [I _]. inversion T; subst. eauto. Qed.
  Lemma u32_of_fits v n : u32_of_u64 v = Some n -> fits n.
  Proof. unfold u32_of_u64, fits. destruct (N.leb_spec v u32_max) as [L|]; [|discriminate]. intro E. injection E as <-. exact L. Qed.
  Lemma tidy_default_get k o : tidy (JObj o) -> tidy_default (jget k o).
  Proof. intros T j E. eapply tidy_get; eauto. Qed.

  Lemma json_kept m : forall j dns s, json_to_schema_n m j dns = Ok s -> tidy j -> kept s.
  Proof.
    induction m as [|m IH]; intros j dns s E W; [discriminate|]. cbn [json_to_schema_n] in E.
    destruct j as [ | b | k | x | l | o]; try discriminate.
    - injection E as <-. unfold string_to_schema. destruct (prim_of_str x); [exact I|]. destruct (rsplit_once_dot x) as [[a b]|]; exact I.
    - destruct (map_res _ l) as [ts|] eqn:Em in E; [|discriminate]. injection E as <-. cbn [kept].
      apply fold_and. intros t Ht. destruct (map_res_in _ _ _ Em t Ht) as (x & Hx & Ex). exact (IH _ _ _ Ex (tidy_el _ W x Hx)).
    - destruct (get_str "type" o) as [ty|]; [|discriminate].
      destruct (String.eqb ty "record" || String.eqb ty "error")%bool.
      { destruct (parse_name o dns) as [[n ns]|] eqn:En; [|discriminate].
        destruct (match jget "fields" o with Some (JArr fj) => _ | _ => _ end) as [fs|] eqn:Ef in E; [|discriminate].
        injection E as <-. cbn [kept]. split; [now apply tidy_extra|].
        apply fold_and. intros f Hf.
        destruct (jget "fields" o) as [[| | | |fj|]|] eqn:Efj; try (injection Ef as <-; contradiction).
        destruct (map_res_in _ _ _ Ef f Hf) as (x & Hx & Ex). cbv beta in Ex.
        pose proof (tidy_el _ (tidy_get _ _ _ W Efj) x Hx) as Wx.
        destruct x as [| | | | |fo]; try discriminate. destruct (get_str "name" fo); [|discriminate].
        destruct (jget "type" fo) as [tj|] eqn:Etj; [|discriminate].
        destruct (json_to_schema_n m tj (opt_or ns dns)) as [s1|] eqn:E1; [|discriminate]. injection Ex as <-. cbn [f_props f_schema f_default]. split; [|split].
        - now apply tidy_extra.
        - now apply tidy_default_get.
        - exact (IH _ _ _ E1 (tidy_get _ _ _ Wx Etj)). }
      destruct (String.eqb ty "enum").
      { unfold parse_enum in E. destruct (parse_name o dns) as [[n ns]|] eqn:En; [|discriminate]. injection E as <-. now apply tidy_extra. }
      destruct (String.eqb ty "fixed").
      { unfold parse_fixed in E. destruct (parse_name o dns) as [[n ns]|] eqn:En; [|discriminate].
        destruct (get_u64 "size" o); [|discriminate]. destruct (u32_of_u64 n0) eqn:Eu; [|discriminate]. injection E as <-.
        split; [eapply u32_of_fits; eauto|now apply tidy_extra]. }
      destruct (String.eqb ty "array").
      { destruct (jget "items" o) as [ij|] eqn:Eij; [|discriminate]. destruct (json_to_schema_n m ij dns) eqn:E1; [|discriminate].
        injection E as <-. split; [now apply tidy_extra|exact (IH _ _ _ E1 (tidy_get _ _ _ W Eij))]. }
      destruct (String.eqb ty "map").
      { destruct (jget "values" o) as [ij|] eqn:Eij; [|discriminate]. destruct (json_to_schema_n m ij dns) eqn:E1; [|discriminate].
        injection E as <-. split; [now apply tidy_extra|exact (IH _ _ _ E1 (tidy_get _ _ _ W Eij))]. }
      destruct (prim_of_str ty) as [p|]; [|discriminate]. unfold parse_annotated_primitive in E.
      assert (A : forall q, kept (SAnnot q (collect_extra_properties o ["type"]))) by (intro q; now apply tidy_extra).
      destruct (get_str "logicalType" o).
      + destruct (parse_logical_type s0 _ _) as [l|] eqn:El; [|injection E as <-; apply A].
        assert (F : fits_logical l).
        { eapply promoted_fits; [| |exact El]; intros n En; match type of En with match ?x with _ => _ end = _ => destruct x end; try discriminate En; eapply u32_of_fits; eauto. }
        assert (L : kept (SLogical l (collect_extra_properties o ["type"; "logicalType"; "precision"; "scale"]))) by (split; [exact F|now apply tidy_extra]).
        destruct l; try (injection E as <-; exact L). destruct (N.ltb precision 1); [discriminate|]. injection E as <-; exact L.
      + specialize (A p). destruct (collect_extra_properties o ["type"]); injection E as <-; [exact I|exact A].
  Qed.
  Lemma json_schema_kept j dns s : json_to_schema j dns = Ok s -> tidy j -> kept s.
  Proof. apply json_kept. Qed.
  Lemma json_field_kept j dns f : json_to_field j dns = Ok f -> tidy j -> kept_field f.
  Proof.
    unfold json_to_field. destruct j as [| | | | |fo]; try discriminate. intros E W. destruct (get_str "name" fo); [|discriminate].
    destruct (jget "type" fo) as [tj|] eqn:Etj; [|discriminate].
    destruct (json_to_schema tj dns) as [s1|] eqn:E1; [|discriminate]. injection E as <-. split; [|split]; cbn [f_props f_default f_schema].
    - now apply tidy_extra.
    - now apply tidy_default_get.
    - exact (json_schema_kept _ _ _ E1 (tidy_get _ _ _ W Etj)).
  Qed.
  Lemma json_message_kept j dns m : json_to_message j dns = Ok m -> tidy j -> kept_message m.
  Proof.
    unfold json_to_message. destruct j as [| | | | |o]; try discriminate. intros E W.
    destruct (match jget "request" o with Some (JArr l) => _ | _ => _ end) as [req|] eqn:Er in E; [|discriminate].
    destruct (match jget "response" o with Some _ => _ | _ => _ end) as [res|] eqn:Es in E; [|discriminate].
    destruct (match jget "errors" o with Some (JArr l) => _ | _ => _ end) as [errs|] eqn:Ee in E; [|discriminate].
    injection E as <-.
    assert (Hr : forall f, In f req -> kept_field f).
    { intros f Hf. destruct (jget "request" o) as [[| | | |l|]|] eqn:Ej; try (injection Er as <-; contradiction).
      destruct (map_res_in _ _ _ Er f Hf) as (x & Hx & Ex). exact (json_field_kept _ _ _ Ex (tidy_el _ (tidy_get _ _ _ W Ej) x Hx)). }
    assert (Hs : kept res).
    { destruct (jget "response" o) as [rj|] eqn:Ej; [exact (json_schema_kept _ _ _ Es (tidy_get _ _ _ W Ej))|injection Es as <-; exact I]. }
    assert (He : forall l t, errs = Some l -> In t l -> kept t).
    { intros l t -> Ht. destruct (jget "errors" o) as [[| | | |el|]|] eqn:Ej; try discriminate.
      destruct (map_res _ el) as [es|] eqn:Em in Ee; [|discriminate]. injection Ee as ->.
      destruct (map_res_in _ _ _ Em t Ht) as (x & Hx & Ex). exact (json_schema_kept _ _ _ Ex (tidy_el _ (tidy_get _ _ _ W Ej) x Hx)). }
    split; [|split].
    - now apply tidy_extra.
    - exact Hr.
    - intros t Ht. inversion Ht; subst; cbn [m_request m_response m_errors] in *; [exact Hs|now apply Hr|eapply He; eassumption].
  Qed.
  Lemma flatten_kept s : kept s -> kept (snd (flatten s)) /\ forall t, In t (fst (flatten s)) -> kept t.
  Proof.
    induction s as [p|n ns d fs e al ps Hfs|n ns d sy df al ps|n ns d sz al ps|i ps IHi|i ps IHi
                    |ts b Hts|k ps|l ps|n ns ps sp] using schema_ind'; intro Hs; try (split; [exact Hs|intros t []]).
    - rewrite flatten_record. cbn [fst snd kept] in *. destruct Hs as (Hp & Hf). rewrite fold_and in Hf. rewrite Forall_forall in Hfs. split; [exact I|].
      intros t Ht. apply in_app_or in Ht. destruct Ht as [Ht|[<-|[]]].
      + apply in_flat_map in Ht. destruct Ht as (f & Hi & Ht). exact (proj2 (Hfs f Hi (proj2 (proj2 (Hf f Hi)))) t Ht).
      + cbn [kept]. split; [exact Hp|]. apply fold_and. intros f Hi. apply in_map_iff in Hi. destruct Hi as (g & <- & Hg).
        destruct (Hf g Hg) as (H1 & H2 & H3). split; [exact H1|]. split; [exact H2|]. exact (proj1 (Hfs g Hg H3)).
    - split; [exact I|]. intros t [<-|[]]. exact Hs.
    - split; [exact I|]. intros t [<-|[]]. exact Hs.
    - cbn [flatten]. destruct (flatten i) as [c i'] eqn:Ei. destruct Hs as [Hp Hi]. destruct (IHi Hi) as [H1 H2]. split; [split; [exact Hp|exact H1]|exact H2].
    - cbn [flatten]. destruct (flatten i) as [c i'] eqn:Ei. destruct Hs as [Hp Hi]. destruct (IHi Hi) as [H1 H2]. split; [split; [exact Hp|exact H1]|exact H2].
    - cbn [flatten fst snd kept] in *. rewrite fold_and in Hs. rewrite Forall_forall in Hts. split.
      + apply fold_and. intros t Ht. apply in_map_iff in Ht. destruct Ht as (p & <- & Ht). apply in_map_iff in Ht. destruct Ht as (u & <- & Hu). exact (proj1 (Hts u Hu (Hs u Hu))).
      + intros t Ht. apply in_flat_map in Ht. destruct Ht as (p & Hp & Ht). apply in_map_iff in Hp. destruct Hp as (u & <- & Hu). exact (proj2 (Hts u Hu (Hs u Hu)) t Ht).
  Qed.
End Json.

(** ** IDL *)
Section Idl.
  Context `{Unicode} `{Floats} `{JsonNumbers}.
  Hypothesis floats : forall text m e, parse_float_text text = Some (FFinite m e) -> number_text (show_float m e) (NFloat m e).
  Lemma integer_tidy text j : parse_integer_literal text = Some j -> tidy j.
  Proof.
    unfold parse_integer_literal. set (q := match split_last _ with Some _ => _ | None => _ end). destruct q as [number long].
    destruct (decode_i64 number) as [z|] eqn:E; [|discriminate].
    assert (R : (-9223372036854775808 <= z <= 9223372036854775808)%Z).
    { unfold decode_i64 in E. assert (B : forall b s r, i64_radix b s = Some r -> (-9223372036854775808 <= r <= 9223372036854775807)%Z) by (intros b s r; apply radix_range).
      repeat match type of E with
      | (if ?b then _ else _) = _ => destruct b
      | match i64_radix ?b ?s with _ => _ end = _ => destruct (i64_radix b s) eqn:?; [|discriminate E]; injection E as <-
      end; match goal with X : i64_radix _ _ = Some _ |- _ => apply B in X end; lia. }
    assert (T : forall z, (-9223372036854775808 <= z <= 9223372036854775808)%Z -> tidy (json_of_i64 z)).
    { intros y Ry. unfold json_of_i64. destruct (Z.ltb_spec y 0); constructor; lia. }
    destruct (long || negb _) eqn:Eb; intro X; injection X as <-; apply T; [exact R|].
    apply orb_false_iff in Eb as [_ Eb]. apply negb_false_iff, Z.eqb_eq in Eb. now rewrite Eb.
  Qed.
  Lemma means_tidy t : forall j, json_means t j -> tidy j.
  Proof.
    induction t as [| | |x|x|x|l IH|o IH] using json_tree_ind'; intros j M; inversion M as [| | |raw|raw j' E|raw E|raw E|raw E|raw m e E|l' js F|o' ps ms F B A]; subst; try constructor.
    - eapply integer_tidy; eauto.
    - eapply floats; eauto.
    - intros v Hv. destruct (Forall2_in_r _ _ _ _ F Hv) as (t & Ht & Hm). rewrite Forall_forall in IH. eauto.
    - exact B.
    - intros k v Hi. apply (In_assoc_NoDup _ _ _ (sorted_NoDup _ B)) in Hi. rewrite A in Hi. apply assoc_In, in_rev in Hi.
      destruct (Forall2_in_r _ _ _ _ F Hi) as ([k0 t] & Ht & _ & Hm). rewrite Forall_forall in IH. exact (IH _ Ht _ Hm).
  Qed.
  Lemma holds_tidy p l ps : holds_annotations p l ps -> tidy_props ps.
  Proof.
    intros (Hh & Hn & _) k v I. apply (In_assoc_NoDup _ _ _ Hn) in I. apply Hh in I as [(b & a & c & _ & _ & M & _) _]. eapply means_tidy; eauto.
  Qed.

  Lemma tidy_hm_insert k v ps : tidy v -> tidy_props ps -> tidy_props (hm_insert k v ps).
  Proof.
    intros V T. induction ps as [|[k' v'] ps IH]; cbn [hm_insert]; [intros a b [E|[]]; injection E as <- <-; exact V|].
    assert (T' : tidy_props ps) by (intros a b I; eapply T; right; exact I). destruct (String.eqb k k').
    - intros a b [E|I]; [injection E as <- <-; exact V|eauto].
    - intros a b [E|I]; [injection E as <- <-; eapply T; now left|exact (IH T' a b I)].
  Qed.
  Lemma tidy_hm_extend qs : forall ps, tidy_props ps -> tidy_props qs -> tidy_props (hm_extend ps qs).
  Proof.
    unfold hm_extend. induction qs as [|[k v] qs IH]; intros ps P Q; cbn [fold_left]; [exact P|]. apply IH; [apply tidy_hm_insert; [eapply Q; now left|exact P]|]. intros a b I. eapply Q. right. exact I.
  Qed.
  Lemma tidy_hm_remove k ps : tidy_props ps -> tidy_props (hm_remove k ps).
  Proof. intros T a b I. unfold hm_remove in I. apply filter_In in I as [I _]. eauto. Qed.
  Lemma i32_fits o n : i32_param o = Some n -> fits n.
  Proof.
    unfold i32_param, fits. destruct o as [v|]; [|discriminate]. destruct (json_value_as_u32 v) as [m|]; [|discriminate].
    destruct (N.leb_spec m (Z.to_N i32_max)) as [L|]; [|discriminate]. intro E. injection E as <-. eapply N.le_trans; [exact L|]. apply N.leb_le. vm_compute. reflexivity.
  Qed.
  Lemma promote_kept s : kept s -> kept (try_promote_logical_type s).
  Proof.
    intro K. destruct s; try exact K. cbn [kept] in K. cbn [try_promote_logical_type]. destruct (assoc "logicalType" ps) as [[]|]; try exact K.
    destruct (parse_logical_type _ _ _) as [lt|] eqn:E; [|exact K]. destruct (prim_eqb _ _); [|exact K].
    split; [eapply promoted_fits; [| |exact E]; intros n; apply i32_fits|]. destruct lt; auto using tidy_hm_remove.
  Qed.
  Lemma apply_one_kept s ps : kept s -> tidy_props ps -> kept (apply_properties_to_schema s ps).
  Proof.
    intros K P. unfold apply_properties_to_schema. apply promote_kept. destruct s; cbn in *; repeat match goal with X : _ /\ _ |- _ => destruct X end; repeat split; auto using tidy_hm_extend.
  Qed.
  Lemma apply_kept s ps : kept s -> tidy_props ps -> kept (apply_properties s ps).
  Proof.
    intros K P. unfold apply_properties. destruct s; try now apply apply_one_kept. destruct types as [|a [|b [|]]], is_nullable_type; try now apply apply_one_kept.
    cbn [kept fold_right] in K. destruct K as (Ka & Kb & _). pose proof (apply_one_kept a ps Ka P). pose proof (apply_one_kept b ps Kb P).
    destruct a as [[]| | | | | | | | |]; cbn [kept fold_right]; auto.
  Qed.
  Lemma prim_kept k s evs : walk_primitive_type k = Ok (s, evs) -> kept s.
  Proof.
    destruct k; cbn; intro Hx; try (winv Hx; cbn; repeat split; intros ? ? []; fail).
    unfold walk_decimal in Hx. winv Hx. winv E. destruct (_ =? _)%N; [discriminate|]. winv Hx.
    destruct (_ <? _)%N; [discriminate|]. winv Hx. cbn. split; [|intros ? ? []]. split.
    - eapply u32_fits; eauto.
    - destruct scale; winv E; [eapply u32_fits; eauto|]. unfold fits. lia.
  Qed.
  Lemma walk_kept :
    (forall t ns s evs, walk_full_type t ns = Ok (s, evs) -> kept s) /\
    (forall p ns s evs, walk_plain_type p ns = Ok (s, evs) -> kept s).
  Proof.
    assert (N : tidy_props []) by (intros ? ? []).
    apply types_ind.
    - intros pl l p IH ns s evs Hx. cbn in Hx. winv Hx. winv Hx. specialize (IH _ _ _ E0).
      apply annotate_type_cases in Hx. destruct Hx as [(_ & -> & _)|(_ & Hr & -> & _)]; [exact IH|].
      apply apply_kept; [exact IH|]. apply (walk_schema_properties_inv OnType) in E. destruct E as (Hh & _). now apply holds_tidy in Hh.
    - intros t IH ns s evs Hx. cbn in Hx. winv Hx. winv Hx. split; [exact N|eauto].
    - intros t IH ns s evs Hx. cbn in Hx. winv Hx. winv Hx. split; [exact N|eauto].
    - intros ts IH ns s evs Hx. rewrite walk_union_eq in Hx. winv Hx. apply check_union_ok in Hx. destruct Hx as (-> & -> & Hl).
      cbn [kept]. apply fold_and. apply wmap_Forall2 in E. clear Hl. induction E as [|x y ts ys (e & Hx) E IH']; [intros ? []|].
      inversion IH; subst. intros z [<-|Hz]; eauto.
    - intros b o ns s evs Hx. cbn in Hx. apply nullable_shape in Hx. destruct Hx as (-> & base & Hs & Hb).
      assert (K : kept base).
      { destruct Hb as [(k & pl & -> & Hk)|(i & sp & -> & ->)]; [exact (prim_kept _ _ _ Hk)|]. destruct (reference_shape i sp ns) as (n & q & ->). exact I. }
      destruct Hs as [[-> ->]|(-> & -> & _)]; [exact K|]. cbn. auto.
  Qed.
  Lemma typed_kept ns s : typed ns s -> kept s.
  Proof.
    intros (ft & e & s0 & d & Hw & ->). pose proof (proj1 walk_kept _ _ _ _ Hw) as Hs. destruct s0; try exact Hs. destruct types as [|a [|b [|]]], is_nullable_type; try exact Hs.
    cbn in *. destruct d as [[]|]; cbn; tauto.
  Qed.
  Lemma default_tidy v d : default_denotes v d -> tidy_default d.
  Proof. intros [|t j M] x E; [discriminate|]. injection E as <-. eapply means_tidy; eauto. Qed.
  Variable tokens : list token.
  Lemma named_kept d ns s e : walk_named tokens d ns = Ok (s, e) -> kept s.
  Proof.
    intro Hw. pose proof (walk_named_cases tokens _ _ _ _ Hw) as Hc. pose proof (walk_named_denotes tokens _ _ _ _ Hw) as Hd.
    inversion Hd as [r n q doc al ps fs Hh Hv|en n q doc al ps Hh|x n q doc al ps size Hh Hz]; subst; cbn [kept]; pose proof (holds_tidy _ _ _ (nh_props _ _ _ _ _ _ _ _ Hh)) as P.
    - split; [exact P|]. apply fold_and. intros f Hf.
      destruct Hc as [(n' & q' & doc' & fs' & er & al' & ps' & E & Hf')|[(?&?&?&?&?&?&?&E)|(?&?&?&?&?&?&E)]]; try discriminate.
      injection E as <- <- <- <- <- <- <-. rewrite Forall_forall in Hf'. destruct (Forall2_in_r _ _ _ _ Hv Hf) as (dv & _ & Hx). split; [|split].
      + exact (holds_tidy _ _ _ (vd_props _ _ _ _ _ _ Hx)).
      + exact (default_tidy _ _ (vd_default _ _ _ _ _ _ Hx)).
      + eapply typed_kept, Hf'; exact Hf.
    - exact P.
    - split; [eapply u32_fits; eauto|exact P].
  Qed.
End Idl.

(** ** Compilations *)
Section World.
  Context `{Unicode} `{Floats} `{Parser} `{FileSystem} `{JsonParser} `{JsonNumbers}.
  Hypothesis floats : forall text m e, parse_float_text text = Some (FFinite m e) -> number_text (show_float m e) (NFloat m e).
  Definition tidy_loads (loads : list (import_kind * string)) : Prop :=
    forall k q j, In (k, q) loads -> k <> ImportIdl -> json_content q j -> tidy j.

  Lemma idl_type_kept label src file items ws s sp fs : parse_idl label src = Ok (file, items, ws) -> In (DType s sp fs) items -> kept s.
  Proof.
    intros Hp Hi. destruct (idl_walk _ _ _ _ _ Hp) as (tokens & t & evs & Hw).
    destruct (gives_cases tokens _ _ _ _ _ Hw (gv_item _ _ _ _ _ Hi)) as (ns & _ & [(d & e & _ & Hd)|Ht]).
    - exact (named_kept floats tokens _ _ _ _ Hd).
    - exact (typed_kept floats _ _ Ht).
  Qed.
  Lemma idl_schema_kept label src items ws s : parse_idl label src = Ok (ISchema s, items, ws) -> kept s.
  Proof.
    intros Hp. destruct (idl_walk _ _ _ _ _ Hp) as (tokens & t & evs & Hw).
    destruct (gives_cases tokens _ _ _ _ _ Hw (gv_schema _ _ _ eq_refl)) as (ns' & _ & [(d & e & _ & Hd')|Ht]).
    - exact (named_kept floats tokens _ _ _ _ Hd').
    - exact (typed_kept floats _ _ Ht).
  Qed.
  Lemma idl_message_kept label src p items ws nm : parse_idl label src = Ok (IProtocol p, items, ws) -> In nm (p_messages p) -> kept_message (snd nm).
  Proof.
    intros Hp Hi. destruct (idl_walk _ _ _ _ _ Hp) as (tokens & t & evs & Hw). apply walk_file_denotes in Hw as Hd.
    inversion Hd as [start l ident its p' items' t' Hde Hw' Hdo Ha Hh Hit Hn Hm _ _ _| |]; subst. destruct nm as [name msg].
    destruct (Hm name msg Hi) as (m & _ & Hmd).
    assert (T : forall s, message_type msg s -> kept s).
    { intros s Ht. destruct (gives_cases tokens _ _ _ _ _ Hw (gv_message _ _ p (name, msg) s eq_refl Hi Ht)) as (ns' & _ & [(d & e & _ & Hd')|Hty]).
      + exact (named_kept floats tokens _ _ _ _ Hd').
      + exact (typed_kept floats _ _ Hty). }
    split; [exact (holds_tidy floats _ _ _ (me_props _ _ _ _ Hmd))|]. split; [|exact T].
    intros f Hf. destruct (Forall2_in_r _ _ _ _ (me_request _ _ _ _ Hmd) Hf) as (x & _ & Hx). split; [exact (holds_tidy floats _ _ _ (vd_props _ _ _ _ _ _ Hx))|].
    split; [exact (default_tidy floats _ _ (vd_default _ _ _ _ _ _ Hx))|]. apply T. now apply mt_request.
  Qed.
  Lemma idl_props_tidy label src p items ws : parse_idl label src = Ok (IProtocol p, items, ws) -> tidy_props (p_props p).
  Proof.
    intros Hp. destruct (idl_walk _ _ _ _ _ Hp) as (tokens & t & evs & Hw). apply walk_file_denotes in Hw as Hd.
    inversion Hd as [start l ident its p' items' t' Hde Hw' Hdo Ha Hh Hit Hn Hm _ _ _| |]; subst. exact (holds_tidy floats OnProtocol _ _ Hh).
  Qed.
  Lemma declared_kept label src file items ws dir loads s : parse_idl label src = Ok (file, items, ws) -> tidy_loads loads ->
    declared_in_files dir items loads s -> kept s.
  Proof.
    intros Hp W Hd. inversion Hd as [d its sp fs Hs Hi|q j t Hi Hj Ht Hf|q j tj t types Hi Hj Hty Htj Ht Hf]; subst.
    - inversion Hs as [|q f its' ws' Hq (text & _ & Hc)]; subst; eapply idl_type_kept; eauto.
    - assert (Wj : tidy j) by (eapply W; [exact Hi|discriminate|exact Hj]). exact (proj2 (flatten_kept _ (json_schema_kept _ _ _ Ht Wj)) _ Hf).
    - assert (Wj : tidy j) by (eapply W; [exact Hi|discriminate|exact Hj]).
      assert (Wt : tidy tj).
      { destruct j as [| | | | |o]; try discriminate. exact (tidy_el _ (tidy_get _ _ _ Wj Hty) _ Htj). }
      exact (proj2 (flatten_kept _ (json_schema_kept _ _ _ Ht Wt)) _ Hf).
  Qed.
  Lemma compile_types_kept dirs src name dir ip o ws' : compile dirs src name dir ip = (Ok o, ws') -> tidy_loads (co_loads o) ->
    forall t, In t (reg_schemas (co_registry o)) -> kept t.
  Proof.
    intros Hc W. pose proof Hc as Hc'. apply compile_ok in Hc'. destruct Hc' as (f & its & w & c & Ep & _).
    destruct (compile_types _ _ _ _ _ _ _ _ _ _ Hc Ep) as (_ & _ & Hd). intros t Ht. exact (declared_kept _ _ _ _ _ _ _ _ Ep W (Hd t Ht)).
  Qed.
  Lemma load_message_kept k q l nm : load_messages (k, q) l -> (k <> ImportIdl -> forall j, json_content q j -> tidy j) -> In nm l -> kept_message (snd nm).
  Proof.
    intros Hl W Hi. inversion Hl as [q' file items ws (text & _ & Hc)|q' j ms Hj Hm|q']; subst.
    - destruct file as [p| |]; cbn [messages_of_file] in Hi; try contradiction. exact (idl_message_kept _ _ _ _ _ _ Hc Hi).
    - assert (Wj : tidy j) by (apply W; [discriminate|exact Hj]).
      destruct (value_get "messages" j) as [[| | | | |o]|] eqn:Em; try (subst; contradiction).
      destruct (Forall2_in_r _ _ _ _ Hm Hi) as ([k v] & Hkv & _ & Ev). cbn [fst snd] in *.
      destruct j as [| | | | |jo]; try discriminate. eapply json_message_kept; [exact Ev|].
      pose proof (tidy_get _ _ _ Wj Em) as Wo. inversion Wo; subst. eauto.
    - contradiction.
  Qed.
  Lemma compile_messages_kept dirs src name dir ip o ws' p p' items ws : compile dirs src name dir ip = (Ok o, ws') ->
    parse_idl name src = Ok (IProtocol p, items, ws) -> co_file o = IProtocol p' -> tidy_loads (co_loads o) ->
    forall nm, In nm (p_messages p') -> kept_message (snd nm).
  Proof.
    intros Hc Ep Ho W [n m] Hi. destruct (compile_messages _ _ _ _ _ _ _ _ _ _ _ Hc Ep Ho) as (tables & Hft & Ha).
    apply (assoc_in_nodup _ _ _ (compile_messages_once _ _ _ _ _ _ _ _ Hc Ho)) in Hi. apply Ha in Hi. destruct Hi as [Hi|[_ Hi]].
    - apply assoc_In in Hi. exact (idl_message_kept _ _ _ _ _ _ Ep Hi).
    - apply last_declared_in in Hi. destruct Hi as (l & Hl & Hi). destruct (Forall2_in_r _ _ _ _ Hft Hl) as ([k q] & Hkq & Hlm).
      exact (load_message_kept _ _ _ _ Hlm (fun Hk j Hj => W k q j Hkq Hk Hj) Hi).
  Qed.
  (** *** Documents *)
  Lemma converted_tidy dirs src name dir ip o ws' b r : compile dirs src name dir ip = (Ok o, ws') -> tidy_loads (co_loads o) ->
    snd (convert_impl o b) = Ok r -> tidy (io_json r).
  Proof.
    intros Hc W E. pose proof (compile_types_kept _ _ _ _ _ _ _ Hc W) as K. pose proof Hc as Hc'. apply compile_ok in Hc'. destruct Hc' as (f & its & w & c & Ep & _ & _ & _ & Eo & _).
    unfold convert_impl in E. destruct (co_file o) as [p|s|l] eqn:Ho.
    - destruct (protocol_to_json p) as [j|] eqn:Ej; [|discriminate]. cbn in E. injection E as <-. cbn [io_json].
      assert (X : exists p0, f = IProtocol p0 /\ p_types p = reg_schemas (co_registry o) /\ p_props p = p_props p0).
      { subst o. cbn in *. destruct f as [p0| |]; try discriminate Ho. cbn in Ho. injection Ho as <-. eauto. }
      destruct X as (p0 & -> & Et & Epr). apply (protocol_tidy p j); [rewrite Et; exact K| | |exact Ej].
      + exact (compile_messages_kept _ _ _ _ _ _ _ _ _ _ _ Hc Ep Ho W).
      + rewrite Epr. exact (idl_props_tidy _ _ _ _ _ Ep).
    - destruct (schema_to_json s [] None _) as [[j k]|] eqn:Ej; [|discriminate]. cbn in E. injection E as <-. cbn [io_json].
      assert (X : f = ISchema s) by (subst o; cbn in *; destruct f as [p0|s0|]; try discriminate Ho; cbn in Ho; congruence). subst f.
      exact (schema_tidy _ _ _ _ _ _ _ K (idl_schema_kept _ _ _ _ _ Ep) Ej).
    - discriminate.
  Qed.
  Lemma extracted_tidy dirs src name dir ip o ws' x y : compile dirs src name dir ip = (Ok o, ws') -> tidy_loads (co_loads o) ->
    extract_impl o = Ok x -> In y (so_schemas x) -> tidy (nm_schema y).
  Proof.
    intros Hc W E Hy. pose proof (compile_types_kept _ _ _ _ _ _ _ Hc W) as K.
    destruct (extract_impl_each _ _ _ _ _ _ _ _ Hc E) as [F _]. destruct (Forall2_in_r _ _ _ _ F Hy) as (s & Hs & _ & k & Ej).
    exact (schema_tidy _ _ _ _ _ _ _ K (K s Hs) Ej).
  Qed.
End World.
