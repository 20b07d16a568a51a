(** Errors stand where they were caused. *)
From Verif Require Import SpecPlaces BaseProofs ReadProofs DenoteProofs FileProofs CompileProofs LoadProofs BuildProofs ImportProofs RegistryProofs TypeProofs ReaderProofs SyntaxProofs.
From Verif Require SpecRefs RefsProofs.
From Coq Require Import Lia.

(** ** Schemas from JSON have no places *)
Definition bare (s : schema) : Prop := forall full o, SpecRefs.mentions_at s full o -> o = None.
Lemma bare_record n ns d fs e al ps : Forall (fun f => bare (f_schema f)) fs -> bare (SRecord n ns d fs e al ps).
Proof. intros F full o M. inversion M as [|? ? ? ? ? ? ? f ? ? Hf Hm| | |]; subst. rewrite Forall_forall in F. exact (F f Hf _ _ Hm). Qed.
Lemma bare_array i ps : bare i -> bare (SArray i ps).
Proof. intros B full o M. inversion M; subst. eapply B; eassumption. Qed.
Lemma bare_map i ps : bare i -> bare (SMap i ps).
Proof. intros B full o M. inversion M; subst. eapply B; eassumption. Qed.
Lemma bare_union ts b : Forall bare ts -> bare (SUnion ts b).
Proof. intros B full o M. inversion M as [| | | |? ? t ? ? Ht Hm]; subst. rewrite Forall_forall in B. exact (B t Ht _ _ Hm). Qed.
Lemma bare_record_inv n ns d fs e al ps : bare (SRecord n ns d fs e al ps) -> Forall (fun f => bare (f_schema f)) fs.
Proof. intro B. apply Forall_forall. intros f Hf full o M. apply (B full). econstructor; eassumption. Qed.
Lemma bare_array_inv i ps : bare (SArray i ps) -> bare i.
Proof. intros B full o M. apply (B full). now constructor. Qed.
Lemma bare_map_inv i ps : bare (SMap i ps) -> bare i.
Proof. intros B full o M. apply (B full). now constructor. Qed.
Lemma bare_union_inv ts b : bare (SUnion ts b) -> Forall bare ts.
Proof. intro B. apply Forall_forall. intros t Ht full o M. apply (B full). econstructor; eassumption. Qed.
Lemma bare_ref n ns ps : bare (SRef n ns ps None).
Proof. intros full o M. now inversion M. Qed.
Ltac bare_leaf := intros ? ? M; inversion M.

Lemma map_res_all {A B X} (f : A -> result B X) (P : B -> Prop) l m : (forall a b, In a l -> f a = Ok b -> P b) -> map_res f l = Ok m -> Forall P m.
Proof.
  revert m. induction l as [|a l IH]; intros m Hf Hm; cbn in Hm; [injection Hm as <-; constructor|].
  destruct (f a) as [b|] eqn:E; [|discriminate]. destruct (map_res f l) as [bs|]; [|discriminate]. injection Hm as <-. constructor.
  - eapply Hf; [now left|exact E].
  - apply IH; [|reflexivity]. intros a' b' Ha. apply Hf. now right.
Qed.
Lemma string_bare s dns : bare (string_to_schema s dns).
Proof. unfold string_to_schema. repeat match goal with |- bare (match ?x with _ => _ end) => destruct x end; first [apply bare_ref|bare_leaf]. Qed.
Lemma json_bare_n n : forall j dns s, json_to_schema_n n j dns = Ok s -> bare s.
Proof.
  induction n as [|n IH]; intros j dns s E; [discriminate|]. cbn [json_to_schema_n] in E. destruct j as [| | |str|l|o]; try discriminate.
  - injection E as <-. apply string_bare.
  - destruct (map_res _ l) as [ts|] eqn:M; [|discriminate]. injection E as <-. apply bare_union. eapply map_res_all; [|exact M]. intros a b _. apply IH.
  - destruct (get_str "type" o) as [ty|]; [|discriminate]. destruct (_ || _)%bool.
    + destruct (parse_name o dns) as [[name ns]|]; [|discriminate].
      match type of E with context [match ?x with Ok _ => _ | Err _ => _ end] => destruct x as [fields|] eqn:M; [|discriminate] end. injection E as <-.
      apply bare_record. destruct (jget "fields" o) as [[| | | |fj|]|]; try (injection M as <-; constructor).
      eapply map_res_all; [|exact M]. intros a b _ Hb. cbv beta zeta in Hb. destruct a as [| | | | |ao]; try discriminate. destruct (get_str "name" ao); [|discriminate].
      destruct (jget "type" ao) as [tj|]; [|discriminate]. destruct (json_to_schema_n n tj _) as [t|] eqn:Et; [|discriminate]. injection Hb as <-. exact (IH _ _ _ Et).
    + destruct (String.eqb ty "enum").
      { unfold parse_enum in E. destruct (parse_name o dns) as [[name ns]|]; [|discriminate]. repeat match type of E with context [match ?x with _ => _ end] => destruct x; try discriminate end; injection E as <-; bare_leaf. }
      destruct (String.eqb ty "fixed").
      { unfold parse_fixed in E. destruct (parse_name o dns) as [[name ns]|]; [|discriminate]. repeat match type of E with context [match ?x with _ => _ end] => destruct x; try discriminate end; injection E as <-; bare_leaf. }
      destruct (String.eqb ty "array").
      { destruct (jget "items" o) as [ij|]; [|discriminate]. destruct (json_to_schema_n n ij dns) as [t|] eqn:Et; [|discriminate]. injection E as <-. apply bare_array. exact (IH _ _ _ Et). }
      destruct (String.eqb ty "map").
      { destruct (jget "values" o) as [ij|]; [|discriminate]. destruct (json_to_schema_n n ij dns) as [t|] eqn:Et; [|discriminate]. injection E as <-. apply bare_map. exact (IH _ _ _ Et). }
      destruct (prim_of_str ty); [|discriminate]. unfold parse_annotated_primitive in E.
      repeat match type of E with context [match ?x with _ => _ end] => destruct x; try discriminate end; injection E as <-; bare_leaf.
Qed.
Lemma json_bare j dns s : json_to_schema j dns = Ok s -> bare s.
Proof. apply json_bare_n. Qed.
Lemma flatten_bare s : bare s -> bare (snd (flatten s)) /\ Forall bare (fst (flatten s)).
Proof.
  induction s as [p|n ns d fs e al ps Hfs|n ns d sy df al ps|n ns d sz al ps|i ps IHi|i ps IHi
                  |ts b Hts|k ps|l ps|n ns ps sp] using schema_ind'; intro B.
  - split; [bare_leaf|constructor].
  - rewrite flatten_record. cbn [fst snd]. split; [apply bare_ref|]. apply bare_record_inv in B. apply Forall_app. split.
    + apply Forall_forall. intros t Ht. apply in_flat_map in Ht as (f & Hf & Ht). rewrite Forall_forall in Hfs, B. destruct (Hfs f Hf (B f Hf)) as [_ F]. rewrite Forall_forall in F. auto.
    + constructor; [|constructor]. apply bare_record. apply Forall_forall. intros f' Hf'. apply in_map_iff in Hf' as (f & <- & Hf). cbn. rewrite Forall_forall in Hfs, B. exact (proj1 (Hfs f Hf (B f Hf))).
  - split; [apply bare_ref|constructor; [exact B|constructor]].
  - split; [apply bare_ref|constructor; [exact B|constructor]].
  - apply bare_array_inv in B. destruct (IHi B) as [A C]. cbn [flatten]. destruct (flatten i) as [c i']. cbn in *. split; [now apply bare_array|exact C].
  - apply bare_map_inv in B. destruct (IHi B) as [A C]. cbn [flatten]. destruct (flatten i) as [c i']. cbn in *. split; [now apply bare_map|exact C].
  - apply bare_union_inv in B. cbn [flatten fst snd]. rewrite Forall_forall in Hts, B. split.
    + apply bare_union. apply Forall_forall. intros t Ht. rewrite map_map in Ht. apply in_map_iff in Ht as (u & <- & Hu). exact (proj1 (Hts u Hu (B u Hu))).
    + apply Forall_forall. intros t Ht. apply in_flat_map in Ht as (x & Hx & Ht). apply in_map_iff in Hx as (u & <- & Hu). destruct (Hts u Hu (B u Hu)) as [_ F]. rewrite Forall_forall in F. auto.
  - split; [bare_leaf|constructor].
  - split; [bare_leaf|constructor].
  - split; [exact B|constructor].
Qed.
Lemma json_field_bare j dns f : json_to_field j dns = Ok f -> bare (f_schema f).
Proof.
  unfold json_to_field. destruct j as [| | | | |o]; try discriminate. destruct (get_str "name" o); [|discriminate]. destruct (jget "type" o) as [tj|]; [|discriminate].
  destruct (json_to_schema tj dns) as [t|] eqn:Et; [|discriminate]. intro E. injection E as <-. exact (json_bare _ _ _ Et).
Qed.
Lemma json_message_bare j dns m t : json_to_message j dns = Ok m -> message_type m t -> bare t.
Proof.
  unfold json_to_message. destruct j as [| | | | |o]; try discriminate. cbv zeta.
  match goal with |- match ?x with Ok _ => _ | Err _ => _ end = _ -> _ => destruct x as [rq|] eqn:E1; [|discriminate] end.
  match goal with |- match ?x with Ok _ => _ | Err _ => _ end = _ -> _ => destruct x as [rs|] eqn:E2; [|discriminate] end.
  match goal with |- match ?x with Ok _ => _ | Err _ => _ end = _ -> _ => destruct x as [er|] eqn:E3; [|discriminate] end.
  intros E T. injection E as <-. inversion T as [m'|m' f Hf|m' es e Ee He]; subst; cbn [m_response m_request m_errors] in *.
  - destruct (jget "response" o) as [r|]; [exact (json_bare _ _ _ E2)|]. injection E2 as <-. bare_leaf.
  - assert (F : Forall (fun f => bare (f_schema f)) rq).
    { destruct (jget "request" o) as [[| | | |l|]|]; try (injection E1 as <-; constructor). eapply map_res_all; [|exact E1]. intros a b _. apply json_field_bare. }
    rewrite Forall_forall in F. auto.
  - assert (F : Forall bare es).
    { destruct (jget "errors" o) as [[| | | |l|]|]; try (congruence || discriminate). destruct (map_res _ l) as [x|] eqn:M; [|discriminate]. injection E3 as <-. injection Ee as <-.
      eapply map_res_all; [|exact M]. intros a b _. apply json_bare. }
    rewrite Forall_forall in F. auto.
Qed.

(** ** References of a declaration *)
Section Mentions.
  Context `{Unicode} `{Floats}.
  Definition stems (ns : option string) (refs : list (string * option span)) (s : schema) : Prop :=
    forall full o, SpecRefs.mentions_at s full o -> exists i n q, In (i, o) refs /\ refers ns i (n, q) /\ full = fullname n q.
  Lemma stems_nullable ns r s b : stems ns r s -> stems ns r (SUnion [SPrim PNull; s] b) /\ stems ns r (SUnion [s; SPrim PNull] b).
  Proof.
    intro S. split; intros full o M; inversion M as [| | | |? ? t ? ? Ht Hm]; subst; destruct Ht as [<-|[<-|[]]]; try (now inversion Hm); exact (S _ _ Hm).
  Qed.
  Lemma annotated_mentions l s s' : annotated_as l s s' -> forall full o, SpecRefs.mentions_at s' full o -> SpecRefs.mentions_at s full o.
  Proof.
    induction 1 as [s Hl|s s' Ha IH|ts|s s' Hs _|]; intros full o M; try exact M.
    - inversion M as [| | | |? ? t ? ? Ht Hm]; subst. destruct Ht as [<-|[<-|[]]]; [inversion Hm|]. apply SpecRefs.ma_union with (t := s); [right; now left|auto].
    - inversion Hs as [a b p C1 C2|i ps ps'|i ps ps']; subst.
      + destruct s; try discriminate; destruct s'; try discriminate; inversion M.
      + inversion M; subst. now constructor.
      + inversion M; subst. now constructor.
    - inversion M.
  Qed.
  Lemma denotes_stems :
    (forall t ns s, denotes ns t s -> stems ns (type_references t) s) /\
    (forall p ns s, denotes_plain ns p s -> stems ns (plain_references p) s).
  Proof.
    apply types_ind.
    - intros pl l p IH ns s Hd. inversion Hd as [pl' l' p' s0 s' Hp Hl Hr Ha]; subst. cbn [type_references]. intros full o M. eapply IH; [exact Hp|]. eapply annotated_mentions; eassumption.
    - intros t IH ns s Hd. inversion Hd; subst. cbn. intros full o M. inversion M; subst. eapply IH; eassumption.
    - intros t IH ns s Hd. inversion Hd; subst. cbn. intros full o M. inversion M; subst. eapply IH; eassumption.
    - intros ts IH ns s Hd. inversion Hd as [| | | | | | | |ts' ss Hts Hl]; subst. cbn [plain_references]. clear Hd Hl.
      intros full o M. inversion M as [| | | |? ? t ? ? Ht Hm]; subst. destruct (Forall2_in_r _ _ _ _ Hts Ht) as (x & Hx & Hd). rewrite Forall_forall in IH.
      destruct (IH x Hx _ _ Hd _ _ Hm) as (i & n & q & A & B & C). exists i, n, q. split; [|auto]. apply in_flat_map. eauto.
    - intros b o ns s Hd. destruct o.
      + inversion Hd as [| | | | |b' s0 Hd0 Hn| | |]; subst. apply stems_nullable. destruct b as [k kp|i sp].
        * inversion Hd0; subst; intros full o M; inversion M.
        * inversion Hd0; subst. intros full o M. inversion M; subst. do 3 eexists. split; [now left|]. split; [eassumption|reflexivity].
      + destruct b as [k kp|i sp]; inversion Hd; subst; intros full o M; inversion M; subst. do 3 eexists. split; [now left|]. split; [eassumption|reflexivity].
  Qed.
  Lemma variable_stems ns v ft s : variable_type ns v ft s -> stems ns (type_references ft) s.
  Proof.
    intro Hv. inversion Hv as [pl l b s0 Hd Hn|pl l b s0 Hd Hn|pl l p s0 Hp Hd]; subst.
    - apply (proj1 denotes_stems) in Hd. exact (proj1 (stems_nullable _ _ _ _ Hd)).
    - apply (proj1 denotes_stems) in Hd. exact (proj2 (stems_nullable _ _ _ _ Hd)).
    - now apply (proj1 denotes_stems) in Hd.
  Qed.
  Lemma in_variables d v l : In (d, v) (variables_of l) <-> In d l /\ In v (fd_variables d).
  Proof.
    unfold variables_of. rewrite in_flat_map. split.
    - intros (x & Hx & Hi). apply in_map_iff in Hi as (y & E & Hy). injection E as <- <-. auto.
    - intros [A B]. exists d. split; [exact A|]. apply in_map_iff. eauto.
  Qed.
  Lemma named_stems tokens ns d s p full o : named_denotes tokens ns d s -> SpecRefs.mentions_at s full o ->
    exists i ns' n q, In (i, o) (item_references (ItNamed d p)) /\ refers ns' i (n, q) /\ full = fullname n q.
  Proof.
    intros Hd M. inversion Hd as [r n q doc al ps fs Hh Hv Hn|e n q doc al ps Hh|x n q doc al ps size Hh]; subst; try now inversion M.
    inversion M as [|? ? ? ? ? ? ? f ? ? Hf Hm| | |]; subst. destruct (Forall2_in_r _ _ _ _ Hv Hf) as ([fd v] & Hi & Hx). apply in_variables in Hi as [Hfd Hvv].
    destruct (variable_stems _ _ _ _ (vd_type _ _ _ _ _ _ Hx) _ _ Hm) as (i & n' & q' & A & B & C). exists i, q, n', q'. split; [|auto]. cbn. apply in_flat_map. eauto.
  Qed.
  Lemma message_stems tokens ns m msg t full o : message_denotes tokens ns m msg -> message_type msg t -> SpecRefs.mentions_at t full o ->
    exists i n q, In (i, o) (item_references (ItMessage m)) /\ refers ns i (n, q) /\ full = fullname n q.
  Proof.
    intros Hd T M. cbn [item_references]. inversion T as [m'|m' f Hf|m' es e Ee He]; subst.
    - pose proof (me_response _ _ _ _ Hd) as Hr. inversion Hr as [E1 E2|p s Hp E1 E2].
      + rewrite <- E2 in M. inversion M.
      + destruct (proj2 denotes_stems _ _ _ Hp _ _ M) as (i & n & q & A & B & C). exists i, n, q. split; [|auto]. apply in_or_app. right. apply in_or_app. now left.
    - destruct (Forall2_in_r _ _ _ _ (me_request _ _ _ _ Hd) Hf) as (p & Hp & Hx). destruct (variable_stems _ _ _ _ (vd_type _ _ _ _ _ _ Hx) _ _ M) as (i & n & q & A & B & C).
      exists i, n, q. split; [|auto]. apply in_or_app. left. apply in_flat_map. eauto.
    - pose proof (me_errors _ _ _ _ Hd) as Hr. rewrite Ee in Hr. inversion Hr as [|e0 es0 ss Hx E1 E2]. clear Hr. subst ss.
      destruct (Forall2_in_r _ _ _ _ Hx He) as ([i sp] & Hi & n & q & Hn & ->). inversion M; subst. exists i, n, q. split; [|auto].
      apply in_or_app. right. apply in_or_app. right. exact Hi.
  Qed.
End Mentions.

(** ** Errors *)
Section World.
  Context `{Unicode} `{Floats} `{Parser} `{FileSystem} `{JsonParser}.

  Lemma reads_items f text tokens t file items ws : reads f text tokens t file items ws ->
    exists ns, Forall2 (item_denotes tokens ns) (handed_on t) items.
  Proof. intro R. apply reads_denotes in R. inversion R; subst; eexists; eassumption. Qed.
  Lemma handed_on_items it t : In it (handed_on t) -> In it (tree_items t).
  Proof. unfold handed_on. intro Hi. now apply filter_In in Hi. Qed.
  Lemma import_statement f text file items ws k name p : parse_idl f text = Ok (file, items, ws) -> In (DImport k name p) items ->
    exists path, statement f text (ItImport k path p) /\ name = get_string_from_literal path.
  Proof.
    intros Hp Hi. destruct (accepted_reads _ _ _ _ _ Hp) as (tokens & t & R). destruct (reads_items _ _ _ _ _ _ _ R) as (ns & F).
    destruct (Forall2_in_r _ _ _ _ F Hi) as (it & Hit & Hd). inversion Hd; subst. eexists. split; [|reflexivity].
    exists tokens, t, file, items, ws. split; [exact R|]. now apply handed_on_items.
  Qed.
  Lemma type_statement f text file items ws s p fs : parse_idl f text = Ok (file, items, ws) -> In (DType s p fs) items ->
    exists d tokens ns, statement f text (ItNamed d p) /\ named_denotes tokens ns d s /\ fs = field_places d.
  Proof.
    intros Hp Hi. destruct (accepted_reads _ _ _ _ _ Hp) as (tokens & t & R). destruct (reads_items _ _ _ _ _ _ _ R) as (ns & F).
    destruct (Forall2_in_r _ _ _ _ F Hi) as (it & Hit & Hd). inversion Hd; subst. exists d, tokens, ns. split; [|auto].
    exists tokens, t, file, items, ws. split; [exact R|]. now apply handed_on_items.
  Qed.

  (** Defaults *)
  Lemma default_errors_fields fuel env fs errors : field_default_errors fuel env fs = Some errors ->
    Forall (fun e => exists f j, In f fs /\ f_name f = fst e /\ f_default f = Some j) errors.
  Proof.
    revert errors. induction fs as [|f fs IH]; intros errors E; cbn [field_default_errors] in E; [injection E as <-; constructor|].
    match type of E with match ?x with _ => _ end = _ => destruct x as [a|] eqn:Ea; [|discriminate] end.
    destruct (field_default_errors fuel env fs) as [b|]; [|discriminate]. injection E as <-. apply Forall_app. split.
    - destruct (f_default f) as [dv|] eqn:Ed; [|injection Ea as <-; constructor]. destruct (resolve_for_validation _ _ _) as [[u|]|]; [|injection Ea as <-; constructor|discriminate].
      destruct (validate_default dv u); injection Ea as <-; constructor; [|constructor]. exists f, dv. cbn. auto.
    - eapply Forall_impl; [|exact (IH b eq_refl)]. intros e (g & j & A & B). exists g, j. cbn. auto.
  Qed.
  Lemma field_places_variables r : field_places (NRecord r) = map (fun dv => (identifier_text (v_ident (snd dv)), v_place (snd dv))) (variables_of (r_fields r)).
  Proof.
    cbn [field_places]. unfold variables_of. induction (r_fields r) as [|f l IH]; [reflexivity|]. cbn [flat_map]. rewrite map_app, <- IH, map_map. reflexivity.
  Qed.
  Lemma record_defaults tokens ns d s p fuel env errors : named_denotes tokens ns d s -> validate_record_field_defaults fuel s env = Some errors -> errors <> [] ->
    exists r, d = NRecord r /\ Forall (default_of r) (map (fun e => (e, default_place p (field_places d) (fst e))) errors).
  Proof.
    intros Hd Hv Hne. inversion Hd as [r n q doc al ps fs Hh Hvs Hn|e n q doc al ps Hh|x n q doc al ps size Hh]; subst; cbn in Hv; try congruence.
    exists r. split; [reflexivity|]. apply Forall_forall. intros e He. apply in_map_iff in He as (e0 & <- & He). apply default_errors_fields in Hv. rewrite Forall_forall in Hv.
    destruct (Hv e0 He) as (f & j & Hf & En & Ej). destruct (Forall2_in_r _ _ _ _ Hvs Hf) as ([fd v] & Hi & Hx).
    pose proof (vd_name _ _ _ _ _ _ Hx) as Ename. pose proof (vd_default _ _ _ _ _ _ Hx) as Edef. cbn [fst snd] in Ename, Edef.
    pose proof (proj1 (in_variables _ _ _) Hi) as [Hfd Hvd].
    assert (Ev : exists tj, v_default v = Some tj). { rewrite Ej in Edef. inversion Edef; eauto. } destruct Ev as (tj & Ev).
    exists fd, v, tj. split; [exact Hfd|]. split; [exact Hvd|]. split; [cbn; congruence|]. split; [exact Ev|]. cbn [snd].
    unfold default_place. rewrite field_places_variables.
    assert (E : assoc (fst e0) (map (fun dv => (identifier_text (v_ident (snd dv)), v_place (snd dv))) (variables_of (r_fields r))) = Some (v_place v)); [|now rewrite E].
    rewrite <- En, Ename. clear -Hi Hvs Hn. assert (N : NoDup (map (fun dv => identifier_text (v_ident (snd dv))) (variables_of (r_fields r)))).
    { replace (map _ _) with (map f_name fs); [exact Hn|]. clear -Hvs. induction Hvs as [|dv f l m Hx _ IH]; [reflexivity|]. cbn [map]. rewrite IH. f_equal. exact (vd_name _ _ _ _ _ _ Hx). }
    clear -Hi N. induction (variables_of (r_fields r)) as [|[fd' v'] l IH]; [destruct Hi|]. cbn [map assoc snd] in *. inversion N as [|? ? Nx Nl]; subst.
    destruct Hi as [E|Hi]; [injection E as -> ->; now rewrite String.eqb_refl|]. destruct (String.eqb _ _) eqn:Eq; [|auto]. apply String.eqb_eq in Eq. elim Nx. rewrite <- Eq. apply in_map_iff. exists (fd, v). auto.
  Qed.

  (** JSON imports *)
  Lemma import_types_fails types dns r r' e : import_types types dns r = (r', Some e) -> exists tj, In tj types /\ json_to_schema tj dns = Err e.
  Proof.
    revert r. induction types as [|t types IH]; intros r E; cbn in E; [discriminate|]. destruct (json_to_schema t dns) as [s|x] eqn:Ej.
    - destruct (IH _ E) as (tj & A & B). exists tj. cbn. auto.
    - injection E as _ <-. exists t. cbn. auto.
  Qed.
  Lemma map_res_fails {A B X} (f : A -> result B X) l e : map_res f l = Err e -> exists a, In a l /\ f a = Err e.
  Proof.
    induction l as [|a l IH]; cbn; [discriminate|]. destruct (f a) as [b|x] eqn:E.
    - destruct (map_res f l) as [bs|y]; [discriminate|]. intro Ey. injection Ey as ->. destruct (IH eq_refl) as (a' & A' & B'). eauto.
    - intro Ey. injection Ey as ->. eauto.
  Qed.
  Section Input.
    Variables (dirs : list string) (label src dir : string).
    Notation involved := (involved dirs label src dir).
    Notation explained := (explained dirs label src dir).
    Notation import_fails := (import_fails dirs).

    Lemma protocol_fails d name q j r r' e : found_in (d :: dirs) name q -> json_content q j -> import_protocol j r = (r', Err e) ->
      import_fails d ImportProtocol name (ImportFailed q e).
    Proof.
      intros Hf Hj E. unfold import_protocol in E. cbv zeta in E. destruct (import_types _ _ r) as [r1 [x|]] eqn:Et.
      - injection E as _ <-. destruct (import_types_fails _ _ _ _ _ Et) as (tj & Hi & Ht). destruct (value_get "types" j) as [[| | | |l|]|] eqn:Ev; try destruct Hi.
        eapply imf_type; eauto.
      - destruct (value_get "messages" j) as [[| | | | |l]|] eqn:Ev; try discriminate. destruct (import_messages _ _) as [ms|x] eqn:Em; [discriminate|]. injection E as _ <-.
        unfold import_messages in Em. apply map_res_fails in Em as (nm & Hi & Hm). destruct (json_to_message (snd nm) _) as [m|y] eqn:Ej; [discriminate|]. injection Hm as <-.
        eapply imf_message; eauto.
    Qed.
    Lemma schema_fails d name q j r r' e : found_in (d :: dirs) name q -> json_content q j -> import_schema j r = (r', Err e) ->
      import_fails d ImportSchema name (ImportFailed q e).
    Proof.
      intros Hf Hj E. unfold import_schema in E. destruct (json_to_schema j None) as [s|x] eqn:Ej; [discriminate|]. injection E as _ <-. eapply imf_schema; eauto.
    Qed.
    Lemma resolve_fails d k name e : resolve_import dirs name d = Err e -> import_fails d k name e.
    Proof.
      unfold resolve_import. destruct (search name (d :: dirs)) as [[q|]|] eqn:E; intro X; try discriminate; injection X as <-.
      - apply search_iff in E as (b & x & a & Ed & _ & Hx & Hc). eapply imf_no_path; [|exact Hx|exact Hc]. rewrite Ed. apply in_or_app. right. now left.
      - constructor. now apply search_none.
    Qed.

    (** The items of a file that takes part *)
    Definition read_from (d : string) (its : list decl_item) : Prop :=
      exists f text file ws, involved f text d /\ parse_idl f text = Ok (file, its, ws).
    Lemma load_explained nested k path name q p f text d c c' e :
      (forall d' its x y e', read_from d' its -> nested d' its x = (y, Some e') -> e' = OutOfFuel \/ explained e') ->
      involved f text d -> statement f text (ItImport k path p) -> name = get_string_from_literal path ->
      found_in (d :: dirs) name q -> load_import nested k name q p c = (c', Some e) -> e = OutOfFuel \/ explained e.
    Proof.
      intros Hn Hi Hs -> Hq E. unfold load_import in E. destruct k.
      - destruct (fs_read q) as [t|] eqn:Et; [|injection E as <- <-; right; eapply ex_read; eauto].
        destruct (parse_idl q t) as [[[file its] ws]|x] eqn:Ep.
        + eapply Hn; [|exact E]. exists q, t, file, ws. split; [|exact Ep]. eapply inv_import; eauto.
        + injection E as <- <-. right. eapply ex_parse; [|exact Ep]. eapply inv_import; eauto.
      - right. destruct (fs_read q) as [t|] eqn:Et; [|injection E as <- <-; eapply ex_import; eauto; eapply imf_unreadable; eauto; discriminate].
        destruct (parse_json t) as [j|] eqn:Ej; [|injection E as <- <-; eapply ex_import; eauto; eapply imf_not_json; eauto; discriminate].
        destruct (import_protocol j _) as [r [ms|x]] eqn:Ei; [discriminate|]. injection E as <- <-. eapply ex_import; eauto. eapply protocol_fails; eauto. exists t. auto.
      - right. destruct (fs_read q) as [t|] eqn:Et; [|injection E as <- <-; eapply ex_import; eauto; eapply imf_unreadable; eauto; discriminate].
        destruct (parse_json t) as [j|] eqn:Ej; [|injection E as <- <-; eapply ex_import; eauto; eapply imf_not_json; eauto; discriminate].
        destruct (import_schema j _) as [r [u|x]] eqn:Ei; [discriminate|]. injection E as <- <-. eapply ex_import; eauto. eapply schema_fails; eauto. exists t. auto.
    Qed.
    Lemma items_explained nested f text file items0 ws d items :
      (forall d' its x y e', read_from d' its -> nested d' its x = (y, Some e') -> e' = OutOfFuel \/ explained e') ->
      involved f text d -> parse_idl f text = Ok (file, items0, ws) -> (forall it, In it items -> In it items0) ->
      forall c c' e, process_items nested dirs d items c = (c', Some e) -> e = OutOfFuel \/ explained e.
    Proof.
      intros Hn Hi Hp. induction items as [|it items IH]; intros Hin c c' e E; [discriminate|]. cbn [process_items] in E.
      assert (Hit : In it items0) by (apply Hin; now left). destruct it as [k name p|s p fs].
      - destruct (import_statement _ _ _ _ _ _ _ _ Hp Hit) as (path & Hs & En).
        destruct (resolve_single_import nested dirs k name p d c) as [c1 [e1|]] eqn:Er.
        + injection E as <- <-. unfold resolve_single_import in Er. destruct (resolve_import dirs name d) as [q|x] eqn:Eq.
          * destruct (str_mem q (cx_imported c)); [discriminate|]. apply resolve_import_iff in Eq. eapply load_explained; eauto.
          * injection Er as <- <-. right. eapply ex_import; eauto. rewrite <- En. now apply resolve_fails.
        + eapply IH; [|exact E]. intros it Hx. apply Hin. now right.
      - destruct (process_type s p fs c) as [c1 [e1|]] eqn:Er.
        + injection E as <- <-. destruct (type_statement _ _ _ _ _ _ _ _ Hp Hit) as (decl & tokens & ns & Hs & Hd & ->).
          unfold process_type in Er. pose proof (register_cases (cx_registry c) s) as Hc. destruct (register (cx_registry c) s) as [r|x] eqn:Eg.
          * destruct (validate_record_field_defaults _ s _) as [[|x l]|] eqn:Ev; try discriminate.
            -- injection Er as <- <-. right. destruct (record_defaults _ _ _ _ p _ _ _ Hd Ev ltac:(discriminate)) as (rec & -> & F). eapply ex_default; eauto. discriminate.
            -- injection Er as <- <-. now left.
          * injection Er as <- <-. right. eapply ex_type; eauto. unfold cannot_declare. destruct x; try exact Hc. apply Hc.
        + eapply IH; [|exact E]. intros it Hx. apply Hin. now right.
    Qed.
    Lemma process_explained fuel : forall d its c c' e, read_from d its -> process_decl_items fuel dirs d its c = (c', Some e) -> e = OutOfFuel \/ explained e.
    Proof.
      induction fuel as [|n IH]; intros d its c c' e (f & text & file & ws & Hi & Hp) E; cbn [process_decl_items] in E.
      - eapply items_explained; try exact Hi; try exact Hp; try exact E; [|auto]. intros d' its' x y e' _ X. injection X as <- <-. now left.
      - eapply items_explained; try exact Hi; try exact Hp; try exact E; [|auto]. intros d' its' x y e' R X. eapply IH; eassumption.
    Qed.

    (** *** Undefined names *)
    Definition json_statement (x : string * option span) : Prop :=
      exists p f text d k path, snd x = Some p /\ involved f text d /\ k <> ImportIdl /\ statement f text (ItImport k path p).
    Definition loaded_well (c : context) (kq : import_kind * string) : Prop :=
      match fst kq with
      | ImportIdl => exists text, fs_read (snd kq) = Some text /\ involved (snd kq) text (fs_parent (snd kq))
      | _ => cx_json_imports c <> []
      end.
    Lemma handled_places d items c c' : handled dirs d items c c' ->
      forall f text file items0 ws, involved f text d -> parse_idl f text = Ok (file, items0, ws) -> (forall it, In it items -> In it items0) ->
      (exists more, cx_json_imports c' = cx_json_imports c ++ more /\ Forall json_statement more)
      /\ (forall kq, In kq (cx_loads c') -> In kq (cx_loads c) \/ loaded_well c' kq).
    Proof.
      induction 1 as [d c|d s sp fs r its c c' Hr Hv Hh IH|d k name sp q its c c' Hfo Hi Hh IH
        |d name sp q j r ms its c c' Hfo Hi Hj Hp Hh IH|d name sp q j r its c c' Hfo Hi Hj Hp Hh IH
        |d name sp q file' its' ws' its c c1 c' Hfo Hi Hc Hh1 IH1 Hh2 IH2]; intros f text file items0 ws Hin Hpa Hit.
      - split; [exists []; split; [symmetry; apply app_nil_r|constructor]|auto].
      - apply (IH f text file items0 ws Hin Hpa). intros it Hx. apply Hit. now right.
      - apply (IH f text file items0 ws Hin Hpa). intros it Hx. apply Hit. now right.
      - destruct (IH f text file items0 ws Hin Hpa) as ((more & E & F) & L); [intros it Hx; apply Hit; now right|]. cbn in E, L.
        destruct (import_statement _ _ _ _ _ _ _ _ Hpa (Hit _ (or_introl eq_refl))) as (path & Hs & En).
        rewrite <- app_assoc in E. split.
        + exists ([(q, Some sp)] ++ more). split; [exact E|]. constructor; [|exact F]. exists sp, f, text, d, ImportProtocol, path. repeat split; auto. discriminate.
        + intros kq Hk. destruct (L kq Hk) as [Hx|Hx]; [|now right]. apply in_app_or in Hx as [Hx|[<-|[]]]; [now left|right]. cbn. rewrite E. intro X. apply app_eq_nil in X as [_ X]. discriminate.
      - destruct (IH f text file items0 ws Hin Hpa) as ((more & E & F) & L); [intros it Hx; apply Hit; now right|]. cbn in E, L.
        destruct (import_statement _ _ _ _ _ _ _ _ Hpa (Hit _ (or_introl eq_refl))) as (path & Hs & En).
        rewrite <- app_assoc in E. split.
        + exists ([(q, Some sp)] ++ more). split; [exact E|]. constructor; [|exact F]. exists sp, f, text, d, ImportSchema, path. repeat split; auto. discriminate.
        + intros kq Hk. destruct (L kq Hk) as [Hx|Hx]; [|now right]. apply in_app_or in Hx as [Hx|[<-|[]]]; [now left|right]. cbn. rewrite E. intro X. apply app_eq_nil in X as [_ X]. discriminate.
      - destruct (import_statement _ _ _ _ _ _ _ _ Hpa (Hit _ (or_introl eq_refl))) as (path & Hs & En). subst name.
        destruct Hc as (text' & Ht & Hpt). assert (Hq : involved q text' (fs_parent q)) by (eapply inv_import; eauto).
        destruct (IH1 q text' file' its' ws' Hq Hpt (fun it Hx => Hx)) as ((m1 & E1 & F1) & L1). cbn in E1, L1.
        destruct (IH2 f text file items0 ws Hin Hpa) as ((m2 & E2 & F2) & L2); [intros it Hx; apply Hit; now right|].
        split.
        + exists (m1 ++ m2). rewrite E2, E1, <- app_assoc. split; [reflexivity|]. now apply Forall_app.
        + intros kq Hk. destruct (L2 kq Hk) as [Hx|Hx]; [|now right]. destruct (L1 kq Hx) as [Hy|Hy].
          * apply in_app_or in Hy as [Hy|[<-|[]]]; [now left|right]. cbn. eauto.
          * right. unfold loaded_well in *. destruct (fst kq); [exact Hy| |]; rewrite E2; intro X; apply app_eq_nil in X as [X _]; exact (Hy X).
    Qed.

    (** Where a mention was written *)
    Definition found_at (full : string) (o : option span) : Prop :=
      exists f text d i ns n q, involved f text d /\ refers_to f text i o /\ refers ns i (n, q) /\ full = fullname n q.
    Lemma refers_item f text i o tokens t file items ws it :
      reads f text tokens t file items ws -> In it (tree_items t) -> In (i, o) (item_references it) -> refers_to f text i o.
    Proof.
      intros R Hi Hr. exists tokens, t, file, items, ws. split; [exact R|]. unfold tree_references. apply in_or_app. right. apply in_flat_map. eauto.
    Qed.
    Lemma type_found f text d file items ws s p fs full o : involved f text d -> parse_idl f text = Ok (file, items, ws) -> In (DType s p fs) items ->
      SpecRefs.mentions_at s full o -> found_at full o.
    Proof.
      intros Hin Hp Hi M. destruct (type_statement _ _ _ _ _ _ _ _ Hp Hi) as (decl & tokens & ns & (tk & t & fl & its & w & R & Hit) & Hd & _).
      destruct (named_stems _ _ _ _ p _ _ Hd M) as (i & ns' & n & q & A & B & C). exists f, text, d, i, ns', n, q. split; [exact Hin|]. split; [|auto].
      eapply refers_item; eassumption.
    Qed.
    Lemma message_found f text d p items ws nm t full o : involved f text d -> parse_idl f text = Ok (IProtocol p, items, ws) -> In nm (p_messages p) ->
      message_type (snd nm) t -> SpecRefs.mentions_at t full o -> found_at full o.
    Proof.
      intros Hin Hp Hi Ht M. destruct (accepted_reads _ _ _ _ _ Hp) as (tokens & tr & R). pose proof (reads_denotes _ _ _ _ _ _ _ R) as Hd. apply file_messages in Hd as [_ Hm].
      destruct nm as [name msg]. destruct (Hm name msg Hi) as (m & (b & a & Em & _) & Hmd). destruct (message_stems _ _ _ _ _ _ _ Hmd Ht M) as (i & n & q & A & B & C).
      exists f, text, d, i, (p_namespace p), n, q. split; [exact Hin|]. split; [|auto]. eapply refers_item; [exact R| |exact A].
      assert (Hx : In m (tree_messages tr)) by (rewrite Em; apply in_or_app; right; now left). unfold tree_messages in Hx. apply in_flat_map in Hx as (it & Hit & Hx).
      destruct it as [| |m0]; cbn in Hx; try contradiction. destruct Hx as [->|[]]. exact Hit.
    Qed.
    Lemma main_found f text d s items ws full o : involved f text d -> parse_idl f text = Ok (ISchema s, items, ws) -> SpecRefs.mentions_at s full o -> found_at full o.
    Proof.
      intros Hin Hp M. destruct (accepted_reads _ _ _ _ _ Hp) as (tokens & tr & R). pose proof (reads_denotes _ _ _ _ _ _ _ R) as Hd.
      inversion Hd as [|nsd ft its ns s' items' t Hns Hs Hf|]; subst. destruct (proj1 denotes_stems _ _ _ Hs _ _ M) as (i & n & q & A & B & C).
      exists f, text, d, i, ns, n, q. split; [exact Hin|]. split; [|auto]. exists tokens, t, (ISchema s), items, ws. split; [exact R|]. unfold tree_references. apply in_or_app. now left.
    Qed.
    Lemma named_found f text d l items ws s full o : involved f text d -> parse_idl f text = Ok (INamed l, items, ws) -> In s l -> SpecRefs.mentions_at s full o -> found_at full o.
    Proof.
      intros Hin Hp Hi M. destruct (accepted_reads _ _ _ _ _ Hp) as (tokens & tr & R). pose proof (reads_denotes _ _ _ _ _ _ _ R) as Hd.
      inversion Hd; subst. apply in_declared_types in Hi as (p & fs & Hi). eapply type_found; eauto.
    Qed.
    Lemma in_hm_insert {A} k (v : A) m x : In x (hm_insert k v m) -> x = (k, v) \/ In x m.
    Proof.
      induction m as [|[k' v'] m IH]; cbn; [intros [E|[]]; auto|]. destruct (String.eqb k k') eqn:Ek; cbn; intros [E|Hx]; auto.
      - apply String.eqb_eq in Ek. subst. auto.
      - destruct (IH Hx); auto.
    Qed.
    Lemma in_hm_extend {A} (l m : list (string * A)) x : In x (hm_extend m l) -> In x l \/ In x m.
    Proof.
      unfold hm_extend. revert m. induction l as [|[k v] l IH]; intros m Hx; cbn in *; [now right|]. destruct (IH _ Hx) as [Hy|Hy]; [auto|]. apply in_hm_insert in Hy as [->|Hy]; auto.
    Qed.
    Lemma in_extends {A} tables (m : list (string * A)) x : In x (fold_left hm_extend tables m) -> In x m \/ exists t, In t tables /\ In x t.
    Proof.
      revert m. induction tables as [|t tables IH]; intros m Hx; cbn in Hx; [now left|]. destruct (IH _ Hx) as [Hy|(t' & A' & B')].
      - apply in_hm_extend in Hy as [Hy|Hy]; [right; exists t; cbn; auto|now left].
      - right. exists t'. cbn. auto.
    Qed.
    Lemma mention_found file items ws ip c full o : parse_idl label src = Ok (file, items, ws) -> types_flat items -> handled dirs dir items (start_context ws ip) c ->
      SpecRefs.mentioned_at (cx_registry c) (ref_file (finish_file file c)) full o -> found_at full o \/ (o = None /\ cx_json_imports c <> []).
    Proof.
      intros Hp Hf Hh M. pose proof (inv_input dirs label src dir) as Hin.
      destruct (handled_places _ _ _ _ Hh label src file items ws Hin Hp (fun it Hx => Hx)) as (_ & L).
      destruct (start_fields ws ip) as (Er0 & Em0 & El0 & _ & _).
      assert (L' : forall kq, In kq (cx_loads c) -> loaded_well c kq) by (intros kq Hk; destruct (L kq Hk) as [Hx|Hx]; [rewrite El0 in Hx; destruct Hx|exact Hx]).
      assert (D : forall s, In s (reg_schemas (cx_registry c)) -> SpecRefs.mentions_at s full o -> found_at full o \/ (o = None /\ cx_json_imports c <> [])).
      { intros s Hs Hm. destruct (handled_declared dirs dir items (cx_loads c) dir items _ _ Hf Hh (so_input dir items (cx_loads c)) (fun kp Hk => Hk) s Hs) as [Hx|Hx].
        - rewrite Er0 in Hx. destruct Hx.
        - inversion Hx as [d its sp fs Hso Hi|q j t Hi Hj Ht Hfl|q j tj t types Hi Hj Hty Htj Ht Hfl]; subst.
          + left. inversion Hso as [|q fl itq wq Hl (text & Hrd & Hpa)]; subst; [eapply type_found; eauto|]. destruct (L' _ Hl) as (text' & Hrd' & Hq). cbn in Hrd', Hq.
            assert (text' = text) as -> by congruence. eapply type_found; eauto.
          + right. split; [|exact (L' _ Hi)]. apply json_bare in Ht. apply flatten_bare in Ht as [_ F]. rewrite Forall_forall in F. exact (F s Hfl _ _ Hm).
          + right. split; [|exact (L' _ Hi)]. apply json_bare in Ht. apply flatten_bare in Ht as [_ F]. rewrite Forall_forall in F. exact (F s Hfl _ _ Hm). }
      inversion M as [g k s full' sp Hi Hm E1 E2|s full' sp Hm E1 E2|ss s full' sp Hi Hm E1 E2|p k m t full' sp Hi Ht Hm E1 E2]; subst full' sp.
      - apply (D s); [|exact Hm]. unfold reg_schemas. apply in_map_iff. exists (k, s). auto.
      - left. destruct file as [p|s'|l]; cbn in E1; try discriminate. injection E1 as ->. eapply main_found; eauto.
      - left. destruct file as [p|s'|l]; cbn in E1; try discriminate. injection E1 as ->. eapply named_found; eauto.
      - destruct file as [p'|s'|l]; cbn in E1; try discriminate. injection E1 as ->. cbn [p_messages] in Hi. apply in_hm_extend in Hi as [Hi|Hi].
        + left. eapply (message_found label src dir p' items ws (k, m)); eauto.
        + destruct (handled_messages _ _ _ _ _ Hh) as (new & tables & En & F & Et). rewrite El0 in En. cbn in En. subst new. rewrite Em0 in Et. rewrite Et in Hi.
          apply in_extends in Hi as [[]|(table & Hta & Hi)]. destruct (Forall2_in_r _ _ _ _ F Hta) as (kq & Hkq & Hlm). pose proof (L' _ Hkq) as Lw.
          inversion Hlm as [q file' its' ws' (text & Hrd & Hpa)|q j ms Hj Hms|q]; subst.
          * left. destruct Lw as (text' & Hrd' & Hq). cbn in Hrd', Hq. assert (text' = text) as -> by congruence. destruct file' as [p2| |]; cbn in Hi; try contradiction.
            eapply (message_found q text (fs_parent q) p2 its' ws' (k, m)); eauto.
          * right. split; [|exact Lw]. destruct (value_get "messages" j) as [[| | | | |l]|]; try (subst table; destruct Hi).
            destruct (Forall2_in_r _ _ _ _ Hms Hi) as (kv & _ & _ & Hjm). exact (json_message_bare _ _ _ _ Hjm Ht _ _ Hm).
          * destruct Hi.
    Qed.

    Lemma first_place_of js : Forall json_statement js -> js <> [] ->
      exists p x rest, js = (x, Some p) :: rest /\ json_statement (x, Some p).
    Proof. intros F Hn. destruct js as [|[x o] rest]; [contradiction|]. inversion F as [|? ? Hx _]; subst. destruct Hx as (p & Hr). exists p, x, rest. destruct Hr as (f & t & d & k & path & E & R). cbn in E. subst o. split; [reflexivity|]. exists p, f, t, d, k, path. auto. Qed.
    Lemma undefined_explained file items ws ip c e : parse_idl label src = Ok (file, items, ws) -> types_flat items -> handled dirs dir items (start_context ws ip) c ->
      Refs.validate_all_references (ref_file (finish_file file c)) (cx_registry c) label (cx_json_imports c) = Some e -> explained (Undefined e).
    Proof.
      intros Hp Hf Hh E. pose proof (fun full o => mention_found file items ws ip c full o Hp Hf Hh) as MF.
      destruct (handled_places _ _ _ _ Hh label src file items ws (inv_input dirs label src dir) Hp (fun it Hx => Hx)) as ((js & Ej & F) & _).
      assert (E0 : cx_json_imports (start_context ws ip) = []) by (destruct ip; reflexivity). rewrite E0 in Ej. cbn in Ej. rewrite Ej in *. clear Ej E0.
      assert (Well : forall x p, json_statement (x, Some p) -> forall m, well_placed dirs label src dir p m).
      { intros x p (p' & f & t & d & k & path & Ep & A & B & C) m. cbn in Ep. injection Ep as <-. right. left. exists f, t, d, k, path. auto. }
      unfold Refs.validate_all_references in E.
      assert (U : forall n o, In (n, o) (Refs.sort_by_key (Refs.dedup_names [] (Refs.collect_all (ref_file (finish_file file c)) (cx_registry c)))) ->
                SpecRefs.mentioned_at (cx_registry c) (ref_file (finish_file file c)) n o).
      { intros n o Hx. apply (Permutation.Permutation_in _ (RefsProofs.sort_by_key_perm _)) in Hx. apply RefsProofs.dedup_in in Hx.
        pose proof (RefsProofs.collect_all_at (ref_file (finish_file file c)) (cx_registry c)) as G. rewrite Forall_forall in G. exact (G _ Hx). }
      set (l := Refs.sort_by_key _) in *. clearbody l. assert (U' : forall n o, In (n, o) l -> found_at n o \/ (o = None /\ js <> [])) by (intros n o Hx; apply MF; auto). clear U MF.
      assert (None_at : forall n, In (n, None) l -> js = [] -> exists f text d i, involved f text d /\ refers_to f text i None).
      { intros n Hn Hj. destruct (U' n None Hn) as [(f & t & d & i & ns & n' & q & A & B & _)|[_ X]]; [eauto 6|contradiction]. }
      assert (Some_at : forall n p, In (n, Some p) l -> well_placed dirs label src dir p (Refs.undefined_msg n)).
      { intros n p Hn. destruct (U' n (Some p) Hn) as [(f & t & d & i & ns & n' & q & A & B & C & D)|[X _]]; [|discriminate]. left. exists f, t, d, i, ns, n', q. rewrite D. auto. }
      destruct l as [|x0 l0]; [discriminate|]. unfold Refs.build_report in E. set (L := x0 :: l0) in *.
      destruct (Refs.spanned L) as [|[n1 p1] rest] eqn:Es.
      - assert (Hx0 : exists n, In (n, None) L).
        { destruct x0 as [n [p|]] eqn:Ex; [|exists n; now left]. exfalso. assert (Hx : In (n, p) (Refs.spanned L)) by (apply RefsProofs.spanned_In; now left). rewrite Es in Hx. destruct Hx. }
        destruct Hx0 as (n0 & Hx0). destruct js as [|y js'] eqn:Ejs.
        + cbn in E. injection E as <-. constructor; [intros p m []|]. intros _. exact (None_at n0 Hx0 eq_refl).
        + destruct (first_place_of (y :: js') F ltac:(discriminate)) as (p & x & rest & Ey & Hy). injection Ey as -> ->. cbn in E. injection E as <-.
          constructor; [|discriminate]. intros p' m [Ex|[]]. injection Ex as <- <-. exact (Well _ _ Hy _).
      - injection E as <-. constructor; [|discriminate]. intros p m Hi. cbn [SpecRefs.pointed] in Hi. destruct Hi as [Ex|Hi].
        + injection Ex as <- <-. apply Some_at. apply RefsProofs.spanned_In. rewrite Es. now left.
        + rewrite flat_map_app in Hi. apply in_app_or in Hi as [Hi|Hi]; apply in_flat_map in Hi as (g & Hg & Hi); apply in_map_iff in Hg as (z & <- & Hz); destruct Hi as [Ex|[]]; injection Ex as <- <-.
          * apply Some_at. apply RefsProofs.spanned_In. rewrite Es. right. now destruct z.
          * change (In z (Refs.spanless L)) in Hz. apply RefsProofs.spanless_In in Hz. destruct js as [|y js'] eqn:Ejs.
            -- right. right. split; [reflexivity|]. exact (None_at z Hz eq_refl).
            -- destruct (first_place_of (y :: js') F ltac:(discriminate)) as (p & x & rest' & Ey & Hy). injection Ey as -> ->. cbn. exact (Well _ _ Hy _).
    Qed.

    Theorem compile_explained ip e ws : compile dirs src label dir ip = (Err e, ws) -> explained e.
    Proof.
      intro E. pose proof (compile_ends _ _ _ _ _ _ _ E) as Hne. unfold compile in E. destruct (parse_and_resolve dirs src label dir ip) as [c [file|x]] eqn:Er.
      - destruct (Refs.validate_all_references _ _ _ _) as [dg|] eqn:Ev; [|discriminate]. injection E as <- _.
        apply resolve_run in Er. destruct Er as [(y & _ & _ & X)|(f & items & w & Ep & Hf & _ & [(y & _ & X)|(_ & Hh & X)])]; try discriminate. injection X as ->.
        eapply undefined_explained; eauto.
      - injection E as -> _. apply resolve_run in Er. destruct Er as [(y & Ey & _ & X)|(f & items & w & Ep & Hf & _ & [(y & Ey & X)|(_ & Hh & X)])]; try discriminate; injection X as ->.
        + eapply ex_parse; [apply inv_input|exact Ey].
        + destruct (process_explained _ _ _ _ _ _ (ex_intro _ label (ex_intro _ src (ex_intro _ f (ex_intro _ w (conj (inv_input dirs label src dir) Ep))))) Ey) as [->|X]; [|exact X]. now elim Hne.
    Qed.
  End Input.
End World.
