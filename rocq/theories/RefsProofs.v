(** Lemmas about the reference check. *)
From Coq Require Import Permutation Sorting.Sorted.
From Verif Require Import BaseProofs RegistryProofs SpecRefs.

Lemma is_registered_iff r full : is_registered r full = true <-> In full (map fst r).
Proof.
  unfold is_registered. destruct (assoc full r) eqn:E.
  - apply assoc_Some_In_keys in E. split; [intros _; exact E|reflexivity].
  - apply assoc_None in E. split; [discriminate|intro Hin; contradiction].
Qed.

Lemma collect_names known s full :
  In full (map fst (collect_unresolved_refs known s)) <-> mentions s full /\ known full = false.
Proof.
  assert (Hfm : forall {A} (g : A -> list (string * option span)) l,
             In full (map fst (flat_map g l)) <-> exists x, In x l /\ In full (map fst (g x))).
  { intros A g l. rewrite in_map_iff. split.
    - intros (y & <- & Hy). apply in_flat_map in Hy. destruct Hy as (x & Hx & Hy). exists x.
      split; [exact Hx|]. apply in_map, Hy.
    - intros (x & Hx & Hy). apply in_map_iff in Hy. destruct Hy as (y & <- & Hy). exists y.
      split; [reflexivity|]. apply in_flat_map. exists x. auto. }
  induction s as [p|n ns d fs e al ps Hfs|n ns d sy df al ps|n ns d sz al ps|i ps IHi|i ps IHi
                  |ts b Hts|k ps|l ps|n ns ps sp] using schema_ind'; cbn [collect_unresolved_refs];
    try (split; [intros []|intros [Hm _]; inversion Hm]; fail).
  - rewrite Hfm. split.
    + intros (f & Hin & Hf). rewrite Forall_forall in Hfs. apply (Hfs f Hin) in Hf. destruct Hf as [Hm Hk].
      split; [econstructor; eassumption|exact Hk].
    + intros [Hm Hk]. inversion Hm; subst. exists f. split; [assumption|]. rewrite Forall_forall in Hfs. apply Hfs; auto.
  - rewrite IHi. split; intros [Hm Hk]; (split; [|exact Hk]); [constructor; exact Hm|inversion Hm; subst; assumption].
  - rewrite IHi. split; intros [Hm Hk]; (split; [|exact Hk]); [constructor; exact Hm|inversion Hm; subst; assumption].
  - rewrite Hfm. split.
    + intros (f & Hin & Hf). rewrite Forall_forall in Hts. apply (Hts f Hin) in Hf. destruct Hf as [Hm Hk].
      split; [econstructor; eassumption|exact Hk].
    + intros [Hm Hk]. inversion Hm; subst. eexists. split; [eassumption|]. rewrite Forall_forall in Hts. apply Hts; auto.
  - rewrite make_full_name_fullname. destruct (known (fullname n ns)) eqn:E; cbn.
    + split; [intros []|]. intros [Hm Hk]. inversion Hm; subst. congruence.
    + split.
      * intros [<-|[]]. split; [constructor|exact E].
      * intros [Hm _]. inversion Hm; subst. left. reflexivity.
Qed.

Lemma In_fst_flat_map {A B} (g : A -> list (string * B)) l full :
  In full (map fst (flat_map g l)) <-> exists x, In x l /\ In full (map fst (g x)).
Proof.
  rewrite in_map_iff. split.
  - intros (y & <- & Hy). apply in_flat_map in Hy. destruct Hy as (x & Hx & Hy). exists x.
    split; [exact Hx|]. apply in_map, Hy.
  - intros (x & Hx & Hy). apply in_map_iff in Hy. destruct Hy as (y & <- & Hy). exists y.
    split; [reflexivity|]. apply in_flat_map. exists x. auto.
Qed.

Lemma not_registered r full : is_registered r full = false <-> ~ In full (map fst r).
Proof. rewrite <- is_registered_iff. destruct (is_registered r full); split; congruence. Qed.

Lemma validate_schema_names r s full :
  In full (map fst (validate_schema r s)) <-> mentions s full /\ ~ In full (map fst r).
Proof. unfold validate_schema. rewrite collect_names, not_registered. reflexivity. Qed.

Lemma message_names r m full :
  In full (map fst (message_unresolved r m)) <->
  (exists t, message_type m t /\ mentions t full) /\ ~ In full (map fst r).
Proof.
  unfold message_unresolved. rewrite !map_app, !in_app_iff, validate_schema_names, In_fst_flat_map.
  split.
  - intros [[Hm Hn]|[(f & Hf & Hm)|He]].
    + split; [|exact Hn]. eexists. split; [apply mt_response|exact Hm].
    + apply validate_schema_names in Hm. destruct Hm as [Hm Hn]. split; [|exact Hn]. eexists.
      split; [apply mt_request; exact Hf|exact Hm].
    + destruct (m_errors m) as [es|] eqn:E; [|destruct He]. apply In_fst_flat_map in He.
      destruct He as (e & Hin & Hm). apply validate_schema_names in Hm. destruct Hm as [Hm Hn].
      split; [|exact Hn]. exists e. split; [eapply mt_error; eassumption|exact Hm].
  - intros [(t & Ht & Hm) Hn]. destruct Ht as [m|m f Hf|m es e E Hin].
    + left. auto.
    + right. left. exists f. split; [exact Hf|]. apply validate_schema_names. auto.
    + right. right. rewrite E. apply In_fst_flat_map. exists e. split; [exact Hin|].
      apply validate_schema_names. auto.
Qed.

Lemma collect_all_names f r full :
  In full (map fst (collect_all f r)) <-> undefined_in f r full.
Proof.
  unfold collect_all, undefined_in. rewrite map_app, in_app_iff. unfold validate_references.
  rewrite In_fst_flat_map. split.
  - intros [([k s] & Hin & Hm)|Hm].
    + cbn in Hm. apply (validate_schema_names r s) in Hm. destruct Hm as [Hm Hn].
      split; [eapply in_registry; eassumption|exact Hn].
    + destruct f as [p|s|ss].
      * apply In_fst_flat_map in Hm. destruct Hm as ([k m] & Hin & Hm). apply message_names in Hm.
        destruct Hm as [(t & Ht & Hm) Hn]. split; [eapply in_message; eassumption|exact Hn].
      * apply validate_schema_names in Hm. destruct Hm as [Hm Hn]. split; [apply in_schema; exact Hm|exact Hn].
      * apply In_fst_flat_map in Hm. destruct Hm as (s & Hin & Hm). apply validate_schema_names in Hm.
        destruct Hm as [Hm Hn]. split; [eapply in_named; eassumption|exact Hn].
  - intros [Hm Hn]. destruct Hm as [f k s full Hin Hm|s full Hm|ss s full Hin Hm|p k m t full Hin Ht Hm].
    + left. exists (k, s). split; [exact Hin|]. apply (validate_schema_names r s). auto.
    + right. apply validate_schema_names. auto.
    + right. apply In_fst_flat_map. exists s. split; [exact Hin|]. apply validate_schema_names. auto.
    + right. apply In_fst_flat_map. exists (k, m). split; [exact Hin|]. apply message_names. eauto.
Qed.

(** *** Deduplication and sorting *)

Lemma dedup_names_spec l : forall seen,
  NoDup (map fst (dedup_names seen l))
  /\ forall n, In n (map fst (dedup_names seen l)) <-> In n (map fst l) /\ ~ In n seen.
Proof.
  induction l as [|[n s] l IH]; intro seen; cbn [dedup_names].
  - split; [constructor|]. intro n. cbn. tauto.
  - destruct (str_mem n seen) eqn:E.
    + apply str_mem_In in E. destruct (IH seen) as [A B]. split; [exact A|]. intro m. rewrite B. cbn.
      split; [tauto|]. intros [[->|Hm] Hs]; [contradiction|auto].
    + apply str_mem_not_In in E. destruct (IH (n :: seen)) as [A B]. cbn. split.
      * constructor; [|exact A]. rewrite B. cbn. tauto.
      * intro m. rewrite B. cbn. destruct (string_dec n m) as [->|Hne]; [|tauto]. tauto.
Qed.

Lemma insert_by_key_perm x l : Permutation (insert_by_key x l) (x :: l).
Proof.
  induction l as [|y l IH]; cbn; [constructor; constructor|]. destruct (key_leb _ _); [reflexivity|].
  rewrite IH. constructor.
Qed.

Lemma sort_by_key_perm l : Permutation (sort_by_key l) l.
Proof. induction l as [|x l IH]; cbn; [constructor|]. rewrite insert_by_key_perm. constructor. exact IH. Qed.

Definition key_le (a b : string * option span) : Prop := key_leb (span_key (snd a)) (span_key (snd b)) = true.

Lemma key_leb_total a b : key_leb a b = false -> key_leb b a = true.
Proof.
  unfold key_leb. rewrite (BaseProofs.compare_antisym (fst a) (fst b)). destruct (String.compare (fst a) (fst b)); cbn.
  - intro E. apply N.leb_gt in E. apply N.leb_le. lia.
  - discriminate.
  - reflexivity.
Qed.

Lemma key_leb_trans a b c : key_leb a b = true -> key_leb b c = true -> key_leb a c = true.
Proof.
  unfold key_leb. destruct (String.compare (fst a) (fst b)) eqn:E1; [| |discriminate];
    (destruct (String.compare (fst b) (fst c)) eqn:E2; [| |discriminate]); intros A B.
  - apply BaseProofs.compare_eq in E1, E2. rewrite E1, E2, BaseProofs.compare_refl. apply N.leb_le in A, B. apply N.leb_le. lia.
  - apply BaseProofs.compare_eq in E1. rewrite E1, E2. reflexivity.
  - apply BaseProofs.compare_eq in E2. rewrite <- E2, E1. reflexivity.
  - pose proof (str_lt_trans _ _ _ E1 E2) as E3. unfold str_lt in E3. rewrite E3. reflexivity.
Qed.

Lemma sort_by_key_sorted l : StronglySorted key_le (sort_by_key l).
Proof.
  induction l as [|x l IH]; cbn; [constructor|].
  induction IH as [|y m Hm IHm Hy]; cbn.
  - repeat constructor.
  - destruct (key_leb (span_key (snd x)) (span_key (snd y))) eqn:E.
    + constructor; [constructor; assumption|]. constructor; [exact E|].
      eapply Forall_impl; [|exact Hy]. intros a Ha. unfold key_le in *. exact (key_leb_trans _ _ _ E Ha).
    + constructor; [exact IHm|]. apply (Permutation_Forall (Permutation_sym (insert_by_key_perm x m))).
      constructor; [exact (key_leb_total _ _ E)|exact Hy].
Qed.

Lemma final_names f r :
  let l := sort_by_key (dedup_names [] (collect_all f r)) in
  NoDup (map fst l) /\ forall n, In n (map fst l) <-> undefined_in f r n.
Proof.
  cbn zeta. set (d := dedup_names [] (collect_all f r)).
  destruct (dedup_names_spec (collect_all f r) []) as [A B]. fold d in A, B.
  pose proof (Permutation_map fst (sort_by_key_perm d)) as P. split.
  - exact (Permutation_NoDup (Permutation_sym P) A).
  - intro n. rewrite <- collect_all_names.
    split; intro Hn.
    + apply (Permutation_in _ P) in Hn. apply B in Hn. apply Hn.
    + apply (Permutation_in _ (Permutation_sym P)). apply B. split; [exact Hn|intros []].
Qed.

Lemma partition_perm l :
  Permutation (map fst l) (map fst (spanned l) ++ spanless l).
Proof.
  induction l as [|[n [s|]] l IH]; cbn.
  - constructor.
  - constructor. exact IH.
  - rewrite IH. apply Permutation_middle.
Qed.

Lemma append_nil_r s : (s ++ "")%string = s.
Proof. induction s as [|c s IH]; cbn; [reflexivity|]. rewrite IH. reflexivity. Qed.
Lemma append_assoc a b c : ((a ++ b) ++ c)%string = (a ++ (b ++ c))%string.
Proof. induction a as [|x a IH]; cbn; [reflexivity|]. rewrite IH. reflexivity. Qed.

Lemma shown_leaves {A} (g : A -> diagnostic) (h : A -> string) l :
  (forall x, shown (g x) = [h x]) -> flat_map shown (map g l) = map h l.
Proof. intro Hg. induction l as [|x l IH]; cbn; [reflexivity|]. rewrite Hg, IH. reflexivity. Qed.

Lemma build_report_names r src imps l :
  match build_report r src imps l with
  | None => l = []
  | Some d => l <> [] /\ exists names, Permutation names (map fst l) /\ reports d names
  end.
Proof.
  unfold build_report. destruct l as [|x l]; [reflexivity|]. set (L := x :: l).
  assert (HL : L <> []) by discriminate. clearbody L.
  pose proof (partition_perm L) as P.
  destruct (spanned L) as [|[fn fs] rest] eqn:E.
  - cbn in P.
    assert (Hnil : forall m, [undefined_msg m] = [("Undefined name: " ++ m ++ "")%string]).
    { intro m. rewrite append_nil_r. reflexivity. }
    destruct (first_span imps).
    + split; [exact HL|]. exists (spanless L). split; [symmetry; exact P|]. right. exists "".
      cbn [shown flat_map]. apply Hnil.
    + destruct imps as [|i imps].
      * split; [exact HL|]. exists (spanless L). split; [symmetry; exact P|]. right. exists "". apply Hnil.
      * split; [exact HL|]. exists (spanless L). split; [symmetry; exact P|]. right. eexists.
        cbn [shown]. unfold undefined_msg. rewrite append_assoc. reflexivity.
  - split; [exact HL|]. exists (fn :: map fst rest ++ spanless L). split; [symmetry; exact P|]. left.
    cbn [shown map]. f_equal. rewrite flat_map_app, map_app. f_equal.
    + rewrite map_map. apply shown_leaves. reflexivity.
    + apply shown_leaves. reflexivity.
Qed.

Lemma check_report f r src imps :
  match validate_all_references f r src imps with
  | None => forall n, ~ undefined_in f r n
  | Some d => exists names, NoDup names /\ (forall n, In n names <-> undefined_in f r n)
                            /\ names <> [] /\ reports d names
  end.
Proof.
  unfold validate_all_references. destruct (final_names f r) as [A B].
  set (l := sort_by_key (dedup_names [] (collect_all f r))) in *.
  pose proof (build_report_names r src imps l) as Hb.
  destruct (build_report r src imps l) as [d|].
  - destruct Hb as (Hl & names & P & Hr). exists names. split; [exact (Permutation_NoDup (Permutation_sym P) A)|].
    split; [|split; [|exact Hr]].
    + intro n. rewrite <- B. split; apply Permutation_in; [exact P|symmetry; exact P].
    + intros ->. apply Permutation_nil in P. destruct l; [contradiction|discriminate].
  - intros n Hn. apply B in Hn. rewrite Hb in Hn. destruct Hn.
Qed.

Lemma check_passes f r src imps :
  validate_all_references f r src imps = None <->
  forall full, mentioned r f full -> In full (map fst r).
Proof.
  pose proof (check_report f r src imps) as Hc. split.
  - intros E full Hm. rewrite E in Hc. destruct (is_registered r full) eqn:Er.
    + apply is_registered_iff, Er.
    + apply not_registered in Er. exfalso. exact (Hc full (conj Hm Er)).
  - intro Hall. destruct (validate_all_references f r src imps) as [d|]; [|reflexivity]. exfalso.
    destruct Hc as (names & _ & Hin & Hne & _). destruct names as [|n names]; [contradiction|].
    destruct (proj1 (Hin n) (or_introl eq_refl)) as [Hm Hn]. apply Hn, Hall, Hm.
Qed.

Lemma undefined_order p q r full :
  Permutation (p_messages p) (p_messages q) ->
  (undefined_in (IdlProtocol p) r full <-> undefined_in (IdlProtocol q) r full).
Proof.
  intro P. unfold undefined_in. split; intros [Hm Hn]; (split; [|exact Hn]);
    inversion Hm; subst; try (eapply in_registry; eassumption); eapply in_message; try eassumption.
  - eapply Permutation_in; [exact P|eassumption].
  - eapply Permutation_in; [symmetry; exact P|eassumption].
Qed.

(** The main diagnostic points at the earliest of the reported positions. *)
Lemma spanned_In l n s : In (n, s) (spanned l) <-> In (n, Some s) l.
Proof.
  unfold spanned. rewrite in_flat_map. split.
  - intros ([n' [s'|]] & Hin & Hx); cbn in Hx; [|destruct Hx]. destruct Hx as [E|[]]. injection E as -> ->. exact Hin.
  - intro Hin. exists (n, Some s). split; [exact Hin|]. left. reflexivity.
Qed.

Lemma spanned_sorted l :
  StronglySorted key_le l ->
  StronglySorted (fun a b => key_leb (sp_file (snd a), sp_offset (snd a)) (sp_file (snd b), sp_offset (snd b)) = true)
    (spanned l).
Proof.
  induction 1 as [|[n [s|]] l Hl IH Hf]; cbn; [constructor| |exact IH].
  constructor; [exact IH|]. apply Forall_forall. intros [m t] Hin. cbn. apply spanned_In in Hin.
  rewrite Forall_forall in Hf. exact (Hf _ Hin).
Qed.

(** *** Places *)
Lemma collect_at known s : Forall (fun e => mentions_at s (fst e) (snd e)) (collect_unresolved_refs known s).
Proof.
  induction s as [p|n ns d fs e al ps Hfs|n ns d sy df al ps|n ns d sz al ps|i ps IHi|i ps IHi
                  |ts b Hts|k ps|l ps|n ns ps sp] using schema_ind'; cbn [collect_unresolved_refs]; try (constructor; fail).
  - apply Forall_forall. intros x Hx. apply in_flat_map in Hx. destruct Hx as (f & Hf & Hx).
    rewrite Forall_forall in Hfs. specialize (Hfs f Hf). rewrite Forall_forall in Hfs. eapply ma_field; [exact Hf|]. exact (Hfs _ Hx).
  - eapply Forall_impl; [|exact IHi]. intros x Hx. now constructor.
  - eapply Forall_impl; [|exact IHi]. intros x Hx. now constructor.
  - apply Forall_forall. intros x Hx. apply in_flat_map in Hx. destruct Hx as (f & Hf & Hx).
    rewrite Forall_forall in Hts. specialize (Hts f Hf). rewrite Forall_forall in Hts. eapply ma_union; [exact Hf|]. exact (Hts _ Hx).
  - rewrite make_full_name_fullname. destruct (known _); constructor; [|constructor]. apply ma_ref.
Qed.

Lemma flat_map_forall {A B} (P : B -> Prop) (g : A -> list B) l :
  (forall x, In x l -> Forall P (g x)) -> Forall P (flat_map g l).
Proof.
  intro Hg. apply Forall_forall. intros y Hy. apply in_flat_map in Hy. destruct Hy as (x & Hx & Hy).
  specialize (Hg x Hx). rewrite Forall_forall in Hg. auto.
Qed.

Lemma collect_all_at f r : Forall (fun e => mentioned_at r f (fst e) (snd e)) (collect_all f r).
Proof.
  unfold collect_all. apply Forall_app. split.
  - apply flat_map_forall. intros [k s] Hin. eapply Forall_impl; [|apply collect_at]. intros e He.
    eapply at_registry; eassumption.
  - destruct f as [p|s|ss].
    + apply flat_map_forall. intros [k m] Hin. cbn [snd]. unfold message_unresolved.
      assert (K : forall t, message_type m t -> Forall (fun e => mentioned_at r (IdlProtocol p) (fst e) (snd e)) (validate_schema r t)).
      { intros t Ht. eapply Forall_impl; [|apply collect_at]. intros e He. eapply at_message; eassumption. }
      apply Forall_app. split; [apply K; constructor|]. apply Forall_app. split.
      * apply flat_map_forall. intros x Hx. apply K. now constructor.
      * destruct (m_errors m) as [es|] eqn:E; [|constructor]. apply flat_map_forall. intros x Hx. apply K. econstructor; eassumption.
    + eapply Forall_impl; [|apply collect_at]. intros e He. now constructor.
    + apply flat_map_forall. intros s Hin. eapply Forall_impl; [|apply collect_at]. intros e He. eapply at_named; eassumption.
Qed.

Lemma dedup_in l : forall seen x, In x (dedup_names seen l) -> In x l.
Proof.
  induction l as [|[n s] l IH]; intros seen x Hx; [exact Hx|]. cbn in Hx. destruct (str_mem n seen).
  - right. eauto.
  - destruct Hx as [Hx|Hx]; [now left|right; eauto].
Qed.

Lemma spanless_In l n : In n (spanless l) <-> In (n, None) l.
Proof.
  unfold spanless. rewrite in_flat_map. split.
  - intros ([n' [s'|]] & Hin & Hx); cbn in Hx; [destruct Hx|]. destruct Hx as [E|[]]. subst. exact Hin.
  - intro Hin. exists (n, None). split; [exact Hin|]. left. reflexivity.
Qed.

Lemma key_leb_not_after a b : key_leb (sp_file a, sp_offset a) (sp_file b, sp_offset b) = true -> not_after a b.
Proof.
  unfold key_leb, not_after. cbn [fst snd]. destruct (String.compare _ _) eqn:E; [|now left|discriminate].
  intro L. right. split; [now apply BaseProofs.compare_eq|now apply N.leb_le].
Qed.

Lemma pointed_leaves {A} (g : A -> diagnostic) (h : A -> span * string) l :
  (forall x, pointed (g x) = [h x]) -> flat_map pointed (map g l) = map h l.
Proof. intro Hg. induction l as [|x l IH]; cbn; [reflexivity|]. rewrite Hg, IH. reflexivity. Qed.

Lemma report_places f r src imps d : validate_all_references f r src imps = Some d ->
  exists located bare,
    StronglySorted (fun a b => not_after (snd a) (snd b)) located
    /\ Forall (fun x => mentioned_at r f (fst x) (Some (snd x)) /\ undefined_in f r (fst x)) located
    /\ Forall (fun n => mentioned_at r f n None /\ undefined_in f r n) bare
    /\ NoDup (map fst located ++ bare)
    /\ (forall n, undefined_in f r n <-> In n (map fst located ++ bare))
    /\ (located <> [] -> exists elsewhere,
          pointed d = map (fun x => (snd x, "Undefined name: " ++ fst x)%string) located
                      ++ map (fun n => (elsewhere, "Undefined name: " ++ n)%string) bare)
    /\ (located = [] -> reports d bare).
Proof.
  unfold validate_all_references. destruct (final_names f r) as [A B].
  assert (M : forall x, In x (sort_by_key (dedup_names [] (collect_all f r))) -> mentioned_at r f (fst x) (snd x) /\ undefined_in f r (fst x)).
  { intros x Hx. split.
    - apply (Permutation_in _ (sort_by_key_perm _)) in Hx. apply dedup_in in Hx.
      pose proof (collect_all_at f r) as F. rewrite Forall_forall in F. exact (F x Hx).
    - apply B. now apply in_map. }
  pose proof (sort_by_key_sorted (dedup_names [] (collect_all f r))) as S. cbn zeta in A, B.
  set (l := sort_by_key _) in *. clearbody l. intro E.
  exists (spanned l), (spanless l).
  split; [|split; [|split; [|split; [|split; [|split]]]]].
  - apply spanned_sorted in S. induction S as [|x m Hm IH Hf]; constructor; [exact IH|].
    eapply Forall_impl; [|exact Hf]. intros y Hy. now apply key_leb_not_after.
  - apply Forall_forall. intros [n s] Hx. apply spanned_In in Hx. exact (M _ Hx).
  - apply Forall_forall. intros n Hx. apply spanless_In in Hx. exact (M _ Hx).
  - exact (Permutation_NoDup (partition_perm l) A).
  - intro n. rewrite <- B. split; apply Permutation_in; [|symmetry]; apply partition_perm.
  - intro Hne. unfold build_report in E. destruct l as [|x l]; [discriminate|].
    set (L := x :: l) in *. destruct (spanned L) as [|[fn fs] rest] eqn:Es; [contradiction|].
    injection E as <-. exists (related_span imps src). cbn [pointed map app fst snd]. f_equal.
    rewrite flat_map_app. f_equal; apply pointed_leaves; reflexivity.
  - intro Hn. unfold build_report in E. destruct l as [|x l]; [discriminate|]. set (L := x :: l) in *. clearbody L.
    rewrite Hn in E.
    assert (Hnil : forall m, [undefined_msg m] = [("Undefined name: " ++ m ++ "")%string]).
    { intro m. rewrite append_nil_r. reflexivity. }
    right. destruct (first_span imps).
    + injection E as <-. exists "". apply Hnil.
    + destruct imps as [|i imps']; injection E as <-.
      * exists "". apply Hnil.
      * eexists. cbn [shown]. rewrite <- append_assoc. reflexivity.
Qed.
