(** From the simulation to whole protocol and schema documents. *)
From Verif Require Export SimProofs DocProofs.
From Coq Require Import Permutation.

(** ** The lookup table of flat definitions *)

Lemma collect_ty_ok s : forall b dns lk, ty_ok b s = true -> collect_named_types s dns lk = lk.
Proof.
  induction s as [p|nm ns d fs e al ps IH|nm ns d sy df al ps|nm ns d sz al ps|i ps IH|i ps IH
                 |ts b' IH|k ps|l ps|nm ns ps sp] using schema_ind'; intros b dns lk H;
    try discriminate; try reflexivity; cbn [collect_named_types ty_ok] in *.
  - apply andb_true_iff in H. apply (IH b). tauto.
  - apply andb_true_iff in H. apply (IH b). tauto.
  - revert lk. induction IH as [|t l Ht Hl IHl]; intro lk; simpl; [reflexivity|].
    cbn [forallb] in H. apply andb_true_iff in H. destruct H as [H1 H2].
    rewrite (Ht b) by exact H1. apply IHl. exact H2.
Qed.

Definition table_of (types : list schema) : lookup_table := map (fun t => (type_name t, t)) types.

Lemma collect_def_ok t dns lk :
  def_ok t = true -> (ns_field t = None -> ns_empty dns = true) ->
  collect_named_types t dns lk = (type_name t, t) :: lk.
Proof.
  intros H Hns.
  assert (Hn : forall nm ns, (ns = None -> ns_empty dns = true) ->
                             make_full_name nm (opt_or ns dns) = fullname nm ns).
  { intros nm ns H1. rewrite <- fullname_make. unfold fullname. destruct ns as [x|]; [reflexivity|].
    simpl. rewrite nsof_empty by (apply H1; reflexivity). reflexivity. }
  destruct t as [ | nm ns d fs e al ps | nm ns d sy df al ps | nm ns d sz al ps | | | | | | ];
    try discriminate; cbn [collect_named_types type_name ns_field] in *; rewrite (Hn nm ns Hns);
    try reflexivity.
  cbn [def_ok] in H. rewrite !andb_true_iff in H. destruct H as [_ H].
  set (x := (_, _) :: lk). clearbody x. revert x.
  generalize (opt_or ns dns). clear - H. intro dns.
  induction fs as [|f fs IH]; intro x; simpl; [reflexivity|].
  cbn [forallb] in H. apply andb_true_iff in H. destruct H as [H1 H2].
  unfold field_ok in H1. apply andb_true_iff in H1. destruct H1 as [_ H1].
  rewrite (collect_ty_ok _ _ _ _ H1). apply IH. exact H2.
Qed.

Lemma build_lookup_flat types dns :
  forallb def_ok types = true ->
  (forall t, In t types -> ns_field t = None -> ns_empty dns = true) ->
  build_lookup types dns = rev (table_of types).
Proof.
  intros H Hns. unfold build_lookup.
  assert (G : forall acc, fold_left (fun acc s => collect_named_types s dns acc) types acc
                          = rev (table_of types) ++ acc).
  { induction types as [|t types IH]; intro acc; simpl; [reflexivity|].
    cbn [forallb] in H. apply andb_true_iff in H. destruct H as [H1 H2].
    rewrite collect_def_ok; [|exact H1|apply Hns; left; reflexivity].
    rewrite IH; [|exact H2|intros t' Hin; apply Hns; right; exact Hin].
    rewrite <- app_assoc. reflexivity. }
  rewrite G, app_nil_r. reflexivity.
Qed.

Lemma keys_table types : keys (table_of types) = map type_name types.
Proof. unfold keys, table_of. rewrite map_map. reflexivity. Qed.

Section Flat.
  Variables (types : list schema) (dns : option string).
  Hypothesis Hdefs : forallb def_ok types = true.
  Hypothesis Hns : forall t, In t types -> ns_field t = None -> ns_empty dns = true.
  Hypothesis Hnames : NoDup (map type_name types).
  Hypothesis Hrefs : forall t, In t types -> incl (refs_of t) (map type_name types).

  Let lk := build_lookup types dns.

  Lemma flat_assoc t : In t types -> assoc (type_name t) lk = Some t.
  Proof.
    intro H. unfold lk. rewrite build_lookup_flat by assumption.
    rewrite assoc_rev_NoDup by (rewrite keys_table; exact Hnames).
    apply In_assoc_NoDup; [rewrite keys_table; exact Hnames|].
    unfold table_of. apply in_map_iff. exists t. auto.
  Qed.

  Lemma flat_assoc_inv k t : assoc k lk = Some t -> In t types /\ type_name t = k.
  Proof.
    unfold lk. rewrite build_lookup_flat by assumption. intro H. apply assoc_In in H.
    apply in_rev in H. unfold table_of in H. apply in_map_iff in H.
    destruct H as (t' & E & Hin). inversion E; subst. auto.
  Qed.

  Lemma flat_keys x : In x (keys lk) <-> In x (map type_name types).
  Proof.
    unfold lk. rewrite build_lookup_flat by assumption. unfold keys. rewrite map_rev.
    rewrite <- in_rev. fold (keys (table_of types)). rewrite keys_table. reflexivity.
  Qed.

  Lemma flat_lk k t : assoc k lk = Some t ->
    def_ok t = true /\ type_name t = k /\ incl (refs_of t) (keys lk).
  Proof.
    intro H. apply flat_assoc_inv in H. destruct H as [Hin Hk]. repeat split; [|exact Hk|].
    - rewrite forallb_forall in Hdefs. apply Hdefs. exact Hin.
    - intros x Hx. apply flat_keys. apply (Hrefs t Hin). exact Hx.
  Qed.

  (** The list of type definitions, bare references dropped. *)
  Lemma types_sim n fuel l :
    incl l types ->
    forall known js known',
      map_st (fun s k => ser lk n s dns k) l known = Some (js, known') ->
      (forall j, In j js -> jdepth j <= fuel) ->
      forall ds, exists ts ds',
        map_st (fun tj st => read fuel tj (nsof dns) st)
               (filter (fun v => negb (is_string v)) js) (known, ds) = Some (ts, (known', ds'))
        /\ step lk known ds known' ds'
        /\ (forall t, In t l -> In (type_name t) known')
        /\ sublist (map (entry_name (nsof dns)) (filter (fun v => negb (is_string v)) js))
                   (map (fun t => Some (type_name t)) l).
  Proof.
    induction l as [|t l IH]; intros Hl known js known' E Hd ds.
    - rewrite map_st_nil in E. apply some_pair_inj in E; destruct E as [<- <-].
      exists [], ds. split; [reflexivity|]. split; [apply step_refl|]. split; [intros t []|constructor].
    - rewrite map_st_cons in E. destruct (ser lk n t dns known) as [[j k1]|] eqn:E1; [|discriminate].
      destruct (map_st _ l k1) as [[js' k2]|] eqn:E2 in E; [|discriminate].
      apply some_pair_inj in E; destruct E as [<- <-].
      assert (Ht : In t types) by (apply Hl; left; reflexivity).
      assert (Hdt : def_ok t = true) by (rewrite forallb_forall in Hdefs; apply Hdefs; exact Ht).
      specialize (IH (fun x Hx => Hl x (or_intror Hx)) k1 js' k2 E2
                    (fun x Hx => Hd x (or_intror Hx))).
      destruct (in_dec string_dec (type_name t) known) as [Hin|Hnin].
      + assert (k1 = known /\ is_string j = true) as [-> Hs].
        { destruct t as [ | nm ns d fs e al ps | nm ns d sy df al ps | nm ns d sz al ps | | | | | | ];
            try discriminate; cbn [type_name] in Hin; rewrite fullname_make in Hin;
            apply str_mem_In in Hin;
            [rewrite ser_record in E1|rewrite ser_enum in E1|rewrite ser_fixed in E1];
            unfold named_type_preamble in E1; rewrite Hin in E1;
            apply some_pair_inj in E1; destruct E1 as [<- <-]; auto. }
        cbn [filter]. rewrite Hs. cbn [negb]. destruct (IH ds) as (ts & ds' & R & St & Hall & Hsub).
        exists ts, ds'. split; [exact R|]. split; [exact St|]. split; [|constructor; exact Hsub].
        intros t' [<-|H]; [|apply Hall; exact H]. apply (step_incl _ _ _ _ _ St). exact Hin.
      + destruct (reads_def lk flat_lk n t dns known j k1 (reads_types lk flat_lk n) Hdt) with (fuel := fuel)
          (ds := ds) as (d1 & R1 & S1 & In1 & Str1).
        * apply flat_assoc. exact Ht.
        * exact Hnin.
        * apply Hns. exact Ht.
        * intros x Hx. apply flat_keys. apply (Hrefs t Ht). exact Hx.
        * exact E1.
        * apply Hd. left. reflexivity.
        * destruct (IH d1) as (ts & ds' & R & St & Hall & Hsub).
          exists (TNamed (type_name t) :: ts), ds'. cbn [filter]. rewrite Str1. cbn [negb].
          rewrite map_st_cons, R1, R. split; [reflexivity|].
          split; [eapply step_trans; eassumption|]. split.
          -- intros t' [<-|H]; [|apply Hall; exact H]. apply (step_incl _ _ _ _ _ St). exact In1.
          -- cbn [map]. rewrite (read_entry _ _ _ _ _ _ R1 Str1). apply sub_keep. exact Hsub.
  Qed.

  (** The definitions read are exactly the declared ones. *)
  Lemma defs_complete known' ds' :
    step lk [] [] known' ds' -> (forall t, In t types -> In (type_name t) known') ->
    NoDup (keys ds')
    /\ Permutation (map (fun fd => Some fd) ds') (map named_meaning types)
    /\ Permutation known' (map type_name types).
  Proof.
    intros (new & E & P & G & N) Hall. simpl in E. subst ds'. rewrite app_nil_r in P.
    assert (Hnd : NoDup (keys new)).
    { eapply Permutation_NoDup; [exact P|]. apply N. constructor. }
    assert (Hgood : forall f d, In (f, d) new -> exists t, In t types /\ type_name t = f
                                                          /\ def_meaning t = Some d).
    { intros f d Hin. rewrite Forall_forall in G. destruct (G _ Hin) as (t & Ht & Hm).
      apply flat_assoc_inv in Ht. exists t. tauto. }
    assert (Hnm : forall t, def_ok t = true -> named_meaning t = option_map (pair (type_name t)) (def_meaning t)).
    { intros t Ht. destruct t; try discriminate; reflexivity. }
    assert (Hdm : forall t, def_ok t = true -> exists d, def_meaning t = Some d).
    { intros t Ht. destruct t; try discriminate; cbn [def_meaning]; eauto. }
    pose proof Hdefs as HD. rewrite forallb_forall in HD.
    split; [exact Hnd|]. split.
    - apply NoDup_Permutation.
      + assert (Hnn : NoDup new) by (eapply NoDup_map_inv; exact Hnd).
        clear - Hnn. induction Hnn as [|x l Hx Hl IH]; simpl; constructor; [|exact IH].
        intro H. apply in_map_iff in H. destruct H as (y & E & Hy). inversion E; subst. contradiction.
      + clear - Hnames HD Hnm Hdm. induction types as [|t l IH]; simpl; [constructor|].
        inversion Hnames as [|? ? Hx Hl]; subst. constructor.
        * intro H. apply in_map_iff in H. destruct H as (t' & E & Ht').
          apply Hx. apply in_map_iff. exists t'. split; [|exact Ht'].
          destruct (Hdm t) as (d & Ed); [apply HD; left; reflexivity|].
          destruct (Hdm t') as (d' & Ed'); [apply HD; right; exact Ht'|].
          rewrite !Hnm, Ed, Ed' in E by (apply HD; (left; reflexivity) || (right; exact Ht')).
          simpl in E. congruence.
        * apply IH; [exact Hl|]. intros x Hin. apply HD. right. exact Hin.
      + intro x. rewrite !in_map_iff. split.
        * intros ([f d] & <- & Hin). destruct (Hgood f d Hin) as (t & Ht & Htn & Hd).
          exists t. split; [|exact Ht]. rewrite Hnm by (apply HD; exact Ht). rewrite Hd, Htn. reflexivity.
        * intros (t & <- & Ht). destruct (Hdm t) as (d & Ed); [apply HD; exact Ht|].
          rewrite Hnm, Ed by (apply HD; exact Ht). simpl. exists (type_name t, d). split; [reflexivity|].
          assert (Hin : In (type_name t) (keys new)) by (eapply Permutation_in; [exact P|apply Hall; exact Ht]).
          unfold keys in Hin. apply in_map_iff in Hin. destruct Hin as ([f d'] & Ef & Hin). simpl in Ef. subst f.
          destruct (Hgood _ _ Hin) as (t' & Ht' & Htn & Hd).
          assert (E1 : assoc (type_name t') lk = Some t') by (apply flat_assoc; exact Ht').
          rewrite Htn in E1. rewrite flat_assoc in E1 by exact Ht. inversion E1; subst t'.
          rewrite Ed in Hd. inversion Hd; subst. exact Hin.
    - apply NoDup_Permutation.
      + apply N. constructor.
      + exact Hnames.
      + intro x. split.
        * intro H. apply (Permutation_in _ P) in H. unfold keys in H. apply in_map_iff in H.
          destruct H as ([f d] & <- & Hin). destruct (Hgood _ _ Hin) as (t & Ht & <- & _).
          simpl; apply (in_map type_name). exact Ht.
        * intro H. apply in_map_iff in H. destruct H as (t & <- & Ht). apply Hall. exact Ht.
  Qed.

  (** *** Once everything is known, nothing more is defined *)

  Lemma ser_closed n s : forall b enc known, ty_ok b s = true -> incl (refs_of s) known ->
    exists j, ser lk n s enc known = Some (j, known).
  Proof.
    induction s as [p|nm ns d fs e al ps IH|nm ns d sy df al ps|nm ns d sz al ps|i ps IH|i ps IH
                   |ts b' IH|k ps|l ps|nm ns ps sp] using schema_ind'; intros b enc known Hok Hr;
      try discriminate; cbn [ty_ok refs_of] in *.
    - rewrite ser_prim. eauto.
    - apply andb_true_iff in Hok. rewrite ser_array.
      destruct (IH b enc known (proj2 Hok) Hr) as (j & ->). eauto.
    - apply andb_true_iff in Hok. rewrite ser_map.
      destruct (IH b enc known (proj2 Hok) Hr) as (j & ->). eauto.
    - rewrite ser_union.
      destruct (map_st_total (fun t k => ser lk n t enc k) (fun k => k = known) ts)
        with (st := known) as (js & k & E & Hk); [|reflexivity|].
      + intros t st Hin ->. rewrite Forall_forall in IH. rewrite forallb_forall in Hok.
        destruct (IH t Hin b enc known (Hok t Hin)) as (j & E).
        * intros x Hx. apply Hr. apply in_flat_map. eauto.
        * rewrite E. eauto.
      + rewrite E. subst. eauto.
    - rewrite ser_annot. eauto.
    - rewrite ser_logical. eauto.
    - rewrite ser_ref, <- fullname_make.
      assert (H : In (fullname nm ns) known) by (apply Hr; left; reflexivity).
      apply str_mem_In in H. rewrite H. eauto.
  Qed.

  Lemma step_same known ds ds' : step lk known ds known ds' -> ds' = ds.
  Proof.
    intros (new & -> & P & _). apply Permutation_length in P. rewrite app_length in P.
    unfold keys in P. rewrite map_length in P. destruct new; [apply app_nil_r|simpl in P; lia].
  Qed.

  Lemma closed_reads n s enc known :
    ty_ok (ns_empty enc) s = true -> incl (refs_of s) known -> incl (refs_of s) (map type_name types) ->
    exists j, ser lk n s enc known = Some (j, known)
      /\ forall fuel ds, jdepth j <= fuel -> read fuel j (nsof enc) (known, ds) = Some (meaning s, (known, ds)).
  Proof.
    intros Hok Hk Hr. destruct (ser_closed n s (ns_empty enc) enc known Hok Hk) as (j & E).
    exists j. split; [exact E|]. intros fuel ds Hd.
    destruct (reads_types lk flat_lk n s enc known j known Hok) with (fuel := fuel) (ds := ds)
      as (d' & R & St); try assumption.
    - intros x Hx. apply flat_keys. apply Hr. exact Hx.
    - apply step_same in St. subst d'. exact R.
  Qed.

  Lemma closed_field n f enc known :
    field_ok (ns_empty enc) f = true -> incl (refs_of (f_schema f)) known ->
    incl (refs_of (f_schema f)) (map type_name types) ->
    exists j, ser_field lk n f enc known = Some (j, known)
      /\ forall fuel ds, jdepth j <= S fuel ->
           read_field fuel j (nsof enc) (known, ds) = Some (field_meaning f, (known, ds)).
  Proof.
    intros Hok Hk Hr. pose proof Hok as Hok'. unfold field_ok in Hok'. apply andb_true_iff in Hok'.
    destruct (ser_closed n (f_schema f) (ns_empty enc) enc known (proj2 Hok') Hk) as (tj & E).
    exists (field_obj f tj). assert (E' : ser_field lk n f enc known = Some (field_obj f tj, known))
      by (unfold ser_field; rewrite E; reflexivity).
    split; [exact E'|]. intros fuel ds Hd.
    destruct (reads_field lk n f enc known (field_obj f tj) known (reads_types lk flat_lk n _) Hok) with
      (fuel := fuel) (ds := ds) as (d' & R & St); try assumption.
    - intros x Hx. apply flat_keys. apply Hr. exact Hx.
    - apply step_same in St. subst d'. exact R.
  Qed.

  Lemma map_st_closed {A B} (f : A -> list string -> option (json * list string))
      (g : json -> rstate -> option (B * rstate)) (m : A -> B) (ok : json -> Prop) l known :
    (forall x, In x l -> exists j, f x known = Some (j, known) /\
        forall ds, ok j -> g j (known, ds) = Some (m x, (known, ds))) ->
    exists js, map_st f l known = Some (js, known) /\
        forall ds, (forall j, In j js -> ok j) -> map_st g js (known, ds) = Some (map m l, (known, ds)).
  Proof.
    induction l as [|x l IH]; intro H.
    - exists []. split; reflexivity.
    - destruct (H x (or_introl eq_refl)) as (j & E & R).
      destruct (IH (fun y Hy => H y (or_intror Hy))) as (js & E2 & R2).
      exists (j :: js). rewrite map_st_cons, E, E2. split; [reflexivity|].
      intros ds Hok. rewrite map_st_cons, R by (apply Hok; left; reflexivity).
      rewrite R2 by (intros y Hy; apply Hok; right; exact Hy). reflexivity.
  Qed.

  Lemma closed_message n m enc known :
    message_ok (ns_empty enc) m = true -> incl (message_refs m) known ->
    incl (message_refs m) (map type_name types) ->
    exists j, ser_message lk n m enc known = Some (j, known)
      /\ forall fuel ds, jdepth j <= fuel ->
           read_message fuel j (nsof enc) (known, ds) = Some (message_meaning m, (known, ds)).
  Proof.
    intros Hok Hk Hr. unfold message_ok in Hok. rewrite !andb_true_iff in Hok.
    destruct Hok as [[[Hfree Hrq] Hrs] Her]. apply free_of_spec in Hfree. destruct Hfree as [Hnp Hfp].
    set (mdepth := fun fuel (x : json) => jdepth x <= fuel).
    (* request *)
    assert (Rq : forall fuel, exists js, map_st (fun f k => ser_field lk n f enc k) (m_request m) known = Some (js, known)
              /\ forall ds, (forall j, In j js -> mdepth (S fuel) j) ->
                   map_st (fun fj st => read_field fuel fj (nsof enc) st) js (known, ds)
                   = Some (map field_meaning (m_request m), (known, ds))).
    { intro fuel. apply map_st_closed. intros f Hin. rewrite forallb_forall in Hrq.
      assert (Hrf : incl (refs_of (f_schema f)) (message_refs m)).
      { intros x Hx. unfold message_refs. apply in_or_app. left. apply in_flat_map. eauto. }
      destruct (closed_field n f enc known (Hrq f Hin)) as (j & E & R);
        [eapply incl_tran; eassumption|eapply incl_tran; eassumption|].
      exists j. split; [exact E|]. intros ds Hd. apply R. exact Hd. }
    assert (Hrr : incl (refs_of (m_response m)) (message_refs m)).
    { intros x Hx. unfold message_refs. apply in_or_app. right. apply in_or_app. left. exact Hx. }
    destruct (closed_reads n (m_response m) enc known Hrs) as (rj & Er & Rr);
      [eapply incl_tran; eassumption|eapply incl_tran; eassumption|].
    assert (Re : forall es, m_errors m = Some es -> forall fuel, exists js,
        map_st (fun e k => ser lk n e enc k) es known = Some (js, known)
        /\ forall ds, (forall j, In j js -> mdepth fuel j) ->
             map_st (fun ej st => read fuel ej (nsof enc) st) js (known, ds)
             = Some (map meaning es, (known, ds))).
    { intros es Ees fuel. rewrite Ees in Her. apply map_st_closed. intros e Hin.
      rewrite forallb_forall in Her.
      assert (Hre : incl (refs_of e) (message_refs m)).
      { intros x Hx. unfold message_refs. apply in_or_app. right. apply in_or_app. right.
        rewrite Ees. apply in_flat_map. eauto. }
      destruct (closed_reads n e enc known (Her e Hin)) as (j & E & R);
        [eapply incl_tran; eassumption|eapply incl_tran; eassumption|].
      exists j. split; [exact E|]. intros ds Hd. apply R. exact Hd. }
    destruct (Rq 0) as (rqj & Erq & _).
    unfold ser_message. rewrite Erq, Er.
    set (base := bt_extend (opt_insert "doc" (option_map JStr (m_doc m)) []) (m_props m)).
    set (ERR := match m_errors m with None => _ | Some _ => _ end).
    assert (HE : exists eo, ERR = Some (eo, known) /\
              ((m_errors m = None /\ eo = bt_insert "response" rj (bt_insert "request" (JArr rqj) base))
               \/ exists es ejs, m_errors m = Some es
                  /\ map_st (fun e k => ser lk n e enc k) es known = Some (ejs, known)
                  /\ eo = bt_insert "errors" (JArr ejs)
                            (bt_insert "response" rj (bt_insert "request" (JArr rqj) base)))).
    { unfold ERR. destruct (m_errors m) as [es|] eqn:Ees.
      - destruct (Re es eq_refl 0) as (ejs & Eej & _). rewrite Eej. eexists. split; [reflexivity|].
        right. exists es, ejs. auto.
      - eexists. split; [reflexivity|]. left. auto. }
    destruct HE as (eo & HE & Heo). rewrite HE.
    set (o := if m_one_way m then bt_insert "one-way" (JBool true) eo else eo).
    exists (JObj o). split; [reflexivity|]. intros fuel ds Hd.
    assert (Hbase : sorted base) by (apply bt_extend_sorted, opt_insert_sorted, sorted_nil).
    assert (Hbr : forall k, In k ["request"; "response"; "errors"; "one-way"] -> assoc k base = None).
    { intros k Hkin. unfold base. rewrite assoc_bt_extend_NoDup, Hfp by (exact Hnp || (simpl in *; tauto)).
      rewrite assoc_opt_insert. simpl in Hkin.
      destruct (m_doc m); simpl; [|reflexivity]. destruct (String.eqb_spec k "doc"); [|reflexivity].
      subst. intuition discriminate. }
    assert (Ho1 : assoc "request" o = Some (JArr rqj)).
    { unfold o. destruct Heo as [[_ ->]|(es & ejs & _ & _ & ->)]; destruct (m_one_way m);
        rewrite !assoc_bt_insert; reflexivity. }
    assert (Ho2 : assoc "response" o = Some rj).
    { unfold o. destruct Heo as [[_ ->]|(es & ejs & _ & _ & ->)]; destruct (m_one_way m);
        rewrite !assoc_bt_insert; reflexivity. }
    pose proof (depth_assoc _ _ _ Ho1) as D1. pose proof (depth_assoc _ _ _ Ho2) as D2.
    unfold read_message. rewrite Ho1, Ho2.
    destruct (Rq fuel) as (rqj' & Erq' & Rrq). rewrite Erq in Erq'. inversion Erq'; subst rqj'.
    rewrite Rrq by (intros x Hx; apply depth_In in Hx; unfold mdepth; lia).
    rewrite Rr by lia.
    assert (Ho4 : match assoc "one-way" o with Some (JBool b) => b | _ => false end = m_one_way m).
    { unfold o. destruct Heo as [[_ ->]|(es & ejs & _ & _ & ->)]; destruct (m_one_way m);
        rewrite !assoc_bt_insert; simpl; try reflexivity; rewrite Hbr by (simpl; tauto); reflexivity. }
    assert (Ho5 : attrs_except ["request"; "response"; "errors"; "one-way"] o
                  = canon (opt_attr "doc" (option_map JStr (m_doc m)) ++ m_props m)).
    { assert (Hat : attrs_except ["request"; "response"; "errors"; "one-way"] o
                    = attrs_except ["request"; "response"; "errors"; "one-way"] base).
      { unfold o. destruct Heo as [[_ ->]|(es & ejs & _ & _ & ->)]; destruct (m_one_way m);
          rewrite !attrs_insert by (try reflexivity; repeat apply bt_insert_sorted; exact Hbase); reflexivity. }
      rewrite Hat. apply attrs_canon.
      - apply opt_insert_sorted, sorted_nil.
      - exact Hnp.
      - destruct (m_doc m); simpl; repeat constructor; simpl; tauto.
      - intros k [Hkk|Hkk]; apply Hfp; [simpl in *; tauto|]. destruct (m_doc m); simpl in *; tauto.
      - intros k Hkk. apply str_mem_In in Hkk. simpl in Hkk. destruct (m_doc m); [|reflexivity].
        simpl. destruct (String.eqb_spec k "doc"); [|reflexivity]. subst. intuition discriminate.
      - intros k _. rewrite assoc_opt_insert. destruct (m_doc m); reflexivity. }
    unfold message_meaning. rewrite <- Ho4, <- Ho5.
    destruct Heo as [[En Eeo]|(es & ejs & Ees & Eej & Eeo)].
    - assert (Ha : assoc "errors" o = None).
      { unfold o. rewrite Eeo. destruct (m_one_way m); rewrite !assoc_bt_insert; simpl;
          apply Hbr; simpl; tauto. }
      rewrite Ha, En. reflexivity.
    - assert (Ha : assoc "errors" o = Some (JArr ejs)).
      { unfold o. rewrite Eeo. destruct (m_one_way m); rewrite !assoc_bt_insert; reflexivity. }
      rewrite Ha, Ees. pose proof (depth_assoc _ _ _ Ha) as D3.
      destruct (Re es Ees fuel) as (ejs' & Eej' & Rej). rewrite Eej in Eej'. inversion Eej'; subst ejs'.
      rewrite Rej by (intros x Hx; apply depth_In in Hx; unfold mdepth; lia). reflexivity.
  Qed.
End Flat.

Lemma bt_extend_perm {A} (l : list (string * A)) : NoDup (keys l) -> Permutation (bt_extend [] l) l.
Proof.
  intro Hn. assert (Hs : sorted (bt_extend [] l)) by (apply bt_extend_sorted, sorted_nil).
  apply NoDup_Permutation.
  - apply sorted_NoDup in Hs. eapply NoDup_map_inv. exact Hs.
  - eapply NoDup_map_inv. exact Hn.
  - intros [k v]. split; intro H.
    + apply In_assoc_NoDup in H; [|apply sorted_NoDup; exact Hs].
      rewrite assoc_bt_extend_NoDup in H by exact Hn.
      destruct (assoc k l) as [v'|] eqn:E; [|discriminate]. inversion H; subst. apply assoc_In. exact E.
    + apply assoc_In. rewrite assoc_bt_extend_NoDup by exact Hn.
      rewrite (In_assoc_NoDup k v l Hn H). reflexivity.
Qed.

Lemma map_st_const {A B S} (g : A -> S -> option (B * S)) (h : A -> B) l st :
  (forall x, In x l -> g x st = Some (h x, st)) -> map_st g l st = Some (map h l, st).
Proof.
  induction l as [|x l IH]; intro H; [reflexivity|].
  rewrite map_st_cons, H by (left; reflexivity). rewrite IH; [reflexivity|].
  intros y Hy. apply H. right. exact Hy.
Qed.

Lemma protocol_ok_facts p :
  protocol_ok p = true ->
  forallb def_ok (p_types p) = true
  /\ (forall t, In t (p_types p) -> ns_field t = None -> ns_empty (p_namespace p) = true)
  /\ NoDup (map type_name (p_types p))
  /\ (forall t, In t (p_types p) -> incl (refs_of t) (map type_name (p_types p)))
  /\ free_of ["protocol"; "namespace"; "doc"; "types"; "messages"] (p_props p) = true
  /\ NoDup (keys (p_messages p))
  /\ (forall nm, In nm (p_messages p) ->
        message_ok (ns_empty (p_namespace p)) (snd nm) = true
        /\ incl (message_refs (snd nm)) (map type_name (p_types p))).
Proof.
  unfold protocol_ok. cbv zeta. rewrite !andb_true_iff.
  intros [[[[[[H1 H2] H3] H4] H5] H6] H7]. rewrite forallb_forall in H2, H4, H7.
  apply nodupb_NoDup in H3, H6. repeat split; try assumption.
  - intros t Ht Hn. specialize (H2 t Ht). rewrite Hn in H2. exact H2.
  - intros t Ht. apply subset_incl. apply H4. exact Ht.
  - specialize (H7 nm H). apply andb_true_iff in H7. tauto.
  - specialize (H7 nm H). apply andb_true_iff in H7. apply subset_incl. tauto.
Qed.

Lemma header_get p k :
  free_of ["protocol"; "namespace"; "doc"; "types"; "messages"] (p_props p) = true ->
  In k ["protocol"; "namespace"; "doc"; "types"; "messages"] ->
  assoc k (protocol_header p) =
    if String.eqb k "doc" then option_map JStr (p_doc p)
    else if String.eqb k "namespace" then
      (match p_namespace p with
       | Some ns => if str_is_empty ns then None else Some (JStr ns)
       | None => None
       end)
    else if String.eqb k "protocol" then Some (JStr (p_name p))
    else None.
Proof.
  intros Hf Hk. apply free_of_spec in Hf. destruct Hf as [Hn Hr].
  unfold protocol_header. rewrite assoc_bt_extend_NoDup, Hr by (exact Hn || exact Hk).
  destruct (p_doc p); destruct (p_namespace p) as [ns|]; try (destruct (str_is_empty ns));
    cbn [negb opt_insert option_map]; rewrite ?assoc_bt_insert; cbn [assoc]; eqb_cases; reflexivity.
Qed.

Lemma protocol_faithful p :
  protocol_ok p = true ->
  exists j ap,
    protocol_to_json p = Some j
    /\ read_protocol (jdepth j) j = Some ap
    /\ ap_name ap = p_name p
    /\ ap_namespace ap = nsof (p_namespace p)
    /\ ap_attrs ap = canon (opt_attr "doc" (option_map JStr (p_doc p)) ++ p_props p)
    /\ NoDup (keys (ap_defs ap))
    /\ Permutation (map (fun fd => Some fd) (ap_defs ap)) (map named_meaning (p_types p))
    /\ Permutation (ap_messages ap)
         (map (fun nm => (fst nm, message_meaning (snd nm))) (p_messages p))
    /\ Permutation (types_defined (jdepth j) j) (map type_name (p_types p))
    /\ messages_defined (jdepth j) j = []
    /\ sublist (entry_names j) (map (fun t => Some (type_name t)) (p_types p)).
Proof.
  intro Hok. destruct (protocol_ok_facts p Hok) as (Hdefs & Hns & Hnames & Hrefs & Hprops & Hmn & Hms).
  destruct (protocol_to_json_total p) as (j & Ej). pose proof Ej as Ej0.
  unfold protocol_to_json, types_to_json, messages_to_json in Ej.
  set (lk := build_lookup (p_types p) (p_namespace p)) in *.
  unfold schema_to_json in Ej.
  destruct (map_st _ (p_types p) []) as [[js known]|] eqn:Et in Ej; [|discriminate].
  set (fm := fun (nm : string * message) (k : list string) => _) in Ej.
  set (T := JArr (filter (fun v => negb (is_string v)) js)) in *.
  set (n := lookup_fuel lk) in *. set (dns := p_namespace p) in *.
  (* everything is known after the types *)
  assert (Hdj : exists D, forall x, In x js -> jdepth x <= D).
  { clear. induction js as [|x l [D H]]; [exists 0; intros x []|].
    exists (Nat.max (jdepth x) D). intros y [->|Hy]; [lia|]. specialize (H y Hy). lia. }
  destruct Hdj as (D0 & Hdj).
  destruct (types_sim (p_types p) dns Hdefs Hns Hnames Hrefs n D0 (p_types p) (incl_refl _) [] js known Et Hdj [])
    as (_ & ds0 & _ & St0 & Hall & Hsub).
  destruct (defs_complete (p_types p) dns Hdefs Hns Hnames known ds0 St0 Hall) as (_ & _ & Hkn).
  assert (Hmsg : forall nm, In nm (p_messages p) -> exists mj, fm nm known = Some ((fst nm, mj), known)
     /\ forall fuel ds, jdepth mj <= fuel -> read_message fuel mj (nsof dns) (known, ds)
                         = Some (message_meaning (snd nm), (known, ds))).
  { intros nm Hin. destruct (Hms nm Hin) as [Hm1 Hm2].
    destruct (closed_message (p_types p) dns Hdefs Hns Hrefs n (snd nm) dns known Hm1)
      as (mj & E & R).
    - intros x Hx. eapply Permutation_in; [symmetry; exact Hkn|]. apply Hm2. exact Hx.
    - exact Hm2.
    - exists mj. unfold fm. fold lk in E. rewrite E. split; [reflexivity|exact R]. }
  set (jm := fun nm : string * message => match fm nm known with Some (e, _) => e | None => (fst nm, JNull) end).
  assert (Hfm : map_st fm (p_messages p) known = Some (map jm (p_messages p), known)).
  { apply map_st_const. intros nm Hin. unfold jm. destruct (Hmsg nm Hin) as (mj & E & _).
    rewrite E. reflexivity. }
  rewrite Hfm in Ej.
  set (entries := map jm (p_messages p)) in *.
  assert (Hke : keys entries = keys (p_messages p)).
  { unfold entries, keys. rewrite map_map. apply map_ext_in. intros nm Hin. unfold jm.
    destruct (Hmsg nm Hin) as (mj & E & _). rewrite E. reflexivity. }
  assert (Hpe : Permutation (bt_extend [] entries) entries)
    by (apply bt_extend_perm; rewrite Hke; exact Hmn).
  set (M := bt_extend [] entries) in *.
  set (o := bt_insert "messages" (JObj M) (bt_insert "types" T (protocol_header p))) in *.
  assert (Ejo : j = JObj o) by congruence. clear Ej.
  assert (Hh : sorted (protocol_header p)).
  { unfold protocol_header. apply bt_extend_sorted, opt_insert_sorted.
    destruct (p_namespace p) as [ns|]; [destruct (negb (str_is_empty ns))|];
      repeat apply bt_insert_sorted; apply sorted_nil. }
  assert (Ho : forall k, assoc k o = if String.eqb k "messages" then Some (JObj M)
                                     else if String.eqb k "types" then Some T
                                     else assoc k (protocol_header p)).
  { intro k. unfold o. rewrite !assoc_bt_insert. reflexivity. }
  assert (HoT : assoc "types" o = Some T) by (rewrite Ho; reflexivity).
  assert (HoM : assoc "messages" o = Some (JObj M)) by (rewrite Ho; reflexivity).
  assert (Hns_r : match sget "namespace" o with Some s => s | None => "" end = nsof dns).
  { unfold sget. rewrite Ho, header_get by (exact Hprops || (simpl; tauto)). simpl.
    unfold dns. destruct (p_namespace p) as [ns|]; [|reflexivity]. simpl.
    destruct (str_is_empty ns) eqn:E; [|reflexivity]. apply str_is_empty_eq in E. rewrite E. reflexivity. }
  pose proof (depth_assoc _ _ _ HoT) as DT. pose proof (depth_assoc _ _ _ HoM) as DM.
  set (fuel := jdepth (JObj o)) in *.
  (* non-string definitions are what the reader walks; depth of strings is 1 *)
  assert (Hdj' : forall x, In x js -> jdepth x <= fuel).
  { intros x Hx. destruct (is_string x) eqn:Es.
    - destruct x; try discriminate. simpl. unfold fuel. pose proof (jdepth_pos (JObj o)). lia.
    - assert (In x (filter (fun v => negb (is_string v)) js)) as Hf
        by (apply filter_In; rewrite Es; auto).
      apply depth_In in Hf. fold T in Hf. lia. }
  destruct (types_sim (p_types p) dns Hdefs Hns Hnames Hrefs n fuel (p_types p) (incl_refl _) [] js known Et Hdj' [])
    as (ts & ds & RT & St & _ & _).
  destruct (defs_complete (p_types p) dns Hdefs Hns Hnames known ds St Hall) as (Hnd & Hperm & _).
  set (gm := fun (nm : string * json) (st : rstate) =>
               match read_message fuel (snd nm) (nsof dns) st with
               | Some (m, st') => Some ((fst nm, m), st')
               | None => None
               end).
  set (dummy := mkAMessage [] (TUnion []) None false []).
  set (h := fun nm : string * json => match gm nm (known, ds) with Some (r, _) => r | None => (fst nm, dummy) end).
  assert (Hgm : forall e, In e M -> gm e (known, ds) = Some (h e, (known, ds))).
  { intros e He. assert (Hd : jdepth (snd e) <= fuel).
    { assert (Ha : assoc (fst e) M = Some (snd e)).
      { apply In_assoc_NoDup; [|destruct e; exact He].
        apply sorted_NoDup. apply bt_extend_sorted, sorted_nil. }
      apply depth_assoc in Ha. lia. }
    apply (Permutation_in _ Hpe) in He. unfold entries in He. apply in_map_iff in He.
    destruct He as (nm & Ee & Hin). destruct (Hmsg nm Hin) as (mj & E & R).
    unfold jm in Ee. rewrite E in Ee. subst e. simpl in Hd.
    assert (G : gm (fst nm, mj) (known, ds) = Some ((fst nm, message_meaning (snd nm)), (known, ds))).
    { unfold gm. cbn [fst snd]. rewrite R by exact Hd. reflexivity. }
    unfold h. rewrite G. reflexivity. }
  exists j. eexists. split; [|split].
  - exact Ej0.
  - rewrite Ejo. unfold read_protocol. fold fuel.
    assert (Hpn : sget "protocol" o = Some (p_name p)).
    { unfold sget. rewrite Ho, header_get by (exact Hprops || (simpl; tauto)). reflexivity. }
    rewrite Hns_r, Hpn, HoT, HoM. unfold T. rewrite RT. fold gm.
    rewrite (map_st_const gm h M (known, ds) Hgm). reflexivity.
  - cbn [ap_name ap_namespace ap_attrs ap_defs ap_messages]. repeat split; try assumption.
    + unfold o. rewrite !attrs_insert by (try reflexivity; try apply bt_insert_sorted; exact Hh).
      pose proof Hprops as Hp'. apply free_of_spec in Hp'. destruct Hp' as [Hpn Hpr].
      unfold protocol_header.
      set (b := match p_namespace p with Some ns => _ | None => _ end).
      assert (Hb : sorted b).
      { unfold b. destruct (p_namespace p) as [ns|]; [destruct (negb (str_is_empty ns))|];
          repeat apply bt_insert_sorted; apply sorted_nil. }
      apply attrs_canon.
      * apply opt_insert_sorted. exact Hb.
      * exact Hpn.
      * destruct (p_doc p); simpl; repeat constructor; simpl; tauto.
      * intros k [Hk|Hk]; apply Hpr; [simpl in *; tauto|]. destruct (p_doc p); simpl in *; tauto.
      * intros k Hk. apply str_mem_In in Hk. simpl in Hk. destruct (p_doc p); [|reflexivity].
        simpl. destruct (String.eqb_spec k "doc"); [|reflexivity]. subst. intuition discriminate.
      * intros k Hk. rewrite assoc_opt_insert. unfold str_mem in Hk. simpl in Hk.
        assert (Hbk : assoc k b = None).
        { unfold b. destruct (p_namespace p) as [ns|]; [destruct (negb (str_is_empty ns))|];
          rewrite !assoc_bt_insert; cbn [assoc]; destruct (String.eqb k "protocol"), (String.eqb k "namespace");
          try discriminate; reflexivity. }
        rewrite Hbk. destruct (p_doc p); reflexivity.
    + rewrite (Permutation_map h Hpe). unfold entries. rewrite map_map.
      assert (Hext : map (fun x => h (jm x)) (p_messages p)
                     = map (fun nm => (fst nm, message_meaning (snd nm))) (p_messages p)).
      { apply map_ext_in. intros nm Hin. destruct (Hmsg nm Hin) as (mj & E & R).
        assert (Ejm : jm nm = (fst nm, mj)) by (unfold jm; rewrite E; reflexivity).
        assert (Hd : jdepth mj <= fuel).
        { assert (He : In (jm nm) M).
          { eapply Permutation_in; [symmetry; exact Hpe|]. unfold entries. apply in_map. exact Hin. }
          rewrite Ejm in He.
          assert (Ha : assoc (fst nm) M = Some mj).
          { apply In_assoc_NoDup; [|exact He]. apply sorted_NoDup. apply bt_extend_sorted, sorted_nil. }
          apply depth_assoc in Ha. lia. }
        rewrite Ejm. unfold h, gm. cbn [fst snd]. rewrite R by exact Hd. reflexivity. }
      rewrite Hext. reflexivity.
    + rewrite Ejo. cbn [types_defined]. fold fuel. unfold protocol_ns. rewrite Hns_r, HoT. unfold T. cbn [jarr].
      assert (Ha : adds (flat_map (defined fuel (nsof dns)) (filter (fun v => negb (is_string v)) js)) ([], []) (known, ds)).
      { eapply map_st_adds; [|exact RT]. intros x s1 y s2 _ Hx. eapply read_adds. exact Hx. }
      destruct Ha as (Pa & _ & _). cbn [fst] in Pa. rewrite app_nil_r in Pa. rewrite <- Pa. exact Hkn.
    + rewrite Ejo. cbn [messages_defined]. fold fuel. unfold protocol_ns. rewrite Hns_r, HoM.
      change (flat_map (fun e => message_defined fuel (nsof dns) (snd e)) M = []).
      assert (Hnil : forall e, In e M -> message_defined fuel (nsof dns) (snd e) = []).
      { intros e He. specialize (Hgm e He). unfold gm in Hgm.
        destruct (read_message fuel (snd e) (nsof dns) (known, ds)) as [[m st']|] eqn:Er; [|discriminate].
        assert (st' = (known, ds)) as -> by (inversion Hgm; reflexivity).
        apply read_message_adds in Er. apply adds_same in Er. exact Er. }
      clearbody fuel. clear - Hnil. clearbody M. induction M as [|e l IH]; [reflexivity|]. cbn [flat_map].
      rewrite Hnil by (left; reflexivity). apply IH. intros x Hx. apply Hnil. right. exact Hx.
    + rewrite Ejo. cbn [entry_names]. unfold protocol_ns. rewrite Hns_r, HoT. exact Hsub.
Qed.

(** ** Stand-alone schema documents *)

Section Known.
  Variable lk : lookup_table.
  Hypothesis Hlk : forall k t, assoc k lk = Some t ->
    def_ok t = true /\ type_name t = k /\ incl (refs_of t) (keys lk).
  (** A set of names closed under references. *)
  Variable R : string -> Prop.
  Hypothesis HR : forall k t, R k -> assoc k lk = Some t -> forall x, In x (refs_of t) -> R x.

  Definition grows (known known' : list string) : Prop :=
    incl known known'
    /\ (forall x, In x known' -> In x known \/ R x)
    /\ (forall x, In x known' -> In x known \/ forall t, assoc x lk = Some t -> incl (refs_of t) known').

  Lemma grows_refl known : grows known known.
  Proof. repeat split; auto using incl_refl. Qed.

  Lemma grows_trans a b c : grows a b -> grows b c -> grows a c.
  Proof.
    intros (I1 & R1 & C1) (I2 & R2 & C2). repeat split.
    - eapply incl_tran; eassumption.
    - intros x Hx. destruct (R2 x Hx) as [Hb|Hr]; auto.
    - intros x Hx. destruct (C2 x Hx) as [Hb|Hr]; [|auto].
      destruct (C1 x Hb) as [Ha|Hr]; [auto|]. right. intros t Ht. eapply incl_tran; [apply Hr; exact Ht|exact I2].
  Qed.

  Lemma map_st_grows {A} (f : A -> list string -> option (json * list string)) (refs : A -> list string) l :
    (forall x known j known', In x l -> f x known = Some (j, known') ->
       grows known known' /\ incl (refs x) known') ->
    forall known js known', map_st f l known = Some (js, known') ->
      grows known known' /\ incl (flat_map refs l) known'.
  Proof.
    induction l as [|x l IH]; intros Hf known js known' E.
    - rewrite map_st_nil in E. apply some_pair_inj in E; destruct E as [<- <-].
      split; [apply grows_refl|]. intros y [].
    - rewrite map_st_cons in E. destruct (f x known) as [[j k1]|] eqn:E1; [|discriminate].
      destruct (map_st f l k1) as [[js' k2]|] eqn:E2; [|discriminate].
      apply some_pair_inj in E; destruct E as [<- <-].
      destruct (Hf x known j k1 (or_introl eq_refl) E1) as [G1 I1].
      destruct (IH (fun x' k' j' k'' Hin => Hf x' k' j' k'' (or_intror Hin)) k1 js' k2 E2) as [G2 I2].
      split; [eapply grows_trans; eassumption|]. cbn [flat_map]. apply incl_app; [|exact I2].
      eapply incl_tran; [exact I1|]. apply G2.
  Qed.

  Definition type_grows (n : nat) (s : schema) : Prop :=
    forall b enc known j known',
      ty_ok b s = true -> (forall x, In x (refs_of s) -> R x /\ In x (keys lk)) ->
      ser lk n s enc known = Some (j, known') ->
      grows known known' /\ incl (refs_of s) known'.

  Lemma def_grows n t enc known j known' :
    (forall s, type_grows n s) ->
    def_ok t = true -> assoc (type_name t) lk = Some t -> R (type_name t) ->
    ser lk n t enc known = Some (j, known') ->
    grows known known' /\ In (type_name t) known'.
  Proof.
    intros HT Hok Ht HRt E.
    assert (Hleaf : refs_of t = [] -> forall k, (k = known /\ In (type_name t) known)
                                                \/ k = type_name t :: known -> 
                    grows known k /\ In (type_name t) k).
    { intros Hr k [[-> Hin]| -> ]; [split; [apply grows_refl|exact Hin]|].
      split; [|left; reflexivity]. repeat split.
      - apply incl_tl, incl_refl.
      - intros x [<-|Hx]; auto.
      - intros x [<-|Hx]; auto. right. intros t' Ht'. rewrite Ht in Ht'. inversion Ht'; subst.
        rewrite Hr. intros y []. }
    assert (Hcase : forall ty nm ns d, type_name t = fullname nm ns ->
       (In (type_name t) known /\ exists b, named_type_preamble ty nm ns d known enc = inl b)
       \/ (exists o, named_type_preamble ty nm ns d known enc = inr (o, type_name t :: known))).
    { intros ty nm ns d ->. rewrite fullname_make.
      destruct (preamble_cases ty nm ns d known enc) as [[Hk Ep]|[Hk [o Ep]]].
      - left. split; [exact Hk|]. eauto.
      - right. eauto. }
    destruct t as [ | nm ns d fs e al ps | nm ns d sy df al ps | nm ns d sz al ps | | | | | | ];
      try discriminate.
    - rewrite ser_record in E.
      destruct (Hcase (if e then "error" else "record") nm ns d eq_refl) as [[Hk [b Eb]]|[o Eo]].
      + rewrite Eb in E. apply some_pair_inj in E; destruct E as [_ <-].
        split; [apply grows_refl|exact Hk].
      + rewrite Eo in E. destruct (map_st _ fs _) as [[js k2]|] eqn:Em in E; [|discriminate].
        apply some_pair_inj in E; destruct E as [_ <-].
        destruct (map_st_grows (fun f k => ser_field lk n f (opt_or ns enc) k)
                    (fun f => refs_of (f_schema f)) fs) with (known := type_name (SRecord nm ns d fs e al ps) :: known)
                    (js := js) (known' := k2) as [G I].
        * intros f kn fj kn' Hin Ef. unfold ser_field in Ef.
          destruct (ser lk n (f_schema f) (opt_or ns enc) kn) as [[tj k1]|] eqn:Es; [|discriminate].
          apply some_pair_inj in Ef; destruct Ef as [_ <-].
          cbn [def_ok] in Hok. rewrite !andb_true_iff in Hok. destruct Hok as [_ Hfs].
          rewrite forallb_forall in Hfs. specialize (Hfs f Hin). unfold field_ok in Hfs.
          apply andb_true_iff in Hfs.
          apply (HT (f_schema f) (ns_empty ns) (opt_or ns enc) kn tj k1 (proj2 Hfs)); [|exact Es].
          intros x Hx. assert (Hx' : In x (refs_of (SRecord nm ns d fs e al ps))).
          { cbn [refs_of]. apply in_flat_map. exists f. auto. }
          split; [eapply HR; eassumption|]. destruct (Hlk _ _ Ht) as (_ & _ & Hi). apply Hi. exact Hx'.
        * exact Em.
        * destruct G as (I1 & R1 & C1). split; [|apply I1; left; reflexivity]. repeat split.
          -- intros x Hx. apply I1. right. exact Hx.
          -- intros x Hx. destruct (R1 x Hx) as [[<-|Hx']|Hr]; auto.
          -- intros x Hx. destruct (C1 x Hx) as [[<-|Hx']|Hr]; auto.
             right. intros t' Ht'. rewrite Ht in Ht'. inversion Ht'; subst. exact I.
    - rewrite ser_enum in E.
      destruct (Hcase "enum" nm ns d eq_refl) as [[Hk [b Eb]]|[o Eo]];
        [rewrite Eb in E|rewrite Eo in E]; apply some_pair_inj in E; destruct E as [_ <-];
        apply Hleaf; auto.
    - rewrite ser_fixed in E.
      destruct (Hcase "fixed" nm ns d eq_refl) as [[Hk [b Eb]]|[o Eo]];
        [rewrite Eb in E|rewrite Eo in E]; apply some_pair_inj in E; destruct E as [_ <-];
        apply Hleaf; auto.
  Qed.

  Lemma types_grow n : forall s, type_grows n s.
  Proof.
    induction n as [n IHn] using lt_wf_ind. intro s.
    induction s as [p|nm ns d fs e al ps IH|nm ns d sy df al ps|nm ns d sz al ps|i ps IH|i ps IH
                   |ts b' IH|k ps|l ps|nm ns ps sp] using schema_ind';
      intros b enc known j known' Hok Hrefs E; try discriminate; cbn [ty_ok refs_of] in *.
    - rewrite ser_prim in E. apply some_pair_inj in E; destruct E as [_ <-].
      split; [apply grows_refl|intros x []].
    - apply andb_true_iff in Hok. rewrite ser_array in E.
      destruct (ser lk n i enc known) as [[ij k1]|] eqn:Ei; [|discriminate].
      apply some_pair_inj in E; destruct E as [_ <-]. exact (IH b enc known ij k1 (proj2 Hok) Hrefs Ei).
    - apply andb_true_iff in Hok. rewrite ser_map in E.
      destruct (ser lk n i enc known) as [[ij k1]|] eqn:Ei; [|discriminate].
      apply some_pair_inj in E; destruct E as [_ <-]. exact (IH b enc known ij k1 (proj2 Hok) Hrefs Ei).
    - rewrite ser_union in E. destruct (map_st _ ts known) as [[js k1]|] eqn:Em in E; [|discriminate].
      apply some_pair_inj in E; destruct E as [_ <-].
      apply (map_st_grows (fun t k => ser lk n t enc k) refs_of ts) with (js := js); [|exact Em].
      intros t kn tj kn' Hin Et. rewrite Forall_forall in IH. rewrite forallb_forall in Hok.
      apply (IH t Hin b enc kn tj kn' (Hok t Hin)); [|exact Et].
      intros x Hx. apply Hrefs. apply in_flat_map. exists t. auto.
    - rewrite ser_annot in E. apply some_pair_inj in E; destruct E as [_ <-].
      split; [apply grows_refl|intros x []].
    - rewrite ser_logical in E. apply some_pair_inj in E; destruct E as [_ <-].
      split; [apply grows_refl|intros x []].
    - rewrite ser_ref, <- fullname_make in E.
      destruct (Hrefs (fullname nm ns) (or_introl eq_refl)) as [HRx Hkx].
      destruct (str_mem (fullname nm ns) known) eqn:Ek.
      + apply some_pair_inj in E; destruct E as [_ <-]. apply str_mem_In in Ek.
        split; [apply grows_refl|]. intros x [<-|[]]. exact Ek.
      + apply In_keys_assoc in Hkx. destruct Hkx as [t Ht]. rewrite Ht in E.
        destruct n as [|n']; [discriminate|]. destruct (Hlk _ _ Ht) as (Hdok & Htn & _).
        destruct (def_grows n' t enc known j known' (IHn n' ltac:(lia)) Hdok) as [G I].
        * rewrite Htn. exact Ht.
        * rewrite Htn. exact HRx.
        * exact E.
        * split; [exact G|]. intros x [<-|[]]. rewrite <- Htn. exact I.
  Qed.
End Known.

Lemma document_faithful types s :
  registry_ok types = true ->
  In s types \/ (ty_ok true s = true /\ subset (refs_of s) (map type_name types) = true) ->
  exists j known defs,
    schema_to_json s [] None (build_lookup types None) = Some (j, known)
    /\ read_document (jdepth j) j = Some (meaning s, defs)
    /\ NoDup (keys defs)
    /\ (forall f d, In (f, d) defs -> exists t, In t types /\ named_meaning t = Some (f, d))
    /\ (forall f, In f (keys defs) <-> exists r, In r (roots s) /\ reaches types r f).
Proof.
  unfold registry_ok. rewrite !andb_true_iff. intros [[Hdefs Hnames] Hrefs'] Hs.
  apply nodupb_NoDup in Hnames.
  assert (Hrefs : forall t, In t types -> incl (refs_of t) (map type_name types)).
  { intros t Ht. rewrite forallb_forall in Hrefs'. apply subset_incl. apply Hrefs'. exact Ht. }
  assert (Hns : forall t, In t types -> ns_field t = None -> ns_empty None = true) by reflexivity.
  set (lk := build_lookup types None).
  pose proof (flat_lk types None Hdefs Hns Hrefs) as Hlk. fold lk in Hlk.
  pose proof (flat_keys types None Hdefs Hns) as Hkeys. fold lk in Hkeys.
  assert (Hassoc : forall t, In t types -> assoc (type_name t) lk = Some t)
    by (apply (flat_assoc types None); assumption).
  assert (Hinv : forall k t, assoc k lk = Some t -> In t types /\ type_name t = k)
    by (apply (flat_assoc_inv types None); assumption).
  assert (Hnamed : forall k t, assoc k lk = Some t -> is_named t = true)
    by (intros k t; apply table_named_assoc; apply build_lookup_named).
  destruct (ser_total lk Hnamed s None []) as (j & known & E & _). pose proof E as E0.
  unfold schema_to_json in E. set (n := lookup_fuel lk) in *.
  set (R := fun f => exists r, In r (roots s) /\ reaches types r f).
  assert (HR : forall k t, R k -> assoc k lk = Some t -> forall x, In x (refs_of t) -> R x).
  { intros k t (r & Hr & Hreach) Ht x Hx. exists r. split; [exact Hr|].
    apply Hinv in Ht. destruct Ht as [Hin <-]. eapply reach_next; eassumption. }
  assert (Hmain : exists ds, read (jdepth j) j "" ([], []) = Some (meaning s, (known, ds))
                  /\ step lk [] [] known ds
                  /\ grows lk R [] known /\ incl (roots s) known).
  { destruct Hs as [Hs|[Hty Hsub]].
    - assert (Hdok : def_ok s = true) by (rewrite forallb_forall in Hdefs; apply Hdefs; exact Hs).
      destruct (reads_def lk Hlk n s None [] j known (reads_types lk Hlk n) Hdok) with
        (fuel := jdepth j) (ds := @nil (string * adef)) as (ds & Rd & St & _ & _).
      + apply Hassoc. exact Hs.
      + intros [].
      + reflexivity.
      + intros x Hx. apply Hkeys. apply (Hrefs s Hs). exact Hx.
      + exact E.
      + reflexivity.
      + assert (Hroot : roots s = [type_name s])
          by (destruct s; try discriminate Hdok; reflexivity).
        destruct (def_grows lk Hlk R HR n s None [] j known (types_grow lk Hlk R HR n) Hdok) as [G I].
        * apply Hassoc. exact Hs.
        * exists (type_name s). rewrite Hroot. split; [left; reflexivity|constructor].
        * exact E.
        * exists ds. split; [|split; [exact St|split; [exact G|]]].
          -- assert (Hm : meaning s = TNamed (type_name s)) by (destruct s; try discriminate Hdok; reflexivity).
             rewrite Hm. exact Rd.
          -- rewrite Hroot. intros x [<-|[]]. exact I.
    - apply subset_incl in Hsub.
      destruct (reads_types lk Hlk n s None [] j known Hty) with (fuel := jdepth j)
        (ds := @nil (string * adef)) as (ds & Rd & St).
      + intros x Hx. apply Hkeys. apply Hsub. exact Hx.
      + exact E.
      + reflexivity.
      + assert (Hroot : roots s = refs_of s)
          by (destruct s; try discriminate Hty; reflexivity).
        destruct (types_grow lk Hlk R HR n s true None [] j known Hty) as [G I].
        * intros x Hx. split.
          -- exists x. rewrite Hroot. split; [exact Hx|constructor].
          -- apply Hkeys. apply Hsub. exact Hx.
        * exact E.
        * exists ds. rewrite Hroot. auto. }
  destruct Hmain as (ds & Rd & St & (_ & G2 & G3) & I).
  exists j, known, ds. split; [exact E0|]. split; [unfold read_document; rewrite Rd; reflexivity|].
  destruct St as (new & Enew & P & Gd & N). simpl in Enew. subst new. rewrite app_nil_r in P.
  split; [|split].
  - eapply Permutation_NoDup; [exact P|]. apply N. constructor.
  - intros f d Hin. rewrite Forall_forall in Gd. destruct (Gd _ Hin) as (t & Ht & Hm). simpl in Ht, Hm.
    apply Hinv in Ht. destruct Ht as [Htin Htn]. exists t. split; [exact Htin|].
    destruct t; try discriminate; cbn [named_meaning type_name] in *; rewrite Hm, Htn; reflexivity.
  - intro f. split.
    + intro Hf. assert (Hk : In f known) by (eapply Permutation_in; [symmetry; exact P|exact Hf]).
      destruct (G2 f Hk) as [[]|Hr]. exact Hr.
    + intros (r & Hr & Hreach). eapply Permutation_in; [exact P|].
      induction Hreach as [|t c Hreach IH Htin Hc].
      * apply I. exact Hr.
      * destruct (G3 _ IH) as [[]|Hcl]. apply (Hcl t (Hassoc t Htin)). exact Hc.
Qed.
