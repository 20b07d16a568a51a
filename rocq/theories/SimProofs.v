(** The simulation: whatever the serialiser writes, the Avro reader of
    SpecAvro.v reads back as the types that were meant. *)
From Verif Require Export MeaningProofs.
From Coq Require Import Permutation.

Lemma jdepth_pos j : 1 <= jdepth j.
Proof. destruct j; simpl; lia. Qed.

Lemma str_mem_eq_true x l : In x l -> str_mem x l = true.
Proof. apply str_mem_In. Qed.

Lemma some_pair_inj {A B} (a c : A) (b d : B) : Some (a, b) = Some (c, d) -> a = c /\ b = d.
Proof. intro H. inversion H. auto. Qed.

(** ** Reader rules *)

Lemma read_prim m p enc st : read (S m) (JStr (prim_str p)) enc st = Some (TPrim (prim_str p) [], st).
Proof. cbn [read]. rewrite prim_str_spec. reflexivity. Qed.

Lemma read_known m s enc st full :
  str_mem s spec_primitives = false -> resolve_name enc s = full -> In full (fst st) ->
  read (S m) (JStr s) enc st = Some (TNamed full, st).
Proof.
  intros H1 H2 H3. cbn [read]. rewrite H1, H2. apply str_mem_In in H3. rewrite H3. reflexivity.
Qed.

Lemma read_union m l enc st ts st1 :
  map_st (fun x st => read m x enc st) l st = Some (ts, st1) ->
  read (S m) (JArr l) enc st = Some (TUnion ts, st1).
Proof. intro H. cbn [read]. rewrite H. reflexivity. Qed.

Lemma read_prim_obj m o enc st p :
  sget "type" o = Some (prim_str p) ->
  read (S m) (JObj o) enc st = Some (TPrim (prim_str p) (attrs_except ["type"] o), st).
Proof. intro H. cbn [read]. rewrite H. destruct p; reflexivity. Qed.

Lemma read_array m o enc st ij t st1 :
  sget "type" o = Some "array" -> assoc "items" o = Some ij ->
  read m ij enc st = Some (t, st1) ->
  read (S m) (JObj o) enc st = Some (TArray t (attrs_except ["type"; "items"] o), st1).
Proof. intros H1 H2 H3. cbn [read]. rewrite H1. cbn. rewrite H2, H3. reflexivity. Qed.

Lemma read_map m o enc st ij t st1 :
  sget "type" o = Some "map" -> assoc "values" o = Some ij ->
  read m ij enc st = Some (t, st1) ->
  read (S m) (JObj o) enc st = Some (TMap t (attrs_except ["type"; "values"] o), st1).
Proof. intros H1 H2 H3. cbn [read]. rewrite H1. cbn. rewrite H2, H3. reflexivity. Qed.

Lemma read_record m o enc known ds (e : bool) full ns fjs fields st1 al :
  sget "type" o = Some (if e then "error" else "record") ->
  def_name o enc = Some (full, ns) -> assoc "fields" o = Some (JArr fjs) ->
  ~ In full known ->
  map_st (fun fj st => read_field m fj ns st) fjs (full :: known, ds) = Some (fields, st1) ->
  def_aliases o ns = Some al ->
  read (S m) (JObj o) enc (known, ds)
  = Some (TNamed full,
          (fst st1, snd st1 ++ [(full, DRecord e fields al (attrs_except record_structure o))])).
Proof.
  intros H1 H2 H3 H4 H5 H6. apply str_mem_not_In in H4. cbn [read]. rewrite H1.
  change (map_st (fun fj st => read_field m fj ns st) fjs (full :: known, ds))
    with (map_st (fun fj (st : rstate) =>
                              match fj with
                              | JObj fo =>
                                  match sget "name" fo, assoc "type" fo with
                                  | Some fname, Some tj =>
                                      match read m tj ns st with
                                      | Some (t, st1) =>
                                          Some (mkAField fname t
                                                  (attrs_except ["name"; "type"] fo), st1)
                                      | None => None
                                      end
                                  | _, _ => None
                                  end
                              | _ => None
                              end) fjs (full :: known, ds)) in H5.
  destruct e; cbn [str_mem existsb String.eqb]; rewrite H2, H3; cbn [fst snd];
    simpl (str_mem _ ["record"; "error"]); cbv iota; rewrite H4, H5, H6; reflexivity.
Qed.

Lemma read_enum m o enc known ds full ns symbols al :
  sget "type" o = Some "enum" ->
  def_name o enc = Some (full, ns) -> assoc "symbols" o = Some (JArr (map JStr symbols)) ->
  ~ In full known -> def_aliases o ns = Some al ->
  read (S m) (JObj o) enc (known, ds)
  = Some (TNamed full,
          (full :: known, ds ++ [(full, DEnum symbols al (attrs_except enum_structure o))])).
Proof.
  intros H1 H2 H3 H4 H5. apply str_mem_not_In in H4. cbn [read]. rewrite H1. cbn -[def_name def_aliases].
  rewrite H2, H3. unfold str_mem in H4. rewrite H4, all_strings_map, H5. reflexivity.
Qed.

Lemma read_fixed m o enc known ds full ns size al :
  sget "type" o = Some "fixed" ->
  def_name o enc = Some (full, ns) -> assoc "size" o = Some (JNum (NPos size)) ->
  ~ In full known -> def_aliases o ns = Some al ->
  read (S m) (JObj o) enc (known, ds)
  = Some (TNamed full,
          (full :: known, ds ++ [(full, DFixed size al (attrs_except fixed_structure o))])).
Proof.
  intros H1 H2 H3 H4 H5. apply str_mem_not_In in H4. cbn [read]. rewrite H1. cbn -[def_name def_aliases].
  rewrite H2, H3. unfold str_mem in H4. rewrite H4, H5. reflexivity.
Qed.

(** ** Objects of definitions *)

Section DefObjects.
  Variables (name : string) (ns doc enc : option string) (ps : props) (aliases : list string).
  Hypothesis Hdot : contains_dot name = false.
  Hypothesis Henc : ns = None -> ns_empty enc = true.
  Hypothesis Hal : forallb alias_ok aliases = true.

  Lemma fields_obj_reads (e : bool) js :
    free_of ["type"; "name"; "namespace"; "doc"; "fields"; "aliases"] ps = true ->
    let o := finish_named_type
               (bt_insert "fields" (JArr js)
                  (preamble_obj (if e then "error" else "record") name ns doc enc)) ps aliases ns in
    sget "type" o = Some (if e then "error" else "record")
    /\ def_name o (nsof enc) = Some (fullname name ns, nsof ns)
    /\ assoc "fields" o = Some (JArr js)
    /\ def_aliases o (nsof ns) = Some (map (resolve_name (nsof ns)) aliases)
    /\ attrs_except record_structure o = canon (opt_attr "doc" (option_map JStr doc) ++ ps).
  Proof.
    intros Hf o. apply free_of_spec in Hf. destruct Hf as [Hn Hr].
    set (base := bt_insert "fields" (JArr js)
                   (preamble_obj (if e then "error" else "record") name ns doc enc)) in o.
    assert (Hb : sorted base) by (apply bt_insert_sorted, preamble_sorted).
    assert (Hg : forall k, In k ["type"; "name"; "namespace"; "doc"; "fields"] ->
                           assoc k o = assoc k base).
    { intros k Hk. apply finish_get; [exact Hn| |apply Hr; simpl in *; tauto].
      simpl in Hk. intuition (subst; discriminate). }
    assert (Hbg : forall k, assoc k base = if String.eqb k "fields" then Some (JArr js)
        else assoc k (preamble_obj (if e then "error" else "record") name ns doc enc)).
    { intro k. unfold base. apply assoc_bt_insert. }
    repeat split.
    - unfold sget. rewrite Hg, Hbg, preamble_get by (simpl; tauto). reflexivity.
    - apply def_name_reads; [exact Hdot| | |exact Henc].
      + unfold sget. rewrite Hg, Hbg, preamble_get by (simpl; tauto). reflexivity.
      + rewrite Hg, Hbg, preamble_get by (simpl; tauto). reflexivity.
    - rewrite Hg, Hbg by (simpl; tauto). reflexivity.
    - apply finish_aliases; [exact Hn|apply Hr; simpl; tauto| |exact Hal].
      rewrite Hbg, preamble_get. reflexivity.
    - unfold o. rewrite finish_attrs by (try exact Hb; reflexivity).
      apply attrs_canon; [exact Hb|exact Hn| | | |].
      + destruct doc; simpl; repeat constructor; simpl; tauto.
      + intros k [Hk|Hk]; apply Hr; [simpl in *; tauto|]. destruct doc; simpl in *; tauto.
      + intros k Hk. apply str_mem_In in Hk. simpl in Hk. destruct doc; [|reflexivity].
        simpl. destruct (String.eqb_spec k "doc"); [|reflexivity]. subst. intuition discriminate.
      + intros k Hk. rewrite Hbg, preamble_get. unfold record_structure, str_mem in Hk. simpl in Hk.
        destruct doc; simpl; destruct (String.eqb k "fields"), (String.eqb k "doc"),
          (String.eqb k "namespace"), (String.eqb k "name"), (String.eqb k "type"); try discriminate;
          reflexivity.
  Qed.

  Lemma enum_obj_reads symbols default :
    free_of ["type"; "name"; "namespace"; "doc"; "symbols"; "default"; "aliases"] ps = true ->
    exists o, enum_obj (preamble_obj "enum" name ns doc enc) symbols default ps aliases ns = JObj o
    /\ sget "type" o = Some "enum"
    /\ def_name o (nsof enc) = Some (fullname name ns, nsof ns)
    /\ assoc "symbols" o = Some (JArr (map JStr symbols))
    /\ def_aliases o (nsof ns) = Some (map (resolve_name (nsof ns)) aliases)
    /\ attrs_except enum_structure o
       = canon (opt_attr "doc" (option_map JStr doc)
                ++ opt_attr "default" (option_map JStr default) ++ ps).
  Proof.
    intros Hf. apply free_of_spec in Hf. destruct Hf as [Hn Hr].
    unfold enum_obj. eexists. split; [reflexivity|].
    set (base := opt_insert "default" (option_map JStr default)
             (bt_insert "symbols" (JArr (map JStr symbols)) (preamble_obj "enum" name ns doc enc))).
    set (o := finish_named_type base ps aliases ns).
    assert (Hb : sorted base) by (apply opt_insert_sorted, bt_insert_sorted, preamble_sorted).
    assert (Hg : forall k, In k ["type"; "name"; "namespace"; "doc"; "symbols"; "default"] ->
                           assoc k o = assoc k base).
    { intros k Hk. apply finish_get; [exact Hn| |apply Hr; simpl in *; tauto].
      simpl in Hk. intuition (subst; discriminate). }
    assert (Hbg : forall k, assoc k base =
        if String.eqb k "default" then option_map JStr default
        else if String.eqb k "symbols" then Some (JArr (map JStr symbols))
        else assoc k (preamble_obj "enum" name ns doc enc)).
    { intro k. unfold base. rewrite assoc_opt_insert, assoc_bt_insert, !preamble_get.
      destruct default; cbn [option_map]; eqb_cases; reflexivity. }
    repeat split.
    - unfold sget. rewrite Hg, Hbg, preamble_get by (simpl; tauto). reflexivity.
    - apply def_name_reads; [exact Hdot| | |exact Henc].
      + unfold sget. rewrite Hg, Hbg, preamble_get by (simpl; tauto). reflexivity.
      + rewrite Hg, Hbg, preamble_get by (simpl; tauto). reflexivity.
    - rewrite Hg, Hbg by (simpl; tauto). reflexivity.
    - apply finish_aliases; [exact Hn|apply Hr; simpl; tauto| |exact Hal].
      rewrite Hbg, preamble_get. reflexivity.
    - unfold o. rewrite finish_attrs by (try exact Hb; reflexivity). rewrite app_assoc.
      apply attrs_canon; [exact Hb|exact Hn| | | |].
      + destruct doc, default; simpl; repeat constructor; simpl; intuition discriminate.
      + intros k [Hk|Hk]; apply Hr; [simpl in *; tauto|]. destruct doc, default; simpl in *; tauto.
      + intros k Hk. apply str_mem_In in Hk. simpl in Hk. intuition subst; destruct doc, default; reflexivity.
      + intros k Hk. rewrite Hbg, preamble_get. unfold enum_structure, str_mem in Hk. simpl in Hk.
        destruct doc, default; simpl;
        (destruct (String.eqb_spec k "default"); [subst; simpl in *; try discriminate; reflexivity|]);
        destruct (String.eqb k "symbols"), (String.eqb k "doc"),
          (String.eqb k "namespace"), (String.eqb k "name"), (String.eqb k "type"); try discriminate;
          reflexivity.
  Qed.

  Lemma fixed_obj_reads size :
    free_of ["type"; "name"; "namespace"; "doc"; "size"; "aliases"] ps = true ->
    exists o, fixed_obj (preamble_obj "fixed" name ns doc enc) size ps aliases ns = JObj o
    /\ sget "type" o = Some "fixed"
    /\ def_name o (nsof enc) = Some (fullname name ns, nsof ns)
    /\ assoc "size" o = Some (JNum (NPos size))
    /\ def_aliases o (nsof ns) = Some (map (resolve_name (nsof ns)) aliases)
    /\ attrs_except fixed_structure o = canon (opt_attr "doc" (option_map JStr doc) ++ ps).
  Proof.
    intros Hf. apply free_of_spec in Hf. destruct Hf as [Hn Hr].
    unfold fixed_obj. eexists. split; [reflexivity|].
    set (base := bt_insert "size" (JNum (NPos size)) (preamble_obj "fixed" name ns doc enc)).
    set (o := finish_named_type base ps aliases ns).
    assert (Hb : sorted base) by (apply bt_insert_sorted, preamble_sorted).
    assert (Hg : forall k, In k ["type"; "name"; "namespace"; "doc"; "size"] ->
                           assoc k o = assoc k base).
    { intros k Hk. apply finish_get; [exact Hn| |apply Hr; simpl in *; tauto].
      simpl in Hk. intuition (subst; discriminate). }
    assert (Hbg : forall k, assoc k base = if String.eqb k "size" then Some (JNum (NPos size))
        else assoc k (preamble_obj "fixed" name ns doc enc)).
    { intro k. unfold base. apply assoc_bt_insert. }
    repeat split.
    - unfold sget. rewrite Hg, Hbg, preamble_get by (simpl; tauto). reflexivity.
    - apply def_name_reads; [exact Hdot| | |exact Henc].
      + unfold sget. rewrite Hg, Hbg, preamble_get by (simpl; tauto). reflexivity.
      + rewrite Hg, Hbg, preamble_get by (simpl; tauto). reflexivity.
    - rewrite Hg, Hbg by (simpl; tauto). reflexivity.
    - apply finish_aliases; [exact Hn|apply Hr; simpl; tauto| |exact Hal].
      rewrite Hbg, preamble_get. reflexivity.
    - unfold o. rewrite finish_attrs by (try exact Hb; reflexivity).
      apply attrs_canon; [exact Hb|exact Hn| | | |].
      + destruct doc; simpl; repeat constructor; simpl; tauto.
      + intros k [Hk|Hk]; apply Hr; [simpl in *; tauto|]. destruct doc; simpl in *; tauto.
      + intros k Hk. apply str_mem_In in Hk. simpl in Hk. destruct doc; [|reflexivity].
        simpl. destruct (String.eqb_spec k "doc"); [|reflexivity]. subst. intuition discriminate.
      + intros k Hk. rewrite Hbg, preamble_get. unfold fixed_structure, str_mem in Hk. simpl in Hk.
        destruct doc; simpl; destruct (String.eqb k "size"), (String.eqb k "doc"),
          (String.eqb k "namespace"), (String.eqb k "name"), (String.eqb k "type"); try discriminate;
          reflexivity.
  Qed.
End DefObjects.

(** ** The simulation *)

Section Sim.
  Variable lk : lookup_table.

  Definition good (fd : string * adef) : Prop :=
    exists t, assoc (fst fd) lk = Some t /\ def_meaning t = Some (snd fd).

  (** What one step of reading adds: new definitions [new], whose names are
      exactly the new known names. *)
  Definition step (known : list string) (ds : list (string * adef))
                  (known' : list string) (ds' : list (string * adef)) : Prop :=
    exists new, ds' = ds ++ new /\ Permutation known' (keys new ++ known) /\ Forall good new
                /\ (NoDup known -> NoDup known').

  Lemma step_refl known ds : step known ds known ds.
  Proof. exists []. rewrite app_nil_r. repeat split; auto. Qed.

  Lemma step_trans k1 d1 k2 d2 k3 d3 :
    step k1 d1 k2 d2 -> step k2 d2 k3 d3 -> step k1 d1 k3 d3.
  Proof.
    intros (n1 & -> & P1 & G1 & N1) (n2 & -> & P2 & G2 & N2). exists (n1 ++ n2).
    rewrite app_assoc. repeat split; [| |auto].
    - rewrite P2, P1. unfold keys. rewrite map_app, !app_assoc.
      apply Permutation_app_tail, Permutation_app_comm.
    - apply Forall_app. auto.
  Qed.

  Lemma step_incl k1 d1 k2 d2 : step k1 d1 k2 d2 -> incl k1 k2.
  Proof.
    intros (n1 & _ & P1 & _) x Hx. eapply Permutation_in; [symmetry; exact P1|].
    apply in_or_app. right. exact Hx.
  Qed.

  Lemma map_st_sim {A B} (f : A -> list string -> option (json * list string))
      (g : json -> rstate -> option (B * rstate)) (m : A -> B) (ok : json -> Prop) l :
    (forall x known j known', In x l -> f x known = Some (j, known') -> ok j ->
       forall ds, exists ds', g j (known, ds) = Some (m x, (known', ds')) /\ step known ds known' ds') ->
    forall known js known',
      map_st f l known = Some (js, known') -> (forall j, In j js -> ok j) ->
      forall ds, exists ds', map_st g js (known, ds) = Some (map m l, (known', ds'))
                             /\ step known ds known' ds'.
  Proof.
    induction l as [|x l IH]; intros Hf known js known' E Hok ds.
    - rewrite map_st_nil in E. injection E as <- <-. exists ds. rewrite map_st_nil. split;
        [reflexivity|apply step_refl].
    - rewrite map_st_cons in E. destruct (f x known) as [[j k1]|] eqn:E1; [|discriminate].
      destruct (map_st f l k1) as [[js' k2]|] eqn:E2; [|discriminate]. injection E as <- <-.
      destruct (Hf x known j k1 (or_introl eq_refl) E1 (Hok j (or_introl eq_refl)) ds) as (d1 & R1 & S1).
      destruct (IH (fun x' k' j' k'' Hin => Hf x' k' j' k'' (or_intror Hin)) k1 js' k2 E2
                  (fun j' Hin => Hok j' (or_intror Hin)) d1) as (d2 & R2 & S2).
      exists d2. rewrite map_st_cons, R1, R2. split; [reflexivity|]. eapply step_trans; eassumption.
  Qed.

  Hypothesis Hlk : forall k t, assoc k lk = Some t ->
    def_ok t = true /\ type_name t = k /\ incl (refs_of t) (keys lk).

  Definition reads_type (n : nat) (s : schema) : Prop :=
    forall enc known j known',
      ty_ok (ns_empty enc) s = true -> incl (refs_of s) (keys lk) ->
      ser lk n s enc known = Some (j, known') ->
      forall fuel, jdepth j <= fuel -> forall ds,
      exists ds', read fuel j (nsof enc) (known, ds) = Some (meaning s, (known', ds'))
                  /\ step known ds known' ds'.

  Lemma reads_field n f enc known j known' :
    reads_type n (f_schema f) ->
    field_ok (ns_empty enc) f = true -> incl (refs_of (f_schema f)) (keys lk) ->
    ser_field lk n f enc known = Some (j, known') ->
    forall fuel, jdepth j <= S fuel -> forall ds,
    exists ds', read_field fuel j (nsof enc) (known, ds) = Some (field_meaning f, (known', ds'))
                /\ step known ds known' ds'.
  Proof.
    intros Ht Hok Hi E fuel Hd ds. unfold field_ok in Hok. apply andb_true_iff in Hok.
    destruct Hok as [Hfree Hty]. unfold ser_field in E.
    destruct (ser lk n (f_schema f) enc known) as [[tj k1]|] eqn:Es; [|discriminate].
    injection E as <- <-. destruct (field_obj_reads f tj Hfree) as (o & Eo & Hname & Htype & Hattrs).
    rewrite Eo in *. pose proof (depth_assoc _ _ _ Htype) as Hdt.
    destruct (Ht enc known tj k1 Hty Hi Es fuel ltac:(lia) ds) as (d' & R & S1).
    exists d'. split; [|exact S1]. cbn [read_field]. rewrite Hname, Htype, R, Hattrs. reflexivity.
  Qed.

  Lemma step_def known ds full d known' ds' :
    ~ In full known -> good (full, d) ->
    step (full :: known) ds known' ds' -> step known ds known' (ds' ++ [(full, d)]).
  Proof.
    intros Hn Hg (new & -> & P & G & N). exists (new ++ [(full, d)]).
    rewrite app_assoc. repeat split.
    - rewrite P. unfold keys. rewrite map_app, <- app_assoc. reflexivity.
    - apply Forall_app. auto.
    - intro H. apply N. constructor; assumption.
  Qed.

  (** Emission of a definition. *)
  Lemma reads_def n t enc known j known' :
    (forall s, reads_type n s) ->
    def_ok t = true -> assoc (type_name t) lk = Some t -> ~ In (type_name t) known ->
    (ns_field t = None -> ns_empty enc = true) -> incl (refs_of t) (keys lk) ->
    ser lk n t enc known = Some (j, known') ->
    forall fuel, jdepth j <= fuel -> forall ds,
    exists ds', read fuel j (nsof enc) (known, ds) = Some (TNamed (type_name t), (known', ds'))
                /\ step known ds known' ds' /\ In (type_name t) known' /\ is_string j = false.
  Proof.
    intros HT Hok Hlkt Hnew Hns Hrefs E fuel Hd ds.
    destruct t as [ | nm ns d fs e al ps | nm ns d sy df al ps | nm ns d sz al ps | | | | | | ];
      try discriminate; cbn [type_name ns_field] in *; rewrite fullname_make in Hnew;
      cbn [def_ok] in Hok; rewrite ?andb_true_iff in Hok.
    - destruct Hok as [[[Hname Hal] Hfree] Hfs].
      rewrite ser_record, preamble_new in E by exact Hnew.
      unfold name_ok in Hname. apply andb_true_iff in Hname. destruct Hname as [Hdot _].
      apply negb_true_iff in Hdot.
      destruct (map_st _ fs _) as [[js k2]|] eqn:Em in E; [|discriminate].
      injection E as <- <-.
      destruct (fields_obj_reads nm ns d enc ps al Hdot Hns Hal e js Hfree)
        as (Hty & Hdn & Hfl & Hda & Hat).
      cbv zeta in *.
      set (o := finish_named_type _ ps al ns) in *.
      assert (Henc : nsof (opt_or ns enc) = nsof ns).
      { destruct ns as [x|]; [reflexivity|]. simpl. apply nsof_empty. apply Hns. reflexivity. }
      assert (Henc' : ns_empty (opt_or ns enc) = ns_empty ns) by (unfold ns_empty; rewrite Henc; reflexivity).
      pose proof (depth_assoc _ _ _ Hfl) as Hdf.
      destruct fuel as [|fuel]; [simpl in Hd; lia|].
      rewrite <- fullname_make in *.
      destruct (map_st_sim (fun f k => ser_field lk n f (opt_or ns enc) k)
                  (fun fj st => read_field fuel fj (nsof ns) st) field_meaning
                  (fun x => jdepth x <= S fuel) fs) with (known := fullname nm ns :: known)
                  (js := js) (known' := k2) (ds := ds) as (d' & R & St).
      + intros f kn fj kn' Hin Ef Hfd ds0. rewrite <- Henc.
        apply (reads_field n f (opt_or ns enc) kn fj kn' (HT _)); [| |exact Ef|exact Hfd].
        * rewrite forallb_forall in Hfs. rewrite Henc'. apply Hfs. exact Hin.
        * intros r Hr. apply Hrefs. cbn [refs_of]. apply in_flat_map. exists f. split; assumption.
      + exact Em.
      + intros x Hx. apply depth_In in Hx. lia.
      + eexists. split; [|split; [|split]].
        * erewrite read_record by eassumption. cbn [fst snd]. reflexivity.
        * eapply step_def; [exact Hnew| |exact St].
          exists (SRecord nm ns d fs e al ps). split; [exact Hlkt|]. cbn [def_meaning snd].
          rewrite Hat. reflexivity.
        * apply (step_incl _ _ _ _ St). left. reflexivity.
        * reflexivity.
    - destruct Hok as [[Hname Hal] Hfree].
      rewrite ser_enum, preamble_new in E by exact Hnew. injection E as <- <-.
      unfold name_ok in Hname. apply andb_true_iff in Hname. destruct Hname as [Hdot _].
      apply negb_true_iff in Hdot.
      destruct (enum_obj_reads nm ns d enc ps al Hdot Hns Hal sy df Hfree)
        as (o & Eo & Hty & Hdn & Hfl & Hda & Hat).
      rewrite Eo in *. destruct fuel as [|fuel]; [simpl in Hd; lia|].
      rewrite <- fullname_make in *.
      eexists. split; [|split; [|split]].
      + eapply read_enum; eassumption.
      + eapply step_def; [exact Hnew| |apply step_refl].
        exists (SEnum nm ns d sy df al ps). split; [exact Hlkt|]. cbn [def_meaning snd].
        rewrite Hat. reflexivity.
      + left. reflexivity.
      + reflexivity.
    - destruct Hok as [[Hname Hal] Hfree].
      rewrite ser_fixed, preamble_new in E by exact Hnew. injection E as <- <-.
      unfold name_ok in Hname. apply andb_true_iff in Hname. destruct Hname as [Hdot _].
      apply negb_true_iff in Hdot.
      destruct (fixed_obj_reads nm ns d enc ps al Hdot Hns Hal sz Hfree)
        as (o & Eo & Hty & Hdn & Hfl & Hda & Hat).
      rewrite Eo in *. destruct fuel as [|fuel]; [simpl in Hd; lia|].
      rewrite <- fullname_make in *.
      eexists. split; [|split; [|split]].
      + eapply read_fixed; eassumption.
      + eapply step_def; [exact Hnew| |apply step_refl].
        exists (SFixed nm ns d sz al ps). split; [exact Hlkt|]. cbn [def_meaning snd].
        rewrite Hat. reflexivity.
      + left. reflexivity.
      + reflexivity.
  Qed.

  Lemma def_ok_name t : def_ok t = true -> exists nm,
      type_name t = fullname nm (ns_field t) /\ contains_dot nm = false.
  Proof.
    intro H. destruct t; try discriminate; cbn [def_ok] in H; rewrite ?andb_true_iff in H;
      unfold name_ok in H; rewrite ?andb_true_iff, ?negb_true_iff in H;
      eexists; (split; [reflexivity|tauto]).
  Qed.

  (** Type expressions. *)
  Lemma reads_types n : forall s, reads_type n s.
  Proof.
    induction n as [n IHn] using lt_wf_ind. intro s.
    induction s as [p|nm ns d fs e al ps IH|nm ns d sy df al ps|nm ns d sz al ps|i ps IH|i ps IH
                   |ts b IH|k ps|l ps|nm ns ps sp] using schema_ind';
      intros enc known j known' Hok Hrefs E fuel Hd ds; try discriminate.
    - rewrite ser_prim in E. apply some_pair_inj in E; destruct E as [<- <-].
      destruct fuel as [|fuel]; [simpl in Hd; lia|]. exists ds. split; [apply read_prim|apply step_refl].
    - (* array *)
      cbn [ty_ok] in Hok. apply andb_true_iff in Hok. destruct Hok as [Hfree Hi].
      apply free_of_spec in Hfree. destruct Hfree as [Hn Hr].
      rewrite ser_array in E. destruct (ser lk n i enc known) as [[ij k1]|] eqn:Ei; [|discriminate].
      apply some_pair_inj in E; destruct E as [<- <-].
      set (base := bt_insert "items" ij (bt_insert "type" (JStr "array") [])) in *.
      assert (Hb : sorted base) by (repeat apply bt_insert_sorted; apply sorted_nil).
      assert (Hbg : forall k, assoc k base = if String.eqb k "items" then Some ij else
                 if String.eqb k "type" then Some (JStr "array") else None).
      { intro k. unfold base. rewrite !assoc_bt_insert. reflexivity. }
      assert (Hit : assoc "items" (bt_extend base ps) = Some ij).
      { rewrite assoc_bt_extend_NoDup, Hr, Hbg by (exact Hn || (simpl; tauto)). reflexivity. }
      pose proof (depth_assoc _ _ _ Hit) as Hdi.
      destruct fuel as [|fuel]; [simpl in Hd; lia|].
      destruct (IH enc known ij k1 Hi Hrefs Ei fuel ltac:(lia) ds) as (d' & R & St).
      exists d'. split; [|exact St]. erewrite read_array; [|  |exact Hit|exact R].
      + cbn [meaning]. do 3 f_equal. apply (attrs_canon ["type"; "items"] base [] ps).
        * exact Hb.
        * exact Hn.
        * constructor.
        * intros k [Hk|[]]. apply Hr. exact Hk.
        * reflexivity.
        * intros k Hk. rewrite Hbg. unfold str_mem in Hk. simpl in Hk.
          destruct (String.eqb k "items"), (String.eqb k "type"); try discriminate; reflexivity.
      + unfold sget. rewrite assoc_bt_extend_NoDup, Hr, Hbg by (exact Hn || (simpl; tauto)). reflexivity.
    - (* map *)
      cbn [ty_ok] in Hok. apply andb_true_iff in Hok. destruct Hok as [Hfree Hi].
      apply free_of_spec in Hfree. destruct Hfree as [Hn Hr].
      rewrite ser_map in E. destruct (ser lk n i enc known) as [[ij k1]|] eqn:Ei; [|discriminate].
      apply some_pair_inj in E; destruct E as [<- <-].
      set (base := bt_insert "values" ij (bt_insert "type" (JStr "map") [])) in *.
      assert (Hb : sorted base) by (repeat apply bt_insert_sorted; apply sorted_nil).
      assert (Hbg : forall k, assoc k base = if String.eqb k "values" then Some ij else
                 if String.eqb k "type" then Some (JStr "map") else None).
      { intro k. unfold base. rewrite !assoc_bt_insert. reflexivity. }
      assert (Hit : assoc "values" (bt_extend base ps) = Some ij).
      { rewrite assoc_bt_extend_NoDup, Hr, Hbg by (exact Hn || (simpl; tauto)). reflexivity. }
      pose proof (depth_assoc _ _ _ Hit) as Hdi.
      destruct fuel as [|fuel]; [simpl in Hd; lia|].
      destruct (IH enc known ij k1 Hi Hrefs Ei fuel ltac:(lia) ds) as (d' & R & St).
      exists d'. split; [|exact St]. erewrite read_map; [|  |exact Hit|exact R].
      + cbn [meaning]. do 3 f_equal. apply (attrs_canon ["type"; "values"] base [] ps).
        * exact Hb.
        * exact Hn.
        * constructor.
        * intros k [Hk|[]]. apply Hr. exact Hk.
        * reflexivity.
        * intros k Hk. rewrite Hbg. unfold str_mem in Hk. simpl in Hk.
          destruct (String.eqb k "values"), (String.eqb k "type"); try discriminate; reflexivity.
      + unfold sget. rewrite assoc_bt_extend_NoDup, Hr, Hbg by (exact Hn || (simpl; tauto)). reflexivity.
    - (* union *)
      cbn [ty_ok] in Hok. rewrite ser_union in E.
      destruct (map_st _ ts known) as [[js k1]|] eqn:Em in E; [|discriminate]. apply some_pair_inj in E; destruct E as [<- <-].
      destruct fuel as [|fuel]; [simpl in Hd; lia|].
      destruct (map_st_sim (fun t k => ser lk n t enc k) (fun x st => read fuel x (nsof enc) st)
                  meaning (fun x => jdepth x <= fuel) ts) with (known := known) (js := js)
                  (known' := k1) (ds := ds) as (d' & R & St).
      + intros t kn tj kn' Hin Et Htd ds0. rewrite Forall_forall in IH.
        apply (IH t Hin enc kn tj kn'); [| |exact Et|exact Htd].
        * rewrite forallb_forall in Hok. apply Hok. exact Hin.
        * intros r Hrr. apply Hrefs. cbn [refs_of]. apply in_flat_map. exists t. split; assumption.
      + exact Em.
      + intros x Hx. apply depth_In in Hx. lia.
      + exists d'. split; [|exact St]. apply read_union. exact R.
    - (* annotated primitive *)
      cbn [ty_ok] in Hok. apply free_of_spec in Hok. destruct Hok as [Hn Hr].
      rewrite ser_annot in E. apply some_pair_inj in E; destruct E as [<- <-].
      destruct fuel as [|fuel]; [simpl in Hd; lia|].
      exists ds. split; [|apply step_refl].
      rewrite read_prim_obj with (p := k).
      + cbn [meaning]. do 3 f_equal. apply (attrs_canon ["type"] _ [] ps).
        * apply bt_insert_sorted, sorted_nil.
        * exact Hn.
        * constructor.
        * intros k' [Hk|[]]. apply Hr. exact Hk.
        * reflexivity.
        * intros k' Hk. rewrite assoc_bt_insert. unfold str_mem in Hk. simpl in Hk.
          destruct (String.eqb k' "type"); [discriminate|]; reflexivity.
      + unfold sget. rewrite assoc_bt_extend_NoDup, Hr by (exact Hn || (simpl; tauto)).
        rewrite assoc_bt_insert. reflexivity.
    - (* logical type *)
      cbn [ty_ok] in Hok. apply free_of_spec in Hok. destruct Hok as [Hn Hr].
      rewrite ser_logical in E. apply some_pair_inj in E; destruct E as [<- <-]. unfold logical_obj in *.
      destruct fuel as [|fuel]; [simpl in Hd; lia|].
      set (base := match l with
                   | LDecimal p s => _
                   | _ => _
                   end) in *.
      assert (Hbg : forall k, assoc k base =
         if String.eqb k "type" then Some (JStr (prim_str (expected_base_type l)))
         else assoc k (logical_attrs l)).
      { intro k. unfold base, logical_attrs. destruct l; rewrite !assoc_bt_insert; cbn [assoc];
          eqb_cases; reflexivity. }
      assert (Hb : sorted base).
      { unfold base. destruct l; repeat apply bt_insert_sorted; apply sorted_nil. }
      exists ds. split; [|apply step_refl].
      rewrite read_prim_obj with (p := expected_base_type l).
      + cbn [meaning]. do 3 f_equal; [destruct l; reflexivity|]. apply (attrs_override ["type"] base (logical_attrs l) ps).
        * exact Hb.
        * exact Hn.
        * destruct l; simpl; repeat constructor; simpl; intuition discriminate.
        * exact Hr.
        * intros k' Hk. apply str_mem_In in Hk. destruct Hk as [<-|[]]. destruct l; reflexivity.
        * intros k' Hk. rewrite Hbg. unfold str_mem in Hk. simpl in Hk.
          destruct (String.eqb k' "type"); [discriminate|]; reflexivity.
      + unfold sget. rewrite assoc_bt_extend_NoDup, Hr, Hbg by (exact Hn || (simpl; tauto)).
        reflexivity.
    - (* reference *)
      cbn [ty_ok] in Hok. apply andb_true_iff in Hok. destruct Hok as [Hname Himp].
      destruct (ref_name_reads nm ns enc Hname Himp) as [Href1 Href2].
      rewrite ser_ref in E. cbn [refs_of] in Hrefs. cbn [meaning].
      rewrite <- fullname_make in E.
      destruct (str_mem (fullname nm ns) known) eqn:Ek.
      + apply some_pair_inj in E; destruct E as [<- <-]. apply str_mem_In in Ek.
        destruct fuel as [|fuel]; [simpl in Hd; lia|]. exists ds. split; [|apply step_refl].
        apply read_known; assumption.
      + apply str_mem_not_In in Ek.
        assert (Hin : In (fullname nm ns) (keys lk)) by (apply Hrefs; left; reflexivity).
        apply In_keys_assoc in Hin. destruct Hin as [t Ht]. rewrite Ht in E.
        destruct n as [|n']; [discriminate|].
        destruct (Hlk _ _ Ht) as (Hdok & Htn & Htr).
        destruct (reads_def n' t enc known j known' (IHn n' ltac:(lia)) Hdok) with (fuel := fuel) (ds := ds)
          as (d' & R & St & _ & _); try assumption.
        * rewrite Htn. exact Ht.
        * rewrite Htn. exact Ek.
        * intro Hnone. destruct (def_ok_name t Hdok) as (nm' & En & Hdot').
          rewrite Hnone in En. rewrite Htn in En. unfold fullname in En.
          unfold name_ok in Hname. rewrite andb_true_iff, negb_true_iff in Hname.
          apply qualify_inj in En; [|tauto|exact Hdot']. destruct En as [En _].
          unfold ns_empty in Himp at 1. rewrite En in Himp. exact Himp.
        * exists d'. rewrite <- Htn. split; assumption.
  Qed.
End Sim.
