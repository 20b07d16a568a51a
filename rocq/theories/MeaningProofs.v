(** Simulation between the serialiser and the independent Avro reader. *)
From Verif Require Export SerializeProofs SpecMeaning.
Require Import ZifyBool ZifyNat ZifyN.

(** ** Reflection of the well-formedness predicates *)

Lemma nodupb_NoDup l : nodupb l = true <-> NoDup l.
Proof.
  induction l as [|x l IH]; simpl.
  - split; [constructor|reflexivity].
  - rewrite andb_true_iff, negb_true_iff, str_mem_not_In, IH. split.
    + intros [H1 H2]. constructor; assumption.
    + intro H. inversion H; subst. split; assumption.
Qed.

Lemma free_of_spec reserved ps :
  free_of reserved ps = true ->
  NoDup (keys ps) /\ forall k, In k reserved -> assoc k ps = None.
Proof.
  unfold free_of. rewrite andb_true_iff, nodupb_NoDup. intros [H1 H2]. split; [exact H1|].
  intros k Hk. apply assoc_None. intro Hin. rewrite forallb_forall in H2. specialize (H2 k Hin).
  apply negb_true_iff, str_mem_not_In in H2. contradiction.
Qed.

Lemma subset_incl l m : subset l m = true <-> incl l m.
Proof.
  unfold subset. rewrite forallb_forall. unfold incl. split; intros H x Hx.
  - apply str_mem_In. apply H. exact Hx.
  - apply str_mem_In. apply H. exact Hx.
Qed.

Lemma fullname_make n ns : fullname n ns = make_full_name n ns.
Proof.
  unfold fullname, make_full_name, qualify, nsof. destruct ns as [x|]; [|reflexivity].
  destruct (str_is_empty x); reflexivity.
Qed.

Lemma nsof_empty ns : ns_empty ns = true -> nsof ns = "".
Proof. unfold ns_empty. apply str_is_empty_eq. Qed.

Lemma qualify_dot ns n : str_is_empty ns = false -> contains_dot (qualify ns n) = true.
Proof.
  intro H. unfold qualify. rewrite H. rewrite contains_dot_app. simpl. apply orb_true_r.
Qed.

(** Two dot-free names with the same full name are the same name. *)
Lemma qualify_inj a b n m :
  contains_dot n = false -> contains_dot m = false ->
  qualify a n = qualify b m -> a = b /\ n = m.
Proof.
  intros Hn Hm H. unfold qualify in H.
  destruct (str_is_empty a) eqn:Ea; destruct (str_is_empty b) eqn:Eb.
  - apply str_is_empty_eq in Ea, Eb. subst. auto.
  - subst n. rewrite contains_dot_app in Hn. simpl in Hn. rewrite orb_true_r in Hn. discriminate.
  - subst m. rewrite contains_dot_app in Hm. simpl in Hm. rewrite orb_true_r in Hm. discriminate.
  - assert (H1 : rsplit_once_dot (a ++ "." ++ n)%string = Some (a, n)) by (apply rsplit_Some; auto).
    assert (H2 : rsplit_once_dot (b ++ "." ++ m)%string = Some (b, m)) by (apply rsplit_Some; auto).
    simpl in H, H1, H2. rewrite H in H1. rewrite H1 in H2. inversion H2. auto.
Qed.

Lemma prim_not_dotted s : str_mem s spec_primitives = true -> contains_dot s = false.
Proof.
  intro H. apply str_mem_In in H. unfold spec_primitives in H. simpl in H.
  repeat (destruct H as [<-|H]; [reflexivity|]). destruct H.
Qed.

Lemma prim_is_schema_type_name s : str_mem s spec_primitives = true -> is_schema_type_name s = true.
Proof. intro H. unfold is_schema_type_name. apply orb_true_iff. left. exact H. Qed.

Lemma prim_str_spec p : str_mem (prim_str p) spec_primitives = true.
Proof. destruct p; reflexivity. Qed.

(** ** References are read back as what they refer to *)

Lemma ref_name_reads n ns enc :
  name_ok n ns = true -> implb (ns_empty ns) (ns_empty enc) = true ->
  str_mem (schema_ref_name n ns enc) spec_primitives = false
  /\ resolve_name (nsof enc) (schema_ref_name n ns enc) = fullname n ns.
Proof.
  intros Hn Hs. unfold name_ok in Hn. apply andb_true_iff in Hn. destruct Hn as [Hdot Hprim].
  apply negb_true_iff in Hdot.
  assert (Hfull : str_mem (fullname n ns) spec_primitives = false
                  /\ resolve_name (nsof enc) (fullname n ns) = fullname n ns).
  { unfold fullname. destruct (ns_empty ns) eqn:E.
    - simpl in Hs, Hprim. rewrite (nsof_empty _ E). apply nsof_empty in Hs. rewrite Hs.
      unfold qualify. simpl. apply negb_true_iff in Hprim. split; [exact Hprim|].
      unfold resolve_name. rewrite Hdot. reflexivity.
    - pose proof (qualify_dot (nsof ns) n E) as Hd. split.
      + destruct (str_mem (qualify (nsof ns) n) spec_primitives) eqn:Ep; [|reflexivity].
        apply prim_not_dotted in Ep. congruence.
      + unfold resolve_name. rewrite Hd. reflexivity. }
  unfold schema_ref_name. rewrite <- !fullname_make.
  destruct (ostr_eqb ns enc) eqn:E; [|exact Hfull].
  destruct (is_schema_type_name n) eqn:Et; [exact Hfull|].
  apply ostr_eqb_eq in E. subst enc. split.
  - destruct (str_mem n spec_primitives) eqn:Ep; [|reflexivity].
    apply prim_is_schema_type_name in Ep. congruence.
  - unfold resolve_name. rewrite Hdot. reflexivity.
Qed.

Lemma alias_reads a ns :
  alias_ok a = true -> resolve_name (nsof ns) (alias_ref_name a ns) = resolve_name (nsof ns) a.
Proof.
  unfold alias_ok, alias_ref_name, split_full_name.
  destruct (rsplit_once_dot a) as [[ans simple]|] eqn:E; [|reflexivity].
  intro Hne. apply negb_true_iff in Hne. apply rsplit_Some in E. destruct E as [-> Hs].
  assert (Hd : contains_dot (ans ++ "." ++ simple)%string = true)
    by (rewrite contains_dot_app; simpl; apply orb_true_r).
  assert (Hmf : make_full_name simple (Some ans) = (ans ++ "." ++ simple)%string)
    by (unfold make_full_name; rewrite Hne; reflexivity).
  unfold schema_ref_name. rewrite Hmf.
  destruct (ostr_eqb (Some ans) ns) eqn:E2; [|reflexivity].
  destruct (is_schema_type_name simple); [reflexivity|].
  apply ostr_eqb_eq in E2. subst ns. unfold resolve_name. rewrite Hd, Hs. simpl nsof.
  unfold qualify. rewrite Hne. reflexivity.
Qed.

(** ** Attributes *)

Lemma attrs_override structural base extra ps :
  sorted base -> NoDup (keys ps) -> NoDup (keys extra) ->
  (forall k, In k structural -> assoc k ps = None) ->
  (forall k, str_mem k structural = true -> assoc k extra = None) ->
  (forall k, str_mem k structural = false -> assoc k base = assoc k extra) ->
  attrs_except structural (bt_extend base ps) = canon (extra ++ ps).
Proof.
  intros Hb Hn Hne Hps Hex Hba. unfold attrs_except, canon.
  apply sorted_ext.
  - apply sorted_filter. apply bt_extend_sorted. exact Hb.
  - apply bt_extend_sorted. apply sorted_nil.
  - intro k. rewrite (assoc_filter (fun x => negb (str_mem x structural))).
    rewrite assoc_bt_extend_NoDup by exact Hn.
    rewrite assoc_bt_extend, rev_app_distr, assoc_app, !assoc_rev_NoDup by assumption. cbn [assoc].
    destruct (str_mem k structural) eqn:E; simpl.
    + rewrite (Hex k E). rewrite Hps by (apply str_mem_In; exact E). reflexivity.
    + rewrite <- (Hba k E). destruct (assoc k ps); [reflexivity|]. destruct (assoc k base); reflexivity.
Qed.
Lemma attrs_canon structural base extra ps :
  sorted base -> NoDup (keys ps) -> NoDup (keys extra) ->
  (forall k, In k structural \/ In k (keys extra) -> assoc k ps = None) ->
  (forall k, str_mem k structural = true -> assoc k extra = None) ->
  (forall k, str_mem k structural = false -> assoc k base = assoc k extra) ->
  attrs_except structural (bt_extend base ps) = canon (extra ++ ps).
Proof. intros. apply attrs_override; auto. Qed.

Lemma attrs_insert structural k v o :
  str_mem k structural = true -> sorted o ->
  attrs_except structural (bt_insert k v o) = attrs_except structural o.
Proof.
  intros Hk Ho. unfold attrs_except. apply sorted_ext.
  - apply sorted_filter. apply bt_insert_sorted. exact Ho.
  - apply sorted_filter. exact Ho.
  - intro k'. rewrite !(assoc_filter (fun x => negb (str_mem x structural))).
    rewrite assoc_bt_insert. destruct (String.eqb_spec k' k) as [->|]; [|reflexivity].
    rewrite Hk. reflexivity.
Qed.

Lemma opt_insert_sorted k v (o : obj) : sorted o -> sorted (opt_insert k v o).
Proof. intro H. unfold opt_insert. destruct v; [apply bt_insert_sorted|]; exact H. Qed.

Lemma assoc_opt_insert k k' v (o : obj) :
  assoc k (opt_insert k' v o)
  = match v with
    | Some x => if String.eqb k k' then Some x else assoc k o
    | None => assoc k o
    end.
Proof. unfold opt_insert. destruct v; [apply assoc_bt_insert|reflexivity]. Qed.

Lemma all_strings_map l : all_strings (map JStr l) = Some l.
Proof. induction l as [|x l IH]; simpl; [reflexivity|]. rewrite IH. reflexivity. Qed.

(** ** Depth *)

Lemma depth_assoc k (o : list (string * json)) v :
  assoc k o = Some v -> jdepth v < jdepth (JObj o).
Proof.
  induction o as [|[k' v'] o IH]; simpl; [discriminate|].
  destruct (String.eqb k k'); intro H.
  - inversion H; subst. lia.
  - apply IH in H. simpl in H. lia.
Qed.

Lemma depth_In x (l : list json) : In x l -> jdepth x < jdepth (JArr l).
Proof.
  induction l as [|y l IH]; simpl; [easy|]. intros [->|H]; [lia|]. apply IH in H. simpl in H. lia.
Qed.

(** ** Objects written by the serialiser, as the reader sees them *)

Ltac eqb_cases :=
  repeat match goal with
         | |- context [String.eqb ?k ?x] => destruct (String.eqb_spec k x); subst; try discriminate; try congruence
         end.

Lemma field_obj_reads (f : field) j :
  free_of ["name"; "type"; "doc"; "default"; "order"; "aliases"] (f_props f) = true ->
  exists o, field_obj f j = JObj o
            /\ sget "name" o = Some (f_name f)
            /\ assoc "type" o = Some j
            /\ attrs_except ["name"; "type"] o = af_attrs (field_meaning f).
Proof.
  intro Hf. apply free_of_spec in Hf. destruct Hf as [Hn Hr].
  unfold field_obj. eexists. split; [reflexivity|].
  set (base := match f_aliases f with
               | [] => opt_insert "order" (order_json (f_order f))
                         (opt_insert "default" (f_default f)
                            (opt_insert "doc" (option_map JStr (f_doc f))
                               (bt_insert "type" j (bt_insert "name" (JStr (f_name f)) []))))
               | _ => bt_insert "aliases" (JArr (map JStr (f_aliases f)))
                        (opt_insert "order" (order_json (f_order f))
                           (opt_insert "default" (f_default f)
                              (opt_insert "doc" (option_map JStr (f_doc f))
                                 (bt_insert "type" j (bt_insert "name" (JStr (f_name f)) [])))))
               end).
  assert (Hbase : (match f_aliases f with
           | [] => opt_insert "order" (order_json (f_order f))
                     (opt_insert "default" (f_default f)
                        (opt_insert "doc" (option_map JStr (f_doc f))
                           (bt_insert "type" j (bt_insert "name" (JStr (f_name f)) []))))
           | s :: l => bt_insert "aliases" (JArr (map JStr (s :: l)))
                    (opt_insert "order" (order_json (f_order f))
                       (opt_insert "default" (f_default f)
                          (opt_insert "doc" (option_map JStr (f_doc f))
                             (bt_insert "type" j (bt_insert "name" (JStr (f_name f)) [])))))
           end) = base) by (unfold base; destruct (f_aliases f); reflexivity).
  rewrite Hbase. clear Hbase.
  assert (Hget : forall k, assoc k base =
     if String.eqb k "name" then Some (JStr (f_name f))
     else if String.eqb k "type" then Some j
     else assoc k (opt_attr "doc" (option_map JStr (f_doc f)) ++ opt_attr "default" (f_default f)
                   ++ order_attr (f_order f) ++ list_attr "aliases" (f_aliases f))).
  { intro k. unfold base.
    destruct (f_aliases f) as [|a al]; destruct (f_order f) as [[]|];
      destruct (f_default f) as [dv|]; destruct (f_doc f) as [doc|];
      cbn [order_json option_map order_attr list_attr opt_attr app opt_insert assoc];
      rewrite ?assoc_bt_insert; cbn [assoc]; eqb_cases; reflexivity. }
  split; [|split].
  - unfold sget. rewrite assoc_bt_extend_NoDup by exact Hn. rewrite Hr by (simpl; tauto).
    rewrite Hget. reflexivity.
  - rewrite assoc_bt_extend_NoDup by exact Hn. rewrite Hr by (simpl; tauto).
    rewrite Hget. reflexivity.
  - unfold field_meaning. cbn [af_attrs].
    rewrite !app_assoc. rewrite <- !app_assoc with (n := list_attr "aliases" (f_aliases f)).
    match goal with |- _ = canon ?l => 
      replace l with ((opt_attr "doc" (option_map JStr (f_doc f)) ++ opt_attr "default" (f_default f)
                   ++ order_attr (f_order f) ++ list_attr "aliases" (f_aliases f)) ++ f_props f)
        by (rewrite <- !app_assoc; reflexivity)
    end.
    apply attrs_canon.
    + unfold base. destruct (f_aliases f); repeat first [apply bt_insert_sorted|apply opt_insert_sorted];
        apply sorted_nil.
    + exact Hn.
    + destruct (f_aliases f) as [|a al]; destruct (f_order f) as [[]|];
      destruct (f_default f) as [dv|]; destruct (f_doc f) as [doc|]; simpl;
      repeat constructor; simpl; intuition discriminate.
    + intros k [Hk|Hk]; apply Hr; [simpl in *; tauto|].
      destruct (f_aliases f) as [|a al]; destruct (f_order f) as [[]|];
      destruct (f_default f) as [dv|]; destruct (f_doc f) as [doc|]; simpl in *; tauto.
    + intros k Hk. apply str_mem_In in Hk. simpl in Hk.
      destruct Hk as [<-|[<-|[]]];
      destruct (f_aliases f) as [|a al]; destruct (f_order f) as [[]|];
      destruct (f_default f) as [dv|]; destruct (f_doc f) as [doc|]; reflexivity.
    + intros k Hk. rewrite Hget. unfold str_mem in Hk. simpl in Hk.
      destruct (String.eqb k "name"); [discriminate|]. destruct (String.eqb k "type"); [discriminate|].
      reflexivity.
Qed.

(** The object started by the preamble of a named type. *)
Definition preamble_obj (ty name : string) (ns doc enc : option string) : obj :=
  opt_insert "doc" (option_map JStr doc)
    (opt_insert "namespace" (option_map JStr (emitted_namespace ns enc))
       (bt_insert "name" (JStr name) (bt_insert "type" (JStr ty) []))).

Lemma preamble_new ty name ns doc known enc :
  ~ In (make_full_name name ns) known ->
  named_type_preamble ty name ns doc known enc
  = inr (preamble_obj ty name ns doc enc, make_full_name name ns :: known).
Proof.
  intro H. unfold named_type_preamble. apply str_mem_not_In in H. rewrite H. reflexivity.
Qed.

Lemma preamble_sorted ty name ns doc enc : sorted (preamble_obj ty name ns doc enc).
Proof.
  unfold preamble_obj. repeat first [apply opt_insert_sorted|apply bt_insert_sorted]. apply sorted_nil.
Qed.

Lemma preamble_get k ty name ns doc enc :
  assoc k (preamble_obj ty name ns doc enc)
  = if String.eqb k "doc" then option_map JStr doc
    else if String.eqb k "namespace" then option_map JStr (emitted_namespace ns enc)
    else if String.eqb k "name" then Some (JStr name)
    else if String.eqb k "type" then Some (JStr ty)
    else None.
Proof.
  unfold preamble_obj. rewrite !assoc_opt_insert, !assoc_bt_insert.
  destruct doc; destruct (emitted_namespace ns enc); cbn [option_map assoc]; eqb_cases; reflexivity.
Qed.

(** The namespace the reader computes is the type's namespace, unless the type
    has none and the context has one. *)
Lemma emitted_reads ns enc :
  (ns = None -> ns_empty enc = true) ->
  match emitted_namespace ns enc with Some s => s | None => nsof enc end = nsof ns.
Proof.
  intro H. unfold emitted_namespace. destruct (ostr_eqb ns enc) eqn:E.
  - apply ostr_eqb_eq in E. subst. reflexivity.
  - destruct ns as [n|].
    + destruct (str_is_empty n) eqn:En.
      * apply str_is_empty_eq in En. subst n. destruct enc; reflexivity.
      * destruct enc; reflexivity.
    + simpl. apply nsof_empty. apply H. reflexivity.
Qed.

Section Finish.
  Variables (base : obj) (ps : props) (aliases : list string) (ns : option string).
  Hypothesis Hbase : sorted base.
  Hypothesis Hn : NoDup (keys ps).
  Hypothesis Hps_al : assoc "aliases" ps = None.
  Hypothesis Hbase_al : assoc "aliases" base = None.

  Lemma finish_get k :
    k <> "aliases" -> assoc k ps = None ->
    assoc k (finish_named_type base ps aliases ns) = assoc k base.
  Proof.
    intros Hk Hp. unfold finish_named_type. destruct aliases as [|a al].
    - rewrite assoc_bt_extend_NoDup, Hp by exact Hn. reflexivity.
    - rewrite assoc_bt_insert. destruct (String.eqb_spec k "aliases"); [contradiction|].
      rewrite assoc_bt_extend_NoDup, Hp by exact Hn. reflexivity.
  Qed.

  Lemma finish_attrs structural :
    str_mem "aliases" structural = true ->
    attrs_except structural (finish_named_type base ps aliases ns)
    = attrs_except structural (bt_extend base ps).
  Proof.
    intro H. unfold finish_named_type. destruct aliases as [|a al]; [reflexivity|].
    apply attrs_insert; [exact H|]. apply bt_extend_sorted. exact Hbase.
  Qed.

  Lemma finish_aliases :
    forallb alias_ok aliases = true ->
    def_aliases (finish_named_type base ps aliases ns) (nsof ns)
    = Some (map (resolve_name (nsof ns)) aliases).
  Proof.
    intro H. unfold def_aliases, finish_named_type. destruct aliases as [|a al] eqn:E.
    - rewrite assoc_bt_extend_NoDup, Hps_al, Hbase_al by exact Hn. reflexivity.
    - rewrite <- E in *. clear E a al. rewrite assoc_bt_insert. simpl.
      rewrite <- map_map with (g := JStr) (f := fun a => alias_ref_name a ns), all_strings_map.
      f_equal. rewrite map_map. apply map_ext_in. intros a Ha. apply alias_reads.
      rewrite forallb_forall in H. apply H. exact Ha.
  Qed.
End Finish.

Lemma def_name_reads o name ns enc :
  contains_dot name = false ->
  sget "name" o = Some name ->
  assoc "namespace" o = option_map JStr (emitted_namespace ns enc) ->
  (ns = None -> ns_empty enc = true) ->
  def_name o (nsof enc) = Some (fullname name ns, nsof ns).
Proof.
  intros Hd Hname Hns He. unfold def_name. rewrite Hname.
  apply rsplit_None in Hd. rewrite Hd.
  assert (Hs : match sget "namespace" o with Some s => s | None => nsof enc end = nsof ns).
  { unfold sget. rewrite Hns. rewrite <- (emitted_reads ns enc He).
    destruct (emitted_namespace ns enc); reflexivity. }
  rewrite Hs. reflexivity.
Qed.
