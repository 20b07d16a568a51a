(** C08-C11, C40, C41: the registry, the reference check and names. *)
From Verif Require Import BaseProofs RegistryProofs RefsProofs NameProofs MeaningProofs Samples SpecRefs.
From Coq Require Import Permutation.

(** Unicode tables for the examples: no letters or digits beyond ASCII. *)
Definition ascii_only : Unicode := {| uni_alphabetic := fun _ => false; uni_numeric := fun _ => false |}.

(** ** C08: the registry keeps the first definition, in order *)

(** What is registered under a name is the first valid definition of it. *)
Theorem C08_first_definition_wins :
  forall (U : Unicode) l full s,
  assoc full (registry_after [] l) = Some s <-> first_registrable l full s.
Proof.
  intros U l full s. rewrite registry_after_assoc. cbn. split; [|auto].
  intros [E|[_ E]]; [discriminate|exact E].
Qed.
Print Assumptions C08_first_definition_wins.

(** No name twice, every entry under its own full name, in the order of the
    calls. *)
Theorem C08_no_duplicates_in_order :
  forall (U : Unicode) l,
  NoDup (reg_names (registry_after [] l))
  /\ Forall (fun kv => registrable (snd kv) (fst kv)) (registry_after [] l)
  /\ sublist (reg_schemas (registry_after [] l)) l.
Proof.
  intros U l. split; [apply registry_after_NoDup; constructor|].
  destruct (registry_after_shape [] l) as (new & E & A & B). cbn in E. rewrite E. auto.
Qed.
Print Assumptions C08_no_duplicates_in_order.

(** Later calls only append. *)
Theorem C08_only_appends :
  forall (U : Unicode) l1 l2,
  exists new, registry_after [] (l1 ++ l2) = registry_after [] l1 ++ new /\ sublist (map snd new) l2.
Proof.
  intros U l1 l2. rewrite registry_after_split.
  destruct (registry_after_shape (registry_after [] l1) l2) as (new & E & A & _). exists new. auto.
Qed.
Print Assumptions C08_only_appends.

(** A single call succeeds exactly on a fresh registrable type; a call that
    fails leaves the registry alone and fails again at any later time. *)
Theorem C08_register_succeeds_iff :
  forall (U : Unicode) r s r',
  register r s = Ok r' <->
  exists full, registrable s full /\ ~ In full (reg_names r) /\ r' = r ++ [(full, s)].
Proof.
  intros U r s r'. pose proof (register_cases r s) as Hc. split.
  - intro E. rewrite E in Hc. exact Hc.
  - intros (full & Hr & Hn & ->). destruct (register_ignoring_cases r s) as [(f & Hf & _ & E & _)|(Hx & _ & _)].
    + rewrite (registrable_fun _ _ _ Hr Hf). exact E.
    + exfalso. exact (Hn (Hx _ Hr)).
Qed.
Print Assumptions C08_register_succeeds_iff.

Theorem C08_failure_changes_nothing :
  forall (U : Unicode) r s e,
  register r s = Err e ->
  register_ignoring r s = r /\ forall l, exists e', register (registry_after r l) s = Err e'.
Proof.
  intros U r s e E. split; [unfold register_ignoring; rewrite E; reflexivity|].
  intro l. exact (register_fail_stable r s e l E).
Qed.
Print Assumptions C08_failure_changes_nothing.

Example C08_sample :
  let U := ascii_only in
  let again := SFixed "Color" (Some "other") None 1 [] [] in
  let bad := SFixed "my-fixed" None None 1 [] [] in
  let r := registry_after [] [sample_color; again; bad; sample_node; SPrim PInt] in
  r = [("other.Color", sample_color); ("org.acme.Node", sample_node)]
  /\ register r again = Err (DuplicateName "other.Color")
  /\ register r bad = Err InvalidName.
Proof. vm_compute. auto. Qed.

(** ** C09: only valid names are registered *)

Theorem C09_registered_names_valid :
  forall (U : Unicode) l full s,
  In (full, s) (registry_after [] l) ->
  exists n ns, defines s n ns /\ full = fullname n ns
    /\ valid_name n /\ contains_dot n = false /\ n <> ""
    /\ (nsof ns = "" \/ exists segs, segs <> [] /\ nsof ns = join_dot segs
                        /\ Forall (fun g => valid_name g /\ contains_dot g = false /\ g <> "") segs).
Proof.
  intros U l full s Hin. destruct (registry_after_shape [] l) as (new & E & _ & Hf). cbn in E. rewrite E in Hin.
  rewrite Forall_forall in Hf. destruct (Hf _ Hin) as (n & ns & D & Ef & Hn & Hns). exists n, ns.
  split; [exact D|]. split; [exact Ef|]. split; [exact Hn|]. split; [apply valid_name_no_dot, Hn|].
  split; [apply valid_name_nonempty, Hn|]. destruct Hns as [Hns|(segs & A & B & C)]; [left; exact Hns|right].
  exists segs. split; [exact A|]. split; [exact B|]. eapply Forall_impl; [|exact C]. intros g Hg.
  split; [exact Hg|]. split; [apply valid_name_no_dot, Hg|apply valid_name_nonempty, Hg].
Qed.
Print Assumptions C09_registered_names_valid.

(** The check accepts exactly the valid names. *)
Theorem C09_check_is_exact :
  forall (U : Unicode) n ns,
  validate_schema_name n ns = true <-> valid_name n /\ valid_namespace (nsof ns).
Proof. exact @validate_schema_name_iff. Qed.
Print Assumptions C09_check_is_exact.

Example C09_sample :
  let U := ascii_only in
  validate_schema_name "_Ab9" (Some "org.x_1") = true
  /\ validate_schema_name "9a" None = false /\ validate_schema_name "" None = false
  /\ validate_schema_name "a" (Some "org..x") = false /\ validate_schema_name "a-b" None = false
  /\ validate_schema_name "a.b" None = false /\ validate_schema_name "a" (Some "x.") = false.
Proof. vm_compute. repeat split. Qed.

(** ** C10: the reference check *)

Theorem C10_undefined_rejected_defined_accepted :
  forall f r source_name imports,
  validate_all_references f r source_name imports = None <->
  forall full, mentioned r f full -> In full (reg_names r).
Proof. exact check_passes. Qed.
Print Assumptions C10_undefined_rejected_defined_accepted.

Definition sample_registry : registry :=
  [("org.acme.Node", sample_node); ("other.Color", sample_color); ("org.acme.MD5", sample_md5);
   ("org.acme.string", sample_oops)].

Example C10_sample :
  validate_all_references (IdlProtocol sample_protocol) sample_registry "a.avdl" [] = None
  /\ validate_all_references (IdlProtocol sample_protocol) (tl sample_registry) "a.avdl" []
     = Some (Plain "Undefined name: org.acme.Node").
Proof. vm_compute. auto. Qed.

(** ** C11: each undefined name is reported once *)

Theorem C11_reported_once :
  forall f r source_name imports d,
  validate_all_references f r source_name imports = Some d ->
  exists names, NoDup names /\ (forall n, In n names <-> undefined_in f r n) /\ reports d names.
Proof.
  intros f r src imps d E. pose proof (check_report f r src imps) as Hc. rewrite E in Hc.
  destruct Hc as (names & A & B & _ & C). exists names. auto.
Qed.
Print Assumptions C11_reported_once.

(** The set of names does not depend on the order in which the message table is
    walked. *)
Theorem C11_names_independent_of_order :
  forall p q r source_name imports d,
  Permutation (p_messages p) (p_messages q) ->
  validate_all_references (IdlProtocol p) r source_name imports = Some d ->
  exists d' names names',
    validate_all_references (IdlProtocol q) r source_name imports = Some d'
    /\ reports d names /\ reports d' names' /\ Permutation names names' /\ NoDup names.
Proof.
  intros p q r src imps d P E.
  pose proof (check_report (IdlProtocol p) r src imps) as Hp. rewrite E in Hp.
  destruct Hp as (names & A & B & Ne & C).
  pose proof (check_report (IdlProtocol q) r src imps) as Hq.
  destruct (validate_all_references (IdlProtocol q) r src imps) as [d'|].
  - destruct Hq as (names' & A' & B' & _ & C'). exists d', names, names'. repeat split; auto.
    apply NoDup_Permutation; auto. intro n. rewrite B, B'. apply undefined_order, P.
  - exfalso. destruct names as [|n names]; [contradiction|]. apply (Hq n), (undefined_order p q); [exact P|].
    apply B. left. reflexivity.
Qed.
Print Assumptions C11_names_independent_of_order.

(** The report points at references to the undefined names: first those with a
    place, in the order of the files and of the positions in them, then those
    that come from imports and have none. *)
Theorem C11_in_source_order :
  forall f r source_name imports d,
  validate_all_references f r source_name imports = Some d ->
  exists located bare,
    StronglySorted (fun a b => not_after (snd a) (snd b)) located
    /\ Forall (fun x => mentioned_at r f (fst x) (Some (snd x)) /\ undefined_in f r (fst x)) located
    /\ Forall (fun n => mentioned_at r f n None /\ undefined_in f r n) bare
    /\ NoDup (map fst located ++ bare)
    /\ (forall n, undefined_in f r n <-> In n (map fst located ++ bare))
    /\ (located <> [] -> exists elsewhere,
          pointed d = map (fun x => (snd x, "Undefined name: " ++ fst x)%string) located
                      ++ map (fun n => (elsewhere, "Undefined name: " ++ n)%string) bare)
    /\ (located = [] -> reports d bare).
Proof. exact report_places. Qed.
Print Assumptions C11_in_source_order.

Definition scattered : protocol :=
  mkProtocol "P" None None [] []
    [("a", mkMessage None [] [] (SRef "X" None [] (Some (mkSpan "a.avdl" 20))) None false);
     ("b", mkMessage None [] [] (SArray (SRef "Y" None [] (Some (mkSpan "a.avdl" 3))) []) None false);
     ("c", mkMessage None [] [] (SRef "Z" None [] None) None false)].
Example C11_in_source_order_example :
  option_map pointed (validate_all_references (IdlProtocol scattered) [] "a.avdl" [])
  = Some [(mkSpan "a.avdl" 3, "Undefined name: Y"); (mkSpan "a.avdl" 20, "Undefined name: X");
          (mkSpan "a.avdl" 0, "Undefined name: Z")].
Proof. vm_compute. reflexivity. Qed.

(** Two messages that use the same undefined type. *)
Definition undef_msg (off : N) : message :=
  mkMessage None [] [] (SRef "X" None [] (Some (mkSpan "a.avdl" off))) None false.
Definition undef_p : protocol := mkProtocol "P" None None [] [] [("a", undef_msg 10); ("b", undef_msg 20)].
Definition undef_q : protocol := mkProtocol "P" None None [] [] [("b", undef_msg 20); ("a", undef_msg 10)].

(** The position shown for a name is not determined: it is the one met first
    while walking the hash map. *)
Theorem C11_position_independent_of_order_refuted :
  exists p q r, Permutation (p_messages p) (p_messages q)
    /\ validate_all_references (IdlProtocol p) r "a.avdl" [] <> None
    /\ validate_all_references (IdlProtocol p) r "a.avdl" [] <> validate_all_references (IdlProtocol q) r "a.avdl" [].
Proof.
  exists undef_p, undef_q, []. split; [apply perm_swap|]. split; vm_compute; discriminate.
Qed.
Print Assumptions C11_position_independent_of_order_refuted.

(** ** C40: full names *)

Theorem C40_join_then_split :
  forall n ns, contains_dot n = false -> ns <> "" ->
  split_full_name (make_full_name n (Some ns)) = (n, Some ns).
Proof.
  intros n ns Hn Hne. apply split_make; [exact Hn|]. destruct ns; [contradiction|reflexivity].
Qed.
Print Assumptions C40_join_then_split.

(** Without a namespace the name is its own full name. *)
Theorem C40_join_then_split_no_namespace :
  forall n ns, contains_dot n = false -> ns = None \/ ns = Some "" ->
  make_full_name n ns = n /\ split_full_name n = (n, None).
Proof.
  intros n ns Hn Hns. assert (ns_empty ns = true) by (destruct Hns; subst; reflexivity).
  pose proof (split_make_none n ns Hn H) as E.
  assert (make_full_name n ns = n) by (destruct Hns; subst; reflexivity).
  split; [exact H0|]. rewrite H0 in E. exact E.
Qed.
Print Assumptions C40_join_then_split_no_namespace.

(** Splitting and joining is the identity, except on a dot followed by a
    simple name. *)
Theorem C40_split_then_join :
  forall s, (forall n, s = ("." ++ n)%string -> contains_dot n = true) ->
  contains_dot (fst (split_full_name s)) = false
  /\ make_full_name (fst (split_full_name s)) (snd (split_full_name s)) = s.
Proof. intros s Hs. split; [apply split_simple|apply make_split, Hs]. Qed.
Print Assumptions C40_split_then_join.

Theorem C40_leading_dot_refuted :
  exists s, make_full_name (fst (split_full_name s)) (snd (split_full_name s)) <> s.
Proof. exists ".Foo". vm_compute. discriminate. Qed.
Print Assumptions C40_leading_dot_refuted.

(** Different types have different full names. *)
Theorem C40_full_names_injective :
  forall n ns n' ns', contains_dot n = false -> contains_dot n' = false ->
  make_full_name n ns = make_full_name n' ns' -> n = n' /\ nsof ns = nsof ns'.
Proof.
  intros n ns n' ns' Hn Hn' E. rewrite <- !fullname_make in E. unfold fullname in E.
  apply qualify_inj in E; tauto.
Qed.
Print Assumptions C40_full_names_injective.

Example C40_sample : split_full_name (make_full_name "Foo" (Some "org.x")) = ("Foo", Some "org.x").
Proof. reflexivity. Qed.

(** ** C41: aliases *)

Theorem C41_alias_denotes_what_was_written :
  forall alias ns, alias_ok alias = true ->
  resolve_name (nsof ns) (alias_ref_name alias ns) = resolve_name (nsof ns) alias.
Proof. exact alias_reads. Qed.
Print Assumptions C41_alias_denotes_what_was_written.

Theorem C41_leading_dot_refuted :
  exists alias ns, resolve_name (nsof ns) (alias_ref_name alias ns) <> resolve_name (nsof ns) alias.
Proof. exists ".Old", (Some "org"). vm_compute. discriminate. Qed.
Print Assumptions C41_leading_dot_refuted.

Example C41_sample :
  alias_ok "org.x.Old" = true /\ alias_ref_name "org.x.Old" (Some "org.x") = "Old"
  /\ resolve_name "org.x" "Old" = "org.x.Old" /\ alias_ref_name "a.Old" (Some "org.x") = "a.Old".
Proof. vm_compute. auto. Qed.
