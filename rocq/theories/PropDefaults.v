(** C19-C21, C39: default values and decimals on fixed types. *)
From Verif Require Import Defaults SpecDefaults DefaultsProofs ResolveProofs FixedProofs Samples.

(** ** C19: which defaults are accepted *)

(** For a type without references: exactly the values of the right shape. *)
Theorem C19_accepts_exactly :
  forall env s j, wf_json j -> ref_free s = true ->
  (is_valid_default j s = true <-> allows false env s j).
Proof.
  intros env s j W R. split; [apply valid_default_sound; auto|apply valid_default_complete; auto].
Qed.
Print Assumptions C19_accepts_exactly.

(** Nothing the specification allows, even read strictly, is ever rejected,
    with or without references. *)
Theorem C19_never_rejects_valid :
  forall strict env s j, wf_json j -> allows strict env s j -> is_valid_default j s = true.
Proof. exact valid_default_complete. Qed.
Print Assumptions C19_never_rejects_valid.

(** The prose of the specification is stricter: the check accepts an enum
    default that is no symbol, a fixed default of the wrong length, bytes
    outside Latin-1, and a default for a later union branch. *)
Definition no_env : string -> option schema := fun _ => None.
Definition wrong_enum := (SEnum "E" None None ["A"; "B"] None [] [], JStr "C").
Definition wrong_fixed := (SFixed "F" None None 4 [] [], JStr "abc").
Definition wrong_bytes := (SPrim PBytes, JStr (of_chars [8364%N])).
Definition wrong_union := (SUnion [SPrim PNull; SPrim PInt] false, JNum (NPos 1)).

Theorem C19_prose_refuted :
  Forall (fun sj => is_valid_default (snd sj) (fst sj) = true /\ ~ allows true no_env (fst sj) (snd sj))
    [wrong_enum; wrong_fixed; wrong_bytes; wrong_union].
Proof.
  repeat constructor; try (vm_compute; reflexivity); intro A; inversion A; subst.
  - match goal with Hs : _ -> In _ _ |- _ => destruct (Hs eq_refl) as [E|[E|[]]]; discriminate end.
  - match goal with Hs : _ -> _ /\ _ |- _ => destruct (Hs eq_refl) as [_ E]; discriminate end.
  - match goal with Hs : true = true -> _ |- _ => specialize (Hs eq_refl eq_refl _ eq_refl) end.
    unfold byte_string in *. match goal with Hf : Forall _ _ |- _ => vm_compute in Hf; inversion Hf; discriminate end.
  - match goal with Hs : _ -> head _ = _ |- _ => specialize (Hs eq_refl); injection Hs as <- end.
    match goal with Hs : allows _ _ _ _ |- _ => inversion Hs; subst end.
    match goal with Hs : prim_allows _ _ |- _ => inversion Hs; subst end.
    all: match goal with Hp : _ \/ _ |- _ => destruct Hp; discriminate | _ => idtac end.
Qed.
Print Assumptions C19_prose_refuted.

Definition point := SRecord "Point" None None
  [mkField "x" (SPrim PInt) None None None [] []; mkField "y" (SPrim PInt) None (Some (JNum (NPos 0))) None [] []] false [] [].

Example C19_sample :
  ref_free (SArray point []) = true
  /\ is_valid_default (JArr [JObj [("x", JNum (NNeg (-2147483648)))]]) (SArray point []) = true
  /\ is_valid_default (JArr [JObj [("x", JNum (NPos 2147483648))]]) (SArray point []) = false
  /\ is_valid_default (JArr [JObj [("y", JNum (NPos 1))]]) (SArray point []) = false
  /\ is_valid_default (JNum (NFloat 1 0)) (SPrim PLong) = false
  /\ is_valid_default (JNum (NPos 9223372036854775808)) (SPrim PLong) = false
  /\ is_valid_default (JStr "-Infinity") (SPrim PFloat) = true
  /\ is_valid_default (JStr "inf") (SPrim PFloat) = false.
Proof. vm_compute. repeat split. Qed.

(** ** C20: errors exactly for invalid defaults *)

Theorem C20_message_iff_invalid :
  forall j s, validate_default j s = None <-> is_valid_default j s = true.
Proof. exact validate_default_none. Qed.
Print Assumptions C20_message_iff_invalid.

(** The record check reports a field exactly if its type resolves and the
    resolved type rejects the default. *)
Theorem C20_record_check :
  forall fuel env n ns d fs e al ps errs,
  validate_record_field_defaults fuel (SRecord n ns d fs e al ps) env = Some errs ->
  forall name, (exists reason, In (name, reason) errs) <->
    exists f dv t, In f fs /\ f_name f = name /\ f_default f = Some dv
      /\ resolve_for_validation fuel (f_schema f) env = Some (Some t)
      /\ is_valid_default dv t = false.
Proof.
  intros fuel env n ns d fs e al ps errs E name. cbn in E.
  pose proof (field_errors_in _ _ _ _ E name) as Hin. split.
  - intros (reason & Hr). apply Hin in Hr. destruct Hr as (f & dv & t & Hf & Hn & Hd & Hres & Hv).
    exists f, dv, t. repeat split; auto. destruct (is_valid_default dv t) eqn:Ev; auto.
    apply validate_default_none in Ev. congruence.
  - intros (f & dv & t & Hf & Hn & Hd & Hres & Hv).
    destruct (validate_default_some dv t Hv) as [m Hm]. exists m. apply Hin. eauto 8.
Qed.
Print Assumptions C20_record_check.

(** Against the real types, whatever they are: a reported default is not
    allowed by the field's type. *)
Theorem C20_no_false_alarm :
  forall fuel env n ns d fs e al ps errs name reason,
  validate_record_field_defaults fuel (SRecord n ns d fs e al ps) env = Some errs ->
  In (name, reason) errs ->
  exists f dv, In f fs /\ f_name f = name /\ f_default f = Some dv
    /\ (wf_json dv -> ~ allows false env (f_schema f) dv).
Proof.
  intros fuel env n ns d fs e al ps errs name reason E Hi. cbn in E.
  apply (field_errors_in _ _ _ _ E) in Hi. destruct Hi as (f & dv & t & Hf & Hn & Hd & Hres & Hv).
  exists f, dv. repeat split; auto. intros W A. unfold resolve_for_validation in Hres.
  destruct (resolve_inner fuel env (f_schema f) []) as [[r v]|] eqn:Er; [|discriminate].
  injection Hres as ->. pose proof (resolve_accepts env _ _ _ _ _ _ _ Er W A) as Ht.
  apply validate_default_none in Ht. congruence.
Qed.
Print Assumptions C20_no_false_alarm.

(** Missing required fields are listed exactly. *)
Theorem C20_missing_fields :
  forall fs o n, In n (missing_required fs o) <->
  exists f, In f fs /\ f_name f = n /\ f_default f = None /\ ~ In n (map fst o).
Proof. exact missing_required_spec. Qed.
Print Assumptions C20_missing_fields.

Definition user := SRecord "User" (Some "a") None
  [mkField "home" (SRef "Point" None [] None) None (Some (JObj [("y", JNum (NPos 3))])) None [] [];
   mkField "next" (SUnion [SPrim PNull; SRef "User" (Some "a") [] None] true) None (Some JNull) None [] [];
   mkField "far" (SRef "Missing" None [] None) None (Some (JNum (NPos 3))) None [] [];
   mkField "n" (SPrim PInt) None (Some (JNum (NPos 2147483648))) None [] []] false [] [].
Definition user_reg : registry := [("Point", point); ("a.User", user)].

Example C20_sample :
  validate_record_field_defaults 20 user (fun n => assoc n user_reg)
  = Some [("home", "missing required field in record `Point`: x");
          ("n", "value 2147483648 out of range for int (must be between -2147483648 and 2147483647)")].
Proof. vm_compute. reflexivity. Qed.

(** ** C21: resolution for validation *)

Theorem C21_resolution_terminates :
  forall reg s fuel, flat_registry reg -> no_inline s = true -> resolve_fuel reg s <= fuel ->
  exists r, resolve_for_validation fuel s (fun n => assoc n reg) = Some r.
Proof. intros reg s fuel Hr Hs Hf. exact (resolve_fuel_enough reg Hr s fuel Hs Hf). Qed.
Print Assumptions C21_resolution_terminates.

Theorem C21_check_terminates :
  forall reg fs fuel, flat_registry reg ->
  forallb (fun f => no_inline (f_schema f)) fs = true ->
  (forall f, In f fs -> resolve_fuel reg (f_schema f) <= fuel) ->
  exists errs, field_default_errors fuel (fun n => assoc n reg) fs = Some errs.
Proof. intros reg fs fuel Hr Hn Hf. exact (field_errors_terminate reg Hr fs fuel Hn Hf). Qed.
Print Assumptions C21_check_terminates.

(** The fuel of the model is not observable. *)
Theorem C21_fuel_irrelevant :
  forall env fuel fuel' s r,
  resolve_for_validation fuel s env = Some r -> fuel <= fuel' -> resolve_for_validation fuel' s env = Some r.
Proof. exact resolve_for_validation_more. Qed.
Print Assumptions C21_fuel_irrelevant.

(** Only references back to an enclosing record are left. *)
Theorem C21_only_back_references :
  forall env fuel s t,
  resolve_for_validation fuel s env = Some (Some t) -> only_back_references [] t.
Proof.
  intros env fuel s t E. unfold resolve_for_validation in E.
  destruct (resolve_inner fuel env s []) as [[r v]|] eqn:Er; [|discriminate]. injection E as ->.
  exact (proj1 (resolve_back_only env _ _ _ _ _ [] Er (incl_refl _))).
Qed.
Print Assumptions C21_only_back_references.

(** It gives up exactly if a name mentioned by the type, directly or through
    other types, is not registered. *)
Theorem C21_gives_up_iff_missing :
  forall reg s fuel, flat_registry reg -> no_inline s = true -> resolve_fuel reg s <= fuel ->
  (resolve_for_validation fuel s (fun n => assoc n reg) = Some None
   <-> exists full, mentions (fun n => assoc n reg) s full /\ assoc full reg = None).
Proof. intros reg s fuel Hr Hs Hf. exact (resolve_gives_up_iff reg Hr s fuel Hs Hf). Qed.
Print Assumptions C21_gives_up_iff_missing.

(** Validation through the resolved type never rejects what the real type
    allows, and is exact when no back-reference is left. *)
Theorem C21_resolved_type_sound :
  forall strict env fuel s t j,
  resolve_for_validation fuel s env = Some (Some t) -> wf_json j ->
  allows strict env s j -> is_valid_default j t = true.
Proof.
  intros strict env fuel s t j E. unfold resolve_for_validation in E.
  destruct (resolve_inner fuel env s []) as [[r v]|] eqn:Er; [|discriminate]. injection E as ->.
  exact (resolve_accepts env strict _ _ _ _ _ _ Er).
Qed.
Print Assumptions C21_resolved_type_sound.

Theorem C21_resolved_type_exact :
  forall env fuel s t j,
  resolve_for_validation fuel s env = Some (Some t) -> wf_json j -> ref_free t = true ->
  (is_valid_default j t = true <-> allows false env s j).
Proof.
  intros env fuel s t j E W R. split.
  - unfold resolve_for_validation in E.
    destruct (resolve_inner fuel env s []) as [[r v]|] eqn:Er; [|discriminate]. injection E as ->.
    intro V. exact (resolve_rejects env _ _ _ _ _ _ Er R W V).
  - apply (C21_resolved_type_sound false env fuel s t j E W).
Qed.
Print Assumptions C21_resolved_type_exact.

(** Below a back-reference nothing is checked: the default of a recursive
    record may be wrong one level down. *)
Definition rnode := SRecord "N" None None
  [mkField "v" (SPrim PInt) None None None [] [];
   mkField "next" (SUnion [SPrim PNull; SRef "N" None [] None] true) None None None [] []] false [] [].
Definition bad_node := JObj [("next", JObj [("v", JStr "not a number")]); ("v", JNum (NPos 1))].

Theorem C21_recursive_refuted :
  exists env s t j,
  resolve_for_validation 20 s env = Some (Some t) /\ is_valid_default j t = true
  /\ wf_json j /\ ~ allows false env s j.
Proof.
  exists (fun n => assoc n [("N", rnode)]), (SRef "N" None [] None).
  eexists. exists bad_node. split; [vm_compute; reflexivity|]. split; [vm_compute; reflexivity|]. split.
  - apply wf_obj; [repeat constructor; cbn; intuition discriminate|].
    intros k v [E|[E|[]]]; injection E as <- <-; [|constructor; lia].
    apply wf_obj; [repeat constructor; cbn; tauto|]. intros k v [E|[]]; injection E as <- <-. constructor.
  - intro A. inversion A as [| | | | | | | | |? ? ? ? t ? Et At]; subst. cbn in Et. injection Et as <-.
    inversion At as [|? ? ? ? ? ? ? ? Hp _| | | | | | | |]; subst.
    specialize (Hp (mkField "next" (SUnion [SPrim PNull; SRef "N" None [] None] true) None None None [] []) (JObj [("v", JStr "not a number")]) (or_intror (or_introl eq_refl)) (or_introl eq_refl)).
    cbn in Hp. inversion Hp as [| | | | | |? ? u ? Hu _ Au| | |]; subst.
    destruct Hu as [<-|[<-|[]]].
    + inversion Au as [? ? Hq| | | | | | | | |]; subst. inversion Hq; subst.
      all: match goal with Hd : _ \/ _ |- _ => destruct Hd; discriminate | _ => idtac end.
    + inversion Au as [| | | | | | | | |? ? ? ? t2 ? Et2 At2]; subst. cbn in Et2. injection Et2 as <-.
      inversion At2 as [|? ? ? ? ? ? ? ? Hp2 _| | | | | | | |]; subst.
      specialize (Hp2 (mkField "v" (SPrim PInt) None None None [] []) (JStr "not a number") (or_introl eq_refl) (or_introl eq_refl)).
      cbn in Hp2. inversion Hp2 as [? ? Hq| | | | | | | | |]; subst. inversion Hq as [| |? ? Hz _| | | | |]; subst.
      { inversion Hz. }
      match goal with Hd : _ \/ _ |- _ => destruct Hd; discriminate end.
Qed.
Print Assumptions C21_recursive_refuted.

(** On a hand-made schema in which a record contains a record of its own name,
    the inner one removes the mark of the outer one and the recursion never
    ends; registries built by the compiler are flat. *)
Definition twice := SRecord "A" None None
  [mkField "f" (SRecord "A" None None [] false [] []) None None None [] [];
   mkField "g" (SRef "A" None [] None) None None None [] []] false [] [].

Theorem C21_nested_same_name_refuted :
  forall fuel, resolve_for_validation fuel (SRef "A" None [] None) (fun n => assoc n [("A", twice)]) = None.
Proof.
  intro fuel. unfold resolve_for_validation.
  assert (H : forall fuel, resolve_inner fuel (fun n => assoc n [("A", twice)]) (SRef "A" None [] None) [] = None
            /\ resolve_inner fuel (fun n => assoc n [("A", twice)]) twice [] = None).
  { clear fuel. induction fuel as [|fuel [IH1 IH2]]; [auto|]. split.
    - cbn. exact IH2.
    - unfold twice at 2. rewrite resolve_record.
      destruct fuel as [|fuel]; [reflexivity|].
      set (env := fun n => assoc n [("A", twice)]) in *.
      cbn [map_visit].
      change (field_step env (S fuel) _ (vis_insert _ []))
        with (Some (Some (mkField "f" (SRecord "A" None None [] false [] []) None None None [] []), @nil string)).
      cbv iota beta. unfold field_step. cbn [f_schema]. rewrite IH1. reflexivity. }
  rewrite (proj1 (H fuel)). reflexivity.
Qed.
Print Assumptions C21_nested_same_name_refuted.

Example C21_sample :
  flat_registry user_reg /\ resolve_fuel user_reg (SRef "User" (Some "a") [] None) <= 20
  /\ resolve_for_validation 20 (SRef "Point" None [] None) (fun n => assoc n user_reg) = Some (Some point)
  /\ resolve_for_validation 20 (SArray (SRef "User" (Some "a") [] None) []) (fun n => assoc n user_reg) = Some None
  /\ mentions (fun n => assoc n user_reg) (SRef "User" (Some "a") [] None) "Missing".
Proof.
  split; [|split; [|split; [|split]]].
  - intros k s E. apply BaseProofs.assoc_In in E. cbn in E.
    destruct E as [[= <- <-]|[[= <- <-]|[]]]; vm_compute; auto.
  - vm_compute. lia.
  - vm_compute. reflexivity.
  - vm_compute. reflexivity.
  - eapply me_follow; [vm_compute; reflexivity|].
    eapply me_record with (f := mkField "far" (SRef "Missing" None [] None) None (Some (JNum (NPos 3))) None [] []);
      [cbn; auto|]. cbn. exact (me_ref _ "Missing" None [] None).
Qed.

(** ** C39: decimals and durations on fixed *)

Theorem C39_duration :
  forall size p sc, validate_logical_type_on_fixed "duration" size p sc = true <-> size = 12%N.
Proof. intros size p sc. unfold validate_logical_type_on_fixed. cbn. apply N.eqb_eq. Qed.
Print Assumptions C39_duration.

(** Below 122202250 bytes the floating-point bound is the exact one. *)
Theorem C39_decimal_exact :
  forall size p sc, (size < 122202250)%N -> (p <= u32_max)%N ->
  (validate_logical_type_on_fixed "decimal" size (Some p) sc = true <->
   (1 <= p)%N /\ (match sc with Some s => s | None => 0%N end <= p)%N /\ digits_fit p size).
Proof. exact decimal_exact. Qed.
Print Assumptions C39_decimal_exact.

(** From there on it is one digit too wide for some sizes ... *)
Theorem C39_decimal_refuted :
  exists size p, (size <= u32_max)%N /\ (p <= u32_max)%N
  /\ validate_logical_type_on_fixed "decimal" size (Some p) None = true /\ ~ digits_fit p size.
Proof.
  exists 122202250%N, 294292342%N. destruct decimal_too_wide as [A B].
  split; [discriminate|]. split; [discriminate|]. split; [exact A|exact B].
Qed.
Print Assumptions C39_decimal_refuted.

(** ... never by more than one, and a precision that fits is never rejected. *)
Theorem C39_decimal_all_sizes :
  forall size p sc, (size <= u32_max)%N -> (p <= u32_max)%N ->
  let accepted := validate_logical_type_on_fixed "decimal" size (Some p) sc = true in
  (accepted -> digits_fit (p - 1) size)
  /\ ((1 <= p)%N -> (match sc with Some s => s | None => 0%N end <= p)%N -> digits_fit p size -> accepted).
Proof.
  intros size p sc Hs Hp. split; [apply decimal_off_by_one; auto|apply decimal_never_rejects; auto].
Qed.
Print Assumptions C39_decimal_all_sizes.

(** No precision, or any other logical type: invalid. *)
Theorem C39_others_invalid :
  (forall size sc, validate_logical_type_on_fixed "decimal" size None sc = false)
  /\ forall name size p sc, name <> "decimal" -> name <> "duration" ->
     validate_logical_type_on_fixed name size p sc = false.
Proof.
  split; [reflexivity|]. intros name size p sc H1 H2. unfold validate_logical_type_on_fixed.
  apply String.eqb_neq in H1, H2. rewrite H1, H2. reflexivity.
Qed.
Print Assumptions C39_others_invalid.

Example C39_sample :
  validate_logical_type_on_fixed "decimal" 16 (Some 38%N) (Some 38%N) = true
  /\ validate_logical_type_on_fixed "decimal" 16 (Some 39%N) None = false
  /\ digits_fit 38 16 /\ ~ digits_fit 39 16
  /\ validate_logical_type_on_fixed "decimal" 16 (Some 3%N) (Some 4%N) = false.
Proof. vm_compute. repeat split; try discriminate; try reflexivity. intros [_ H]. apply H. reflexivity. Qed.
