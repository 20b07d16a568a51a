(** Lemmas about default-value validation. *)
From Verif Require Import BaseProofs Defaults SpecDefaults.

(** ** [is_valid_default] against [allows] *)

Lemma valid_prim_iff j p : wf_json j -> (is_valid_prim_default j p = true <-> prim_allows p j).
Proof.
  intro W. split.
  - destruct p; cbn; intro E.
    + destruct j; try discriminate. constructor.
    + destruct j; try discriminate. constructor.
    + destruct j as [| |n| | |]; try discriminate. apply andb_true_iff in E. destruct E as [_ E].
      destruct n as [v|z|m e]; cbn in E.
      * destruct (N.leb_spec v i64_max); [|discriminate]. apply andb_true_iff in E. destruct E as [A B].
        apply Z.leb_le in A. apply Z.leb_le in B. unfold i32_min, i32_max in *.
        eapply pa_int; [constructor|lia].
      * apply andb_true_iff in E. destruct E as [A B].
        apply Z.leb_le in A. apply Z.leb_le in B. unfold i32_min, i32_max in *.
        eapply pa_int; [constructor|lia].
      * discriminate.
    + destruct j as [| |n| | |]; try discriminate. unfold num_is_i64 in E. destruct n as [v|z|m e]; cbn in E.
      * destruct (N.leb_spec v i64_max) as [Hl|]; [|discriminate]. unfold i64_max in Hl.
        eapply pa_long; [constructor|lia].
      * inversion W; subst. eapply pa_long; [constructor|lia].
      * discriminate.
    + destruct j; try discriminate; [constructor; auto|].
      apply orb_true_iff in E. rewrite orb_true_iff in E. rewrite !String.eqb_eq in E.
      apply pa_special; [auto|]. cbn. destruct E as [[->| ->]| ->]; auto.
    + destruct j; try discriminate; [constructor; auto|].
      apply orb_true_iff in E. rewrite orb_true_iff in E. rewrite !String.eqb_eq in E.
      apply pa_special; [auto|]. cbn. destruct E as [[->| ->]| ->]; auto.
    + destruct j; try discriminate. apply pa_bytes.
    + destruct j; try discriminate. apply pa_string.
  - intro A. destruct A as [|b|j z Hi Hz|j z Hi Hz|p n Hp|p s Hp Hs|s|s]; cbn; auto.
    + destruct Hi as [n|z]; cbn.
      * assert (Hl : (n <=? i64_max)%N = true) by (apply N.leb_le; unfold i64_max; lia).
        unfold num_is_i64. cbn. rewrite Hl. unfold i32_min, i32_max.
        apply andb_true_iff. split; [reflexivity|].
        apply andb_true_iff. split; apply Z.leb_le; lia.
      * apply andb_true_iff. split; apply Z.leb_le; unfold i32_min, i32_max; lia.
    + destruct Hi as [n|z]; cbn; auto.
      assert (Hl : (n <=? i64_max)%N = true) by (apply N.leb_le; unfold i64_max; lia).
      unfold num_is_i64. cbn. rewrite Hl. reflexivity.
    + destruct Hp as [-> | ->]; reflexivity.
    + destruct Hp as [-> | ->]; cbn in Hs; destruct Hs as [<-|[<-|[<-|[]]]]; reflexivity.
Qed.

Lemma physical_base l k : physical l k <-> k = expected_base_type l.
Proof. split; [intros []; reflexivity|]. intros ->. destruct l; constructor. Qed.

Lemma assoc_none_notin {A} k (l : list (string * A)) : assoc k l = None <-> ~ In k (map fst l).
Proof.
  induction l as [|[k' v] l IH]; cbn; [tauto|].
  destruct (String.eqb_spec k k') as [->|Hne].
  - split; [discriminate|]. intros []. auto.
  - rewrite IH. split; intuition congruence.
Qed.

Lemma assoc_in_nodup {A} k (v : A) l : NoDup (map fst l) -> (In (k, v) l <-> assoc k l = Some v).
Proof.
  induction l as [|[k' v'] l IH]; cbn; intro Hn; [split; [tauto|discriminate]|].
  inversion Hn as [|? ? Hk Hn']; subst. specialize (IH Hn').
  destruct (String.eqb_spec k k') as [->|Hne].
  - split.
    + intros [E|Hi]; [congruence|]. exfalso. apply Hk. apply in_map_iff. exists (k', v). auto.
    + intros [= ->]. auto.
  - rewrite <- IH. split; [intros [E|Hi]; [congruence|auto]|auto].
Qed.

Lemma wf_obj_inv o : wf_json (JObj o) -> NoDup (map fst o) /\ forall k v, In (k, v) o -> wf_json v.
Proof. inversion 1; auto. Qed.
Lemma wf_arr_inv l : wf_json (JArr l) -> forall v, In v l -> wf_json v.
Proof. inversion 1; auto. Qed.
Ltac wf_inv W := first [apply wf_obj_inv in W; destruct W as [Wn Wv] | pose proof (wf_arr_inv _ W) as Wv; clear W].

(** Types without references. *)
Lemma valid_default_sound env j s :
  ref_free s = true -> wf_json j -> is_valid_default j s = true -> allows false env s j.
Proof.
  revert j. induction s using schema_ind'; intros j R W E; cbn in R, E.
  - constructor; [apply valid_prim_iff; auto|discriminate].
  - destruct j as [| | | | |o]; try discriminate. wf_inv W.
    rewrite forallb_forall in E, R. rewrite Forall_forall in H.
    constructor.
    + intros f v Hf Hv. specialize (E f Hf). apply assoc_in_nodup in Hv; auto.
      unfold jget in E. rewrite Hv in E. apply H; auto. apply Wv with (k := f_name f).
      apply assoc_in_nodup; auto.
    + intros f Hf Hn. specialize (E f Hf). apply assoc_none_notin in Hn. unfold jget in E.
      rewrite Hn in E. destruct (f_default f); [discriminate|discriminate].
  - destruct j; try discriminate. constructor. discriminate.
  - destruct j; try discriminate. constructor. discriminate.
  - destruct j as [| | | |l|]; try discriminate. wf_inv W. rewrite forallb_forall in E.
    constructor. intros v Hv. apply IHs; auto.
  - destruct j as [| | | | |o]; try discriminate. wf_inv W. rewrite forallb_forall in E.
    constructor. intros k v Hv. apply IHs; [auto|eauto|]. apply (E _ Hv).
  - destruct ts as [|t0 ts]; [discriminate|]. apply existsb_exists in E. destruct E as (t & Ht & E).
    rewrite Forall_forall in H. rewrite forallb_forall in R.
    apply al_union with (t := t); auto. discriminate.
  - constructor; [apply valid_prim_iff; auto|discriminate].
  - econstructor; [apply physical_base; reflexivity|apply valid_prim_iff; auto|discriminate].
  - discriminate.
Qed.

(** Whatever the specification allows, strictly or not, is accepted. *)
Lemma valid_default_complete strict env s j :
  wf_json j -> allows strict env s j -> is_valid_default j s = true.
Proof.
  revert j. induction s using schema_ind'; intros j W A; inversion A; subst; cbn; auto.
  - apply valid_prim_iff; auto.
  - wf_inv W. rewrite Forall_forall in H. apply forallb_forall. intros f Hf. unfold jget.
    destruct (assoc (f_name f) o) as [v|] eqn:Ea.
    + apply assoc_in_nodup in Ea; auto. apply H; eauto.
    + apply assoc_none_notin in Ea. match goal with Hd : forall f, In f _ -> ~ _ -> _ |- _ => specialize (Hd f Hf Ea) end. destruct (f_default f); [reflexivity|congruence].
  - wf_inv W. apply forallb_forall. auto.
  - wf_inv W. apply forallb_forall. intros [k v] Hv. cbn. eauto.
  - rewrite Forall_forall in H. destruct ts as [|t0 ts]; [contradiction|].
    apply existsb_exists. exists t. auto.
  - apply valid_prim_iff; auto.
  - match goal with Hp : physical _ _ |- _ => apply physical_base in Hp end. subst. apply valid_prim_iff; auto.
Qed.

(** A wider value is never needed: strict validity implies the shape. *)
Lemma allows_strict_shape env s j : allows true env s j -> allows false env s j.
Proof.
  induction 1; try (econstructor; eauto; discriminate).
Qed.

(** ** [validate_default] reports exactly the invalid values *)

Lemma validate_default_some j s :
  is_valid_default j s = false -> exists m, validate_default j s = Some m.
Proof.
  intro E. destruct s; cbn [validate_default]; rewrite E; try (destruct (range_message _ _); eauto; fail).
  destruct (range_message _ _); eauto. destruct j; eauto.
  destruct (missing_required _ _); eauto.
  match goal with |- exists m, match ?x with _ => _ end = _ => destruct x; eauto end.
Qed.

Lemma validate_default_valid j s : is_valid_default j s = true -> validate_default j s = None.
Proof. intro E. destruct s; cbn [validate_default]; rewrite E; reflexivity. Qed.

Lemma validate_default_none j s : validate_default j s = None <-> is_valid_default j s = true.
Proof.
  split; [|apply validate_default_valid].
  intro E. destruct (is_valid_default j s) eqn:Ev; auto.
  destruct (validate_default_some j s Ev) as [m Em]. congruence.
Qed.

(** The record message names exactly the required fields that are missing. *)
Lemma missing_required_spec fs o n :
  In n (missing_required fs o) <->
  exists f, In f fs /\ f_name f = n /\ f_default f = None /\ ~ In n (map fst o).
Proof.
  unfold missing_required. rewrite in_map_iff. split.
  - intros (f & <- & Hf). apply filter_In in Hf. destruct Hf as [Hf E]. exists f.
    destruct (f_default f); [discriminate|]. unfold jget in E.
    destruct (assoc (f_name f) o) eqn:Ea; [discriminate|]. apply assoc_none_notin in Ea. auto.
  - intros (f & Hf & <- & Hd & Hn). exists f. split; auto. apply filter_In. split; auto.
    rewrite Hd. apply assoc_none_notin in Hn. unfold jget. rewrite Hn. reflexivity.
Qed.

(** ** Resolution *)

Section Resolve.
  Variable env : string -> option schema.

  (** What a completed [map_visit] did to each element. *)
  Lemma map_visit_Some {A B} (f : A -> list string -> option (option B * list string)) l vis ys vis' :
    map_visit f l vis = Some (Some ys, vis') ->
    Forall2 (fun x y => exists v v', f x v = Some (Some y, v')) l ys.
  Proof.
    revert vis ys vis'. induction l as [|x l IH]; cbn; intros vis ys vis' E.
    - injection E as <- <-. constructor.
    - destruct (f x vis) as [[[y|] v]|] eqn:Ef; try discriminate.
      destruct (map_visit f l v) as [[[ys'|] v']|] eqn:Em; try discriminate.
      injection E as <- <-. constructor; eauto.
  Qed.

  Lemma Forall2_in_l {A B} (R : A -> B -> Prop) l l' x :
    Forall2 R l l' -> In x l -> exists y, In y l' /\ R x y.
  Proof. induction 1; cbn; intros []; subst; [eauto|]. destruct IHForall2 as (z & ? & ?); eauto. Qed.

  Lemma Forall2_in_r {A B} (R : A -> B -> Prop) l l' y :
    Forall2 R l l' -> In y l' -> exists x, In x l /\ R x y.
  Proof. induction 1; cbn; intros []; subst; [eauto|]. destruct IHForall2 as (z & ? & ?); eauto. Qed.

  (** The field step used by records. *)
  Definition field_step fuel (f : field) vis :=
    match resolve_inner fuel env (f_schema f) vis with
    | None => None
    | Some (None, vis) => Some (None, vis)
    | Some (Some t, vis) => Some (Some (with_schema f t), vis)
    end.

  Lemma field_step_Some fuel f vis f' vis' :
    field_step fuel f vis = Some (Some f', vis') ->
    exists t, resolve_inner fuel env (f_schema f) vis = Some (Some t, vis') /\ f' = with_schema f t.
  Proof.
    unfold field_step. destruct (resolve_inner _ _ _ _) as [[[t|] v]|]; try discriminate.
    intros [= <- <-]. eauto.
  Qed.

  Lemma resolve_record fuel n ns d fs e al ps vis :
    resolve_inner (S fuel) env (SRecord n ns d fs e al ps) vis =
    match map_visit (field_step fuel) fs (vis_insert (make_full_name n ns) vis) with
    | None => None
    | Some (None, vis) => Some (None, vis)
    | Some (Some fs', vis) => Some (Some (SRecord n ns d fs' e al ps), vis_remove (make_full_name n ns) vis)
    end.
  Proof. reflexivity. Qed.

  Lemma resolve_union fuel ts b vis :
    resolve_inner (S fuel) env (SUnion ts b) vis =
    match map_visit (resolve_inner fuel env) ts vis with
    | None => None
    | Some (None, vis) => Some (None, vis)
    | Some (Some ts', vis) => Some (Some (SUnion ts' b), vis)
    end.
  Proof. reflexivity. Qed.

  (** No false alarm: what the real type allows, the resolved type accepts. *)
  Lemma resolve_accepts strict fuel : forall s vis r vis' j,
    resolve_inner fuel env s vis = Some (Some r, vis') ->
    wf_json j -> allows strict env s j -> is_valid_default j r = true.
  Proof.
    induction fuel as [|fuel IH]; intros s vis r vis' j E W A; [discriminate|].
    destruct s.
    - cbn in E. injection E as <- <-. eapply valid_default_complete; eauto.
    - rewrite resolve_record in E.
      destruct (map_visit _ fields _) as [[[fs'|] v]|] eqn:Em; try discriminate.
      injection E as <- <-. apply map_visit_Some in Em.
      inversion A; subst. wf_inv W. cbn. apply forallb_forall. intros f' Hf'.
      destruct (Forall2_in_r _ _ _ _ Em Hf') as (f & Hf & v0 & v1 & Es).
      apply field_step_Some in Es. destruct Es as (t & Et & ->). cbn. unfold jget.
      destruct (assoc (f_name f) o) as [w|] eqn:Ea.
      + apply assoc_in_nodup in Ea; auto. eapply IH; [exact Et|eauto|eauto].
      + apply assoc_none_notin in Ea. match goal with Hd : forall f, In f _ -> ~ _ -> _ |- _ => specialize (Hd f Hf Ea) end. destruct (f_default f); congruence.
    - cbn in E. injection E as <- <-. eapply valid_default_complete; eauto.
    - cbn in E. injection E as <- <-. eapply valid_default_complete; eauto.
    - cbn in E. destruct (resolve_inner fuel env s vis) as [[[t|] v]|] eqn:Et; try discriminate.
      injection E as <- <-. inversion A; subst. wf_inv W. cbn. apply forallb_forall.
      intros w Hw. eapply IH; eauto.
    - cbn in E. destruct (resolve_inner fuel env s vis) as [[[t|] v]|] eqn:Et; try discriminate.
      injection E as <- <-. inversion A; subst. wf_inv W. cbn. apply forallb_forall.
      intros [k w] Hw. cbn. eapply IH; eauto.
    - rewrite resolve_union in E.
      destruct (map_visit _ types _) as [[[ts'|] v]|] eqn:Em; try discriminate.
      injection E as <- <-. apply map_visit_Some in Em. inversion A; subst.
      match goal with Hi : In _ types |- _ => destruct (Forall2_in_l _ _ _ _ Em Hi) as (t' & Ht' & v0 & v1 & Et) end.
      cbn. destruct ts' as [|t0 ts']; [contradiction|]. apply existsb_exists. exists t'.
      split; auto. eapply IH; eauto.
    - cbn in E. injection E as <- <-. eapply valid_default_complete; eauto.
    - cbn in E. injection E as <- <-. eapply valid_default_complete; eauto.
    - cbn in E. destruct (str_mem _ vis).
      + injection E as <- <-. reflexivity.
      + destruct (env _) as [t|] eqn:En; [|discriminate]. inversion A; subst.
        match goal with He : env _ = Some _ |- _ => rewrite En in He; injection He as <- end. eapply IH; eauto.
  Qed.

  (** A resolved type without back-references is the real type. *)
  Lemma resolve_rejects fuel : forall s vis r vis' j,
    resolve_inner fuel env s vis = Some (Some r, vis') -> ref_free r = true ->
    wf_json j -> is_valid_default j r = true -> allows false env s j.
  Proof.
    induction fuel as [|fuel IH]; intros s vis r vis' j E R W V; [discriminate|].
    destruct s.
    - cbn in E. injection E as <- <-. apply valid_default_sound; auto.
    - rewrite resolve_record in E.
      destruct (map_visit _ fields _) as [[[fs'|] v]|] eqn:Em; try discriminate.
      injection E as <- <-. apply map_visit_Some in Em. cbn in R, V.
      destruct j as [| | | | |o]; try discriminate. wf_inv W. rewrite forallb_forall in R, V.
      constructor.
      + intros f w Hf Hw.
        destruct (Forall2_in_l _ _ _ _ Em Hf) as (f' & Hf' & v0 & v1 & Es).
        apply field_step_Some in Es. destruct Es as (t & Et & ->).
        specialize (R _ Hf'). specialize (V _ Hf'). cbn in R, V. unfold jget in V.
        pose proof Hw as Ha. apply assoc_in_nodup in Ha; auto. rewrite Ha in V. eapply IH; eauto.
      + intros f Hf Hn.
        destruct (Forall2_in_l _ _ _ _ Em Hf) as (f' & Hf' & v0 & v1 & Es).
        apply field_step_Some in Es. destruct Es as (t & Et & ->).
        specialize (V _ Hf'). cbn in V. unfold jget in V. apply assoc_none_notin in Hn.
        rewrite Hn in V. destruct (f_default f); discriminate.
    - cbn in E. injection E as <- <-. apply valid_default_sound; auto.
    - cbn in E. injection E as <- <-. apply valid_default_sound; auto.
    - cbn in E. destruct (resolve_inner fuel env s vis) as [[[t|] v]|] eqn:Et; try discriminate.
      injection E as <- <-. cbn in R, V. destruct j as [| | | |l|]; try discriminate. wf_inv W.
      rewrite forallb_forall in V. constructor. intros w Hw. eapply IH; eauto.
    - cbn in E. destruct (resolve_inner fuel env s vis) as [[[t|] v]|] eqn:Et; try discriminate.
      injection E as <- <-. cbn in R, V. destruct j as [| | | | |o]; try discriminate. wf_inv W.
      rewrite forallb_forall in V. constructor. intros k w Hw. eapply IH; eauto. apply (V _ Hw).
    - rewrite resolve_union in E.
      destruct (map_visit _ types _) as [[[ts'|] v]|] eqn:Em; try discriminate.
      injection E as <- <-. apply map_visit_Some in Em. cbn in R, V.
      destruct ts' as [|t0 ts']; [discriminate|]. apply existsb_exists in V. destruct V as (t' & Ht' & V).
      rewrite forallb_forall in R.
      destruct (Forall2_in_r _ _ _ _ Em Ht') as (t & Ht & v0 & v1 & Et).
      apply al_union with (t := t); [auto|discriminate|]. eapply IH; eauto.
    - cbn in E. injection E as <- <-. apply valid_default_sound; auto.
    - cbn in E. injection E as <- <-. apply valid_default_sound; auto.
    - cbn in E. destruct (str_mem _ vis).
      + injection E as <- <-. discriminate.
      + destruct (env _) as [t|] eqn:En; [|discriminate]. econstructor; eauto.
  Qed.

  (** Only back-references are left. *)
  Lemma map_visit_inv {A B} (f : A -> list string -> option (option B * list string)) (P : A -> B -> Prop) (Q : list string -> Prop) l :
    (forall x v y v', In x l -> Q v -> f x v = Some (Some y, v') -> P x y /\ Q v') ->
    forall vis ys vis', Q vis -> map_visit f l vis = Some (Some ys, vis') -> Forall2 P l ys /\ Q vis'.
  Proof.
    induction l as [|x l IH]; cbn; intros Hf vis ys vis' Hq E.
    - injection E as <- <-. auto.
    - destruct (f x vis) as [[[y|] v]|] eqn:Ef; try discriminate.
      destruct (map_visit f l v) as [[[ys'|] v']|] eqn:Em; try discriminate.
      injection E as <- <-. destruct (Hf x vis y v (or_introl eq_refl) Hq Ef) as [Hp Hq'].
      destruct (IH (fun x v y v' Hi => Hf x v y v' (or_intror Hi)) _ _ _ Hq' Em). auto.
  Qed.

  Lemma vis_insert_In n x vis : In x (vis_insert n vis) <-> x = n \/ In x vis.
  Proof.
    unfold vis_insert. destruct (str_mem n vis) eqn:E; cbn; [|intuition].
    apply str_mem_In in E. intuition. subst. auto.
  Qed.

  Lemma vis_remove_In n x vis : In x (vis_remove n vis) <-> x <> n /\ In x vis.
  Proof.
    unfold vis_remove. rewrite filter_In, negb_true_iff, String.eqb_neq. intuition.
  Qed.

  Lemma resolve_back_only fuel : forall s vis r vis' encl,
    resolve_inner fuel env s vis = Some (Some r, vis') -> incl vis encl ->
    only_back_references encl r /\ incl vis' encl.
  Proof.
    induction fuel as [|fuel IH]; intros s vis r vis' encl E I; [discriminate|].
    destruct s; try (cbn in E; injection E as <- <-; split; [constructor|auto]).
    - rewrite resolve_record in E.
      destruct (map_visit _ fields _) as [[[fs'|] v]|] eqn:Em; try discriminate.
      injection E as <- <-.
      apply (map_visit_inv _ (fun _ f' => only_back_references (make_full_name name ns :: encl) (f_schema f'))
               (fun v => incl v (make_full_name name ns :: encl))) in Em.
      + destruct Em as [F I']. split.
        * constructor. intros f' Hf'. destruct (Forall2_in_r _ _ _ _ F Hf') as (f & _ & Hb). exact Hb.
        * intros x Hx. apply vis_remove_In in Hx. destruct Hx as [Hne Hx].
          destruct (I' _ Hx); [congruence|auto].
      + intros f v0 f' v1 _ Hq Es. apply field_step_Some in Es. destruct Es as (t & Et & ->). cbn. eauto.
      + intros x Hx. apply vis_insert_In in Hx. destruct Hx as [->|Hx]; [left; auto|right; auto].
    - cbn in E. destruct (resolve_inner fuel env s vis) as [[[t|] v]|] eqn:Et; try discriminate.
      injection E as <- <-. destruct (IH _ _ _ _ _ Et I). split; [constructor; auto|auto].
    - cbn in E. destruct (resolve_inner fuel env s vis) as [[[t|] v]|] eqn:Et; try discriminate.
      injection E as <- <-. destruct (IH _ _ _ _ _ Et I). split; [constructor; auto|auto].
    - rewrite resolve_union in E.
      destruct (map_visit _ types _) as [[[ts'|] v]|] eqn:Em; try discriminate.
      injection E as <- <-.
      apply (map_visit_inv _ (fun _ t' => only_back_references encl t') (fun v => incl v encl)) in Em; eauto.
      destruct Em as [F I']. split; auto. constructor. intros t' Ht'.
      destruct (Forall2_in_r _ _ _ _ F Ht') as (t & _ & Hb). exact Hb.
    - cbn in E. destruct (str_mem _ vis) eqn:Hm.
      + injection E as <- <-. split; auto. constructor. apply str_mem_In in Hm. auto.
      + destruct (env _) as [t|] eqn:En; [|discriminate]. eauto.
  Qed.
End Resolve.

(** ** Termination *)

Lemma map_visit_restores {A B} (f : A -> list string -> option (option B * list string)) l vis :
  (forall x, In x l -> exists r, f x vis = Some r /\ (forall y, fst r = Some y -> snd r = vis)) ->
  exists r, map_visit f l vis = Some r /\ (forall ys, fst r = Some ys -> snd r = vis).
Proof.
  induction l as [|x l IH]; cbn; intro Hf; [eexists; split; [reflexivity|auto]|].
  destruct (Hf x (or_introl eq_refl)) as ([y v] & -> & Hv). cbn in Hv.
  destruct y as [y|].
  - rewrite (Hv y eq_refl). destruct IH as ([ys v'] & -> & Hv'); [auto|]. cbn in Hv'.
    destruct ys as [ys|].
    + eexists; split; [reflexivity|]. cbn. intros zs [= <-]. eauto.
    + eexists; split; [reflexivity|]. cbn. discriminate.
  - eexists; split; [reflexivity|]. cbn. discriminate.
Qed.

Lemma vis_remove_insert n vis : ~ In n vis -> vis_remove n (vis_insert n vis) = vis.
Proof.
  intro Hn. unfold vis_insert. apply str_mem_not_In in Hn as Hm. rewrite Hm.
  unfold vis_remove. cbn. rewrite String.eqb_refl. cbn. clear Hm.
  induction vis as [|x vis IH]; cbn; auto.
  assert (n <> x) by (intros ->; apply Hn; left; auto).
  apply String.eqb_neq in H as ->. cbn. f_equal. apply IH. intro; apply Hn; right; auto.
Qed.

Lemma fold_max_le {A} (h : A -> nat) l x : In x l -> h x <= fold_right (fun a n => Nat.max (h a) n) 0 l.
Proof. induction l; cbn; intros []; subst; [lia|]. specialize (IHl H). lia. Qed.

Lemma filter_length_le {A} (p q : A -> bool) l :
  (forall x, q x = true -> p x = true) -> length (filter q l) <= length (filter p l).
Proof.
  intro H. induction l as [|y l IH]; cbn; auto.
  destruct (q y) eqn:Eq; [rewrite (H _ Eq); cbn; lia|]. destruct (p y); cbn; lia.
Qed.

Lemma filter_length_lt {A} (p q : A -> bool) l x :
  (forall x, q x = true -> p x = true) -> In x l -> p x = true -> q x = false ->
  length (filter q l) < length (filter p l).
Proof.
  intros H Hi Hp Hq. induction l as [|y l IH]; [contradiction|]. cbn.
  destruct Hi as [->|Hi].
  - rewrite Hp, Hq. cbn. apply le_n_S, filter_length_le. auto.
  - specialize (IH Hi). destruct (q y) eqn:Eq; [rewrite (H _ Eq); cbn; lia|]. destruct (p y); cbn; lia.
Qed.

Section Terminates.
  Variable reg : registry.
  Hypothesis Hreg : flat_registry reg.

  Let env := fun n => assoc n reg.
  Let D := fold_right (fun kv n => Nat.max (schema_height (snd kv)) n) 0 reg.

  (** Registry names not being visited. *)
  Definition waiting (vis : list string) : nat :=
    length (filter (fun n => negb (str_mem n vis)) (map fst reg)).

  Lemma waiting_less n vis : In n (map fst reg) -> ~ In n vis -> waiting (n :: vis) < waiting vis.
  Proof.
    intros Hi Hn. apply filter_length_lt with (x := n); auto.
    - intros x Hx. rewrite negb_true_iff, str_mem_not_In in *. cbn in Hx. tauto.
    - rewrite negb_true_iff, str_mem_not_In. auto.
    - rewrite negb_false_iff, str_mem_In. left. auto.
  Qed.

  Lemma waiting_length vis : waiting vis <= length reg.
  Proof.
    unfold waiting. rewrite <- (map_length fst reg). induction (map fst reg); cbn; auto.
    destruct (negb _); cbn; lia.
  Qed.

  Lemma height_pos s : 1 <= schema_height s.
  Proof. destruct s; cbn; lia. Qed.

  Lemma resolve_terminates fuel : forall s vis,
    (no_inline s = true /\ schema_height s + waiting vis * S D < fuel)
    \/ (flat_definition s = true /\ exists n, full_name s = Some n /\ ~ In n vis
        /\ schema_height s + waiting (n :: vis) * S D < fuel) ->
    exists r, resolve_inner fuel env s vis = Some r /\ (forall t, fst r = Some t -> snd r = vis).
  Proof.
    induction fuel as [|fuel IH]; intros s vis Hs; [destruct Hs as [[_ Hs]|(_ & n & _ & _ & Hs)]; lia|].
    destruct s; try (eexists; split; [reflexivity|cbn; auto]; fail).
    - rewrite resolve_record. destruct Hs as [[Hs _]|[Hs (nm & [= <-] & Hn & Hf)]]; [discriminate|].
      cbn in Hs. rewrite forallb_forall in Hs.
      assert (Hvi : vis_insert (make_full_name name ns) vis = make_full_name name ns :: vis).
      { unfold vis_insert. apply str_mem_not_In in Hn as ->. reflexivity. }
      destruct (map_visit_restores (field_step env fuel) fields (vis_insert (make_full_name name ns) vis))
        as ([ys v] & E & Hv).
      { intros f Hfi. unfold field_step.
        destruct (IH (f_schema f) (vis_insert (make_full_name name ns) vis)) as ([t v] & E & Hv).
        - left. split; [auto|]. rewrite Hvi. cbn [schema_height] in Hf.
          pose proof (fold_max_le (fun f => schema_height (f_schema f)) _ _ Hfi) as Hm. cbn beta in Hm. lia.
        - rewrite E. cbn in Hv. destruct t as [t|].
          + eexists; split; [reflexivity|]. cbn. intros y _. eauto.
          + eexists; split; [reflexivity|]. cbn. discriminate. }
      rewrite E. cbn in Hv. destruct ys as [ys|].
      + eexists; split; [reflexivity|]. cbn. intros t _. rewrite (Hv ys eq_refl).
        apply vis_remove_insert. auto.
      + eexists; split; [reflexivity|]. cbn. discriminate.
    - cbn [resolve_inner]. destruct Hs as [[Hs Hf]|[Hs _]]; [|discriminate]. cbn in Hs, Hf.
      destruct (IH s vis) as ([t v] & E & Hv); [left; split; [auto|lia]|]. rewrite E. cbn in Hv. destruct t as [t|].
      + eexists; split; [reflexivity|]. cbn. intros y _. eauto.
      + eexists; split; [reflexivity|]. cbn. discriminate.
    - cbn [resolve_inner]. destruct Hs as [[Hs Hf]|[Hs _]]; [|discriminate]. cbn in Hs, Hf.
      destruct (IH s vis) as ([t v] & E & Hv); [left; split; [auto|lia]|]. rewrite E. cbn in Hv. destruct t as [t|].
      + eexists; split; [reflexivity|]. cbn. intros y _. eauto.
      + eexists; split; [reflexivity|]. cbn. discriminate.
    - rewrite resolve_union. destruct Hs as [[Hs Hf]|[Hs _]]; [|discriminate]. cbn in Hs, Hf.
      rewrite forallb_forall in Hs.
      destruct (map_visit_restores (resolve_inner fuel env) types vis) as ([ys v] & E & Hv).
      { intros t Ht. apply IH. left. split; [auto|].
        pose proof (fold_max_le schema_height _ _ Ht). lia. }
      rewrite E. cbn in Hv. destruct ys as [ys|].
      + eexists; split; [reflexivity|]. cbn. intros y _. eauto.
      + eexists; split; [reflexivity|]. cbn. discriminate.
    - cbn [resolve_inner]. destruct (str_mem (make_full_name name ns) vis) eqn:Hm.
      + eexists; split; [reflexivity|]. cbn. auto.
      + apply str_mem_not_In in Hm. unfold env at 1.
        destruct (assoc (make_full_name name ns) reg) as [t|] eqn:Ea.
        * destruct (Hreg _ _ Ea) as [Hfl Hfn]. apply assoc_In in Ea.
          destruct Hs as [[_ Hf]|[Hs _]]; [|discriminate].
          apply IH. right. split; [auto|]. exists (make_full_name name ns). split; [auto|]. split; [auto|].
          assert (Hk : In (make_full_name name ns) (map fst reg)).
          { apply in_map_iff. exists (make_full_name name ns, t). auto. }
          pose proof (waiting_less _ _ Hk Hm).
          pose proof (fold_max_le (fun kv => schema_height (snd kv)) _ _ Ea) as Hd. cbn [snd] in Hd.
          fold D in Hd. cbn [schema_height] in Hf. nia.
        * eexists; split; [reflexivity|]. cbn. auto.
  Qed.

  Lemma resolve_fuel_enough s fuel :
    no_inline s = true -> resolve_fuel reg s <= fuel ->
    exists r, resolve_for_validation fuel s env = Some r.
  Proof.
    intros Hs Hf. unfold resolve_for_validation.
    destruct (resolve_terminates fuel s []) as ([r v] & E & _).
    - left. split; [auto|]. unfold resolve_fuel in Hf. fold D in Hf. pose proof (waiting_length []). nia.
    - fold env. rewrite E. eauto.
  Qed.

  (** A record's own field types. *)
  Lemma field_errors_terminate fs fuel :
    forallb (fun f => no_inline (f_schema f)) fs = true ->
    (forall f, In f fs -> resolve_fuel reg (f_schema f) <= fuel) ->
    exists errs, field_default_errors fuel env fs = Some errs.
  Proof.
    induction fs as [|f fs IH]; cbn; intros Hn Hf; [eauto|].
    apply andb_true_iff in Hn. destruct Hn as [Hn1 Hn2].
    destruct (IH Hn2) as [b ->]; [auto|].
    destruct (f_default f) as [dv|]; [|eauto].
    destruct (resolve_fuel_enough (f_schema f) fuel Hn1 (Hf f (or_introl eq_refl))) as [r Er].
    rewrite Er. destruct r as [t|]; [|eauto]. destruct (validate_default dv t); eauto.
  Qed.
End Terminates.
