(** The reasons given for rejected defaults are right. *)
From Verif Require Export SpecDefaultErrors DefaultsProofs.
From Verif Require Import BaseProofs.

Lemma show_prim p : In (p, prim_str p) prim_words.
Proof. destruct p; cbn; tauto. Qed.
Lemma prim_word p w : In (p, w) prim_words -> w = prim_str p.
Proof. intro Hi. cbn in Hi. decompose [or] Hi; try contradiction; match goal with E : (_, _) = _ |- _ => injection E as <- <- end; reflexivity. Qed.

Lemma called_description s : (forall n ns ps sp, s <> SRef n ns ps sp) -> called s (type_description s).
Proof.
  intro Hr. destruct s; cbn [type_description]; try (constructor; apply show_prim); try constructor.
  - match goal with l : logical |- _ => destruct l end; constructor.
  - exfalso. eapply Hr. reflexivity.
Qed.
Lemma called_is s t : called s t -> t = type_description s.
Proof. destruct 1; try reflexivity; now apply prim_word. Qed.
Lemma kind_description v : kind_of v (json_type_description v).
Proof. destruct v; constructor. Qed.
Lemma kind_is v k : kind_of v k -> k = json_type_description v.
Proof. now destruct 1. Qed.

Lemma integer_shown v z : is_integer v z -> exists n, v = JNum n /\ is_json_integer n = true /\ show_jnum n = show_Z z.
Proof.
  destruct 1; eexists; (split; [reflexivity|split; [|reflexivity]]); unfold is_json_integer, num_is_i64; cbn; [|reflexivity].
  apply orb_true_r.
Qed.
Lemma shown_integer n : is_json_integer n = true -> exists z, is_integer (JNum n) z /\ show_jnum n = show_Z z.
Proof. destruct n; [eexists; split; [constructor|reflexivity]|eexists; split; [constructor|reflexivity]|discriminate]. Qed.

Lemma picked_missing o fs : picked (lacks o) fs
  (filter (fun f => match f_default f with
                    | None => match jget (f_name f) o with None => true | Some _ => false end
                    | Some _ => false end) fs).
Proof.
  induction fs as [|f fs IH]; [constructor|]. cbn [filter]. unfold jget, lacks in *.
  destruct (f_default f) eqn:Ed; [constructor 3; [|exact IH]; intros [X _]; congruence|].
  destruct (assoc (f_name f) o) eqn:Ea.
  - constructor 3; [|exact IH]. intros [_ X]. apply X. apply assoc_In in Ea. apply (in_map fst) in Ea. exact Ea.
  - constructor 2; [|exact IH]. split; [exact Ed|]. now apply assoc_none_notin.
Qed.
Lemma picked_det {A} (P : A -> Prop) l l1 l2 : picked P l l1 -> picked P l l2 -> l1 = l2.
Proof.
  intro H1. revert l2. induction H1; intros l2 H2; inversion H2; subst; auto; try contradiction. f_equal. auto.
Qed.
Lemma picked_is o fs l : picked (lacks o) fs l -> map f_name l = missing_required fs o.
Proof. intro Hp. unfold missing_required. f_equal. eapply picked_det; [exact Hp|apply picked_missing]. Qed.

Lemma listed_join l : l <> [] -> listed l (join_comma l).
Proof.
  induction l as [|x [|y l] IH]; intro Hn; [congruence|constructor|].
  cbn [join_comma] in *. constructor. apply IH. discriminate.
Qed.
Lemma listed_is l t : listed l t -> t = join_comma l.
Proof.
  induction 1; [reflexivity|]. subst. destruct l as [|y l]; [|reflexivity].
  match goal with Hl : listed [] _ |- _ => inversion Hl end.
Qed.

Definition fits (v : json) (s : schema) : Prop := is_valid_default v s = true.

(** The loop over the fields of a record *)
Definition first_bad (o : list (string * json)) :=
  fix first (l : list field) : option string :=
    match l with
    | [] => None
    | f :: r =>
        match jget (f_name f) o with
        | Some fv =>
            match validate_default fv (f_schema f) with
            | Some reason => Some ("invalid value for field `" ++ f_name f ++ "`: " ++ reason)%string
            | None => first r
            end
        | None => first r
        end
    end.

Lemma first_bad_some o fs m : first_bad o fs = Some m -> exists before f after v reason,
  fs = before ++ f :: after /\ (forall g w, In g before -> assoc (f_name g) o = Some w -> fits w (f_schema g))
  /\ assoc (f_name f) o = Some v /\ validate_default v (f_schema f) = Some reason
  /\ m = ("invalid value for field `" ++ f_name f ++ "`: " ++ reason)%string.
Proof.
  induction fs as [|f fs IH]; cbn [first_bad]; [discriminate|]. unfold jget.
  destruct (assoc (f_name f) o) as [v|] eqn:Ea.
  - destruct (validate_default v (f_schema f)) as [r|] eqn:Ev.
    + intro E. injection E as <-. exists [], f, fs, v, r. repeat split; auto. intros g w [].
    + intro E. destruct (IH E) as (b & f' & a & v' & r & -> & Hb & X). exists (f :: b), f', a, v', r. split; [reflexivity|]. split; [|exact X].
      intros g w [<-|Hg] Hw; [|eapply Hb; eassumption]. rewrite Ea in Hw. injection Hw as <-. now apply validate_default_none.
  - intro E. destruct (IH E) as (b & f' & a & v' & r & -> & Hb & X). exists (f :: b), f', a, v', r. split; [reflexivity|]. split; [|exact X].
    intros g w [<-|Hg] Hw; [congruence|eapply Hb; eassumption].
Qed.
Lemma first_bad_at o before f after v reason :
  (forall g w, In g before -> assoc (f_name g) o = Some w -> fits w (f_schema g)) ->
  assoc (f_name f) o = Some v -> validate_default v (f_schema f) = Some reason ->
  first_bad o (before ++ f :: after) = Some ("invalid value for field `" ++ f_name f ++ "`: " ++ reason)%string.
Proof.
  intros Hb Ha Hv. induction before as [|g b IH]; cbn [app first_bad]; unfold jget.
  - now rewrite Ha, Hv.
  - assert (IH' := IH (fun g' w Hg => Hb g' w (or_intror Hg))). destruct (assoc (f_name g) o) as [w|] eqn:Eg; [|exact IH'].
    rewrite (proj2 (validate_default_none w (f_schema g))); [exact IH'|]. exact (Hb g w (or_introl eq_refl) Eg).
Qed.
Lemma first_bad_none o fs : first_bad o fs = None -> missing_required fs o = [] ->
  forall n ns d e al ps, is_valid_default (JObj o) (SRecord n ns d fs e al ps) = true.
Proof.
  intros Hf Hm n ns d e al ps. cbn [is_valid_default]. induction fs as [|f fs IH]; [reflexivity|].
  cbn [forallb first_bad] in *. unfold missing_required in Hm. cbn [filter] in Hm. unfold jget in *.
  destruct (assoc (f_name f) o) as [v|] eqn:Ea.
  - destruct (validate_default v (f_schema f)) eqn:Ev; [discriminate|]. apply validate_default_none in Ev. rewrite Ev. cbn [andb].
    apply IH; [exact Hf|]. destruct (f_default f); exact Hm.
  - destruct (f_default f); [cbn [andb]; apply IH; assumption|discriminate].
Qed.

Lemma validate_record v n ns d fs e al ps : is_valid_default v (SRecord n ns d fs e al ps) = false ->
  validate_default v (SRecord n ns d fs e al ps) =
  match v with
  | JObj o =>
      match missing_required fs o with
      | [] => match first_bad o fs with Some m => Some m
              | None => Some ("expected " ++ type_description (SRecord n ns d fs e al ps) ++ ", got " ++ json_type_description v)%string end
      | miss => Some ("missing required field" ++ (match miss with _ :: _ :: _ => "s" | _ => "" end)
                      ++ " in record `" ++ n ++ "`: " ++ join_comma miss)%string
      end
  | _ => Some ("expected " ++ type_description (SRecord n ns d fs e al ps) ++ ", got " ++ json_type_description v)%string
  end.
Proof.
  intro E. cbn [validate_default]. rewrite E. destruct v; try reflexivity. cbn [range_message]. now destruct (is_json_integer n0).
Qed.

Lemma validate_other v s : (forall n ns d fs e al ps o, s = SRecord n ns d fs e al ps -> v <> JObj o) -> is_valid_default v s = false ->
  validate_default v s = match range_message v s with Some m => Some m
    | None => Some ("expected " ++ type_description s ++ ", got " ++ json_type_description v)%string end.
Proof.
  intros Hr E. destruct s; cbn [validate_default]; rewrite E; try reflexivity. destruct v; try reflexivity. exfalso. eapply Hr; reflexivity.
Qed.

Lemma int_range z : ((i32_min <=? z) && (z <=? i32_max))%Z = false <-> (z < -2147483648 \/ 2147483647 < z)%Z.
Proof. unfold i32_min, i32_max. rewrite andb_false_iff, !Z.leb_gt. tauto. Qed.

Lemma prim_int_bad v z : wf_json v -> is_integer v z -> is_valid_default v (SPrim PInt) = false <-> (z < -2147483648 \/ 2147483647 < z)%Z.
Proof.
  intros W Hz. revert W. destruct Hz as [n|z0]; intro W; cbn [is_valid_default is_valid_prim_default]; unfold num_is_i64; cbn [num_as_i64].
  - destruct (N.leb_spec n i64_max); cbn [andb]; [apply int_range|]. split; [|reflexivity]. intros _. right. change i64_max with 9223372036854775807%N in *. lia.
  - cbn [andb]. apply int_range.
Qed.
Lemma prim_long_bad v z : wf_json v -> is_integer v z -> is_valid_default v (SPrim PLong) = false <-> (z < -9223372036854775808 \/ 9223372036854775807 < z)%Z.
Proof.
  intros W Hz. revert W. destruct Hz as [n|z0]; intro W; cbn [is_valid_default is_valid_prim_default]; unfold num_is_i64; cbn [num_as_i64].
  - unfold i64_max. destruct (N.leb_spec n 9223372036854775807); (split; [intro X; try discriminate; lia|]); intro X; [lia|reflexivity].
  - split; [discriminate|]. inversion W; subst. intro X. lia.
Qed.

Lemma range_integer v s m : range_message v s = Some m -> exists z, is_integer v z
  /\ (s = SPrim PInt /\ m = ("value " ++ show_Z z ++ " out of range for int (must be between -2147483648 and 2147483647)")%string
      \/ s = SPrim PLong /\ m = ("value " ++ show_Z z ++ " out of range for long (must be between -9223372036854775808 and 9223372036854775807)")%string).
Proof.
  unfold range_message. destruct v; try discriminate. destruct (is_json_integer n) eqn:En; [|discriminate].
  destruct (shown_integer n En) as (z & Hz & E). destruct s as [p| | | | | | | | |]; try discriminate.
  destruct p; try discriminate; intro X; injection X as <-; exists z; (split; [exact Hz|]); rewrite E; [left|right]; split; reflexivity.
Qed.
Lemma range_none v s z : is_integer v z -> s = SPrim PInt \/ s = SPrim PLong -> range_message v s <> None.
Proof. intros Hz Hs. destruct (integer_shown v z Hz) as (n & -> & En & _). unfold range_message. rewrite En. destruct Hs as [-> | ->]; discriminate. Qed.
Lemma range_not v s : (s = SPrim PInt \/ s = SPrim PLong -> forall z, ~ is_integer v z) -> range_message v s = None.
Proof.
  intro Hn. destruct (range_message v s) as [m|] eqn:E; [|reflexivity]. exfalso.
  destruct (range_integer _ _ _ E) as (z & Hz & X). eapply Hn; [|exact Hz]. tauto.
Qed.

Lemma invalid_kind v s m : wf_json v -> is_valid_default v s = false ->
  (forall n ns d fs e al ps o, s = SRecord n ns d fs e al ps -> v <> JObj o) ->
  validate_default v s = Some m -> explains fits v s m.
Proof.
  intros W Ef Hr. rewrite (validate_other _ _ Hr Ef). destruct (range_message v s) as [m'|] eqn:Er; intro E; injection E as <-.
  - destruct (range_integer _ _ _ Er) as (z & Hz & [[-> ->]|[-> ->]]).
    + apply ex_int; [exact Hz|]. now apply (prim_int_bad v z W Hz).
    + apply ex_long; [exact Hz|]. now apply (prim_long_bad v z W Hz).
  - apply ex_kind; auto.
    + unfold fits. congruence.
    + intros Hs z Hz. exact (range_none _ _ _ Hz Hs Er).
    + apply called_description. intros n ns ps sp ->. discriminate.
    + apply kind_description.
Qed.

Lemma explained s : forall v m, wf_json v -> validate_default v s = Some m -> explains fits v s m.
Proof.
  induction s as [p|nm ns d fs e al ps IH|nm ns d sy df al ps|nm ns d sz al ps|i ps IH|i ps IH
                 |ts b IH|k ps|l ps|nm ns ps sp] using schema_ind'; intros v m W E;
    (match type of E with validate_default ?v ?s = _ =>
       assert (Ef : is_valid_default v s = false)
         by (destruct (is_valid_default v s) eqn:X; [apply validate_default_none in X; congruence|reflexivity]) end);
    try (apply invalid_kind; auto; discriminate).
  destruct v as [| | | | |o]; try (apply invalid_kind; auto; discriminate).
  rewrite (validate_record _ _ _ _ _ _ _ _ Ef) in E. pose proof (picked_missing o fs) as P. unfold missing_required in E.
  destruct (filter _ fs) as [|f [|g l]] eqn:El; cbn [map] in E.
  - destruct (first_bad o fs) as [m'|] eqn:Eb.
    + injection E as <-. destruct (first_bad_some _ _ _ Eb) as (b & f & a & v & r & -> & Hb & Ha & Hv & ->).
      eapply ex_field; eauto. rewrite Forall_forall in IH. apply IH; [apply in_or_app; right; now left| |exact Hv].
      inversion W; subst. apply assoc_In in Ha. eauto.
    + exfalso. assert (Hm : missing_required fs o = []) by (unfold missing_required; now rewrite El).
      rewrite (first_bad_none _ _ Eb Hm) in Ef. discriminate.
  - injection E as <-. now apply ex_missing_one.
  - injection E as <-. eapply ex_missing_more; [exact P|]. apply (listed_join (map f_name (f :: g :: l))). discriminate.
Qed.

Lemma missing_invalid n ns d fs e al ps o f l : picked (lacks o) fs (f :: l) -> is_valid_default (JObj o) (SRecord n ns d fs e al ps) = false.
Proof.
  intro Hp. remember (f :: l) as l0. cbn [is_valid_default]. induction Hp as [|x r r' [Hx Hy] _ _|x r r' Hx Hp IH]; [discriminate| |].
  - cbn [forallb]. unfold jget. rewrite Hx. destruct (assoc (f_name x) o) eqn:Ea; [|reflexivity]. exfalso. apply Hy. apply assoc_In in Ea.
    apply (in_map fst) in Ea. exact Ea.
  - cbn [forallb]. rewrite (IH Heql0). apply andb_false_r.
Qed.

Lemma explains_said v s m : wf_json v -> explains fits v s m -> validate_default v s = Some m.
Proof.
  intros W X. induction X as [v z Hz Hr|v z Hz Hr|n ns d fs e al ps o f P|n ns d fs e al ps o f g l t P L
    |n ns d fs e al ps o b f a v r P E Hb Ha X IH|v s t k Hf Hi Ho Hc Hk].
  - rewrite validate_other; [|discriminate|now apply (prim_int_bad v z W Hz)].
    destruct (integer_shown v z Hz) as (n & -> & En & Es). unfold range_message. rewrite En, Es. reflexivity.
  - rewrite validate_other; [|discriminate|now apply (prim_long_bad v z W Hz)].
    destruct (integer_shown v z Hz) as (n & -> & En & Es). unfold range_message. rewrite En, Es. reflexivity.
  - rewrite validate_record by (eapply missing_invalid; exact P). rewrite <- (picked_is _ _ _ P). reflexivity.
  - rewrite validate_record by (eapply missing_invalid; exact P). rewrite <- (picked_is _ _ _ P), (listed_is _ _ L). reflexivity.
  - assert (Wv : wf_json v) by (inversion W; subst; apply assoc_In in Ha; eauto). specialize (IH Wv). rewrite validate_record.
    + rewrite <- (picked_is _ _ _ P). cbn [map]. subst fs. rewrite (first_bad_at _ _ _ _ _ _ Hb Ha IH). reflexivity.
    + subst fs. cbn [is_valid_default]. rewrite forallb_app. cbn [forallb]. unfold jget at 2. rewrite Ha.
      destruct (is_valid_default v (f_schema f)) eqn:Ev; [apply validate_default_none in Ev; congruence|]. cbn [andb]. apply andb_false_r.
  - rewrite validate_other; [|exact Ho|destruct (is_valid_default v s) eqn:Ev; [contradiction (Hf Ev)|reflexivity]].
    rewrite (range_not _ _ Hi), (called_is _ _ Hc), (kind_is _ _ Hk). reflexivity.
Qed.

(** What counts as fitting may be said in another way that agrees on the parts. *)
Lemma explains_agree (f g : json -> schema -> Prop) :
  (forall v s, wf_json v -> ref_free s = true -> (f v s <-> g v s)) ->
  forall v s m, wf_json v -> ref_free s = true -> explains f v s m -> explains g v s m.
Proof.
  intros Hfg v s m W R X. induction X as [v z Hz Hr|v z Hz Hr|n ns d fs e al ps o x P|n ns d fs e al ps o x y l t P L
    |n ns d fs e al ps o b x a v r P E Hb Ha X IH|v s t k Hf Hi Ho Hc Hk].
  - now apply ex_int.
  - now apply ex_long.
  - now apply ex_missing_one.
  - now apply (ex_missing_more g n ns d fs e al ps o x y l).
  - cbn [ref_free] in R. rewrite forallb_forall in R. apply (ex_field g n ns d fs e al ps o b x a v); auto.
    + intros h w Hh Hw. apply Hfg; [|apply R; subst fs; apply in_or_app; now left|eapply Hb; eassumption].
      inversion W; subst. apply assoc_In in Hw. eauto.
    + apply IH; [|apply R; subst fs; apply in_or_app; right; now left]. inversion W; subst. apply assoc_In in Ha. eauto.
  - apply ex_kind; auto. intro G. apply Hf. now apply Hfg.
Qed.
