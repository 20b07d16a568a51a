(** Importing a document means what the specification reader says. *)
From Verif Require Import BaseProofs MeaningProofs RegistryProofs.
From Verif Require Export SpecImport.
From Coq Require Import Permutation Sorted.

(** *** Flattening *)

Lemma flatten_record n ns d fs e al ps :
  flatten (SRecord n ns d fs e al ps)
  = (flat_map (fun f => fst (flatten (f_schema f))) fs
       ++ [SRecord n ns d (map (fun f => mkField (f_name f) (snd (flatten (f_schema f))) (f_doc f) (f_default f)
                                           (f_order f) (f_aliases f) (f_props f)) fs) e al ps],
     SRef n ns [] None).
Proof.
  cbn [flatten]. f_equal. f_equal.
  - induction fs as [|f fs IH]; [reflexivity|]. cbn. f_equal. exact IH.
  - rewrite map_map. reflexivity.
Qed.

Lemma flatten_meaning s : meaning (snd (flatten s)) = meaning s.
Proof.
  induction s as [p|n ns d fs e al ps Hfs|n ns d sy df al ps|n ns d sz al ps|i ps IHi|i ps IHi
                  |ts b Hts|k ps|l ps|n ns ps sp] using schema_ind'; try reflexivity.
  - cbn [flatten]. destruct (flatten i) as [c i']. cbn in *. rewrite IHi. reflexivity.
  - cbn [flatten]. destruct (flatten i) as [c i']. cbn in *. rewrite IHi. reflexivity.
  - cbn. f_equal. rewrite !map_map. apply map_ext_in. intros t Ht. rewrite Forall_forall in Hts. exact (Hts t Ht).
Qed.

Lemma flatten_defs s : map named_meaning (fst (flatten s)) = map named_meaning (inner_first s).
Proof.
  induction s as [p|n ns d fs e al ps Hfs|n ns d sy df al ps|n ns d sz al ps|i ps IHi|i ps IHi
                  |ts b Hts|k ps|l ps|n ns ps sp] using schema_ind'; try reflexivity.
  - rewrite flatten_record. cbn [fst inner_first]. rewrite !map_app. f_equal.
    + induction Hfs as [|f fs Hf _ IH]; [reflexivity|]. cbn [flat_map]. rewrite !map_app, IH, Hf. reflexivity.
    + cbn. do 3 f_equal. f_equal. rewrite map_map. apply map_ext. intro f. unfold field_meaning. cbn.
      rewrite flatten_meaning. reflexivity.
  - cbn [flatten]. destruct (flatten i) as [c i']. exact IHi.
  - cbn [flatten]. destruct (flatten i) as [c i']. exact IHi.
  - cbn. induction Hts as [|t ts Ht _ IH]; [reflexivity|]. cbn. rewrite !map_app, IH, Ht. reflexivity.
Qed.

Lemma flatten_no_inline s : no_inline (snd (flatten s)) = true.
Proof.
  induction s as [p|n ns d fs e al ps Hfs|n ns d sy df al ps|n ns d sz al ps|i ps IHi|i ps IHi
                  |ts b Hts|k ps|l ps|n ns ps sp] using schema_ind'; try reflexivity.
  - cbn [flatten]. destruct (flatten i). exact IHi.
  - cbn [flatten]. destruct (flatten i). exact IHi.
  - cbn. induction Hts as [|t ts Ht _ IH]; [reflexivity|]. cbn. rewrite Ht. exact IH.
Qed.

Lemma flatten_flat s : Forall (fun t => flat_definition t = true) (fst (flatten s)).
Proof.
  induction s as [p|n ns d fs e al ps Hfs|n ns d sy df al ps|n ns d sz al ps|i ps IHi|i ps IHi
                  |ts b Hts|k ps|l ps|n ns ps sp] using schema_ind'; try constructor; try constructor.
  - rewrite flatten_record. cbn [fst]. apply Forall_app. split.
    + induction Hfs as [|f fs Hf _ IH]; [constructor|]. cbn. apply Forall_app. auto.
    + constructor; [|constructor]. cbn. apply forallb_forall. intros f Hf. apply in_map_iff in Hf.
      destruct Hf as (f0 & <- & _). cbn. apply flatten_no_inline.
  - cbn [flatten]. destruct (flatten i). exact IHi.
  - cbn [flatten]. destruct (flatten i). exact IHi.
  - cbn. induction Hts as [|t ts Ht _ IH]; [constructor|]. cbn. apply Forall_app. auto.
Qed.

(** *** Objects *)

Lemma sortedb_sorted (o : list (string * json)) : sortedb o = true -> sorted o.
Proof.
  intro E. apply Sorted_StronglySorted.
  { intros a b c. unfold key_lt. apply str_lt_trans. }
  induction o as [|[k v] o IH]; [constructor|]. destruct o as [|[k' v'] o].
  - repeat constructor.
  - cbn [sortedb] in E. destruct (String.compare k k') eqn:Ec; try discriminate.
    constructor; [apply IH; exact E|]. constructor. exact Ec.
Qed.

Lemma NoDup_app_disj (l m : list string) :
  NoDup l -> NoDup m -> (forall x, In x l -> ~ In x m) -> NoDup (l ++ m).
Proof.
  intros Hl Hm Hd. induction Hl as [|x l Hx Hl IH]; [exact Hm|]. cbn. constructor.
  - rewrite in_app_iff. intros [Hin|Hin]; [contradiction|]. exact (Hd x (or_introl eq_refl) Hin).
  - apply IH. intros y Hy. apply Hd. right. exact Hy.
Qed.

Lemma attrs_rest structural known extra o :
  sorted o -> NoDup (keys extra) ->
  (forall k v, assoc k extra = Some v -> str_mem k structural = false /\ str_mem k known = true /\ assoc k o = Some v) ->
  (forall k v, assoc k o = Some v -> str_mem k structural = false -> str_mem k known = true -> assoc k extra = Some v) ->
  (forall k, str_mem k structural = true -> str_mem k known = true) ->
  canon (extra ++ collect_extra_properties o known) = attrs_except structural o.
Proof.
  intros Ho Hn Hex Hex2 Hsub. unfold canon, collect_extra_properties, attrs_except.
  set (rest := filter (fun kv => negb (str_mem (fst kv) known)) o).
  assert (Hr : forall k, assoc k rest = if negb (str_mem k known) then assoc k o else None)
    by (intro k; apply (assoc_filter (fun x => negb (str_mem x known)))).
  assert (Hnd : NoDup (keys (extra ++ rest))).
  { unfold keys. rewrite map_app. apply NoDup_app_disj.
    - exact Hn.
    - apply sorted_NoDup. apply sorted_filter. exact Ho.
    - intros x Hx Hx2. apply In_keys_assoc in Hx. destruct Hx as (v & Hv). apply Hex in Hv. destruct Hv as (_ & Hk & _).
      apply In_keys_assoc in Hx2. destruct Hx2 as (w & Hw). rewrite Hr, Hk in Hw. discriminate. }
  apply sorted_ext.
  - apply bt_extend_sorted, sorted_nil.
  - apply sorted_filter, Ho.
  - intro k. rewrite assoc_bt_extend_NoDup by exact Hnd.
    rewrite (assoc_filter (fun x => negb (str_mem x structural))). rewrite assoc_app, Hr.
    destruct (assoc k extra) as [v|] eqn:E.
    + destruct (Hex k v E) as (A & B & C). rewrite A, C. reflexivity.
    + destruct (str_mem k known) eqn:Ek; cbn.
      * destruct (str_mem k structural) eqn:Es; [reflexivity|]. cbn.
        destruct (assoc k o) as [v|] eqn:Eo; [|reflexivity]. rewrite (Hex2 k v Eo Es Ek) in E. discriminate.
      * destruct (str_mem k structural) eqn:Es; [rewrite (Hsub k Es) in Ek; discriminate|]. cbn.
        destruct (assoc k o); reflexivity.
Qed.

Lemma get_str_sget k o : get_str k o = sget k o.
Proof. unfold get_str, sget, jget. destruct (assoc k o) as [[]|]; reflexivity. Qed.

Lemma string_attr k o : string_or_absent k o = true -> opt_attr k (option_map JStr (get_str k o)) = opt_attr k (assoc k o).
Proof.
  unfold string_or_absent, get_str, jget. destruct (assoc k o) as [[]|]; try discriminate; reflexivity.
Qed.

Lemma assoc_opt_attr k k' v : assoc k (opt_attr k' v) = if String.eqb k k' then v else None.
Proof. unfold opt_attr. destruct v; cbn; destruct (String.eqb k k'); reflexivity. Qed.

Lemma keys_opt_attr k v x : In x (keys (opt_attr k v)) -> x = k.
Proof. unfold opt_attr. destruct v; cbn; intuition. Qed.

Lemma extract_all_strings l ss : all_strings l = Some ss -> extract_string_array (Some (JArr l)) = ss.
Proof.
  revert ss. induction l as [|x l IH]; intros ss E; cbn in *.
  - injection E as <-. reflexivity.
  - destruct x; try discriminate. destruct (all_strings l) as [r|]; [|discriminate]. injection E as <-.
    cbn. f_equal. apply IH. reflexivity.
Qed.

Lemma aliases_read o ns al :
  def_aliases o ns = Some al -> map (resolve_name ns) (extract_string_array (jget "aliases" o)) = al.
Proof.
  unfold def_aliases, jget. destruct (assoc "aliases" o) as [[]|]; try discriminate.
  - destruct (all_strings l) as [ss|] eqn:E; [|discriminate]. rewrite (extract_all_strings _ _ E). congruence.
  - intro E. injection E as <-. reflexivity.
Qed.

Lemma parse_name_sget o dns :
  parse_name o dns =
  match sget "name" o with
  | None => None
  | Some raw =>
      let '(name, inferred) := split_full_name raw in
      Some (name, opt_or (sget "namespace" o) (opt_or inferred dns))
  end.
Proof.
  unfold parse_name, get_str, sget, jget.
  destruct (assoc "name" o) as [[]|]; try reflexivity; destruct (assoc "namespace" o) as [[]|]; reflexivity.
Qed.

Lemma name_reads o dns full ns :
  clean_name o = true -> def_name o (nsof dns) = Some (full, ns) ->
  exists name ns', parse_name o dns = Some (name, ns') /\ fullname name ns' = full /\ nsof ns' = ns
    /\ opt_or ns' dns = ns'.
Proof.
  rewrite parse_name_sget. unfold clean_name, def_name.
  destruct (sget "name" o) as [n|]; [|discriminate]. intros Hc E.
  apply andb_true_iff in Hc. destruct Hc as [Hl Hd]. unfold split_full_name.
  destruct (rsplit_once_dot n) as [[a b]|] eqn:Er.
  - injection E as <- <-. unfold leading_dot in Hl. rewrite Er in Hl.
    pose proof Er as Er'. apply rsplit_Some in Er. destruct Er as [En Hb].
    assert (Hdot : contains_dot n = true).
    { destruct (contains_dot n) eqn:Ed; [reflexivity|]. apply rsplit_None in Ed. congruence. }
    rewrite Hdot in Hd. cbn in Hd. unfold absent in Hd. unfold sget at 1.
    destruct (assoc "namespace" o); [discriminate|]. exists b, (Some a). cbn.
    repeat split. unfold fullname, qualify. cbn. destruct (str_is_empty a); [discriminate|]. symmetry. exact En.
  - injection E as <- <-. destruct (sget "namespace" o) as [x|]; cbn.
    + exists n, (Some x). repeat split.
    + exists n, dns. repeat split. destruct dns; reflexivity.
Qed.

(** *** Traversals in parallel *)

Definition imports_as {Z Y} (defs : Z -> list schema) (mean : Z -> Y) (h : ires Z) (st : rstate)
  (y : Y) (st' : rstate) : Prop :=
  exists z new, h = Ok z /\ mean z = y /\ snd st' = snd st ++ new
    /\ map named_meaning (defs z) = map Some new.

Lemma map_res_st {A Z Y} (g : A -> rstate -> option (Y * rstate)) (h : A -> ires Z) defs mean l :
  (forall x st y st', In x l -> g x st = Some (y, st') -> imports_as defs mean (h x) st y st') ->
  forall st ys st', map_st g l st = Some (ys, st') ->
  imports_as (flat_map defs) (map mean) (map_res h l) st ys st'.
Proof.
  induction l as [|x l IH]; intros Hg st ys st' E.
  - rewrite map_st_nil in E. inversion E; subst. exists [], []. cbn.
    rewrite app_nil_r. auto.
  - rewrite map_st_cons in E. destruct (g x st) as [[y st1]|] eqn:E1; [|discriminate].
    destruct (map_st g l st1) as [[ys' st2]|] eqn:E2; [|discriminate]. inversion E; subst.
    destruct (Hg x st y st1 (or_introl eq_refl) E1) as (z & new & Hz & Hm & Hs & Hd).
    destruct (IH (fun x' s1 y' s2 Hin => Hg x' s1 y' s2 (or_intror Hin)) _ _ _ E2) as (zs & news & Hzs & Hms & Hss & Hds).
    exists (z :: zs), (new ++ news). rewrite map_res_cons, Hz, Hzs. cbn. rewrite Hm, Hms, !map_app, Hd, Hds, Hss, Hs, app_assoc.
    auto.
Qed.

(** *** Attributes of the individual constructs *)

Ltac key_cases :=
  repeat match goal with
         | |- context [String.eqb ?k ?x] => is_var k; destruct (String.eqb_spec k x) as [->|?]
         | H : context [String.eqb ?k ?x] |- _ => is_var k; destruct (String.eqb_spec k x) as [->|?]
         end.

Ltac attr_keys :=
  intros; unfold str_mem in *; cbn [existsb] in *; rewrite ?assoc_app, ?assoc_opt_attr in *;
  key_cases; cbn in *; try discriminate;
  repeat match goal with
         | H : context [match assoc ?x ?o with _ => _ end] |- _ => destruct (assoc x o) eqn:?
         | |- context [match assoc ?x ?o with _ => _ end] => destruct (assoc x o) eqn:?
         end; try discriminate; try (repeat split; congruence); auto.

Lemma one_opt_attr_NoDup k v : NoDup (keys (opt_attr k v)).
Proof. unfold opt_attr. destruct v; repeat constructor. intros []. Qed.

Lemma doc_attrs structural known o :
  sorted o -> string_or_absent "doc" o = true ->
  (forall k, str_mem k structural = true -> str_mem k known = true) ->
  str_mem "doc" structural = false ->
  (forall k, str_mem k known = true -> str_mem k structural = true \/ k = "doc") -> str_mem "doc" known = true ->
  canon (opt_attr "doc" (option_map JStr (get_str "doc" o)) ++ collect_extra_properties o known)
  = attrs_except structural o.
Proof.
  intros Ho Hd Hsub Hds Hk Hdk. rewrite string_attr by exact Hd. apply attrs_rest; auto.
  - apply one_opt_attr_NoDup.
  - intros k v. rewrite assoc_opt_attr. destruct (String.eqb_spec k "doc") as [->|]; [|discriminate]. auto.
  - intros k v E Hs Hkn. destruct (Hk k Hkn) as [Hs'| ->]; [congruence|]. rewrite assoc_opt_attr. exact E.
Qed.

Lemma enum_attrs o :
  sorted o -> string_or_absent "doc" o = true -> string_or_absent "default" o = true ->
  canon (opt_attr "doc" (option_map JStr (get_str "doc" o))
         ++ opt_attr "default" (option_map JStr (get_str "default" o))
         ++ collect_extra_properties o ["type"; "name"; "namespace"; "doc"; "symbols"; "default"; "aliases"])
  = attrs_except enum_structure o.
Proof.
  intros Ho Hd Hd2. rewrite !string_attr by assumption. rewrite app_assoc. apply attrs_rest; auto.
  - unfold keys. rewrite map_app. apply NoDup_app_disj; try apply one_opt_attr_NoDup.
    intros x Hx Hy. apply keys_opt_attr in Hx. apply keys_opt_attr in Hy. congruence.
  - unfold enum_structure. attr_keys.
  - unfold enum_structure. attr_keys.
  - unfold enum_structure. attr_keys.
Qed.

Lemma field_attrs o :
  clean_field_attrs o = true ->
  canon (opt_attr "doc" (option_map JStr (get_str "doc" o)) ++ opt_attr "default" (jget "default" o)
         ++ order_attr (parse_order (get_str "order" o))
         ++ list_attr "aliases" (extract_string_array (jget "aliases" o))
         ++ collect_extra_properties o ["name"; "type"; "doc"; "default"; "order"; "aliases"])
  = attrs_except ["name"; "type"] o.
Proof.
  intro Hc. unfold clean_field_attrs in Hc. rewrite !andb_true_iff in Hc. destruct Hc as [[[Ho Hd] Hor] Hal].
  apply sortedb_sorted in Ho.
  assert (E1 : order_attr (parse_order (get_str "order" o)) = opt_attr "order" (assoc "order" o)).
  { unfold get_str, jget. destruct (assoc "order" o) as [[]|]; try discriminate; [|reflexivity].
    apply orb_true_iff in Hor. destruct Hor as [E|E]; apply String.eqb_eq in E; subst s; reflexivity. }
  assert (E2 : list_attr "aliases" (extract_string_array (jget "aliases" o)) = opt_attr "aliases" (assoc "aliases" o)).
  { unfold jget. destruct (assoc "aliases" o) as [[| | | |l|]|]; try discriminate; [|reflexivity].
    destruct l as [|x l]; [discriminate|]. destruct (all_strings (x :: l)) as [ss|] eqn:Es; [|discriminate].
    rewrite (extract_all_strings _ _ Es).
    assert (Hm : x :: l = map JStr ss).
    { clear - Es. revert ss Es. generalize (x :: l) as m. induction m as [|y m IH]; intros ss Es; cbn in Es.
      - injection Es as <-. reflexivity.
      - destruct y; try discriminate. destruct (all_strings m) as [r|]; [|discriminate]. injection Es as <-.
        cbn. f_equal. apply IH. reflexivity. }
    destruct ss as [|s ss]; [discriminate|]. unfold list_attr, opt_attr. rewrite Hm. reflexivity. }
  rewrite E1, E2, string_attr by assumption. unfold jget. rewrite !app_assoc. apply attrs_rest; auto.
  - unfold keys. rewrite !map_app. repeat apply NoDup_app_disj; try apply one_opt_attr_NoDup;
      intros x Hx Hy; repeat (apply in_app_iff in Hx; destruct Hx as [Hx|Hx]);
      repeat match goal with
             | H : In _ (map fst (opt_attr _ _)) |- _ => apply keys_opt_attr in H
             end; congruence.
  - attr_keys.
  - attr_keys.
  - attr_keys.
Qed.

Lemma message_attrs o :
  sorted o -> string_or_absent "doc" o = true ->
  canon (opt_attr "doc" (option_map JStr (get_str "doc" o))
         ++ collect_extra_properties o ["doc"; "request"; "response"; "errors"; "one-way"])
  = attrs_except ["request"; "response"; "errors"; "one-way"] o.
Proof.
  intros Ho Hd. apply doc_attrs; auto; try reflexivity; intros k; unfold str_mem; cbn [existsb]; key_cases; cbn; auto.
Qed.

Lemma plain_attrs structural o :
  sorted o -> canon (collect_extra_properties o structural) = attrs_except structural o.
Proof.
  intro Ho. change (collect_extra_properties o structural) with ([] ++ collect_extra_properties o structural).
  apply attrs_rest; auto; try discriminate; [constructor|]. congruence.
Qed.

Lemma primitive_spec ty : str_mem ty spec_primitives = true -> exists p, prim_of_str ty = Some p /\ prim_str p = ty.
Proof.
  intro E. apply str_mem_In in E. cbn in E. decompose [or] E; subst; try contradiction; eexists; split; reflexivity.
Qed.
Lemma primitive_spec_none ty : str_mem ty spec_primitives = false -> prim_of_str ty = None.
Proof.
  intro E. apply str_mem_not_In in E. unfold prim_of_str. cbn in E.
  key_cases; try reflexivity; exfalso; apply E; auto 10.
Qed.

Lemma logical_attrs_read o lt :
  sorted o -> assoc "logicalType" o = Some (JStr (logical_word lt)) ->
  match lt with
  | LDecimal p s => assoc "precision" o = Some (JNum (NPos p)) /\ assoc "scale" o = Some (JNum (NPos s))
  | _ => assoc "precision" o = None /\ assoc "scale" o = None
  end ->
  canon (logical_attrs lt ++ collect_extra_properties o ["type"; "logicalType"; "precision"; "scale"])
  = attrs_except ["type"] o.
Proof.
  intros Ho Hl Hp. apply attrs_rest; auto.
  - destruct lt; cbn; repeat constructor; cbn; intuition discriminate.
  - intros k v. unfold logical_attrs, str_mem. cbn [existsb].
    destruct lt; cbn [assoc]; key_cases; cbn; try discriminate; intro E; injection E as <-; try (auto; fail);
      destruct Hp as [H1 H2]; auto.
  - intros k v E. unfold logical_attrs, str_mem. cbn [existsb]. intros H1 H2.
    destruct lt; cbn [assoc]; destruct Hp as [P1 P2]; key_cases; cbn in *; try discriminate; congruence.
  - intros k. unfold str_mem. cbn [existsb]. key_cases; cbn; auto.
Qed.

Lemma annotated_reads o p :
  sorted o -> assoc "type" o = Some (JStr (prim_str p)) -> clean_primitive (prim_str p) o = true ->
  exists s, parse_annotated_primitive o p = Ok s
    /\ meaning s = TPrim (prim_str p) (attrs_except ["type"] o) /\ inner_first s = [].
Proof.
  intros Ho Hty Hc. unfold clean_primitive in Hc. unfold parse_annotated_primitive. rewrite get_str_sget.
  destruct (sget "logicalType" o) as [ln|] eqn:El.
  - assert (Hl : assoc "logicalType" o = Some (JStr ln)).
    { unfold sget in El. destruct (assoc "logicalType" o) as [[]|]; try discriminate. congruence. }
    destruct (String.eqb_spec ln "decimal") as [->|Hnd].
    + rewrite !andb_true_iff in Hc. destruct Hc as [[Hb Hp] Hs]. apply String.eqb_eq in Hb.
      unfold u32_attr in Hp, Hs.
      destruct (assoc "precision" o) as [[| |[pr| |]| | |]|] eqn:Ep; try discriminate.
      destruct (assoc "scale" o) as [[| |[sc| |]| | |]|] eqn:Es; try discriminate.
      unfold get_u64, jget. rewrite Ep, Es. cbn [as_u64]. unfold u32_of_u64.
      apply andb_true_iff in Hp, Hs. destruct Hp as [Hp1 Hp2]. destruct Hs as [_ Hs2]. rewrite Hp2, Hs2.
      cbn [parse_logical_type String.eqb]. unfold parse_logical_type.
      change (String.eqb "decimal" "date") with false. cbv iota beta.
      cbn. apply N.leb_le in Hp1. destruct (N.ltb_spec pr 1) as [Hlt|_]; [lia|].
      eexists. split; [reflexivity|]. split; [|reflexivity].
      cbn [meaning]. rewrite (logical_attrs_read o (LDecimal pr sc) Ho Hl (conj Ep Es)).
      rewrite Hb. reflexivity.
    + set (prec := match get_u64 "precision" o with Some v => u32_of_u64 v | None => None end).
      set (sc := match get_u64 "scale" o with Some v => u32_of_u64 v | None => None end).
      destruct (assoc ln logical_bases) as [base|] eqn:Eb.
      * rewrite !andb_true_iff in Hc. destruct Hc as [[Hb Hp] Hs]. apply String.eqb_eq in Hb. subst base.
        assert (Hlt : exists lt, parse_logical_type ln prec sc = Some lt /\ logical_word lt = ln
                   /\ carrier lt = prim_str p
                   /\ match lt with LDecimal _ _ => False | _ => True end).
        { clearbody prec sc. clear - Eb. apply assoc_In in Eb. cbn in Eb.
          repeat (destruct Eb as [Eb|Eb]; [injection Eb as <- <-; eexists; repeat split; fail|]). destruct Eb. }
        destruct Hlt as (lt & Hpl & Hln & Hbase & Hnd2). rewrite Hpl.
        assert (Habs : assoc "precision" o = None /\ assoc "scale" o = None).
        { unfold absent in *. destruct (assoc "precision" o); [discriminate|]. destruct (assoc "scale" o); [discriminate|]. auto. }
        destruct lt; try contradiction; (eexists; split; [reflexivity|split; [|reflexivity]]; cbn [meaning];
          rewrite Hbase; rewrite <- Hln in Hl; rewrite (logical_attrs_read o _ Ho Hl Habs); reflexivity).
      * assert (Hpl : parse_logical_type ln prec sc = None).
        { clearbody prec sc. clear - Eb Hnd. apply assoc_None in Eb. cbn in Eb. unfold parse_logical_type.
          repeat match goal with
                 | |- context [String.eqb ln ?x] => destruct (String.eqb_spec ln x) as [He|_];
                     [exfalso; first [exact (Hnd He)|apply Eb; rewrite He; auto 10]|]
                 end. reflexivity. }
        rewrite Hpl. eexists. split; [reflexivity|]. split; [|reflexivity]. cbn [meaning].
        rewrite plain_attrs by exact Ho. reflexivity.
  - pose proof (plain_attrs ["type"] o Ho) as Hpa.
    destruct (collect_extra_properties o ["type"]) as [|kv ps] eqn:Ec.
    + eexists. split; [reflexivity|]. split; [|reflexivity]. cbn [meaning]. rewrite <- Hpa. reflexivity.
    + eexists. split; [reflexivity|]. split; [|reflexivity]. cbn [meaning]. rewrite Hpa. reflexivity.
Qed.

(** *** Type expressions and definitions *)

Lemma reference_reads s dns :
  leading_dot s = false -> str_mem s spec_primitives = false ->
  string_to_schema s dns = SRef (match rsplit_once_dot s with Some (_, b) => b | None => s end)
                                (match rsplit_once_dot s with Some (a, _) => Some a | None => dns end) [] None
  /\ meaning (string_to_schema s dns) = TNamed (resolve_name (nsof dns) s).
Proof.
  intros Hl Hp. unfold string_to_schema. rewrite (primitive_spec_none s Hp). unfold leading_dot in Hl. unfold resolve_name.
  destruct (rsplit_once_dot s) as [[a b]|] eqn:Er.
  - split; [reflexivity|]. cbn. pose proof (proj1 (rsplit_Some s a b) Er) as [Es _].
    destruct (contains_dot s) eqn:Ed; [|apply rsplit_None in Ed; congruence].
    unfold fullname, qualify. cbn. rewrite Hl, Es. reflexivity.
  - split; [reflexivity|]. cbn. apply rsplit_None in Er. rewrite Er. reflexivity.
Qed.

Lemma record_kind ty : str_mem ty ["record"; "error"] = (String.eqb ty "record" || String.eqb ty "error")%bool.
Proof. unfold str_mem. cbn [existsb]. rewrite orb_false_r. reflexivity. Qed.

Lemma import_reads m : forall n j dns st t st',
  jdepth j <= m -> clean n j = true -> read n j (nsof dns) st = Some (t, st') ->
  imports_as inner_first meaning (json_to_schema_n m j dns) st t st'.
Proof.
  induction m as [|m IH]; intros n j dns st t st' Hm Hc E.
  { destruct j; cbn in Hm; lia. }
  destruct n as [|n]; [discriminate|].
  destruct j as [ | b | k | s | l | o]; try discriminate.
  - cbn [clean read json_to_schema_n] in *. apply negb_true_iff in Hc.
    destruct (str_mem s spec_primitives) eqn:Ep.
    + inversion E; subst. destruct (primitive_spec s Ep) as (p & Hp & Hs).
      exists (SPrim p), []. unfold string_to_schema. rewrite Hp. cbn. change (primitive_word p) with (prim_str p). rewrite Hs, app_nil_r. auto.
    + cbv zeta in E. destruct (str_mem (resolve_name (nsof dns) s) (fst st)); [|discriminate]. inversion E; subst.
      destruct (reference_reads s dns Hc Ep) as [H1 H2]. exists (string_to_schema s dns), [].
      rewrite H2, app_nil_r. rewrite H1. auto.
  - cbn [clean read json_to_schema_n] in *.
    destruct (map_st _ l st) as [[ts st1]|] eqn:Em in E; [|discriminate]. inversion E; subst. clear E.
    assert (Hr : imports_as (flat_map inner_first) (map meaning) (map_res (fun t => json_to_schema_n m t dns) l) st ts st').
    { refine (map_res_st _ _ _ _ _ _ _ _ _ Em). intros x s1 y s2 Hx Ex.
      rewrite forallb_forall in Hc. apply (IH n); auto. apply depth_In in Hx. lia. }
    destruct Hr as (z & new & Hz & Hmz & Hs & Hd). rewrite Hz. exists (SUnion z false), new.
    cbn. rewrite Hmz. auto.
  - cbn [clean] in Hc. cbn [read] in E. cbn [json_to_schema_n]. change (get_str "type" o) with (sget "type" o).
    apply andb_true_iff in Hc. destruct Hc as [Ho Hc]. apply sortedb_sorted in Ho.
    destruct (sget "type" o) as [ty|] eqn:Ety; [|discriminate].
    rewrite record_kind in *.
    destruct (String.eqb ty "record" || String.eqb ty "error")%bool eqn:Erec.
    + rewrite !andb_true_iff in Hc. destruct Hc as [[Hn Hdoc] Hfs].
      destruct (def_name o (nsof dns)) as [[full ns]|] eqn:En; [|discriminate].
      destruct (assoc "fields" o) as [[| | | |fj|]|] eqn:Ef; try discriminate.
      destruct (str_mem full (fst st)); [discriminate|].
      destruct (map_st _ fj _) as [[fields st1]|] eqn:Em in E; [|discriminate].
      destruct (def_aliases o ns) as [al|] eqn:Ea; [|discriminate]. inversion E; subst. clear E.
      destruct (name_reads o dns full ns Hn En) as (name & ns' & Hpn & Hfn & Hns & Hopt). rewrite Hpn.
      unfold jget at 1. rewrite Ef. cbn [jarr] in Hfs.
      assert (Hr : imports_as (flat_map (fun f => inner_first (f_schema f))) (map field_meaning)
                     (map_res (fun f => match f with
                        | JObj o =>
                            match get_str "name" o with
                            | None => Err (IErr "field missing 'name'")
                            | Some name =>
                                match jget "type" o with
                                | None => Err (IErr "field missing 'type'")
                                | Some tj =>
                                    match json_to_schema_n m tj (opt_or ns' dns) with
                                    | Err e => Err e
                                    | Ok s =>
                                        Ok (mkField name s (get_str "doc" o) (jget "default" o)
                                              (parse_order (get_str "order" o))
                                              (extract_string_array (jget "aliases" o))
                                              (collect_extra_properties o
                                                 ["name"; "type"; "doc"; "default"; "order"; "aliases"]))
                                    end
                                end
                            end
                        | _ => Err (IErr "field must be an object")
                        end) fj) (full :: fst st, snd st) fields st1).
      { refine (map_res_st _ _ _ _ _ _ _ _ _ Em). intros x s1 y s2 Hx Ex.
        rewrite forallb_forall in Hfs. pose proof (Hfs x Hx) as Hfx.
        destruct x as [| | | | |fo]; try discriminate. apply andb_true_iff in Hfx. destruct Hfx as [Hfa Hft].
        change (get_str "name" fo) with (sget "name" fo). unfold jget at 1.
        destruct (sget "name" fo) as [fname|]; [|discriminate].
        destruct (assoc "type" fo) as [tj|] eqn:Etj; [|discriminate].
        destruct (read n tj ns s1) as [[t1 s3]|] eqn:Er; [|discriminate].
        inversion Ex; subst y s2. clear Ex. rewrite Hopt. rewrite <- Hns in Er.
        assert (Hd : jdepth tj <= m).
        { apply depth_assoc in Etj. apply depth_assoc in Ef. apply depth_In in Hx. lia. }
        destruct (IH n tj ns' s1 t1 s3 Hd Hft Er) as (z & new & Hz & Hmz & Hs & Hdz).
        rewrite Hz. eexists. exists new. split; [reflexivity|]. split; [|auto].
        unfold field_meaning. cbn [f_name f_schema f_doc f_default f_order f_aliases f_props].
        rewrite Hmz, (field_attrs fo Hfa). reflexivity. }
      destruct Hr as (z & new & Hz & Hmz & Hs & Hd). rewrite Hz. eexists. eexists. split; [reflexivity|].
      split; [cbn [meaning]; rewrite Hfn; reflexivity|]. split.
      { cbn [snd]. rewrite Hs. cbn [snd]. rewrite <- app_assoc. reflexivity. }
      cbn [inner_first]. rewrite !map_app, Hd. f_equal. cbn. rewrite Hfn, Hns, Hmz, (aliases_read o ns al Ea).
      rewrite (doc_attrs record_structure); [reflexivity|exact Ho|exact Hdoc| | | |];
        try reflexivity; intros k; unfold record_structure, str_mem; cbn [existsb]; key_cases; cbn; auto.
    + clear Erec. destruct (String.eqb ty "enum").
      { rewrite !andb_true_iff in Hc. destruct Hc as [[Hn Hdoc] Hdef].
        destruct (def_name o (nsof dns)) as [[full ns]|] eqn:En; [|discriminate].
        destruct (assoc "symbols" o) as [[| | | |sl|]|] eqn:Ef; try discriminate.
        destruct (str_mem full (fst st)); [discriminate|].
        destruct (all_strings sl) as [syms|] eqn:Esy; [|discriminate].
        destruct (def_aliases o ns) as [al|] eqn:Ea; [|discriminate]. inversion E; subst. clear E.
        destruct (name_reads o dns full ns Hn En) as (name & ns' & Hpn & Hfn & Hns & _).
        unfold parse_enum. rewrite Hpn. eexists. eexists. split; [reflexivity|].
        split; [cbn [meaning]; rewrite Hfn; reflexivity|]. split; [cbn [snd]; reflexivity|].
        cbn [inner_first]. cbn [map named_meaning def_meaning].
        rewrite Hfn, Hns, (aliases_read o ns al Ea), (enum_attrs o Ho Hdoc Hdef). unfold jget. rewrite Ef.
        rewrite (extract_all_strings _ _ Esy). reflexivity. }
      destruct (String.eqb ty "fixed").
      { rewrite !andb_true_iff in Hc. destruct Hc as [[Hn Hdoc] Hsz].
        destruct (def_name o (nsof dns)) as [[full ns]|] eqn:En; [|discriminate].
        destruct (assoc "size" o) as [[| |[size| |]| | |]|] eqn:Ef; try discriminate.
        destruct (str_mem full (fst st)); [discriminate|].
        destruct (def_aliases o ns) as [al|] eqn:Ea; [|discriminate]. inversion E; subst. clear E.
        destruct (name_reads o dns full ns Hn En) as (name & ns' & Hpn & Hfn & Hns & _).
        unfold parse_fixed. rewrite Hpn. unfold get_u64, jget at 1. rewrite Ef. cbn [as_u64].
        unfold u32_attr in Hsz. apply andb_true_iff in Hsz. unfold u32_of_u64. rewrite (proj2 Hsz).
        eexists. eexists. split; [reflexivity|].
        split; [cbn [meaning]; rewrite Hfn; reflexivity|]. split; [cbn [snd]; reflexivity|].
        cbn [inner_first]. cbn [map named_meaning def_meaning].
        rewrite Hfn, Hns, (aliases_read o ns al Ea).
        rewrite (doc_attrs fixed_structure); [reflexivity|exact Ho|exact Hdoc| | | |];
          try reflexivity; intros k; unfold fixed_structure, str_mem; cbn [existsb]; key_cases; cbn; auto. }
      destruct (String.eqb ty "array").
      { unfold jget at 1. destruct (assoc "items" o) as [ij|] eqn:Ei; [|discriminate].
        destruct (read n ij (nsof dns) st) as [[t1 st1]|] eqn:Er; [|discriminate]. inversion E; subst. clear E.
        assert (Hd : jdepth ij <= m) by (apply depth_assoc in Ei; lia).
        destruct (IH n ij dns st t1 st' Hd Hc Er) as (z & new & Hz & Hmz & Hs & Hdz). rewrite Hz.
        eexists. exists new. split; [reflexivity|]. split; [|auto]. cbn [meaning].
        rewrite Hmz, (plain_attrs _ o Ho). reflexivity. }
      destruct (String.eqb ty "map").
      { unfold jget at 1. destruct (assoc "values" o) as [ij|] eqn:Ei; [|discriminate].
        destruct (read n ij (nsof dns) st) as [[t1 st1]|] eqn:Er; [|discriminate]. inversion E; subst. clear E.
        assert (Hd : jdepth ij <= m) by (apply depth_assoc in Ei; lia).
        destruct (IH n ij dns st t1 st' Hd Hc Er) as (z & new & Hz & Hmz & Hs & Hdz). rewrite Hz.
        eexists. exists new. split; [reflexivity|]. split; [|auto]. cbn [meaning].
        rewrite Hmz, (plain_attrs _ o Ho). reflexivity. }
      destruct (str_mem ty spec_primitives) eqn:Ep; [|discriminate]. inversion E; subst. clear E.
      destruct (primitive_spec ty Ep) as (p & Hp & Hs). rewrite Hp.
      assert (Hty : assoc "type" o = Some (JStr (prim_str p))).
      { rewrite Hs. unfold sget in Ety. destruct (assoc "type" o) as [[]|]; try discriminate. congruence. }
      rewrite <- Hs in Hc. destruct (annotated_reads o p Ho Hty Hc) as (z & Hz & Hmz & Hi).
      rewrite Hz. exists z, []. rewrite Hmz, Hi, Hs, app_nil_r. auto.
Qed.
