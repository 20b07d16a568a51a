(** Importing whole documents: schemas, protocols and their messages. *)
From Verif Require Import BaseProofs MeaningProofs RegistryProofs ImportProofs DocProofs SpecNames.
From Verif Require Export SpecImport.
From Coq Require Import Permutation.

(** *** Names of imported definitions are simple *)

Definition simple_def (s : schema) : Prop := exists n ns, defines s n ns /\ contains_dot n = false.

Lemma map_res_Forall {A B E} (f : A -> result B E) (P : B -> Prop) l :
  (forall x y, In x l -> f x = Ok y -> P y) -> forall ys, map_res f l = Ok ys -> Forall P ys.
Proof.
  induction l as [|x l IH]; intros Hf ys E0.
  - cbn in E0. injection E0 as <-. constructor.
  - rewrite map_res_cons in E0. destruct (f x) as [y|] eqn:Ey; [|discriminate].
    destruct (map_res f l) as [ys'|]; [|discriminate]. injection E0 as <-. constructor.
    + apply (Hf x); [left; reflexivity|exact Ey].
    + apply IH; [|reflexivity]. intros x' y' Hin. apply Hf. right. exact Hin.
Qed.

Lemma parse_name_simple o dns n ns : parse_name o dns = Some (n, ns) -> contains_dot n = false.
Proof.
  unfold parse_name, split_full_name. destruct (get_str "name" o) as [raw|]; [|discriminate].
  destruct (rsplit_once_dot raw) as [[a b]|] eqn:E; intro H; injection H as <- _.
  - apply rsplit_Some in E. apply E.
  - apply rsplit_None. exact E.
Qed.

Lemma import_simple m : forall j dns s, json_to_schema_n m j dns = Ok s -> Forall simple_def (inner_first s).
Proof.
  induction m as [|m IH]; intros j dns s E; [discriminate|]. cbn [json_to_schema_n] in E.
  destruct j as [ | b | k | x | l | o]; try discriminate.
  - injection E as <-. unfold string_to_schema. destruct (prim_of_str x); [constructor|].
    destruct (rsplit_once_dot x) as [[a b]|]; constructor.
  - destruct (map_res _ l) as [ts|] eqn:Em in E; [|discriminate]. injection E as <-. cbn [inner_first].
    apply Forall_flat_map. eapply map_res_Forall; [|exact Em]. intros x y _ Ex. exact (IH _ _ _ Ex).
  - destruct (get_str "type" o) as [ty|]; [|discriminate].
    destruct (String.eqb ty "record" || String.eqb ty "error")%bool.
    { destruct (parse_name o dns) as [[n ns]|] eqn:En; [|discriminate].
      apply parse_name_simple in En.
      assert (Hone : forall fs, Forall (fun f => Forall simple_def (inner_first (f_schema f))) fs ->
                Forall simple_def (inner_first (SRecord n ns (get_str "doc" o) fs (String.eqb ty "error")
                                    (extract_string_array (jget "aliases" o))
                                    (collect_extra_properties o
                                       ["type"; "name"; "namespace"; "doc"; "fields"; "aliases"])))).
      { intros fs Hfs. cbn [inner_first]. apply Forall_app. split; [apply Forall_flat_map; exact Hfs|].
        constructor; [|constructor]. exists n, ns. split; [constructor|exact En]. }
      destruct (match jget "fields" o with Some (JArr fj) => _ | _ => _ end) as [fs|] eqn:Ef in E; [|discriminate].
      injection E as <-. apply Hone. clear Hone.
      destruct (jget "fields" o) as [[| | | |fj|]|]; try (injection Ef as <-; constructor).
      eapply map_res_Forall; [|exact Ef]. intros x y _ Ex. cbv beta in Ex.
      destruct x as [| | | | |fo]; try discriminate. destruct (get_str "name" fo); [|discriminate].
      destruct (jget "type" fo) as [tj|]; [|discriminate].
      destruct (json_to_schema_n m tj (opt_or ns dns)) as [s1|] eqn:E1; [|discriminate]. injection Ex as <-.
      cbn. exact (IH _ _ _ E1). }
    destruct (String.eqb ty "enum").
    { unfold parse_enum in E. destruct (parse_name o dns) as [[n ns]|] eqn:En; [|discriminate]. injection E as <-.
      apply parse_name_simple in En. constructor; [|constructor]. exists n, ns. split; [constructor|exact En]. }
    destruct (String.eqb ty "fixed").
    { unfold parse_fixed in E. destruct (parse_name o dns) as [[n ns]|] eqn:En; [|discriminate].
      destruct (get_u64 "size" o); [|discriminate]. destruct (u32_of_u64 n0); [|discriminate]. injection E as <-.
      apply parse_name_simple in En. constructor; [|constructor]. exists n, ns. split; [constructor|exact En]. }
    destruct (String.eqb ty "array").
    { destruct (jget "items" o) as [ij|]; [|discriminate]. destruct (json_to_schema_n m ij dns) eqn:E1; [|discriminate].
      injection E as <-. exact (IH _ _ _ E1). }
    destruct (String.eqb ty "map").
    { destruct (jget "values" o) as [ij|]; [|discriminate]. destruct (json_to_schema_n m ij dns) eqn:E1; [|discriminate].
      injection E as <-. exact (IH _ _ _ E1). }
    destruct (prim_of_str ty) as [p|]; [|discriminate]. unfold parse_annotated_primitive in E.
    destruct (get_str "logicalType" o).
    + destruct (parse_logical_type s0 _ _) as [[]|]; try (injection E as <-; constructor).
      destruct (N.ltb precision 1); [discriminate|]. injection E as <-; constructor.
    + destruct (collect_extra_properties o ["type"]); injection E as <-; constructor.
Qed.

Lemma NoDup_app_inv {A} (a b : list A) :
  NoDup (a ++ b) -> NoDup a /\ NoDup b /\ (forall x, In x a -> ~ In x b).
Proof.
  induction a as [|x a IH]; cbn; intro Hn; [repeat split; auto; constructor|]. inversion Hn as [|? ? Hx Hr]; subst.
  destruct (IH Hr) as (Ha & Hb & Hd). rewrite in_app_iff in Hx. repeat split; auto.
  - constructor; tauto.
  - intros y [<-|Hy]; [tauto|auto].
Qed.

(** *** Registering the flattened definitions *)

Section Register.
  Context `{Unicode}.

  Lemma named_meaning_defines s full d :
    named_meaning s = Some (full, d) -> exists n ns, defines s n ns /\ full = fullname n ns.
  Proof.
    destruct s; cbn; try discriminate; intro E; inversion E; subst; do 2 eexists; split; try constructor; reflexivity.
  Qed.

  Lemma defines_inj s n ns n' ns' : defines s n ns -> defines s n' ns' -> n = n' /\ ns = ns'.
  Proof. intros A B. inversion A; subst; inversion B; subst; auto. Qed.

  Lemma flatten_simple s : Forall simple_def (inner_first s) -> Forall simple_def (fst (flatten s)).
  Proof.
    induction s as [p|n ns d fs e al ps Hfs|n ns d sy df al ps|n ns d sz al ps|i ps IHi|i ps IHi
                    |ts b Hts|k ps|l ps|n ns ps sp] using schema_ind'; cbn [inner_first]; intro Hs; auto.
    - rewrite flatten_record. cbn [fst]. apply Forall_app in Hs. destruct Hs as [H1 H2]. apply Forall_app. split.
      + apply Forall_flat_map. apply Forall_flat_map in H1. rewrite Forall_forall in *. intros f Hf. apply Hfs; auto.
      + inversion H2 as [|? ? (a & b & Hd & Hc) _]; subst. inversion Hd; subst.
        constructor; [|constructor]. exists a, b. split; [constructor|exact Hc].
    - cbn [flatten]. destruct (flatten i). apply IHi. exact Hs.
    - cbn [flatten]. destruct (flatten i). apply IHi. exact Hs.
    - cbn [flatten fst]. apply Forall_flat_map in Hs. apply Forall_flat_map, Forall_map.
      rewrite Forall_forall in *. intros t Ht. apply Hts; auto.
  Qed.

  Lemma registrable_of s full d :
    simple_def s -> named_meaning s = Some (full, d) -> valid_full full -> registrable s full.
  Proof.
    intros (n & ns & Hd & Hc) Em (n' & ns' & -> & Hn & Hns).
    destruct (named_meaning_defines _ _ _ Em) as (n2 & ns2 & Hd2 & E).
    destruct (defines_inj _ _ _ _ _ Hd Hd2) as [<- <-]. unfold fullname in E.
    apply qualify_inj in E; [|apply valid_name_no_dot; exact Hn|exact Hc]. destruct E as [-> ->].
    exists n, ns. auto.
  Qed.

  Lemma register_list l defs : forall r,
    Forall simple_def l -> map named_meaning l = map Some defs ->
    Forall (fun fd => valid_full (fst fd)) defs ->
    NoDup (keys defs) -> (forall f, In f (keys defs) -> ~ In f (keys r)) ->
    fold_left register_ignoring l r = r ++ combine (keys defs) l.
  Proof.
    revert defs. induction l as [|s l IH]; intros defs r Hs Hm Hv Hn Hr.
    - destruct defs; [|discriminate]. cbn. rewrite app_nil_r. reflexivity.
    - destruct defs as [|[f d] defs]; [discriminate|]. cbn [map] in Hm. injection Hm as Hm1 Hm2.
      inversion Hs; subst. inversion Hv; subst. cbn [keys map fst] in Hn. inversion Hn; subst. cbn [fold_left].
      pose proof (registrable_of s f d H2 Hm1 H4) as Hreg.
      assert (E : register_ignoring r s = r ++ [(f, s)]).
      { destruct (register_ignoring_cases r s) as [(f' & Hf' & Hnf & _ & E)|(Hf' & _)].
        - rewrite E. destruct Hreg as (a & b & Hd & -> & _). destruct Hf' as (a' & b' & Hd' & -> & _).
          destruct (defines_inj _ _ _ _ _ Hd Hd') as [<- <-]. reflexivity.
        - exfalso. apply (Hr f); [left; reflexivity|]. apply Hf'. exact Hreg. }
      rewrite E, (IH defs); auto.
      + rewrite <- app_assoc. reflexivity.
      + intros g Hg Hin. rewrite keys_app in Hin. apply in_app_iff in Hin. destruct Hin as [Hin|Hin].
        * apply (Hr g); [right; exact Hg|exact Hin].
        * destruct Hin as [<-|[]]. contradiction.
  Qed.

  Lemma flatten_length s defs : map named_meaning (fst (flatten s)) = map Some defs -> length defs = length (fst (flatten s)).
  Proof. intro E. apply (f_equal (@length _)) in E. rewrite !map_length in E. congruence. Qed.

  Lemma added_nil r : added r r [].
  Proof. exists []. rewrite app_nil_r. repeat split; constructor. Qed.

  Lemma added_app r1 r2 r3 d1 d2 : added r1 r2 d1 -> added r2 r3 d2 -> added r1 r3 (d1 ++ d2).
  Proof.
    intros (n1 & -> & K1 & M1 & F1) (n2 & -> & K2 & M2 & F2). exists (n1 ++ n2).
    rewrite app_assoc. unfold keys in *. rewrite !map_app, K1, K2, M1, M2. repeat split. apply Forall_app; auto.
  Qed.

  Lemma combine_split {A B} (a : list A) (b : list B) :
    length a = length b -> map fst (combine a b) = a /\ map snd (combine a b) = b.
  Proof.
    revert b. induction a as [|x a IH]; intros [|y b] E; cbn in *; try discriminate; [auto|].
    destruct (IH b) as [-> ->]; [lia|auto].
  Qed.

  Lemma flatten_register_added r m j dns s defs :
    json_to_schema_n m j dns = Ok s -> map named_meaning (inner_first s) = map Some defs ->
    Forall (fun fd => valid_full (fst fd)) defs ->
    NoDup (keys defs) -> (forall f, In f (keys defs) -> ~ In f (keys r)) ->
    added r (flatten_and_register r s) defs.
  Proof.
    intros Ej Hm Hv Hn Hr. unfold flatten_and_register. rewrite <- flatten_defs in Hm.
    rewrite (register_list (fst (flatten s)) defs r); auto.
    - pose proof (flatten_length s defs Hm) as Hl.
      destruct (combine_split (keys defs) (fst (flatten s))) as [C1 C2].
      { unfold keys. rewrite map_length. exact Hl. }
      eexists. split; [reflexivity|]. split; [exact C1|]. split.
      + rewrite C2. exact Hm.
      + apply Forall_forall. intros [k t] Hin. apply in_combine_r in Hin. cbn.
        pose proof (flatten_flat s) as Hf. rewrite Forall_forall in Hf. auto.
    - apply flatten_simple. eapply import_simple. exact Ej.
  Qed.

  (** *** Schema documents *)

  Lemma import_schema_reads n j t defs r :
    clean n j = true -> read_document n j = Some (t, defs) ->
    Forall (fun fd => valid_full (fst fd)) defs -> (forall f, In f (keys defs) -> ~ In f (keys r)) ->
    exists r', import_schema j r = (r', Ok tt) /\ added r r' defs.
  Proof.
    intros Hc E Hv Hr. unfold read_document in E. destruct (read n j "" ([], [])) as [[t0 st]|] eqn:Er; [|discriminate].
    injection E as -> <-.
    destruct (import_reads (jdepth j) n j None ([], []) t st (le_n _) Hc Er) as (s & new & Hs & Hm & Hst & Hd).
    unfold import_schema, json_to_schema. rewrite Hs. eexists. split; [reflexivity|].
    cbn in Hst. rewrite Hst in *.
    apply (flatten_register_added r (jdepth j) j None); auto.
    destruct (read_adds n j "" ([], []) t st Er) as (P & (nw & E & Pk) & Nd).
    cbn in E. rewrite Hst in E. subst nw. cbn in P, Nd. rewrite app_nil_r in P.
    eapply Permutation_NoDup; [symmetry; exact Pk|]. eapply Permutation_NoDup; [exact P|]. apply Nd. constructor.
  Qed.

  (** *** Protocol documents *)

  Lemma import_types_reads n dns l : forall st ts st' r,
    forallb (clean n) l = true -> map_st (fun tj st => read n tj (nsof dns) st) l st = Some (ts, st') ->
    NoDup (keys (snd st')) ->
    Forall (fun fd => valid_full (fst fd)) (snd st') ->
    (forall f, In f (keys (snd st')) -> ~ In f (keys (snd st)) -> ~ In f (keys r)) ->
    exists r' new, snd st' = snd st ++ new /\ import_types l dns r = (r', None) /\ added r r' new.
  Proof.
    induction l as [|j l IH]; intros st ts st' r Hc E Hnd Hv Hr.
    - rewrite map_st_nil in E. inversion E; subst. exists r, []. rewrite app_nil_r. repeat split. apply added_nil.
    - rewrite map_st_cons in E. cbn [forallb] in Hc. apply andb_true_iff in Hc. destruct Hc as [Hc1 Hc2].
      destruct (read n j (nsof dns) st) as [[t1 st1]|] eqn:E1; [|discriminate].
      destruct (map_st _ l st1) as [[ts' st2]|] eqn:E2 in E; [|discriminate]. inversion E; subst. clear E.
      destruct (import_reads (jdepth j) n j dns st t1 st1 (le_n _) Hc1 E1) as (s & new & Hs & Hm & Hst & Hd).
      assert (Hmono : exists rest, snd st' = snd st1 ++ rest).
      { clear - E2. revert st1 ts' E2. induction l as [|x l IH]; intros st1 ts' E2.
        - rewrite map_st_nil in E2. inversion E2; subst. exists []. rewrite app_nil_r. reflexivity.
        - rewrite map_st_cons in E2. destruct (read n x (nsof dns) st1) as [[y s2]|] eqn:Ex; [|discriminate].
          destruct (map_st _ l s2) as [[ys s3]|] eqn:E3 in E2; [|discriminate]. inversion E2; subst.
          destruct (read_adds _ _ _ _ _ _ Ex) as (_ & (nw & Enw & _) & _).
          destruct (IH s2 ys E3) as (rest & Er). exists (nw ++ rest). rewrite Er, Enw, app_assoc. reflexivity. }
      destruct Hmono as (rest & Hrest).
      assert (Hall : snd st' = snd st ++ new ++ rest) by (rewrite Hrest, Hst, app_assoc; reflexivity).
      assert (Hk : keys (snd st') = keys (snd st) ++ keys new ++ keys rest)
        by (unfold keys; rewrite Hall, !map_app; reflexivity).
      assert (Hn1 : NoDup (keys new) /\ (forall f, In f (keys new) -> ~ In f (keys (snd st)) /\ ~ In f (keys rest))).
      { rewrite Hk in Hnd. apply NoDup_app_inv in Hnd. destruct Hnd as (_ & Hnd & Hd1).
        apply NoDup_app_inv in Hnd. destruct Hnd as (Hnn & _ & Hd2). split; [exact Hnn|].
        intros f Hf. split; [|apply Hd2; exact Hf]. intro Hin. apply (Hd1 f Hin). apply in_or_app. auto. }
      destruct Hn1 as [Hn1 Hn2].
      assert (Had : added r (flatten_and_register r s) new).
      { apply (flatten_register_added r (jdepth j) j dns); auto.
        - rewrite Hall in Hv. apply Forall_app in Hv. destruct Hv as [_ Hv]. apply Forall_app in Hv. apply Hv.
        - intros f Hf. apply Hr; [|apply Hn2; exact Hf]. rewrite Hk, !in_app_iff. auto. }
      destruct (IH st1 ts' st' (flatten_and_register r s) Hc2 E2 Hnd Hv) as (r' & rest' & Hst' & Hi & Ha).
      { intros f Hf Hnf Hin. destruct Had as (nw & Enw & Kn & _). rewrite Enw, keys_app in Hin. apply in_app_iff in Hin.
        rewrite Hst in Hnf. unfold keys in Hnf. rewrite map_app in Hnf. rewrite in_app_iff in Hnf.
        destruct Hin as [Hin|Hin]; [|rewrite Kn in Hin; unfold keys in Hin; tauto].
        revert Hin. apply Hr; auto. }
      exists r', (new ++ rest'). split; [rewrite Hst', Hst, app_assoc; reflexivity|]. split.
      + cbn [import_types]. unfold json_to_schema. rewrite Hs. exact Hi.
      + eapply added_app; eassumption.
  Qed.

  Lemma import_field_reads n fj dns st f st' :
    clean_field n fj = true -> read_field n fj (nsof dns) st = Some (f, st') ->
    exists z, json_to_field fj dns = Ok z /\ field_meaning z = f.
  Proof.
    intros Hc E. destruct fj as [| | | | |fo]; try discriminate. cbn in E, Hc. unfold json_to_field.
    change (get_str "name" fo) with (sget "name" fo). unfold jget at 1.
    destruct (sget "name" fo) as [fname|]; [|discriminate].
    destruct (assoc "type" fo) as [tj|] eqn:Et; [|discriminate]. apply andb_true_iff in Hc. destruct Hc as [Ha Hc].
    destruct (read n tj (nsof dns) st) as [[t1 s3]|] eqn:Er; [|discriminate]. injection E as <- <-.
    destruct (import_reads (jdepth tj) n tj dns st t1 s3 (le_n _) Hc Er) as (z & new & Hz & Hm & _).
    unfold json_to_schema. rewrite Hz. eexists. split; [reflexivity|].
    unfold field_meaning. cbn [f_name f_schema f_doc f_default f_order f_aliases f_props].
    rewrite Hm, (field_attrs fo Ha). reflexivity.
  Qed.

  Lemma map_res_reads {A Z Y} (g : A -> rstate -> option (Y * rstate)) (h : A -> ires Z) (mean : Z -> Y) l :
    (forall x st y st', In x l -> g x st = Some (y, st') -> exists z, h x = Ok z /\ mean z = y) ->
    forall st ys st', map_st g l st = Some (ys, st') -> exists zs, map_res h l = Ok zs /\ map mean zs = ys.
  Proof.
    induction l as [|x l IH]; intros Hg st ys st' E.
    - rewrite map_st_nil in E. inversion E; subst. exists []. auto.
    - rewrite map_st_cons in E. destruct (g x st) as [[y st1]|] eqn:E1; [|discriminate].
      destruct (map_st g l st1) as [[ys' st2]|] eqn:E2; [|discriminate]. inversion E; subst.
      destruct (Hg x st y st1 (or_introl eq_refl) E1) as (z & Hz & Hm).
      destruct (IH (fun x' s1 y' s2 Hin => Hg x' s1 y' s2 (or_intror Hin)) _ _ _ E2) as (zs & Hzs & Hms).
      exists (z :: zs). rewrite map_res_cons, Hz, Hzs. cbn. rewrite Hm, Hms. auto.
  Qed.

  Lemma import_message_reads n j dns st m st' :
    clean_message n j = true -> read_message n j (nsof dns) st = Some (m, st') ->
    exists z, json_to_message j dns = Ok z /\ message_meaning z = m.
  Proof.
    intros Hc E. destruct j as [| | | | |o]; try discriminate. cbn [read_message clean_message] in *.
    rewrite !andb_true_iff in Hc. destruct Hc as [[[[Ho Hd] Hrq] Hrs] Her]. apply sortedb_sorted in Ho.
    unfold json_to_message, jget.
    destruct (assoc "request" o) as [[| | | |rq|]|]; try discriminate.
    destruct (assoc "response" o) as [rs|]; [|discriminate].
    destruct (map_st _ rq st) as [[fields st1]|] eqn:Erq in E; [|discriminate].
    destruct (read n rs (nsof dns) st1) as [[rt st2]|] eqn:Ers; [|discriminate].
    destruct (map_res_reads (fun fj st => read_field n fj (nsof dns) st) (fun p => json_to_field p dns) field_meaning rq)
      with (2 := Erq) as (fs & Hfs & Hmf).
    { intros x s1 y s2 Hx Ex. rewrite forallb_forall in Hrq. eapply import_field_reads; [apply Hrq; exact Hx|exact Ex]. }
    rewrite Hfs.
    destruct (import_reads (jdepth rs) n rs dns st1 rt st2 (le_n _) Hrs Ers) as (z & new & Hz & Hmz & _).
    unfold json_to_schema at 1. rewrite Hz.
    destruct (assoc "errors" o) as [ej|].
    - destruct ej as [| | | |es|]; try discriminate.
      destruct (map_st _ es st2) as [[ets st3]|] eqn:Ees in E; [|discriminate]. injection E as <- <-.
      destruct (map_res_reads (fun ej st => read n ej (nsof dns) st) (fun e => json_to_schema e dns) meaning es)
        with (2 := Ees) as (zs & Hzs & Hms).
      { intros x s1 y s2 Hx Ex. rewrite forallb_forall in Her.
        destruct (import_reads (jdepth x) n x dns s1 y s2 (le_n _) (Her x Hx) Ex) as (z' & nw & Hz' & Hmz' & _).
        exists z'. auto. }
      rewrite Hzs. eexists. split; [reflexivity|]. unfold message_meaning. cbn.
      rewrite Hmf, Hmz, Hms, (message_attrs o Ho Hd). reflexivity.
    - injection E as <- <-. eexists. split; [reflexivity|]. unfold message_meaning. cbn.
      rewrite Hmf, Hmz, (message_attrs o Ho Hd). reflexivity.
  Qed.

  Lemma import_protocol_reads n j ap defs r :
    clean_protocol n j = true -> read_protocol n j = Some ap -> read_types n j = Some defs ->
    NoDup (keys defs) ->
    Forall (fun fd => valid_full (fst fd)) defs -> (forall f, In f (keys defs) -> ~ In f (keys r)) ->
    exists r' ms, import_protocol j r = (r', Ok ms) /\ added r r' defs
      /\ map (fun nm => (fst nm, message_meaning (snd nm))) ms = ap_messages ap.
  Proof.
    intros Hc E Et Hnd Hv Hr. destruct j as [| | | | |o]; try discriminate.
    cbn [read_protocol clean_protocol read_types] in *.
    apply andb_true_iff in Hc. destruct Hc as [Hct Hcm].
    set (dns := match value_get "namespace" (JObj o) with Some v => as_str v | None => None end).
    assert (Hns : match sget "namespace" o with Some s => s | None => "" end = nsof dns).
    { unfold dns, sget, value_get, jget. destruct (assoc "namespace" o) as [[]|]; reflexivity. }
    rewrite Hns in *.
    destruct (sget "protocol" o); [|discriminate].
    destruct (assoc "types" o) as [[| | | |tjs|]|] eqn:Etj; try discriminate.
    destruct (assoc "messages" o) as [[| | | | |mjs]|] eqn:Emj; try discriminate. cbn [jarr] in *.
    destruct (map_st (fun tj st => read n tj (nsof dns) st) tjs ([], [])) as [[ts st1]|] eqn:E1; [|discriminate]. injection Et as <-.
    destruct (map_st _ mjs st1) as [[ms st2]|] eqn:E2 in E; [|discriminate]. injection E as <-. cbn [ap_messages].
    destruct (import_types_reads n dns tjs ([], []) ts st1 r Hct E1 Hnd Hv) as (r' & new & Hst & Hi & Ha).
    { intros f Hf _. auto. }
    cbn in Hst. subst new.
    destruct (map_res_reads (fun (nm : string * json) (st : rstate) =>
        match read_message n (snd nm) (nsof dns) st with
        | Some (m, st') => Some (fst nm, m, st')
        | None => None
        end) (fun kv : string * json => match json_to_message (snd kv) dns with
                       | Err e => Err e
                       | Ok m => Ok (fst kv, m)
                       end) (fun nm => (fst nm, message_meaning (snd nm))) mjs) with (2 := E2) as (zs & Hzs & Hms).
    { intros x s1 y s2 Hx Ex. cbv beta in Ex. rewrite forallb_forall in Hcm.
      destruct (read_message n (snd x) (nsof dns) s1) as [[m s3]|] eqn:Em; [|discriminate]. injection Ex as <- <-.
      destruct (import_message_reads n (snd x) dns s1 m s3 (Hcm x Hx) Em) as (z & Hz & Hmz).
      rewrite Hz. eexists. split; [reflexivity|]. cbn. rewrite Hmz. reflexivity. }
    exists r', zs. split; [|auto]. unfold import_protocol. fold dns. unfold value_get, jget. rewrite Etj, Emj, Hi.
    unfold import_messages. rewrite Hzs. reflexivity.
  Qed.

  Lemma read_types_NoDup n j defs : read_types n j = Some defs -> NoDup (keys defs).
  Proof.
    destruct j as [| | | | |o]; try discriminate. cbn [read_types]. set (ns := match sget "namespace" o with Some s => s | None => "" end).
    destruct (map_st (fun tj st => read n tj ns st) (jarr (assoc "types" o)) ([], [])) as [[ts st]|] eqn:E; [|discriminate].
    intro H0. injection H0 as <-.
    assert (Hadds : exists D, adds D ([], []) st).
    { exists (flat_map (defined n ns) (jarr (assoc "types" o))). eapply map_st_adds; [|exact E]. intros x s1 y s2 _ Hx.
      eapply read_adds. exact Hx. }
    destruct Hadds as (D & P & (nw & En & Pk) & Nd). cbn in En, P, Nd. rewrite app_nil_r in P. rewrite En.
    eapply Permutation_NoDup; [symmetry; exact Pk|]. eapply Permutation_NoDup; [exact P|]. apply Nd. constructor.
  Qed.
End Register.
