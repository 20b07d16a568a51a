(** Importing the protocol that was written: its messages *)
From Verif Require Import SpecStatements Defaults DefaultsProofs ResolveProofs RegistryProofs CompileProofs LoadProofs BuildProofs RefsProofs.
From Verif Require Import BaseProofs SpecFile FileProofs DenoteProofs MoveProofs ForgetProofs RewriteProofs SpecRefs ExpandProofs CliProofs OrderProofs.
From Verif Require Import MeaningProofs SerializeProofs SimProofs DocProofs ProtocolProofs ImportProofs ImportDocProofs RoundTripProofs StatementProofs PipelineProofs.
From Verif Require Export ReimportProofs.
From Coq Require Import Permutation Lia.
Import SpecNames.

Lemma nothing_inner s : inner_first s = [] -> no_inline s = true.
Proof.
  induction s as [p|nm ns d fs e al ps IH|nm ns d sy df al ps|nm ns d sz al ps|i ps IH|i ps IH
                 |ts b IH|k ps|l ps|nm ns ps sp] using schema_ind'; cbn; intro E; try discriminate; auto.
  - destruct (flat_map _ fs); discriminate.
  - induction IH as [|t ts Ht _ IHt]; [reflexivity|]. cbn in *. apply app_eq_nil in E. destruct E as [E1 E2]. rewrite (Ht E1). now apply IHt.
Qed.
Definition message_defs (m : message) : list schema :=
  flat_map (fun f => inner_first (f_schema f)) (m_request m) ++ inner_first (m_response m)
  ++ match m_errors m with Some es => flat_map inner_first es | None => [] end.
Lemma flat_map_nil {A B} (f : A -> list B) l x : flat_map f l = [] -> In x l -> f x = [].
Proof. induction l as [|y l IH]; cbn; [intros _ []|]. intro E. apply app_eq_nil in E. destruct E as [E1 E2]. intros [<-|Hx]; auto. Qed.
Lemma nothing_in_message m t : message_defs m = [] -> message_type m t -> no_inline t = true.
Proof.
  unfold message_defs. intros E Ht. apply app_eq_nil in E. destruct E as [E1 E]. apply app_eq_nil in E. destruct E as [E2 E3].
  apply nothing_inner. inversion Ht as [m'|m' f Hf|m' es e Ee He]; subst; [exact E2|exact (flat_map_nil _ _ _ E1 Hf)|].
  rewrite Ee in E3. exact (flat_map_nil _ _ _ E3 He).
Qed.
Lemma mentions_meaning t full : no_inline t = true -> mentions t full -> In full (aty_refs (meaning t)).
Proof. intros Hn Hm. rewrite <- meaning_refs by exact Hn. now apply mentions_refs. Qed.

Definition amessage_refs (m : amessage) : list string :=
  flat_map (fun f => aty_refs (af_type f)) (am_request m) ++ aty_refs (am_response m)
  ++ match am_errors m with Some es => flat_map aty_refs es | None => [] end.
Lemma message_mentions m t full : (forall u, message_type m u -> no_inline u = true) -> message_type m t -> mentions t full ->
  In full (amessage_refs (message_meaning m)).
Proof.
  intros Hn Ht Hm. pose proof (mentions_meaning t full (Hn t Ht) Hm) as Hi. unfold amessage_refs, message_meaning. cbn [am_request am_response am_errors].
  rewrite !in_app_iff. inversion Ht as [m'|m' f Hf|m' es e Ee He]; subst.
  - right. left. exact Hi.
  - left. apply in_flat_map. exists (field_meaning f). split; [now apply in_map|exact Hi].
  - right. right. rewrite Ee. cbn. apply in_flat_map. exists (meaning t). split; [now apply in_map|exact Hi].
Qed.
Lemma message_meaning_refs m : (forall u, message_type m u -> no_inline u = true) -> amessage_refs (message_meaning m) = message_refs m.
Proof.
  intro Hn. unfold amessage_refs, message_refs, message_meaning. cbn [am_request am_response am_errors]. f_equal; [|f_equal].
  - assert (G : forall f, In f (m_request m) -> no_inline (f_schema f) = true) by (intros f Hf; apply Hn; now constructor).
    induction (m_request m) as [|f l IH]; [reflexivity|]. cbn. rewrite (meaning_refs _ (G f (or_introl eq_refl))). f_equal. apply IH. intros g Hg. apply G. now right.
  - symmetry. apply meaning_refs, Hn. constructor.
  - destruct (m_errors m) as [es|] eqn:Ee; [|reflexivity]. cbn.
    assert (G : forall f, In f es -> no_inline f = true) by (intros f Hf; apply Hn; econstructor; eauto).
    clear Ee Hn. induction es as [|f l IH]; [reflexivity|]. cbn. rewrite (meaning_refs _ (G f (or_introl eq_refl))). f_equal. apply IH. intros g Hg. apply G. now right.
Qed.
Lemma message_ok_inline b m : message_ok b m = true -> forall u, message_type m u -> no_inline u = true.
Proof.
  unfold message_ok. rewrite !andb_true_iff. intros [[[_ H1] H2] H3] u Hu. inversion Hu as [m'|m' f Hf|m' es e Ee He]; subst.
  - eapply ty_ok_no_inline. exact H2.
  - rewrite forallb_forall in H1. specialize (H1 f Hf). unfold field_ok in H1. apply andb_true_iff in H1. eapply ty_ok_no_inline. exact (proj2 H1).
  - rewrite Ee in H3. rewrite forallb_forall in H3. eapply ty_ok_no_inline. exact (H3 _ He).
Qed.

(** ** What reading the messages adds *)
Lemma field_imports n fj dns st f st' : clean_field n fj = true -> read_field n fj (nsof dns) st = Some (f, st') ->
  imports_as (fun z => inner_first (f_schema z)) field_meaning (json_to_field fj dns) st f st'.
Proof.
  intros Hc E. destruct fj as [| | | | |fo]; try discriminate. cbn in E, Hc. unfold json_to_field.
  change (get_str "name" fo) with (sget "name" fo). unfold jget at 1.
  destruct (sget "name" fo) as [fname|]; [|discriminate].
  destruct (assoc "type" fo) as [tj|] eqn:Et; [|discriminate]. apply andb_true_iff in Hc. destruct Hc as [Ha Hc].
  destruct (read n tj (nsof dns) st) as [[t1 s3]|] eqn:Er; [|discriminate]. injection E as <- <-.
  destruct (import_reads (jdepth tj) n tj dns st t1 s3 (le_n _) Hc Er) as (z & new & Hz & Hm & Hst & Hd).
  unfold json_to_schema. rewrite Hz. eexists. exists new. split; [reflexivity|]. split; [|split; [exact Hst|exact Hd]].
  unfold field_meaning. cbn [f_name f_schema f_doc f_default f_order f_aliases f_props].
  rewrite Hm, (field_attrs fo Ha). reflexivity.
Qed.
Lemma message_imports n j dns st m st' : clean_message n j = true -> read_message n j (nsof dns) st = Some (m, st') ->
  imports_as message_defs message_meaning (json_to_message j dns) st m st'.
Proof.
  intros Hc E. destruct j as [| | | | |o]; try discriminate. cbn [read_message clean_message] in *.
  rewrite !andb_true_iff in Hc. destruct Hc as [[[[Ho Hd] Hrq] Hrs] Her]. apply sortedb_sorted in Ho.
  unfold json_to_message, jget.
  destruct (assoc "request" o) as [[| | | |rq|]|]; try discriminate.
  destruct (assoc "response" o) as [rs|]; [|discriminate].
  destruct (map_st _ rq st) as [[fields st1]|] eqn:Erq in E; [|discriminate].
  destruct (read n rs (nsof dns) st1) as [[rt st2]|] eqn:Ers; [|discriminate].
  destruct (map_res_st (fun fj st => read_field n fj (nsof dns) st) (fun p => json_to_field p dns) (fun z => inner_first (f_schema z)) field_meaning rq)
    with (2 := Erq) as (fs & new1 & Hfs & Hmf & Hst1 & Hd1).
  { intros x s1 y s2 Hx Ex. rewrite forallb_forall in Hrq. eapply field_imports; [apply Hrq; exact Hx|exact Ex]. }
  rewrite Hfs.
  destruct (import_reads (jdepth rs) n rs dns st1 rt st2 (le_n _) Hrs Ers) as (z & new2 & Hz & Hmz & Hst2 & Hd2).
  unfold json_to_schema at 1. rewrite Hz.
  destruct (assoc "errors" o) as [ej|].
  - destruct ej as [| | | |es|]; try discriminate.
    destruct (map_st _ es st2) as [[ets st3]|] eqn:Ees in E; [|discriminate]. injection E as <- <-.
    destruct (map_res_st (fun ej st => read n ej (nsof dns) st) (fun e => json_to_schema e dns) inner_first meaning es)
      with (2 := Ees) as (zs & new3 & Hzs & Hms & Hst3 & Hd3).
    { intros x s1 y s2 Hx Ex. rewrite forallb_forall in Her. exact (import_reads (jdepth x) n x dns s1 y s2 (le_n _) (Her x Hx) Ex). }
    rewrite Hzs. eexists. exists (new1 ++ new2 ++ new3). split; [reflexivity|]. split; [|split].
    + unfold message_meaning. cbn. rewrite Hmf, Hmz, Hms, (message_attrs o Ho Hd). reflexivity.
    + rewrite Hst3, Hst2, Hst1, <- !app_assoc. reflexivity.
    + unfold message_defs. cbn. rewrite !map_app, Hd1, Hd2, Hd3. reflexivity.
  - injection E as <- <-. eexists. exists (new1 ++ new2). split; [reflexivity|]. split; [|split].
    + unfold message_meaning. cbn. rewrite Hmf, Hmz, (message_attrs o Ho Hd). reflexivity.
    + rewrite Hst2, Hst1, <- !app_assoc. reflexivity.
    + unfold message_defs. cbn. rewrite !map_app, Hd1, Hd2, app_nil_r. reflexivity.
Qed.

Section Protocols.
  Context `{Unicode}.
  (** All definitions are in the list of types: the messages have none. *)
  Lemma messages_flat n j ap defs r r' ms : clean_protocol n j = true -> read_protocol n j = Some ap -> read_types n j = Some defs ->
    ap_defs ap = defs -> import_protocol j r = (r', Ok ms) -> forall nm t, In nm ms -> message_type (snd nm) t -> no_inline t = true.
  Proof.
    intros Hc E Et Ead Ei. destruct j as [| | | | |o]; try discriminate.
    cbn [read_protocol clean_protocol read_types] in *. apply andb_true_iff in Hc. destruct Hc as [Hct Hcm].
    set (dns := match value_get "namespace" (JObj o) with Some v => as_str v | None => None end).
    assert (Hns : match sget "namespace" o with Some s => s | None => "" end = nsof dns).
    { unfold dns, sget, value_get, jget. destruct (assoc "namespace" o) as [[]|]; reflexivity. }
    rewrite Hns in *.
    destruct (sget "protocol" o); [|discriminate].
    destruct (assoc "types" o) as [[| | | |tjs|]|] eqn:Etj; try discriminate.
    destruct (assoc "messages" o) as [[| | | | |mjs]|] eqn:Emj; try discriminate. cbn [jarr] in *.
    destruct (map_st (fun tj st => read n tj (nsof dns) st) tjs ([], [])) as [[ts st1]|] eqn:E1; [|discriminate]. injection Et as <-.
    destruct (map_st _ mjs st1) as [[ms' st2]|] eqn:E2 in E; [|discriminate]. injection E as <-. cbn [ap_defs] in Ead.
    destruct (map_res_st (fun (nm : string * json) (st : rstate) =>
        match read_message n (snd nm) (nsof dns) st with
        | Some (m, st') => Some (fst nm, m, st')
        | None => None
        end) (fun kv : string * json => match json_to_message (snd kv) dns with
                       | Err e => Err e
                       | Ok m => Ok (fst kv, m)
                       end) (fun nm => message_defs (snd nm)) (fun nm => (fst nm, message_meaning (snd nm))) mjs) with (2 := E2) as (zs & new & Hzs & Hms & Hst & Hd).
    { intros x s1 y s2 Hx Ex. cbv beta in Ex. rewrite forallb_forall in Hcm.
      destruct (read_message n (snd x) (nsof dns) s1) as [[m s3]|] eqn:Em; [|discriminate]. injection Ex as <- <-.
      destruct (message_imports n (snd x) dns s1 m s3 (Hcm x Hx) Em) as (z & new & Hz & Hmz & Hst & Hd).
      rewrite Hz. eexists. exists new. split; [reflexivity|]. cbn. rewrite Hmz. auto. }
    assert (new = []) as ->. { rewrite Hst in Ead. apply (f_equal (@length _)) in Ead. rewrite app_length in Ead. destruct new; [reflexivity|cbn in Ead; lia]. }
    apply map_eq_nil in Hd.
    assert (ms = zs) as ->.
    { unfold import_protocol in Ei. cbv zeta in Ei. fold dns in Ei. unfold value_get, jget in Ei. rewrite Etj, Emj in Ei.
      destruct (import_types _ _ r) as [r1 [e|]]; [discriminate|]. unfold import_messages in Ei. rewrite Hzs in Ei. now injection Ei. }
    intros nm t Hi Ht. eapply nothing_in_message; [|exact Ht]. exact (flat_map_nil _ _ _ Hd Hi).
  Qed.

  (** The types and messages of a protocol, back from its document *)
  Lemma protocol_again p j r : protocol_ok p = true -> forallb portable (p_types p) = true ->
    forallb (fun nm => portable_message (snd nm)) (p_messages p) = true -> Forall (fun t => valid_full (type_name t)) (p_types p) ->
    (forall t, In t (p_types p) -> ~ In (type_name t) (keys r)) -> protocol_to_json p = Some j ->
    exists new ms, import_protocol j r = (r ++ new, Ok ms)
      /\ Permutation (keys new) (map type_name (p_types p))
      /\ (forall t, In t (p_types p) -> exists t', assoc (type_name t) new = Some t'
              /\ named_meaning t' = named_meaning t /\ flat_definition t' = true)
      /\ Permutation (map (fun nm => (fst nm, message_meaning (snd nm))) ms)
                     (map (fun nm => (fst nm, message_meaning (snd nm))) (p_messages p))
      /\ (forall nm t, In nm ms -> message_type (snd nm) t -> no_inline t = true).
  Proof.
    intros Hok Hpt Hpm Hv Hr Ej. destruct (round_trip p r Hok Hpt Hpm Hv Hr) as (j' & new & ms & Ej' & Ei & A & B & C). rewrite Ej in Ej'. injection Ej' as <-.
    exists new, ms. split; [exact Ei|]. split; [exact A|]. split; [exact B|]. split; [exact C|].
    destruct (protocol_faithful p Hok) as (j' & ap & Ej' & Er & _ & _ & _ & Hnd & Hdefs & Hmsgs & _ & Hmd & _). rewrite Ej in Ej'. injection Ej' as <-.
    destruct (read_types_of_protocol _ _ _ Er) as (defs & rest & Et & Eap & Hrest). rewrite Hmd in Hrest.
    apply Permutation_sym, Permutation_nil in Hrest.
    assert (rest = []) as -> by (destruct rest; [reflexivity|discriminate]). rewrite app_nil_r in Eap.
    intros nm t Hi Ht. eapply (messages_flat (jdepth j) j ap defs); eauto. apply (emitted_protocol_clean p); auto.
  Qed.
End Protocols.

Section Again.
  Context `{Unicode} `{Floats} `{Parser} `{FileSystem} `{JsonParser}.

  Lemma protocol_imported_again p j dirs src label dir input file n sp ws q :
    protocol_ok p = true -> forallb portable (p_types p) = true ->
    forallb (fun nm => portable_message (snd nm)) (p_messages p) = true -> Forall (fun t => valid_full (type_name t)) (p_types p) ->
    protocol_to_json p = Some j ->
    parse_idl label src = Ok (file, [DImport ImportProtocol n sp], ws) ->
    found_in (dir :: dirs) n q -> input <> Some q -> json_content q j ->
    (forall full, uses file [] [] full -> In full (map type_name (p_types p))) ->
    exists o ms, compile dirs src label dir input = (Ok o, [])
      /\ Permutation (keys (co_registry o)) (map type_name (p_types p))
      /\ (forall t, In t (p_types p) -> exists t', assoc (type_name t) (co_registry o) = Some t' /\ named_meaning t' = named_meaning t)
      /\ Permutation (map (fun nm => (fst nm, message_meaning (snd nm))) ms)
                     (map (fun nm => (fst nm, message_meaning (snd nm))) (p_messages p))
      /\ co_file o = finish_file file (context_of (co_registry o) [ms]).
  Proof.
    intros Hok Hpt Hpm Hv Ej Ep Hfo Hin Hj Hu.
    destruct (protocol_again p j [] Hok Hpt Hpm Hv (fun _ _ X => X) Ej) as (new & ms & Ei & A & B & C & D). cbn [app] in Ei.
    destruct (import_protocol_ok q j [] new ms Hj Ei) as (l & Hl & En & Hm).
    destruct (protocol_ok_facts p Hok) as (Hdo & _ & Hnames & Hrefs & _ & _ & Hmok).
    assert (Hnn : NoDup (keys new)) by (eapply Permutation_NoDup; [symmetry; exact A|exact Hnames]).
    destruct (expanded_compile dirs src label dir input file [DImport ImportProtocol n sp] ws [Listed l] [ms] (q :: start input) new Ep) as (o & Hc & Er & Ef).
    - eapply ex_json; [exact Hfo| |exact Hj|exact Hl|exact Hm|apply ex_end]. unfold start. destruct input as [i|]; [|intros []]. intros [->|[]]. now apply Hin.
    - econstructor; [|constructor]. rewrite En. apply joins_after.
    - intros full Hx. apply (Permutation_in _ (Permutation_sym A)).
      inversion Hx as [k s f X1 X2|s f X1 X2|p' n' m t f X1 X2 X3 X4|p' n' m t f X1 X2 X3 X4 X5]; subst.
      + assert (Hk : In k (map type_name (p_types p))) by (apply (Permutation_in _ A); apply (in_map fst) in X1; exact X1).
        apply in_map_iff in Hk. destruct Hk as (t & <- & Ht). destruct (B t Ht) as (t' & Ea & Em & Hfl).
        rewrite (In_assoc_NoDup _ _ _ Hnn X1) in Ea. injection Ea as <-.
        assert (Hft : flat_definition t = true) by (rewrite forallb_forall in Hdo; now apply def_ok_flat, Hdo).
        destruct (flat_named t Hft) as (d & Ed). apply (Hrefs t Ht). rewrite (named_refs t _ d Hft Ed). rewrite Ed in Em. rewrite <- (named_refs s _ d Hfl Em). now apply mentions_refs.
      + apply Hu. eapply us_schema; [reflexivity|exact X2].
      + apply Hu. eapply us_own; [reflexivity|exact X2|exact X3|exact X4].
      + apply last_declared_in in X3. destruct X3 as (l0 & [<-|[]] & Hi).
        pose proof (message_mentions m t full (fun u Hu' => D (n', m) u Hi Hu') X4 X5) as Hr.
        assert (Hi' : In (n', message_meaning m) (map (fun nm => (fst nm, message_meaning (snd nm))) (p_messages p))).
        { apply (Permutation_in _ C). apply (in_map (fun nm => (fst nm, message_meaning (snd nm)))) in Hi. exact Hi. }
        apply in_map_iff in Hi'. destruct Hi' as ([n2 m2] & E2 & Hi'). cbn [fst snd] in E2. assert (E3 : message_meaning m2 = message_meaning m) by exact (f_equal snd E2).
        destruct (Hmok _ Hi') as [Hmo Hmr]. cbn in Hmo, Hmr. apply Hmr. rewrite <- (message_meaning_refs m2 (message_ok_inline _ _ Hmo)), E3. exact Hr.
    - exists o, ms. rewrite <- Er in *. split; [exact Hc|]. split; [exact A|]. split; [|split; [exact C|exact Ef]].
      intros t Ht. destruct (B t Ht) as (t' & X & Y & _). eauto.
  Qed.
End Again.
