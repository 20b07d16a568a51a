(** Importing what was extracted *)
From Verif Require Import SpecStatements Defaults DefaultsProofs ResolveProofs RegistryProofs CompileProofs LoadProofs BuildProofs RefsProofs.
From Verif Require Import BaseProofs SpecFile FileProofs DenoteProofs MoveProofs ForgetProofs RewriteProofs SpecRefs ExpandProofs CliProofs OrderProofs.
From Verif Require Import MeaningProofs SerializeProofs SimProofs ProtocolProofs ImportProofs ImportDocProofs RoundTripProofs StatementProofs PipelineProofs.
From Verif Require Export SpecImport SpecStatements SpecReimport.
From Coq Require Import Permutation Lia.
Import SpecNames.

(** ** References are part of the meaning *)
Fixpoint aty_refs (t : aty) : list string :=
  match t with
  | TPrim _ _ => []
  | TNamed full => [full]
  | TArray i _ | TMap i _ => aty_refs i
  | TUnion ts => flat_map aty_refs ts
  end.
Definition adef_refs (d : adef) : list string :=
  match d with DRecord _ fs _ _ => flat_map (fun f => aty_refs (af_type f)) fs | _ => [] end.

Lemma meaning_refs s : no_inline s = true -> refs_of s = aty_refs (meaning s).
Proof.
  induction s as [p|nm ns d fs e al ps IH|nm ns d sy df al ps|nm ns d sz al ps|i ps IH|i ps IH
                 |ts b IH|k ps|l ps|nm ns ps sp] using schema_ind'; intro Hn; try discriminate; try reflexivity; cbn in *; auto.
  induction IH as [|t ts Ht _ IHt]; [reflexivity|]. cbn in *. apply andb_true_iff in Hn. destruct Hn as [H1 H2].
  rewrite (Ht H1), (IHt H2). reflexivity.
Qed.
Lemma named_refs s f d : flat_definition s = true -> named_meaning s = Some (f, d) -> refs_of s = adef_refs d.
Proof.
  intros Hf E. destruct s as [p|nm ns dc fs e al ps|nm ns dc sy df al ps|nm ns dc sz al ps|i ps|i ps|ts b|k ps|l ps|nm ns ps sp];
    try discriminate; cbn in E; injection E as _ <-; cbn; try reflexivity.
  cbn in Hf. induction fs as [|x fs IH]; [reflexivity|]. cbn in *. apply andb_true_iff in Hf. destruct Hf as [H1 H2].
  rewrite (meaning_refs _ H1), (IH H2). reflexivity.
Qed.
Lemma ty_ok_no_inline s : forall b, ty_ok b s = true -> no_inline s = true.
Proof.
  induction s as [p|nm ns d fs e al ps IH|nm ns d sy df al ps|nm ns d sz al ps|i ps IH|i ps IH
                 |ts b IH|k ps|l ps|nm ns ps sp] using schema_ind'; intros b0 Hn; try discriminate; try reflexivity; cbn in *.
  - apply andb_true_iff in Hn. destruct Hn. eauto.
  - apply andb_true_iff in Hn. destruct Hn. eauto.
  - rewrite Forall_forall in IH. rewrite forallb_forall in *. intros t Ht. exact (IH t Ht b0 (Hn t Ht)).
Qed.
Lemma def_ok_flat s : def_ok s = true -> flat_definition s = true.
Proof.
  destruct s; try discriminate; intro Hd; try reflexivity. cbn in *. rewrite !andb_true_iff in Hd. destruct Hd as [_ Hd].
  rewrite forallb_forall in *. intros f Hf. specialize (Hd f Hf). unfold field_ok in Hd. apply andb_true_iff in Hd. destruct Hd as [_ Hd].
  eapply ty_ok_no_inline. exact Hd.
Qed.

(** ** Joining known definitions *)
Definition fresh (known r : list (string * schema)) : list (string * schema) :=
  filter (fun kv => negb (str_mem (fst kv) (keys known))) r.
Lemma fresh_in known r k s : In (k, s) (fresh known r) <-> In (k, s) r /\ ~ In k (keys known).
Proof.
  unfold fresh. rewrite filter_In. cbn. rewrite negb_true_iff, <- not_true_iff_false, str_mem_In. tauto.
Qed.
Lemma fresh_keys known r k : In k (keys (fresh known r)) <-> In k (keys r) /\ ~ In k (keys known).
Proof.
  unfold keys at 1 2. rewrite !in_map_iff. split.
  - intros ([k' s] & <- & Hi). apply fresh_in in Hi. destruct Hi. split; [exists (k', s)|]; auto.
  - intros [([k' s] & <- & Hi) Hn]. exists (k', s). split; [reflexivity|]. apply fresh_in. auto.
Qed.

Section Joining.
  Context `{Unicode}.
  Lemma joins_over acc l new : joins acc l new -> forall known, joins (known ++ fresh known acc) l (known ++ fresh known new).
  Proof.
    induction 1 as [acc|acc s full l new A B Hj IH|acc s l new A Hj IH]; intro known.
    - constructor.
    - specialize (IH known). unfold fresh in IH at 1. rewrite filter_app in IH. cbn [filter fst] in IH.
      destruct (str_mem full (keys known)) eqn:Em; cbn [negb] in IH.
      + rewrite app_nil_r in IH. apply jo_not; [|exact IH]. intros f Hf. rewrite (registrable_fun _ _ _ Hf A).
        unfold keys. rewrite map_app. apply in_or_app. left. now apply str_mem_In.
      + rewrite app_assoc in IH. eapply jo_new; [exact A| |exact IH].
        unfold keys. rewrite map_app, in_app_iff. intros [X|X].
        * apply str_mem_In in X. unfold keys in Em. congruence.
        * apply fresh_keys in X. tauto.
    - apply jo_not; [|apply IH]. intros f Hf. specialize (A f Hf). unfold keys. rewrite map_app. apply in_or_app.
      destruct (str_mem f (keys known)) eqn:Em; [left; now apply str_mem_In|right]. apply fresh_keys. split; [exact A|].
      rewrite <- str_mem_In. congruence.
  Qed.
End Joining.

Section Again.
  Context `{Unicode} `{Floats} `{Parser} `{FileSystem} `{JsonParser}.
  Variable types : list schema.
  Hypothesis Hok : registry_ok types = true.
  Hypothesis Hpt : forallb portable types = true.
  Hypothesis Hv : Forall (fun t => valid_full (type_name t)) types.

  Definition document_of (s : schema) (j : json) : Prop :=
    exists k, schema_to_json s [] None (build_lookup types None) = Some (j, k).
  Definition faithful (r : list (string * schema)) : Prop :=
    forall f t', In (f, t') r -> flat_definition t' = true
      /\ exists t, In t types /\ type_name t = f /\ named_meaning t' = named_meaning t.

  Lemma document_joins s j : In s types -> document_of s j ->
    exists l new, json_definitions ImportSchema j l /\ joins [] l new /\ NoDup (keys new) /\ faithful new
      /\ forall f, In f (keys new) <-> reaches types (type_name s) f.
  Proof.
    intros Hs (k & Ej). pose proof Hpt as Hp. rewrite forallb_forall in Hp.
    destruct (round_trip_schema types s [] Hok Hpt (Hp s Hs) (or_introl Hs) Hv (fun _ _ X => X)) as (j' & k' & new & Ej' & Ei & Hn & Hk & Hm).
    rewrite Ej in Ej'. injection Ej' as <- <-. unfold import_schema in Ei. destruct (json_to_schema j None) as [t|] eqn:Et; [|discriminate].
    cbn [app] in Ei. injection Ei as Ei. exists (fst (flatten t)), new. split; [now constructor|]. split; [|split; [exact Hn|split]].
    - rewrite <- Ei. apply joins_after.
    - intros f t' Hi. apply Hm. now apply In_assoc_NoDup.
    - intro f. rewrite Hk. assert (Er : roots s = [type_name s]).
      { pose proof Hok as X. unfold registry_ok in X. rewrite !andb_true_iff in X. destruct X as [[X _] _]. rewrite forallb_forall in X. specialize (X s Hs).
        destruct s; try discriminate; reflexivity. }
      rewrite Er. split; [intros (x & [<-|[]] & Hr); exact Hr|]. intro Hr. exists (type_name s). split; [now left|exact Hr].
  Qed.

  (** What the files imported so far have declared *)
  Definition so_far (done : list schema) (known : list (string * schema)) : Prop :=
    NoDup (keys known) /\ faithful known /\ forall f, In f (keys known) <-> exists s, In s done /\ reaches types (type_name s) f.

  Lemma keys_app_all (a b : list (string * schema)) : keys (a ++ b) = keys a ++ keys b.
  Proof. apply map_app. Qed.

  Lemma so_far_joins done known s j l : so_far done known -> In s types -> document_of s j -> json_definitions ImportSchema j l ->
    exists known', joins known l known' /\ so_far (s :: done) known'.
  Proof.
    intros (Hn & Hf & Hk) Hs Hd Hl. destruct (document_joins s j Hs Hd) as (l' & new & Hl' & Hj & Hnn & Hfn & Hkn).
    rewrite (json_definitions_fun _ _ _ _ Hl Hl'). clear l Hl. exists (known ++ fresh known new).
    pose proof (joins_over [] l' new Hj known) as J. cbn in J. rewrite app_nil_r in J. split; [exact J|]. split; [|split].
    - rewrite keys_app_all. apply NoDup_app_disj; [exact Hn| |].
      + unfold fresh, keys. clear - Hnn. induction new as [|[k x] new IH]; [constructor|]. cbn in *. inversion Hnn; subst.
        destruct (str_mem k (keys known)) eqn:E; cbn [negb]; unfold keys in E; rewrite ?E; cbn [negb map fst]; [now apply IH|].
        constructor; [|now apply IH]. intro X. apply in_map_iff in X. destruct X as ([k' y] & <- & X). apply filter_In in X. destruct X as [X _].
        match goal with Hx : ~ In _ _ |- _ => apply Hx end. apply (in_map fst) in X. exact X.
      + intros x Hx Hy. apply fresh_keys in Hy. tauto.
    - intros f t' Hi. apply in_app_or in Hi. destruct Hi as [Hi|Hi]; [now apply Hf|]. apply fresh_in in Hi. now apply Hfn.
    - intro f. rewrite keys_app_all, in_app_iff, fresh_keys, Hk, Hkn. split.
      + intros [(t & Ht & Hr)|[Hr _]]; [exists t; split; [now right|exact Hr]|exists s; split; [now left|exact Hr]].
      + intros (t & [<-|Ht] & Hr); [|left; eauto]. destruct (str_mem f (keys known)) eqn:E.
        * left. apply str_mem_In in E. now apply Hk.
        * right. split; [exact Hr|]. rewrite <- Hk, <- str_mem_In. congruence.
  Qed.

  Lemma so_far_again done known s j : so_far done known -> In s types -> document_of s j ->
    (exists s0, In s0 done /\ In s0 types /\ document_of s0 j) -> so_far (s :: done) known.
  Proof.
    intros (Hn & Hf & Hk) Hs Hd (s0 & Hi0 & Hs0 & Hd0). split; [exact Hn|]. split; [exact Hf|].
    destruct (document_joins s j Hs Hd) as (l & new & Hl & Hj & _ & _ & Hkn).
    destruct (document_joins s0 j Hs0 Hd0) as (l0 & new0 & Hl0 & Hj0 & _ & _ & Hkn0).
    rewrite (json_definitions_fun _ _ _ _ Hl0 Hl) in Hj0. apply joins_fun in Hj, Hj0. assert (new0 = new) as -> by congruence.
    intro f. rewrite Hk. split; [intros (t & Ht & Hr); exists t; split; [now right|exact Hr]|].
    intros (t & [<-|Ht] & Hr); [|eauto]. exists s0. split; [exact Hi0|]. apply Hkn0, Hkn, Hr.
  Qed.

  (** One statement for each file *)
  Definition imports_document (dirs : list string) (dir : string) (taken : list string) (it : decl_item) (s : schema) : Prop :=
    exists n sp p j, it = DImport ImportSchema n sp /\ found_in (dir :: dirs) n p /\ ~ In p taken
      /\ In s types /\ document_of s j /\ json_content p j.

  Lemma imports_expand dirs dir taken items chosen : Forall2 (imports_document dirs dir taken) items chosen ->
    forall done known seen, so_far done known ->
      (forall p, In p seen -> In p taken \/ exists s j, In s done /\ In s types /\ document_of s j /\ json_content p j) ->
      exists ds tables seen' known', expands dirs dir seen items ds tables seen' /\ adds_up known ds known'
        /\ so_far (rev chosen ++ done) known' /\ Forall (fun t => t = []) tables.
  Proof.
    induction 1 as [|it s items chosen (n & sp & p & j & -> & Hfo & Hnt & Hs & Hd & Hj) Hall IH]; intros done known seen Hsf Hseen.
    - exists [], [], seen, known. split; [apply ex_end|]. split; [constructor|]. split; [exact Hsf|constructor].
    - destruct (str_mem p seen) eqn:Em.
      + apply str_mem_In in Em. destruct (Hseen p Em) as [X|(s0 & j0 & X1 & X2 & X3 & X4)]; [contradiction|].
        rewrite (json_content_fun _ _ _ X4 Hj) in X3.
        destruct (IH (s :: done) known seen) as (ds & tables & seen' & known' & A & B & C & D).
        * eapply so_far_again; eauto.
        * intros q Hq. destruct (Hseen q Hq) as [X|(s1 & j1 & Y)]; [now left|right]. exists s1, j1. destruct Y. split; [now right|tauto].
        * exists ds, tables, seen', known'. split; [eapply ex_again; eauto|]. split; [exact B|]. split; [|exact D].
          cbn [rev]. rewrite <- app_assoc. exact C.
      + destruct (document_joins s j Hs Hd) as (l & new & Hl & _).
        destruct (so_far_joins done known s j l Hsf Hs Hd Hl) as (known1 & J & Hsf1).
        destruct (IH (s :: done) known1 (p :: seen)) as (ds & tables & seen' & known' & A & B & C & D); [exact Hsf1| |].
        * intros q [<-|Hq]; [right; exists s, j; split; [now left|auto]|].
          destruct (Hseen q Hq) as [X|(s1 & j1 & Y)]; [now left|right]. exists s1, j1. destruct Y. split; [now right|tauto].
        * exists (Listed l :: ds), ([] :: tables), seen', known'. split; [|split; [econstructor; eassumption|split]].
          -- eapply ex_json; [exact Hfo| |exact Hj|exact Hl|constructor|exact A]. rewrite <- str_mem_In. congruence.
          -- cbn [rev]. rewrite <- app_assoc. exact C.
          -- now constructor.
  Qed.

  Lemma closed done known full k s' : so_far done known -> In (k, s') known -> mentions s' full -> In full (keys known).
  Proof.
    intros (Hn & Hf & Hk) Hi Hm. destruct (Hf k s' Hi) as (Hfl & t & Ht & Etn & Em).
    assert (Hft : flat_definition t = true).
    { pose proof Hok as X. unfold registry_ok in X. rewrite !andb_true_iff in X. destruct X as [[X _] _]. rewrite forallb_forall in X. now apply def_ok_flat, X. }
    assert (Hr : In full (refs_of t)).
    { destruct (flat_named t Hft) as (d & Ed). rewrite (named_refs t _ d Hft Ed). rewrite Ed in Em. rewrite <- (named_refs s' _ d Hfl Em). now apply mentions_refs. }
    apply (in_map fst) in Hi. cbn in Hi. apply Hk in Hi. destruct Hi as (s & Hs & Hre). apply Hk. exists s. split; [exact Hs|].
    eapply reach_next; [|exact Ht|exact Hr]. now rewrite Etn.
  Qed.

  Lemma imported_again dirs src label dir input file items ws chosen :
    parse_idl label src = Ok (file, items, ws) ->
    Forall2 (imports_document dirs dir (start input)) items chosen ->
    (forall full, uses file [] [] full -> exists s, In s chosen /\ reaches types (type_name s) full) ->
    exists o, compile dirs src label dir input = (Ok o, []) /\ so_far chosen (co_registry o).
  Proof.
    intros Ep Hi Hu. destruct (imports_expand dirs dir (start input) items chosen Hi [] [] (start input)) as (ds & tables & seen & known & A & B & C & D).
    - split; [constructor|]. split; [intros f t' []|]. intro f. split; [intros []|intros (s & [] & _)].
    - auto.
    - rewrite app_nil_r in C. assert (C' : so_far chosen known).
      { destruct C as (C1 & C2 & C3). split; [exact C1|]. split; [exact C2|]. intro f. rewrite C3. split; intros (s & Hs & Hr); exists s; (split; [|exact Hr]); now apply in_rev in Hs || apply -> in_rev. }
      destruct (expanded_compile dirs src label dir input file items ws ds tables seen known Ep A B) as (o & Hc & Er & _).
      + intros full Hx. destruct C' as (C1 & C2 & C3).
        assert (W : uses file [] [] full -> In full (keys known)) by (intro X; apply C3; now apply Hu).
        inversion Hx as [k s f X1 X2|s f X1 X2|p n m t f X1 X2 X3 X4|p n m t f X1 X2 X3 X4 X5]; subst.
        * eapply closed; [split; [exact C1|split; [exact C2|exact C3]]|exact X1|exact X2].
        * apply W. eapply us_schema; [reflexivity|exact X2].
        * apply W. eapply us_own; [reflexivity|exact X2|exact X3|exact X4].
        * exfalso. destruct X3 as (b & l & a & -> & Ea & _). rewrite Forall_forall in D. specialize (D l (in_elt l b a)). subst l. discriminate Ea.
      + exists o. split; [exact Hc|]. rewrite Er. exact C'.
  Qed.
End Again.

(** ** The documents of the types of a file *)
Section Extracted.
  Context `{Unicode} `{Floats} `{Parser} {FS : FileSystem} {J : JsonParser}.
  Variables (dirs : list string) (src name dir : string) (ip : option string) (file : idl_file) (items : list decl_item) (ws : list warning) (o : compile_output) (x : schemata_output).
  Hypothesis Hp : parse_idl name src = Ok (file, items, ws).
  Hypothesis Hc : compile dirs src name dir ip = (Ok o, []).
  Hypothesis Hx : extract_impl o = Ok x.
  Hypothesis Hj : proper_json (co_loads o).
  Hypothesis Hap : apart (reg_schemas (co_registry o)).
  Hypothesis Hal : plain_aliases (reg_schemas (co_registry o)).
  Hypothesis Hpt : forallb portable (reg_schemas (co_registry o)) = true.
  Let types := reg_schemas (co_registry o).

  Lemma types_sound : sound types.
  Proof. exact (PipelineProofs.compile_sound _ _ _ _ _ _ _ _ _ _ Hc Hp Hj Hal Hap). Qed.
  Lemma types_ok : registry_ok types = true.
  Proof. exact (sound_registry_ok _ types_sound). Qed.
  Lemma types_valid : Forall (fun t => valid_full (type_name t)) types.
  Proof.
    unfold types, reg_schemas. apply Forall_map. eapply Forall_impl; [|exact (compile_registrable _ _ _ _ _ _ _ Hc)].
    intros [k s] (n & ns & Hd & Hk & Hn & Hns). cbn in Hd, Hk. exists n, (nsof ns). split; [|auto].
    cbn. rewrite (proj1 (type_name_field _ _ _ Hd)). reflexivity.
  Qed.
  Lemma document_each y : In y (so_schemas x) -> exists s, In s types /\ document_of types s (nm_schema y).
  Proof.
    intro Hy. destruct (extract_impl_each _ _ _ _ _ _ _ _ Hc Hx) as [He _]. revert Hy. unfold document_of. fold types in He.
    revert He. generalize (build_lookup types None). generalize types. intros L lk He. induction He as [|s z l r (_ & k & Ek) _ IH]; [intros []|].
    intros [->|Hy]; [exists s; split; [now left|eauto]|]. destruct (IH Hy) as (t & Ht & Hd). exists t. split; [now right|exact Hd].
  Qed.
  Lemma each_document s : In s types -> exists y, In y (so_schemas x) /\ document_of types s (nm_schema y).
  Proof.
    intro Hs. destruct (extract_impl_each _ _ _ _ _ _ _ _ Hc Hx) as [He _]. revert Hs. unfold document_of. fold types in He.
    revert He. generalize (build_lookup types None). generalize types. intros L lk He. induction He as [|t z l r (_ & k & Ek) _ IH]; [intros []|].
    intros [->|Hy]; [exists z; split; [now left|eauto]|]. destruct (IH Hy) as (t' & Ht & Hd). exists t'. split; [now right|exact Hd].
  Qed.
  Lemma document_writes s j : In s types -> document_of types s j ->
    (forall full d, writes j full d -> exists t, In t types /\ named_meaning t = Some (full, d))
    /\ (forall full, (exists d, writes j full d) <-> reaches types (type_name s) full).
  Proof.
    intros Hs (k & Ek). destruct (document_faithful types s types_ok (or_introl Hs)) as (j' & k' & defs & Ej & Hrd & Hn & Hd & Hk).
    rewrite Ek in Ej. injection Ej as <- <-.
    assert (Er : roots s = [type_name s]) by (unfold roots; pose proof (proj2 (so_solid _ types_sound s Hs)); destruct s; try discriminate; reflexivity).
    assert (K : forall full d, writes j full d <-> In (full, d) defs).
    { intros full d. split; [intros (t & defs' & E & Hi); rewrite Hrd in E; injection E as _ <-; exact Hi|]. intro Hi. exists (meaning s), defs. auto. }
    split.
    - intros full d Hdf. apply K in Hdf. now apply Hd.
    - intro full. specialize (Hk full). rewrite Er in Hk. split.
      + intros (d & Hdf). apply K in Hdf. apply (in_map fst) in Hdf. apply Hk in Hdf. destruct Hdf as (r & [<-|[]] & Hr). exact Hr.
      + intro Hr. assert (Hi : In full (keys defs)) by (apply Hk; exists (type_name s); split; [now left|exact Hr]).
        apply in_map_iff in Hi. destruct Hi as ([f d] & <- & Hi). exists d. now apply K.
  Qed.
  Lemma known_types full d : known_as (co_registry o) full d <-> exists t, In t types /\ named_meaning t = Some (full, d).
  Proof.
    split.
    - intros (t & Hi & Em). exists t. split; [|exact Em]. unfold types, reg_schemas. apply (in_map snd) in Hi. exact Hi.
    - intros (t & Hi & Em). unfold types, reg_schemas in Hi. apply in_map_iff in Hi. destruct Hi as ([k s] & <- & Hi). cbn in Em. exists s. split; [|exact Em].
      pose proof (compile_registrable _ _ _ _ _ _ _ Hc) as Hr. rewrite Forall_forall in Hr. destruct (Hr _ Hi) as (n & ns & Hd & Hk & _). cbn in Hd, Hk.
      assert (Ek : k = full); [|now subst]. rewrite Hk. pose proof (proj1 (type_name_field _ _ _ Hd)) as E. rewrite <- E.
      destruct s; cbn in Em; try discriminate; injection Em as Em _; exact Em.
  Qed.
End Extracted.
