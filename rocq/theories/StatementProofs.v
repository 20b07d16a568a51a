(** Proofs for SpecStatements.v *)
From Verif Require Import SpecStatements Defaults DefaultsProofs ResolveProofs RegistryProofs CompileProofs LoadProofs BuildProofs RefsProofs.
From Verif Require Import BaseProofs SpecFile FileProofs DenoteProofs MoveProofs ForgetProofs RewriteProofs SpecRefs ExpandProofs CliProofs OrderProofs.
From Coq Require Import Permutation Lia.
Import SpecNames.

Section Proofs.
  Context `{Unicode} `{Floats} `{Parser} `{FileSystem} `{JsonParser}.

  (** ** The same statements elsewhere *)
  Lemma expands_same dirs dir seen items ds tables seen' : expands dirs dir seen items ds tables seen' ->
    forall items', Forall2 same_item items items' -> exists ds', expands dirs dir seen items' ds' tables seen' /\ Forall2 same_declaration ds ds'.
  Proof.
    induction 1 as [dir seen|dir seen s sp fs items ds tables seen' Hx IH|dir seen k name sp p items ds tables seen' Hfo Hi Hx IH
      |dir seen k name sp p j l ms items ds tables seen' Hfo Hi Hj Hd Hm Hx IH
      |dir seen name sp p file inner ws ds1 t1 seen1 items ds2 t2 seen2 Hfo Hi Hc Hx1 IH1 Hx2 IH2];
      intros items' F; inversion F as [|i i' ? rest E F']; subst.
    - exists []. split; constructor.
    - destruct i' as [|s' sp' fs']; [contradiction|]. destruct (IH _ F') as (ds' & A & B). exists (Written s' :: ds'). split; [now constructor|now constructor].
    - destruct i' as [k' n' sp'|]; [|contradiction]. destruct E as [<- <-]. destruct (IH _ F') as (ds' & A & B). exists ds'. split; [eapply ex_again; eauto|exact B].
    - destruct i' as [k' n' sp'|]; [|contradiction]. destruct E as [<- <-]. destruct (IH _ F') as (ds' & A & B). exists (Listed l :: ds'). split; [eapply ex_json; eauto|constructor; [reflexivity|exact B]].
    - destruct i' as [k' n' sp'|]; [|contradiction]. destruct E as [<- <-]. destruct (IH2 _ F') as (ds' & A & B). exists (ds1 ++ ds'). split; [eapply ex_idl; eauto|].
      apply Forall2_app; [|exact B]. clear. induction ds1 as [|d ds IH]; constructor; [destruct d; reflexivity|exact IH].
  Qed.
  Lemma expands_app dirs dir seen a b ds tables seen' :
    expands dirs dir seen (a ++ b) ds tables seen' <->
    exists ds1 t1 seen1 ds2 t2, expands dirs dir seen a ds1 t1 seen1 /\ expands dirs dir seen1 b ds2 t2 seen' /\ ds = ds1 ++ ds2 /\ tables = t1 ++ t2.
  Proof.
    split.
    - revert seen ds tables seen'. induction a as [|i a IH]; intros seen ds tables seen' X; cbn in X.
      + exists [], [], seen, ds, tables. split; [constructor|]. auto.
      + inversion X; subst.
        * match goal with Y : expands _ _ _ (a ++ b) _ _ _ |- _ => destruct (IH _ _ _ _ Y) as (d1 & t1 & s1 & d2 & t2 & A & B & -> & ->) end.
          eexists _, t1, s1, d2, t2. split; [apply ex_type; exact A|]. auto.
        * match goal with Y : expands _ _ _ (a ++ b) _ _ _ |- _ => destruct (IH _ _ _ _ Y) as (d1 & t1 & s1 & d2 & t2 & A & B & -> & ->) end.
          eexists _, t1, s1, d2, t2. split; [eapply ex_again; eauto|]. auto.
        * match goal with Y : expands _ _ _ (a ++ b) _ _ _ |- _ => destruct (IH _ _ _ _ Y) as (d1 & t1 & s1 & d2 & t2 & A & B & -> & ->) end.
          eexists _, (_ :: t1), s1, d2, t2. split; [eapply ex_json; eauto|]. auto.
        * match goal with Y : expands _ _ _ (a ++ b) _ _ _ |- _ => destruct (IH _ _ _ _ Y) as (d1 & t1' & s1 & d2 & t2' & A & B & -> & ->) end.
          eexists _, _, s1, d2, t2'. split; [eapply ex_idl; eauto|]. split; [exact B|]. rewrite !app_assoc. auto.
    - intros (d1 & t1 & s1 & d2 & t2 & A & B & -> & ->). induction A as [dir seen|dir seen s sp fs items ds tables seen0 Hx IH|dir seen k name sp p items ds tables seen0 Hfo Hi Hx IH
      |dir seen k name sp p j l ms items ds tables seen0 Hfo Hi Hj Hd Hm Hx IH
      |dir seen name sp p file inner ws ds1 t1 seen1 items ds2 t2' seen2 Hfo Hi Hc Hx1 IH1 Hx2 IH2].
      + exact B.
      + cbn. apply ex_type. auto.
      + cbn. eapply ex_again; eauto.
      + cbn. eapply ex_json; eauto.
      + cbn [app]. rewrite <- !app_assoc. eapply ex_idl; eauto.
  Qed.
  Lemma expands_grows dirs dir seen items ds tables seen' : expands dirs dir seen items ds tables seen' -> forall p, In p seen -> In p seen'.
  Proof. induction 1; intros q Hq; auto. apply IHexpands. now right. apply IHexpands2, IHexpands1. now right. Qed.
  Lemma expands_imports dirs dir seen items ds tables seen' : expands dirs dir seen items ds tables seen' ->
    forall k n sp, In (DImport k n sp) items -> exists p, found_in (dir :: dirs) n p /\ In p seen'.
  Proof.
    induction 1 as [dir seen|dir seen s sp fs items ds tables seen' Hx IH|dir seen k name sp p items ds tables seen' Hfo Hi Hx IH
      |dir seen k name sp p j l ms items ds tables seen' Hfo Hi Hj Hd Hm Hx IH
      |dir seen name sp p file inner ws ds1 t1 seen1 items ds2 t2 seen2 Hfo Hi Hc Hx1 IH1 Hx2 IH2]; intros k0 n0 sp0 Hin.
    - contradiction.
    - destruct Hin as [E|Hin]; [discriminate|]. eauto.
    - destruct Hin as [E|Hin]; [|eauto]. injection E as <- <- <-. exists p. split; [exact Hfo|]. eapply expands_grows; eauto.
    - destruct Hin as [E|Hin]; [|eauto]. injection E as <- <- <-. exists p. split; [exact Hfo|]. eapply expands_grows; [exact Hx|now left].
    - destruct Hin as [E|Hin]; [|eauto]. injection E as <- <- <-. exists p. split; [exact Hfo|]. eapply expands_grows; [exact Hx2|]. eapply expands_grows; [exact Hx1|now left].
  Qed.
  Lemma known_seen dirs dir input items ds tables seen p : expands dirs dir (start input) items ds tables seen ->
    known_after dirs dir input items p -> In p seen.
  Proof.
    intros X [q E|k n sp q Hi Hfo|ds' t' seen' q X' Hq].
    - subst input. eapply expands_grows; [exact X|now left].
    - destruct (expands_imports _ _ _ _ _ _ _ X _ _ _ Hi) as (q' & Hfo' & Hq). now rewrite (found_in_fun _ _ _ _ Hfo Hfo').
    - destruct (expands_det _ _ _ _ _ _ _ X _ _ _ X') as (_ & _ & ->). exact Hq.
  Qed.
  Lemma same_item_sym l l' : Forall2 same_item l l' -> Forall2 same_item l' l.
  Proof. induction 1 as [|d d' ds ds' E F IH]; constructor; [|exact IH]. destruct d, d'; cbn in *; try contradiction; intuition congruence. Qed.
  Lemma known_same dirs dir input a a' p : Forall2 same_item a a' -> known_after dirs dir input a p -> known_after dirs dir input a' p.
  Proof.
    intros F [q E|k n sp q Hi Hfo|ds t seen q X Hq].
    - now apply ka_input.
    - assert (Hx : exists sp', In (DImport k n sp') a').
      { clear -F Hi. induction F as [|i i' l l' E F IH]; [contradiction|]. destruct Hi as [->|Hi]; [|destruct (IH Hi) as [x Hx]; exists x; now right].
        destruct i' as [k' n' sp'|]; [|contradiction]. destruct E as [<- <-]. exists sp'. now left. }
      destruct Hx as [sp' Hx]. eapply ka_import; eauto.
    - destruct (expands_same _ _ _ _ _ _ _ X _ F) as (ds' & X' & _). eapply ka_nested; eauto.
  Qed.
  Lemma again_added dirs dir input a b a' b' k n sp p ds tables seen : Forall2 same_item a a' -> Forall2 same_item b b' ->
    found_in (dir :: dirs) n p -> known_after dirs dir input a p ->
    expands dirs dir (start input) (a ++ b) ds tables seen ->
    exists ds', expands dirs dir (start input) (a' ++ DImport k n sp :: b') ds' tables seen /\ Forall2 same_declaration ds ds'.
  Proof.
    intros Fa Fb Hfo Hk X. apply expands_app in X. destruct X as (d1 & t1 & s1 & d2 & t2 & A & B & -> & ->).
    pose proof (known_seen _ _ _ _ _ _ _ _ A Hk) as Hs.
    destruct (expands_same _ _ _ _ _ _ _ A _ Fa) as (d1' & A' & D1). destruct (expands_same _ _ _ _ _ _ _ B _ Fb) as (d2' & B' & D2).
    exists (d1' ++ d2'). split; [|now apply Forall2_app]. apply expands_app. exists d1', t1, s1, d2', t2. split; [exact A'|]. split; [|auto].
    eapply ex_again; eauto.
  Qed.
  Lemma again_removed dirs dir input a b a' b' k n sp p ds tables seen : Forall2 same_item a a' -> Forall2 same_item b b' ->
    found_in (dir :: dirs) n p -> known_after dirs dir input a p ->
    expands dirs dir (start input) (a' ++ DImport k n sp :: b') ds tables seen ->
    exists ds', expands dirs dir (start input) (a ++ b) ds' tables seen /\ Forall2 same_declaration ds ds'.
  Proof.
    intros Fa Fb Hfo Hk X. apply expands_app in X. destruct X as (d1 & t1 & s1 & d2 & t2 & A & B & -> & ->).
    pose proof (known_seen _ _ _ _ _ _ _ _ A (known_same _ _ _ _ _ _ Fa Hk)) as Hs.
    assert (B0 : expands dirs dir s1 b' d2 t2 seen).
    { inversion B; subst; try assumption; exfalso; match goal with Hf : found_in _ n ?q, Hn : ~ In ?q _ |- _ => rewrite (found_in_fun _ _ _ _ Hf Hfo) in Hn; contradiction end. }
    destruct (expands_same _ _ _ _ _ _ _ A _ (same_item_sym _ _ Fa)) as (d1' & A' & D1). destruct (expands_same _ _ _ _ _ _ _ B0 _ (same_item_sym _ _ Fb)) as (d2' & B' & D2).
    exists (d1' ++ d2'). split; [|now apply Forall2_app]. apply expands_app. exists d1', t1, s1, d2', t2. auto.
  Qed.

  (** Two texts with one expansion, or none *)
  Definition both_ways {A} (R : A -> A -> Prop) (x x' : result A compile_error) : Prop :=
    match x, x' with Ok o, Ok o' => R o o' | Err _, Err _ => True | _, _ => False end.
  Lemma decided dirs dir input src label src' label' file items ws file' items' ws' :
    parse_idl label src = Ok (file, items, ws) -> parse_idl label' src' = Ok (file', items', ws') -> same_header file file' -> same_header file' file ->
    (forall ds tables seen, expands dirs dir (start input) items ds tables seen -> exists ds', expands dirs dir (start input) items' ds' tables seen /\ Forall2 same_declaration ds ds') ->
    (forall ds tables seen, expands dirs dir (start input) items' ds tables seen -> exists ds', expands dirs dir (start input) items ds' tables seen /\ Forall2 same_declaration ds ds') ->
    both_ways (fun o o' => (forall b b', same_fate io_json (snd (convert_impl o b)) (snd (convert_impl o' b')))
        /\ same_fate so_schemas (extract_impl o) (extract_impl o'))
      (fst (compile dirs src label dir input)) (fst (compile dirs src' label' dir input)).
  Proof.
    intros Ep Ep' Hh Hh' G G'.
    destruct (compile dirs src label dir input) as [[o|e] w] eqn:Ec.
    - destruct (compile_sound _ _ _ _ _ _ _ _ _ _ Ep Ec) as (ds & tables & seen & X & _). destruct (G _ _ _ X) as (ds' & X' & D).
      destruct (expansion_decides label src label' src' file file' items items' ws ws' _ _ _ _ input input ds ds' tables tables seen seen Ep Ep' Hh X X' D eq_refl o w Ec)
        as (o' & known & known' & Ec' & Er & Er' & R & Ef & Ef').
      rewrite Ec'. cbn. split; [intros b b'; now apply (same_converted file file' known known' tables tables)|]. apply same_extracted. congruence.
    - destruct (compile dirs src' label' dir input) as [[o'|e'] w'] eqn:Ec'; [|exact I]. exfalso.
      destruct (compile_sound _ _ _ _ _ _ _ _ _ _ Ep' Ec') as (ds & tables & seen & X & _). destruct (G' _ _ _ X) as (ds' & X' & D).
      destruct (expansion_decides label' src' label src file' file items' items ws' ws _ _ _ _ input input ds ds' tables tables seen seen Ep' Ep Hh' X X' D eq_refl o' w' Ec')
        as (o & known & known' & Ec1 & _). congruence.
  Qed.
End Proofs.

(** ** The order of statements *)
Section Order.
  Context `{Unicode} `{Floats} `{Parser} `{FileSystem} `{JsonParser}.

  (** What one file contributes *)
  Definition part := ((import_kind * string) * (list declaration * list (string * message)))%type.
  Inductive contributes : part -> Prop :=
  | co_idl p file inner ws : idl_content p file inner ws ->
      contributes ((ImportIdl, p), (map Written (type_items inner), messages_of_file file))
  | co_json k p j l ms : json_content p j -> json_definitions k j l -> load_messages (k, p) ms ->
      contributes ((k, p), ([Listed l], ms)).
  Definition part_key (x : part) : import_kind * string := fst x.
  Definition part_path (x : part) : string := snd (fst x).
  Definition part_decls (x : part) : list declaration := fst (snd x).
  Definition part_table (x : part) : list (string * message) := snd (snd x).
  Lemma contributes_fun x y : contributes x -> contributes y -> part_key x = part_key y -> x = y.
  Proof.
    intros A B E. destruct A as [p file inner ws A|k p j l ms A1 A2 A3], B as [p' file' inner' ws' B|k' p' j' l' ms' B1 B2 B3]; unfold part_key in E; cbn in E; injection E; intros; subst.
    - destruct (idl_content_fun _ _ _ _ _ _ _ A B) as (-> & -> & _). reflexivity.
    - inversion B2.
    - inversion A2.
    - rewrite (json_content_fun _ _ _ B1 A1) in *. rewrite (json_definitions_fun _ _ _ _ A2 B2), (load_messages_fun _ _ _ A3 B3). reflexivity.
  Qed.

  Lemma needed_through dirs dir input items q file its ws : needed dirs dir input items ImportIdl q -> input <> Some q -> idl_content q file its ws ->
    forall k p, needed dirs (fs_parent q) input its k p -> needed dirs dir input items k p.
  Proof.
    intros Hq Hn Hc k p Hp. induction Hp as [k name sp p Hi Hfo|q' file' its' ws' k name sp p Hq' IH Hn' Hc' Hi Hfo].
    - eapply ne_nested; eauto.
    - eapply ne_nested; [exact IH| | | |]; eauto.
  Qed.

  Lemma needed_same_imports dirs dir input items items' : (forall k n sp, In (DImport k n sp) items -> exists sp', In (DImport k n sp') items') ->
    forall k p, needed dirs dir input items k p -> needed dirs dir input items' k p.
  Proof.
    intros Hi k p Hn. induction Hn as [k name sp p Hin Hfo|q file its ws k name sp p Hq IH Hn Hc Hin Hfo].
    - destruct (Hi _ _ _ Hin) as [sp' Hin']. eapply ne_here; eauto.
    - eapply ne_nested; eauto.
  Qed.

  (** The files an expansion goes through, each with what it contributes *)
  Lemma expands_parts dirs dir seen items ds tables seen' : expands dirs dir seen items ds tables seen' ->
    exists new : list part,
      Forall contributes new
      /\ Permutation seen' (map part_path new ++ seen)
      /\ NoDup (map part_path new) /\ (forall x, In x new -> ~ In (part_path x) seen)
      /\ Permutation ds (map Written (type_items items) ++ flat_map part_decls new)
      /\ Permutation tables (map part_table new)
      /\ (forall p q file its ws k n sp, In p new -> part_key p = (ImportIdl, q) -> idl_content q file its ws -> In (DImport k n sp) its ->
            exists r, found_in (fs_parent q :: dirs) n r /\ In r seen')
      /\ (forall input x, incl (start input) seen -> In x new -> needed dirs dir input items (fst (part_key x)) (part_path x)).
  Proof.
    induction 1 as [dir seen|dir seen s sp fs items ds tables seen' Hx IH|dir seen k name sp p items ds tables seen' Hfo Hi Hx IH
      |dir seen k name sp p j l ms items ds tables seen' Hfo Hi Hj Hd Hm Hx IH
      |dir seen name sp p file inner ws ds1 t1 seen1 items ds2 t2 seen2 Hfo Hi Hc Hx1 IH1 Hx2 IH2].
    - exists []. repeat split; try constructor; try (intros; contradiction). reflexivity.
    - destruct IH as (new & A & B & C & D & E & F & G & I). exists new. repeat split; auto.
      + cbn. now constructor.
      + intros input x Hs Hin. eapply needed_same_imports; [|exact (I input x Hs Hin)]. intros k n sp' Hk. exists sp'. now right.
    - destruct IH as (new & A & B & C & D & E & F & G & I). exists new. repeat split; auto.
      intros input x Hs Hin. eapply needed_same_imports; [|exact (I input x Hs Hin)]. intros k' n sp' Hk. exists sp'. now right.
    - destruct IH as (new & A & B & C & D & E & F & G & I). exists (((k, p), ([Listed l], ms)) :: new). repeat split.
      + constructor; [|exact A]. econstructor; eauto.
      + cbn. rewrite B. symmetry. apply Permutation_middle.
      + cbn. constructor; [|exact C]. intro Hin. apply in_map_iff in Hin. destruct Hin as (x & Ex & Hin). apply (D x Hin). left. now symmetry.
      + intros x [<-|Hin]; [exact Hi|]. intro Hs. apply (D x Hin). now right.
      + cbn. rewrite E. rewrite Permutation_middle. reflexivity.
      + cbn. now constructor.
      + intros x q f its ws k' n sp' [<-|Hin] Ek Hc Hk; [|eauto]. unfold part_key in Ek. cbn in Ek. injection Ek as -> ->. inversion Hd.
      + intros input x Hs [<-|Hin].
        * eapply ne_here; [left; reflexivity|exact Hfo].
        * eapply needed_same_imports; [|refine (I input x _ Hin)]; [intros k' n sp' Hk; exists sp'; now right|]. intros z Hz. right. now apply Hs.
    - destruct IH1 as (new1 & A1 & B1 & C1 & D1 & E1 & F1 & G1 & I1). destruct IH2 as (new2 & A2 & B2 & C2 & D2 & E2 & F2 & G2 & I2).
      exists (((ImportIdl, p), (map Written (type_items inner), messages_of_file file)) :: new1 ++ new2).
      assert (Hseen : forall q, In q seen1 <-> In q (map part_path new1) \/ q = p \/ In q seen).
      { intro q. split; intro Hq.
        - apply (Permutation_in _ B1) in Hq. apply in_app_or in Hq. destruct Hq as [Hq|[Hq|Hq]]; auto.
        - apply (Permutation_in _ (Permutation_sym B1)). apply in_or_app. destruct Hq as [Hq|[Hq|Hq]]; [now left|right; now left|right; now right]. }
      repeat split.
      + constructor; [econstructor; exact Hc|]. now apply Forall_app.
      + cbn. rewrite B2, B1. rewrite map_app. rewrite <- app_assoc.
        rewrite (Permutation_app_swap_app (map part_path new2) (map part_path new1)). rewrite !app_assoc. symmetry. rewrite <- Permutation_middle. reflexivity.
      + cbn. rewrite map_app. constructor.
        * intro Hin. apply in_app_or in Hin. destruct Hin as [Hin|Hin]; apply in_map_iff in Hin; destruct Hin as (x & Ex & Hin).
          -- apply (D1 x Hin). left. now symmetry.
          -- apply (D2 x Hin). apply Hseen. right. left. exact Ex.
        * clear - C1 C2 D2 Hseen. induction new1 as [|x new1 IH]; [exact C2|]. inversion C1 as [|? ? Hx C1']; subst. cbn. constructor.
          -- intro Hin. apply in_app_or in Hin. destruct Hin as [Hin|Hin]; [contradiction|]. apply in_map_iff in Hin. destruct Hin as (y & Ey & Hin).
             apply (D2 y Hin). apply Hseen. left. left. now symmetry.
          -- assert (G : forall l1, (forall y, In y new2 -> ~ In (part_path y) (map part_path l1)) -> NoDup (map part_path l1) -> NoDup (map part_path l1 ++ map part_path new2)).
             { clear - C2. induction l1 as [|x l1 IH]; intros Hd Hn; [exact C2|]. inversion Hn; subst. cbn. constructor.
               - intro Hin. apply in_app_or in Hin. destruct Hin as [Hin|Hin]; [contradiction|]. apply in_map_iff in Hin. destruct Hin as (y & Ey & Hin). apply (Hd y Hin). left. now symmetry.
               - apply IH; [|assumption]. intros y Hy Hin. apply (Hd y Hy). now right. }
             apply G; [|exact C1']. intros y Hy Hin. apply (D2 y Hy). apply Hseen. left. now right.
      + intros x [<-|Hin]; [exact Hi|]. apply in_app_or in Hin. destruct Hin as [Hin|Hin]; intro Hs.
        * apply (D1 x Hin). now right.
        * apply (D2 x Hin). apply Hseen. auto.
      + rewrite E1, E2. change (type_items (DImport ImportIdl name sp :: items)) with (type_items items). cbn [flat_map]. rewrite flat_map_app.
        change (part_decls (ImportIdl, p, (map Written (type_items inner), messages_of_file file))) with (map Written (type_items inner)).
        generalize (map Written (type_items inner)), (map Written (type_items items)), (flat_map part_decls new1), (flat_map part_decls new2). clear. intros a b c d.
        rewrite <- !app_assoc. rewrite (Permutation_app_swap_app b a). apply Permutation_app_head. apply Permutation_app_swap_app.
      + cbn. constructor. rewrite F1, F2, map_app. reflexivity.
      + intros x q f its ws' k' n sp' Hin Ek Hc' Hk. destruct Hin as [<-|Hin].
        * unfold part_key in Ek. cbn in Ek. injection Ek as <-. destruct (idl_content_fun _ _ _ _ _ _ _ Hc Hc') as (_ & <- & _).
          destruct (expands_imports _ _ _ _ _ _ _ Hx1 _ _ _ Hk) as (r & Hr & Hin). exists r. split; [exact Hr|]. eapply expands_grows; eauto.
        * apply in_app_or in Hin. destruct Hin as [Hin|Hin]; [|eauto].
          destruct (G1 _ _ _ _ _ _ _ _ Hin Ek Hc' Hk) as (r & Hr & Hrin). exists r. split; [exact Hr|]. eapply expands_grows; eauto.
      + intros input x Hs Hin.
        assert (Hp : needed dirs dir input (DImport ImportIdl name sp :: items) ImportIdl p) by (eapply ne_here; [left; reflexivity|exact Hfo]).
        destruct Hin as [<-|Hin]; [exact Hp|].
        apply in_app_or in Hin. destruct Hin as [Hin|Hin].
        * eapply needed_through; [exact Hp| |exact Hc|].
          -- intros ->. apply Hi. apply Hs. now left.
          -- apply I1; [|exact Hin]. intros z Hz. right. now apply Hs.
        * eapply needed_same_imports; [|refine (I2 input x _ Hin)]; [intros k' n sp' Hk; exists sp'; now right|].
          intros z Hz. apply Hseen. right. right. now apply Hs.
  Qed.

  (** Enough files to go through *)
  Definition unseen (seen : list string) (all : list part) : nat := length (filter (fun x => negb (str_mem (part_path x) seen)) all).
  Lemma unseen_le seen seen' all : incl seen seen' -> unseen seen' all <= unseen seen all.
  Proof.
    intro Hs. unfold unseen. induction all as [|x all IH]; [reflexivity|]. cbn.
    destruct (str_mem (part_path x) seen) eqn:E; cbn.
    - apply str_mem_In in E. apply Hs in E. apply str_mem_In in E. rewrite E. exact IH.
    - destruct (str_mem (part_path x) seen'); cbn; lia.
  Qed.
  Lemma unseen_lt seen seen' all x : incl seen seen' -> In x all -> ~ In (part_path x) seen -> In (part_path x) seen' -> unseen seen' all < unseen seen all.
  Proof.
    intros Hs Hx Hn Hi. unfold unseen. induction all as [|y all IH]; [contradiction|]. cbn.
    pose proof (unseen_le seen seen' all Hs) as Hle. unfold unseen in Hle. destruct Hx as [->|Hx].
    - apply str_mem_In in Hi. rewrite Hi. destruct (str_mem (part_path x) seen) eqn:E; [apply str_mem_In in E; contradiction|]. cbn. lia.
    - specialize (IH Hx). destruct (str_mem (part_path y) seen) eqn:E; cbn.
      + apply str_mem_In in E. apply Hs in E. apply str_mem_In in E. rewrite E. exact IH.
      + destruct (str_mem (part_path y) seen'); cbn; lia.
  Qed.
  Lemma builds dirs all base : Forall contributes all ->
    (forall q file its ws k n sp, In (ImportIdl, q) (map part_key all) -> idl_content q file its ws -> In (DImport k n sp) its ->
       exists r, found_in (fs_parent q :: dirs) n r /\ (In r base \/ In (k, r) (map part_key all))) ->
    forall m items dir seen, incl base seen -> unseen seen all <= m ->
      (forall k n sp, In (DImport k n sp) items -> exists r, found_in (dir :: dirs) n r /\ (In r base \/ In (k, r) (map part_key all))) ->
      exists ds tables seen', expands dirs dir seen items ds tables seen'.
  Proof.
    intros Ha Hcl m. induction m as [m IHm] using lt_wf_ind. intro items. induction items as [|i items IH]; intros dir seen Hb Hm Hi.
    - exists [], [], seen. constructor.
    - assert (Hi' : forall k n sp, In (DImport k n sp) items -> exists r, found_in (dir :: dirs) n r /\ (In r base \/ In (k, r) (map part_key all))) by (intros; eapply Hi; right; eassumption).
      destruct i as [k n sp|s sp fs].
      + destruct (Hi k n sp (or_introl eq_refl)) as (r & Hfo & Hr).
        destruct (str_mem r seen) eqn:Es.
        * apply str_mem_In in Es. destruct (IH dir seen Hb Hm Hi') as (ds & t & s' & X). exists ds, t, s'. eapply ex_again; eauto.
        * assert (Hns : ~ In r seen) by (intro Hin; apply str_mem_In in Hin; congruence).
          assert (Hk : In (k, r) (map part_key all)) by (destruct Hr as [Hr|Hr]; [exfalso; apply Hns, Hb, Hr|exact Hr]).
          apply in_map_iff in Hk. destruct Hk as (x & Ek & Hx).
          assert (Epath : part_path x = r) by (unfold part_path, part_key in *; now rewrite Ek).
          assert (Hlt : forall seen', incl seen seen' -> In r seen' -> unseen seen' all < unseen seen all).
          { intros seen' Hs Hin. apply (unseen_lt seen seen' all x Hs Hx); rewrite Epath; assumption. }
          assert (Hrs : incl seen (r :: seen)) by (intros z Hz; now right).
          rewrite Forall_forall in Ha. pose proof (Ha x Hx) as Hcx.
          destruct Hcx as [p file inner ws Hc|k' p j l ms Hj Hd Hl]; unfold part_key in Ek; cbn in Ek; injection Ek as <- <-.
          -- destruct (IHm (unseen (p :: seen) all)) with (items := inner) (dir := fs_parent p) (seen := p :: seen) as (ds1 & t1 & s1 & X1).
             ++ pose proof (Hlt (p :: seen) Hrs (or_introl eq_refl)). lia.
             ++ intros z Hz. right. now apply Hb.
             ++ reflexivity.
             ++ intros k n' sp' Hin. eapply Hcl; [|exact Hc|exact Hin]. apply in_map_iff. eexists. split; [|exact Hx]. reflexivity.
             ++ assert (Hs1 : incl seen s1) by (intros z Hz; eapply expands_grows; [exact X1|now right]).
                assert (Hp1 : In p s1) by (eapply expands_grows; [exact X1|now left]).
                destruct (IH dir s1) as (ds2 & t2 & s2 & X2); [intros z Hz; apply Hs1, Hb, Hz|pose proof (Hlt s1 Hs1 Hp1); lia|exact Hi'|].
                do 3 eexists. eapply ex_idl; eauto.
          -- destruct (IH dir (p :: seen)) as (ds2 & t2 & s2 & X2); [intros z Hz; right; apply Hb, Hz|pose proof (Hlt (p :: seen) Hrs (or_introl eq_refl)); lia|exact Hi'|].
             do 3 eexists. eapply ex_json; eauto.
      + destruct (IH dir seen Hb Hm Hi') as (ds & t & s' & X). exists (Written s :: ds), t, s'. now constructor.
  Qed.

  (** Everything needed is gone through, as what it is needed as. *)
  Lemma goes_through dirs dir input items ds tables seen (new : list part) :
    one_kind dirs dir input items -> expands dirs dir (start input) items ds tables seen ->
    Permutation seen (map part_path new ++ start input) ->
    (forall p q file its ws k n sp, In p new -> part_key p = (ImportIdl, q) -> idl_content q file its ws -> In (DImport k n sp) its ->
            exists r, found_in (fs_parent q :: dirs) n r /\ In r seen) ->
    (forall x, In x new -> needed dirs dir input items (fst (part_key x)) (part_path x)) ->
    forall k p, needed dirs dir input items k p -> In p (start input) \/ In (k, p) (map part_key new).
  Proof.
    intros Hone X Hp Hcl Hne.
    assert (Hlast : forall k p, needed dirs dir input items k p -> In p seen -> In p (start input) \/ In (k, p) (map part_key new)).
    { intros k p Hn Hin. apply (Permutation_in _ Hp) in Hin. apply in_app_or in Hin. destruct Hin as [Hin|Hin]; [|now left]. right.
      apply in_map_iff in Hin. destruct Hin as (x & Ex & Hin). pose proof (Hne x Hin) as Hnx. rewrite Ex in Hnx. apply in_map_iff. exists x. split; [|exact Hin].
      unfold part_key, part_path in *. rewrite (surjective_pairing (fst x)), Ex. f_equal. exact (Hone _ _ _ Hnx Hn). }
    intros k p Hn. induction Hn as [k name sp p Hi Hfo|q file its ws k name sp p Hq IH Hnq Hc Hi Hfo].
    - apply Hlast; [eapply ne_here; eauto|]. destruct (expands_imports _ _ _ _ _ _ _ X _ _ _ Hi) as (r & Hfo' & Hr). now rewrite (found_in_fun _ _ _ _ Hfo Hfo').
    - apply Hlast; [eapply ne_nested; eauto|]. destruct IH as [Hs|Hk].
      + exfalso. unfold start in Hs. destruct input as [i|]; [|contradiction]. destruct Hs as [->|[]]. now apply Hnq.
      + apply in_map_iff in Hk. destruct Hk as (x & Ek & Hx). destruct (Hcl _ _ _ _ _ _ _ _ Hx Ek Hc Hi) as (r & Hfo' & Hr). now rewrite (found_in_fun _ _ _ _ Hfo Hfo').
  Qed.
  Lemma NoDup_paths (l : list part) : NoDup (map part_path l) -> NoDup l.
  Proof. apply NoDup_map_inv. Qed.
  Lemma expands_moved dirs dir input items items1 ds tables seen : Permutation items items1 -> one_kind dirs dir input items ->
    expands dirs dir (start input) items ds tables seen ->
    exists ds1 tables1 seen1, expands dirs dir (start input) items1 ds1 tables1 seen1 /\ Permutation ds ds1 /\ Permutation tables tables1.
  Proof.
    intros P Hone X. destruct (expands_parts _ _ _ _ _ _ _ X) as (new & A & B & C & D & E & F & G & I).
    assert (Hne : forall x, In x new -> needed dirs dir input items (fst (part_key x)) (part_path x)) by (intros x; apply I; intro; auto).
    pose proof (goes_through _ _ _ _ _ _ _ _ Hone X B G Hne) as T.
    assert (Himp : forall k n sp, In (DImport k n sp) items1 -> exists r, found_in (dir :: dirs) n r /\ (In r (start input) \/ In (k, r) (map part_key new))).
    { intros k n sp Hi. apply (Permutation_in _ (Permutation_sym P)) in Hi. destruct (expands_imports _ _ _ _ _ _ _ X _ _ _ Hi) as (r & Hfo & _).
      exists r. split; [exact Hfo|]. apply T. eapply ne_here; eauto. }
    assert (Hne1 : forall k p, needed dirs dir input items1 k p <-> needed dirs dir input items k p).
    { intros k p. split; apply needed_same_imports; intros k' n sp Hi; exists sp; [apply (Permutation_in _ (Permutation_sym P))|apply (Permutation_in _ P)]; exact Hi. }
    destruct (builds dirs new (start input) A) with (m := unseen (start input) new) (items := items1) (dir := dir) (seen := start input) as (ds1 & t1 & s1 & X1); [ |intro; auto|reflexivity|exact Himp|].
    { intros q file its ws k n sp Hk Hc Hi. pose proof Hk as Hk'. apply in_map_iff in Hk'. destruct Hk' as (x & Ex & Hx).
      destruct (G _ _ _ _ _ _ _ _ Hx Ex Hc Hi) as (r & Hfo & _). exists r. split; [exact Hfo|]. apply T.
      pose proof (Hne x Hx) as Hq. pose proof (D x Hx) as Hd. unfold part_path in Hq, Hd. unfold part_key in *. rewrite Ex in *. cbn [fst snd] in *.
      eapply ne_nested; [exact Hq| |exact Hc|exact Hi|exact Hfo]. intros ->. apply Hd. now left. }
    exists ds1, t1, s1. split; [exact X1|].
    destruct (expands_parts _ _ _ _ _ _ _ X1) as (new1 & A1 & B1 & C1 & D1 & E1 & F1 & G1 & I1).
    assert (Hone1 : one_kind dirs dir input items1) by (intros k k' p Ha Hb; apply Hne1 in Ha, Hb; exact (Hone _ _ _ Ha Hb)).
    assert (Hnew1 : forall x, In x new1 -> needed dirs dir input items1 (fst (part_key x)) (part_path x)) by (intros x; apply I1; intro; auto).
    pose proof (goes_through _ _ _ _ _ _ _ _ Hone1 X1 B1 G1 Hnew1) as T1.
    assert (Hsame : Permutation new new1).
    { rewrite Forall_forall in A, A1. apply NoDup_Permutation; [now apply NoDup_paths|now apply NoDup_paths|].
      assert (Hkey : forall x : part, (fst (part_key x), part_path x) = part_key x) by (intros [[k p] y]; reflexivity).
      intro x. split; intro Hx.
      - destruct (T1 _ _ (proj2 (Hne1 _ _) (Hne x Hx))) as [Hs|Hk]; [exfalso; exact (D x Hx Hs)|]. rewrite Hkey in Hk. apply in_map_iff in Hk. destruct Hk as (y & Ey & Hy).
        now rewrite (contributes_fun x y (A x Hx) (A1 y Hy) (eq_sym Ey)).
      - destruct (T _ _ (proj1 (Hne1 _ _) (Hnew1 x Hx))) as [Hs|Hk]; [exfalso; exact (D1 x Hx Hs)|]. rewrite Hkey in Hk. apply in_map_iff in Hk. destruct Hk as (y & Ey & Hy).
        now rewrite (contributes_fun x y (A1 x Hx) (A y Hy) (eq_sym Ey)). }
    split.
    - rewrite E, E1. apply Permutation_app; [|now apply Permutation_flat_map]. apply Permutation_map. unfold type_items. now apply Permutation_flat_map.
    - rewrite F, F1. now apply Permutation_map.
  Qed.
End Order.

(** ** What the declarations add up to, in any order *)
Section Adding.
  Context `{Unicode} `{Floats} `{Parser} `{FileSystem} `{JsonParser}.

  Inductive entered : list schema -> registry -> Prop :=
  | en_nil : entered [] []
  | en_yes s full l r : registrable s full -> entered l r -> entered (s :: l) ((full, s) :: r)
  | en_no s l r : (forall full, ~ registrable s full) -> entered l r -> entered (s :: l) r.
  Lemma registrable_or s : (exists full, registrable s full) \/ forall full, ~ registrable s full.
  Proof.
    pose proof (register_cases [] s) as Hc. destruct (register [] s) as [r|[]]; try (right; exact Hc).
    - destruct Hc as (full & Hr & _). left. eauto.
    - destruct Hc as [Hr _]. left. eauto.
  Qed.
  Lemma entered_exists l : exists r, entered l r.
  Proof. induction l as [|s l [r IH]]; [exists []; constructor|]. destruct (registrable_or s) as [[full Hr]|Hn]; eexists; [eapply en_yes|eapply en_no]; eauto. Qed.
  Lemma entered_moved l l' : Permutation l l' -> forall r, entered l r -> exists r', entered l' r' /\ Permutation r r'.
  Proof.
    induction 1 as [|s l l' P IH|s t l|l1 l2 l3 P1 IH1 P2 IH2]; intros r E.
    - exists r. auto.
    - inversion E as [|? full ? r0 Hr E0|? ? ? Hn E0]; subst; destruct (IH _ E0) as (r' & E' & P'); eexists; (split; [first [eapply en_yes; eassumption|eapply en_no; eassumption]|auto]).
    - inversion E as [|? full ? r0 Hr E0|? ? ? Hn E0]; subst; inversion E0 as [|? full' ? r1 Hr' E1|? ? ? Hn' E1]; subst.
      + exists ((full', s) :: (full, t) :: r1). split; [|constructor]. repeat (apply en_yes; [assumption|]). exact E1.
      + exists ((full, t) :: r0). split; [|reflexivity]. apply en_no; [assumption|]. apply en_yes; assumption.
      + exists ((full', s) :: r1). split; [|reflexivity]. apply en_yes; [assumption|]. apply en_no; assumption.
      + exists r. split; [|reflexivity]. repeat (apply en_no; [assumption|]). exact E1.
    - destruct (IH1 _ E) as (r' & E' & P'). destruct (IH2 _ E') as (r2 & E2 & P3). exists r2. split; [exact E2|]. etransitivity; eauto.
  Qed.
  Lemma entered_split a b r : entered (a ++ b) r -> exists r1 r2, r = r1 ++ r2 /\ entered a r1 /\ entered b r2.
  Proof.
    revert r. induction a as [|s a IH]; intros r E; cbn in E; [exists [], r; split; [reflexivity|]; split; [constructor|exact E]|].
    inversion E as [|? full ? r0 Hr E0|? ? ? Hn E0]; subst; destruct (IH _ E0) as (r1 & r2 & -> & A & B).
    - exists ((full, s) :: r1), r2. split; [reflexivity|]. split; [now constructor|exact B].
    - exists r1, r2. split; [reflexivity|]. split; [now apply en_no|exact B].
  Qed.
  Lemma entered_in l r : entered l r -> forall full, In full (keys r) -> exists a s b, l = a ++ s :: b /\ registrable s full.
  Proof.
    induction 1 as [|s full l r Hr E IH|s l r Hn E IH]; intros f Hf; [contradiction| |].
    - destruct Hf as [<-|Hf]; [exists [], s, l; auto|]. destruct (IH f Hf) as (a & t & b & -> & Ht). exists (s :: a), t, b. auto.
    - destruct (IH f Hf) as (a & t & b & -> & Ht). exists (s :: a), t, b. auto.
  Qed.
  Lemma entered_once l r : entered l r -> named_once l -> NoDup (keys r).
  Proof.
    induction 1 as [|s full l r Hr E IH|s l r Hn E IH]; intro Ho; [constructor| |].
    - cbn. constructor.
      + intro Hi. destruct (entered_in _ _ E _ Hi) as (a & t & b & -> & Ht). exact (Ho [] s a t b full eq_refl Hr Ht).
      + apply IH. intros a t b t' c f ->. exact (Ho (s :: a) t b t' c f eq_refl).
    - apply IH. intros a t b t' c f ->. exact (Ho (s :: a) t b t' c f eq_refl).
  Qed.
  Lemma entered_joins l r : entered l r -> forall known, NoDup (keys (known ++ r)) -> joins known l (known ++ r).
  Proof.
    induction 1 as [|s full l r Hr E IH|s l r Hn E IH]; intros known Hd.
    - rewrite app_nil_r. constructor.
    - eapply jo_new; [exact Hr| |].
      + rewrite keys_app in Hd. cbn in Hd. apply NoDup_remove_2 in Hd. intro Hi. apply Hd, in_or_app. now left.
      + replace (known ++ (full, s) :: r) with ((known ++ [(full, s)]) ++ r) in * by (now rewrite <- app_assoc). now apply IH.
    - apply jo_not; [|now apply IH]. intros full Hf. exfalso. exact (Hn _ Hf).
  Qed.
  Lemma entered_added known ds known' : adds_up known ds known' -> forall r, entered (types_among ds) r -> NoDup (keys (known ++ r)) -> known' = known ++ r.
  Proof.
    induction 1 as [known|known s full ds known' A B C Hd IH|known l known1 ds known' Hj Hd IH]; intros r E Hn; cbn [types_among flat_map] in E.
    - inversion E; subst. now rewrite app_nil_r.
    - cbn in E. inversion E as [|? full' ? r0 Hr E0|? ? ? Hno E0]; subst; [|exfalso; exact (Hno _ A)]. rewrite (registrable_fun _ _ _ Hr A) in *.
      replace (known ++ (full, s) :: r0) with ((known ++ [(full, s)]) ++ r0) in * by (now rewrite <- app_assoc). now apply IH.
    - apply entered_split in E. destruct E as (r1 & r2 & -> & E1 & E2). rewrite app_assoc in *.
      assert (Hn1 : NoDup (keys (known ++ r1))) by (rewrite keys_app in Hn; clear -Hn; induction (keys (known ++ r1)) as [|x l IH]; [constructor|]; inversion Hn; subst; constructor; [intro Hi; apply H1, in_or_app; now left|auto]).
      pose proof (entered_joins _ _ E1 known Hn1) as J. apply joins_fun in J, Hj. subst known1. rewrite <- J in *. now apply IH.
  Qed.
  Lemma entered_adds ds : forall r known, entered (types_among ds) r -> NoDup (keys (known ++ r)) ->
    (forall s, In (Written s) ds -> exists full, registrable s full) ->
    (forall s known2, In (Written s) ds -> (forall k v, assoc k known2 = Some v -> assoc k (known ++ r) = Some v) -> defaults_fit known2 s) ->
    adds_up known ds (known ++ r).
  Proof.
    induction ds as [|d ds IH]; intros r known E Hn Hr Hf; cbn [types_among flat_map] in E.
    - inversion E; subst. rewrite app_nil_r. constructor.
    - destruct d as [s|l].
      + cbn in E. destruct (Hr s (or_introl eq_refl)) as [full A]. inversion E as [|? full' ? r0 Hr0 E0|? ? ? Hno E0]; subst; [|exfalso; exact (Hno _ A)].
        rewrite (registrable_fun _ _ _ Hr0 A) in *. clear Hr0 full'.
        assert (Hni : ~ In full (keys known)).
        { rewrite keys_app in Hn. cbn in Hn. apply NoDup_remove_2 in Hn. intro Hi. apply Hn, in_or_app. now left. }
        replace (known ++ (full, s) :: r0) with ((known ++ [(full, s)]) ++ r0) in * by (now rewrite <- app_assoc).
        eapply de_written; [exact A|exact Hni| |].
        * apply Hf; [now left|]. intros k v Ek. now rewrite assoc_app, Ek.
        * apply IH; auto; [intros t Ht; apply Hr; now right|]. intros t k2 Ht. apply Hf. now right.
      + apply entered_split in E. destruct E as (r1 & r2 & -> & E1 & E2). rewrite app_assoc in *.
        assert (Hn1 : NoDup (keys (known ++ r1))) by (rewrite keys_app in Hn; clear -Hn; induction (keys (known ++ r1)) as [|x m IH]; [constructor|]; inversion Hn; subst; constructor; [intro Hi; apply H1, in_or_app; now left|auto]).
        eapply de_listed; [exact (entered_joins _ _ E1 known Hn1)|]. apply IH; auto; [intros t Ht; apply Hr; now right|]. intros t k2 Ht. apply Hf. now right.
  Qed.
  Lemma added_registrable known ds known' : adds_up known ds known' -> forall s, In (Written s) ds -> exists full, registrable s full.
  Proof.
    induction 1 as [known|known s full ds known' A B C Hd IH|known l known1 ds known' Hj Hd IH]; intros t Ht; [contradiction| |].
    - destruct Ht as [E|Ht]; [injection E as <-; eauto|auto].
    - destruct Ht as [E|Ht]; [discriminate|auto].
  Qed.

  (** Knowing less, less is checked. *)
  Lemma map_visit_more {A B} (f g : A -> list string -> option (option B * list string)) l :
    (forall x vis y v, In x l -> f x vis = Some (Some y, v) -> g x vis = Some (Some y, v)) ->
    forall vis ys v, map_visit f l vis = Some (Some ys, v) -> map_visit g l vis = Some (Some ys, v).
  Proof.
    induction l as [|x l IH]; intros Hf vis ys v E; [exact E|]. cbn in *.
    destruct (f x vis) as [[[y|] v1]|] eqn:Ef; try discriminate. rewrite (Hf _ _ _ _ (or_introl eq_refl) Ef).
    destruct (map_visit f l v1) as [[[ys'|] v2]|] eqn:El; try discriminate. rewrite (IH (fun a b c d Hi => Hf a b c d (or_intror Hi)) _ _ _ El). exact E.
  Qed.
  Lemma resolve_more fuel (res res' : string -> option schema) : (forall k v, res k = Some v -> res' k = Some v) ->
    forall s vis t v, resolve_inner fuel res s vis = Some (Some t, v) -> resolve_inner fuel res' s vis = Some (Some t, v).
  Proof.
    intro Hr. induction fuel as [|fuel IH]; intros s vis t v E; [discriminate|]. cbn in *.
    destruct s as [p|n ns d fs e al ps|n ns d sy df al ps|n ns d sz al ps|i ps|i ps|ts b|k ps|l ps|n ns ps sp]; try exact E.
    - destruct (map_visit _ fs _) as [[[fs'|] v1]|] eqn:Em; try discriminate.
      erewrite map_visit_more; [exact E| |exact Em]. intros f vis' y v' _ Ef. cbn in *.
      destruct (resolve_inner fuel res (f_schema f) vis') as [[[u|] v2]|] eqn:Ei; try discriminate. now rewrite (IH _ _ _ _ Ei).
    - destruct (resolve_inner fuel res i vis) as [[[u|] v2]|] eqn:Ei; try discriminate. now rewrite (IH _ _ _ _ Ei).
    - destruct (resolve_inner fuel res i vis) as [[[u|] v2]|] eqn:Ei; try discriminate. now rewrite (IH _ _ _ _ Ei).
    - destruct (map_visit _ ts _) as [[[ts'|] v1]|] eqn:Em; try discriminate.
      erewrite map_visit_more; [exact E| |exact Em]. intros x vis' y v' _ Ef. now apply IH.
    - destruct (str_mem (make_full_name n ns) vis); [exact E|]. destruct (res (make_full_name n ns)) as [u|] eqn:Eu; [|discriminate].
      rewrite (Hr _ _ Eu). now apply IH.
  Qed.
  Lemma fit_less a b s : (forall k v, assoc k a = Some v -> assoc k b = Some v) -> defaults_fit b s -> defaults_fit a s.
  Proof.
    intros Hs Hf n ns d fs e al ps f j fuel t Es Hi Hd Hr. apply (Hf n ns d fs e al ps f j fuel t Es Hi Hd).
    unfold resolve_for_validation in *. destruct (resolve_inner fuel _ (f_schema f) []) as [[[u|] v]|] eqn:Er; try discriminate.
    erewrite resolve_more; [exact Hr| |exact Er]. exact Hs.
  Qed.

  Lemma adds_up_moved ds ds1 known : adds_up [] ds known -> Permutation ds ds1 -> named_once (types_among ds) ->
    (forall s, In (Written s) ds -> defaults_fit known s) ->
    exists known1, adds_up [] ds1 known1 /\ Permutation known known1 /\ NoDup (keys known).
  Proof.
    intros A P Ho Hf. destruct (entered_exists (types_among ds)) as [r E]. pose proof (entered_once _ _ E Ho) as Hn.
    pose proof (entered_added _ _ _ A r E Hn) as Ek. cbn in Ek. subst known.
    destruct (entered_moved _ (types_among ds1) (Permutation_flat_map _ P) _ E) as (r1 & E1 & P1).
    exists r1. split; [|split; assumption]. apply (entered_adds ds1 r1 []).
    - exact E1.
    - cbn. eapply Permutation_NoDup; [apply Permutation_map; exact P1|exact Hn].
    - intros s Hs. eapply added_registrable; [exact A|]. eapply Permutation_in; [symmetry; exact P|exact Hs].
    - cbn. intros s known2 Hs Hk. eapply fit_less; [|apply Hf; eapply Permutation_in; [symmetry; exact P|exact Hs]].
      intros k v Ek. rewrite (assoc_Permutation k r r1 Hn P1). now apply Hk.
  Qed.

  (** ** The names used *)
  Lemma last_moved tables tables1 n m : Permutation tables tables1 -> messages_once tables -> last_declared tables1 n m -> last_declared tables n m.
  Proof.
    intros P Ho (b & l & a & -> & El & _).
    assert (Hl : In l tables) by (eapply Permutation_in; [symmetry; exact P|]; apply in_or_app; right; now left).
    apply in_split in Hl. destruct Hl as (b1 & a1 & ->). exists b1, l, a1. split; [reflexivity|]. split; [exact El|].
    intros l' Hl'. apply in_split in Hl'. destruct Hl' as (c & d & ->). apply (Ho b1 l c l' d n eq_refl). rewrite keys_rev. apply assoc_In in El. apply in_map_iff. exists (n, m). auto.
  Qed.
  Lemma messages_once_moved tables tables1 : Permutation tables tables1 -> messages_once tables -> messages_once tables1.
  Proof.
    intros P Ho a l b l' c n -> Hl Hl'.
    assert (Hx : exists d, Permutation tables (l :: l' :: d)).
    { exists (a ++ b ++ c). rewrite P. rewrite <- Permutation_middle. constructor. rewrite (app_assoc a b), <- Permutation_middle, app_assoc. reflexivity. }
    destruct Hx as [d Pd]. clear P a b c.
    assert (Hi : In l tables) by (eapply Permutation_in; [symmetry; exact Pd|now left]). apply in_split in Hi. destruct Hi as (a & b & ->).
    rewrite <- Permutation_middle in Pd. apply Permutation_cons_inv in Pd.
    assert (Hi : In l' (a ++ b)) by (eapply Permutation_in; [symmetry; exact Pd|now left]). apply in_app_or in Hi.
    destruct Hi as [Hi|Hi]; apply in_split in Hi; destruct Hi as (x & y & ->).
    - refine (Ho x l' y l b n _ Hl' Hl). now rewrite <- app_assoc.
    - exact (Ho a l x l' y n eq_refl Hl Hl').
  Qed.
  Lemma uses_moved file known known1 tables tables1 full : Permutation known known1 -> Permutation tables tables1 -> messages_once tables ->
    uses file known1 tables1 full -> uses file known tables full.
  Proof.
    intros Pk Pt Ho Hu. destruct Hu as [k s full Hi Hm|s full E Hm|p n m t full E Ea Ht Hm|p n m t full E Hn Hl Ht Hm].
    - eapply us_type; [eapply Permutation_in; [symmetry; exact Pk|exact Hi]|exact Hm].
    - eapply us_schema; eauto.
    - eapply us_own; eauto.
    - eapply us_imported; eauto. eapply last_moved; eauto.
  Qed.
  Lemma message_type_same m m' t full : unplaced_message m = unplaced_message m' -> message_type m' t -> mentions t full ->
    exists t0, message_type m t0 /\ mentions t0 full.
  Proof.
    intros E Ht Hm. unfold unplaced_message in E. injection E as E1 E2 E3 E4 E5 E6. apply unplaced_mentions in Hm. destruct Ht as [m'|m' f Hf|m' es e Hes He].
    - exists (m_response m). split; [constructor|]. apply unplaced_mentions. now rewrite E4.
    - assert (Hg : In (unplaced_field f) (map unplaced_field (m_request m))) by (rewrite E3; now apply in_map).
      apply in_map_iff in Hg. destruct Hg as (g & Eg & Hg). exists (f_schema g). split; [now constructor|].
      apply unplaced_mentions. unfold unplaced_field in Eg. injection Eg as _ Eg _ _ _ _ _. now rewrite Eg.
    - rewrite Hes in E5. destruct (m_errors m) as [es'|] eqn:Ees; [|discriminate]. cbn in E5. injection E5 as E5.
      assert (Hg : In (unplaced e) (map unplaced es')) by (rewrite E5; now apply in_map).
      apply in_map_iff in Hg. destruct Hg as (g & Eg & Hg). exists g. split; [eapply mt_error; eauto|]. apply unplaced_mentions. now rewrite Eg.
  Qed.
  Lemma unplaced_messages_keys l : keys (unplaced_messages l) = keys l.
  Proof. unfold keys, unplaced_messages. rewrite map_map. reflexivity. Qed.
  Lemma uses_same file file' known known' tables full : same_header file file' -> unplaced_registry known = unplaced_registry known' ->
    uses file' known' tables full -> uses file known tables full.
  Proof.
    intros Hh R Hu. destruct Hu as [k s full Hi Hm|s full E Hm|p n m t full E Ea Ht Hm|p n m t full E Hn Hl Ht Hm].
    - assert (Hx : In (k, unplaced s) (unplaced_registry known)) by (rewrite R; unfold unplaced_registry; apply in_map_iff; exists (k, s); auto).
      unfold unplaced_registry in Hx. apply in_map_iff in Hx. destruct Hx as ([k' s'] & Ex & Hx). cbn in Ex. injection Ex as -> Ex.
      eapply us_type; [exact Hx|]. apply unplaced_mentions. rewrite Ex. now apply unplaced_mentions.
    - subst file'. destruct file as [|s0|]; try contradiction. cbn in Hh. eapply us_schema; [reflexivity|]. apply unplaced_mentions. rewrite Hh. now apply unplaced_mentions.
    - subst file'. destruct file as [p0| |]; try contradiction. destruct Hh as (_ & _ & _ & _ & Em).
      assert (Hx : assoc n (unplaced_messages (p_messages p0)) = Some (unplaced_message m)).
      { rewrite Em. unfold unplaced_messages. rewrite (assoc_map unplaced_message n (p_messages p)). now rewrite Ea. }
      unfold unplaced_messages in Hx. rewrite (assoc_map unplaced_message n (p_messages p0)) in Hx. destruct (assoc n (p_messages p0)) as [m0|] eqn:E0; [|discriminate]. cbn in Hx.
      assert (Em0 : unplaced_message m0 = unplaced_message m) by congruence.
      destruct (message_type_same _ _ _ _ Em0 Ht Hm) as (t0 & Ht0 & Hm0). eapply us_own; eauto.
    - subst file'. destruct file as [p0| |]; try contradiction. destruct Hh as (_ & _ & _ & _ & Em).
      eapply us_imported; eauto. now rewrite <- unplaced_messages_keys, Em, unplaced_messages_keys.
  Qed.
End Adding.

(** ** Whole files *)
Lemma assoc_same_Permutation {A} (l l' : list (string * A)) : NoDup (keys l) -> NoDup (keys l') -> (forall k, assoc k l = assoc k l') -> Permutation l l'.
Proof.
  intros Hn Hn' E. apply NoDup_Permutation; [exact (NoDup_map_inv _ _ Hn)|exact (NoDup_map_inv _ _ Hn')|].
  intros [k v]. rewrite <- !assoc_In_iff by assumption. now rewrite E.
Qed.

(** Protocols that differ in the order of types and messages *)
Lemma content_protocol_ok p q : same_content (IProtocol p) (IProtocol q) -> protocol_ok p = protocol_ok q.
Proof.
  intro S. inversion S as [p' q' En Ens Ed Ep Pt Em| |]; subst.
  unfold unplaced_messages in Em at 2. apply Permutation_map_inv in Em. destruct Em as (l3 & Em & P3).
  set (q3 := mkProtocol (p_name q) (p_namespace q) (p_doc q) (p_props q) (p_types q) l3).
  rewrite (same_protocol_ok p q3) by (now constructor).
  unfold protocol_ok, q3. cbv zeta. cbn [p_types p_namespace p_props p_messages].
  rewrite (nodupb_Permutation (keys l3) (keys (p_messages q))) by (apply Permutation_map, Permutation_sym, P3).
  f_equal. apply forallb_Permutation. now symmetry.
Qed.
Lemma content_read p q : same_content (IProtocol p) (IProtocol q) -> protocol_ok p = true ->
  exists jp jq ap aq,
    protocol_to_json p = Some jp /\ read_protocol (jdepth jp) jp = Some ap
    /\ protocol_to_json q = Some jq /\ read_protocol (jdepth jq) jq = Some aq
    /\ ap_name ap = ap_name aq /\ ap_namespace ap = ap_namespace aq /\ ap_attrs ap = ap_attrs aq
    /\ Permutation (ap_defs ap) (ap_defs aq) /\ Permutation (ap_messages ap) (ap_messages aq).
Proof.
  intros S Hp. assert (Hq : protocol_ok q = true) by (rewrite <- (content_protocol_ok _ _ S); exact Hp).
  destruct (protocol_faithful p Hp) as (jp & ap & A1 & A2 & A3 & A4 & A5 & _ & A6 & A7 & _).
  destruct (protocol_faithful q Hq) as (jq & aq & B1 & B2 & B3 & B4 & B5 & _ & B6 & B7 & _).
  inversion S as [p' q' En Ens Ed Ep Pt Em| |]; subst. exists jp, jq, ap, aq.
  split; [exact A1|]. split; [exact A2|]. split; [exact B1|]. split; [exact B2|].
  split; [congruence|]. split; [congruence|]. split; [congruence|]. split.
  - apply Permutation_Some. etransitivity; [exact A6|]. etransitivity; [|symmetry; exact B6]. exact (same_types_map named_meaning _ _ unplaced_named_meaning Pt).
  - etransitivity; [exact A7|]. etransitivity; [|symmetry; exact B7].
    unfold unplaced_messages in Em at 2. apply Permutation_map_inv in Em. destruct Em as (l3 & Em & P3).
    rewrite (unplaced_messages_map (fun n m => (n, message_meaning m)) _ _ (fun n m => f_equal (fun x => (n, x)) (unplaced_message_meaning m)) Em).
    apply Permutation_map. now symmetry.
Qed.

Section Whole.
  Context `{Unicode} `{Floats} `{Parser} `{FileSystem} `{JsonParser}.

  Lemma fold_moved tables tables1 : Permutation tables tables1 -> messages_once tables ->
    Permutation (fold_left hm_extend tables ([] : list (string * message))) (fold_left hm_extend tables1 []).
  Proof.
    intros P Ho. apply assoc_same_Permutation; [apply fold_extend_NoDup; constructor|apply fold_extend_NoDup; constructor|].
    pose proof (messages_once_moved _ _ P Ho) as Ho1.
    assert (G : forall t t1, Permutation t t1 -> messages_once t1 -> forall k v, assoc k (fold_left hm_extend t []) = Some v -> assoc k (fold_left hm_extend t1 ([] : list (string * message))) = Some v).
    { intros t t1 Pt Hot k v E. apply extends_last in E. destruct E as [E|[_ E]]; [|discriminate]. apply extends_last. left. eapply last_moved; [symmetry; exact Pt|exact Hot|exact E]. }
    intro k. destruct (assoc k (fold_left hm_extend tables [])) as [v|] eqn:E.
    - symmetry. exact (G _ _ P Ho1 _ _ E).
    - destruct (assoc k (fold_left hm_extend tables1 [])) as [v|] eqn:E1; [|reflexivity]. rewrite (G _ _ (Permutation_sym P) Ho _ _ E1) in E. discriminate.
  Qed.
  Lemma extend_moved (m m1 l : list (string * message)) : NoDup (keys m) -> Permutation m m1 -> Permutation (hm_extend m l) (hm_extend m1 l).
  Proof.
    intros Hn P. assert (Hn1 : NoDup (keys m1)) by (eapply Permutation_NoDup; [apply Permutation_map; exact P|exact Hn]).
    apply assoc_same_Permutation; [now apply hm_extend_NoDup|now apply hm_extend_NoDup|].
    intro k. rewrite !assoc_hm_extend. destruct (assoc k (rev l)); [reflexivity|]. now apply assoc_Permutation.
  Qed.
  Lemma registry_types known known' : Permutation (unplaced_registry known) (unplaced_registry known') -> same_types (reg_schemas known) (reg_schemas known').
  Proof. intro P. unfold same_types, reg_schemas. apply (Permutation_map snd) in P. unfold unplaced_registry in P. rewrite !map_map in *. exact P. Qed.
  Lemma declared_reordered items items' : reordered items items' -> same_types (declared_types items) (declared_types items').
  Proof.
    intros (items1 & P & F). unfold same_types. etransitivity; [apply Permutation_map, (Permutation_flat_map _ P : Permutation (declared_types items) (declared_types items1))|].
    enough (E : map unplaced (declared_types items1) = map unplaced (declared_types items')) by (now rewrite E).
    clear P. induction F as [|i i' l l' E F IH]; [reflexivity|]. destruct i as [|s], i' as [|s']; try contradiction; cbn; [exact IH|]. cbn in E. rewrite E. f_equal. exact IH.
  Qed.
  Lemma finished_moved src label src' label' file items ws file' items' ws' known known' tables tables1 :
    parse_idl label src = Ok (file, items, ws) -> parse_idl label' src' = Ok (file', items', ws') ->
    same_header file file' -> reordered items items' ->
    Permutation (unplaced_registry known) (unplaced_registry known') -> Permutation tables tables1 -> messages_once tables ->
    same_content (finish_file file (context_of known tables)) (finish_file file' (context_of known' tables1)).
  Proof.
    intros Ep Ep' Hh Hr Pk Pt Ho. destruct file as [p|s|l], file' as [q|s'|l']; try contradiction.
    - destruct Hh as (E1 & E2 & E3 & E4 & E5).
      constructor; cbn [p_name p_namespace p_doc p_props p_types p_messages context_of cx_registry cx_messages]; auto; [now apply registry_types|].
      rewrite (unplaced_extend _ (p_messages q)), <- E5, <- unplaced_extend. unfold unplaced_messages. apply Permutation_map. apply extend_moved; [apply fold_extend_NoDup; constructor|now apply fold_moved].
    - now constructor.
    - rewrite (parse_named _ _ _ _ _ Ep), (parse_named _ _ _ _ _ Ep'). constructor. now apply declared_reordered.
  Qed.
  Lemma added_NoDup known ds known' : adds_up known ds known' -> NoDup (keys known) -> NoDup (keys known').
  Proof.
    induction 1 as [known|known s full ds known' A B C Hd IH|known l known1 ds known' Hj Hd IH]; intro Hn; [exact Hn| |].
    - apply IH. rewrite keys_app. cbn. apply (Permutation_NoDup (Permutation_cons_append (keys known) full)). now constructor.
    - apply IH. apply joins_fun in Hj. subst known1. now apply registry_after_NoDup.
  Qed.
  Lemma compile_good dirs src label dir ip o w : compile dirs src label dir ip = (Ok o, w) -> good_registry (co_registry o).
  Proof.
    intro Hc. destruct (compile_parses _ _ _ _ _ _ _ Hc) as (file & items & ws & Ep).
    destruct (compile_sound _ _ _ _ _ _ _ _ _ _ Ep Hc) as (ds & tables & seen & _ & A & _).
    pose proof (added_NoDup _ _ _ A (NoDup_nil _)) as Hn. split; [exact Hn|].
    apply compile_ok in Hc. destruct Hc as (f & its & w0 & c & _ & Hfl & _ & Hh & -> & _ & _). cbn [co_registry] in *.
    pose proof (steps_flat _ _ _ (handled_steps _ _ _ _ _ Hfl Hh) (start_flat w0 ip)) as Hf.
    apply Forall_forall. intros [k s] Hi. cbn. apply Hf. now apply In_assoc_NoDup.
  Qed.

  Lemma compile_reordered dirs dir input src label src' label' file items ws file' items' ws' ds tables seen o w :
    parse_idl label src = Ok (file, items, ws) -> parse_idl label' src' = Ok (file', items', ws') ->
    same_header file file' -> reordered items items' -> one_kind dirs dir input items ->
    expands dirs dir (start input) items ds tables seen -> named_once (types_among ds) -> messages_once tables ->
    compile dirs src label dir input = (Ok o, w) ->
    (forall s, In (Written s) ds -> defaults_fit (co_registry o) s) ->
    exists o', compile dirs src' label' dir input = (Ok o', []) /\ same_content (co_file o) (co_file o')
      /\ Permutation (unplaced_registry (co_registry o)) (unplaced_registry (co_registry o')).
  Proof.
    intros Ep Ep' Hh Hre Hone X Hnamed Honce Hc Hfit. pose proof Hre as (items1 & P & F).
    destruct (compile_sound _ _ _ _ _ _ _ _ _ _ Ep Hc) as (ds0 & t0 & s0 & X0 & A0 & C0).
    destruct (expands_det _ _ _ _ _ _ _ X _ _ _ X0) as (<- & <- & <-). clear X0.
    destruct (expanded_compile _ _ _ _ _ _ _ _ _ _ _ _ Ep X A0 C0) as (o1 & Hc1 & R1 & F1). rewrite Hc in Hc1. injection Hc1 as <- ->. clear R1.
    destruct (expands_moved _ _ _ _ _ _ _ _ P Hone X) as (ds1 & tables1 & seen1 & X1 & Pd & Pt).
    destruct (adds_up_moved _ _ _ A0 Pd Hnamed Hfit) as (known1 & A1 & Pk & Hnd).
    destruct (expands_same _ _ _ _ _ _ _ X1 _ F) as (ds' & X' & D).
    destruct (same_adds_up _ _ _ A1 [] ds' eq_refl D) as (known' & A' & R).
    assert (Pu : Permutation (unplaced_registry (co_registry o)) (unplaced_registry known')) by (rewrite <- R; unfold unplaced_registry; now apply Permutation_map).
    assert (C' : forall full, uses file' known' tables1 full -> In full (keys known')).
    { intros full Hu. rewrite <- (same_keys _ _ R). apply (Permutation_in _ (Permutation_map fst Pk)). apply C0.
      eapply uses_moved; [exact Pk|exact Pt|exact Honce|]. eapply uses_same; eauto. }
    destruct (expanded_compile _ _ _ _ _ _ _ _ _ _ _ _ Ep' X' A' C') as (o' & Hc' & R' & F').
    exists o'. split; [exact Hc'|]. rewrite F1, F', R'. split; [|exact Pu]. eapply finished_moved; eauto.
  Qed.
End Whole.
