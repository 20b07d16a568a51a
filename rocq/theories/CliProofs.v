(** Proofs about the command line program. *)
From Verif Require Import SpecCli SpecCompile SpecNames RegistryProofs CompileProofs LoadProofs BuildProofs.

Lemma split_equals_none l n : split_equals l = (n, None) -> n = l.
Proof.
  revert n. induction l as [|c l IH]; cbn; intros n Hs; [congruence|]. destruct (Ascii.eqb c "="%char); [discriminate|].
  destruct (split_equals l) as [a b]. injection Hs as <- ->. now rewrite (IH a eq_refl).
Qed.
Lemma split_equals_some l n v : split_equals l = (n, Some v) -> l = (n ++ "=" ++ v)%string.
Proof.
  revert n. induction l as [|c l IH]; cbn; intros n Hs; [congruence|]. destruct (Ascii.eqb c "="%char) eqn:E.
  - apply Ascii.eqb_eq in E. injection Hs as <- <-. now rewrite E.
  - destruct (split_equals l) as [a b]. injection Hs as <- ->. rewrite (IH a eq_refl). reflexivity.
Qed.
Lemma not_positional_dash c r : ~ positional (String "-" (String c r)).
Proof. intros [E|E]; [discriminate|]. now apply (E (String c r)). Qed.

(** After [--], everything is positional. *)
Lemma parse_finished n args ps ds : length args < n -> parse_args n LsFinished args ps ds = Args (ps ++ args) ds.
Proof.
  revert n ps. induction args as [|a args IH]; intros [|n] ps Hn; cbn in *; try lia; [now rewrite app_nil_r|].
  rewrite IH by lia. now rewrite <- app_assoc.
Qed.

(** What the loop computes *)
Inductive outcome (args ps ds : list string) : parsed_args -> Prop :=
| oc_args ps' ds' : words args ps' ds' -> outcome args ps ds (Args (ps ++ ps') (ds ++ ds'))
| oc_help : asks_help args -> outcome args ps ds Help
| oc_bad e : ~ asks_help args -> (forall ps' ds', ~ words args ps' ds') -> outcome args ps ds (BadArgs e).

Ltac absurd_word :=
  match goal with
  | H : positional (String "-" (String _ _)) |- _ => exfalso; exact (not_positional_dash _ _ H)
  | H : positional (_ ++ _)%string |- _ => exfalso; exact (not_positional_dash _ _ H)
  | _ => discriminate
  end.

(** A name without [=] ends where the [=] is. *)
Fixpoint has_equals (s : string) : bool := match s with EmptyString => false | String c r => Ascii.eqb c "="%char || has_equals r end.
Lemma split_name n v n' v' : has_equals n = false -> has_equals n' = false -> (n ++ "=" ++ v)%string = (n' ++ "=" ++ v')%string -> n = n' /\ v = v'.
Proof.
  revert n'. induction n as [|c n IH]; intros [|c' n'] Hn Hn' E; cbn in *.
  - injection E as <-. auto.
  - injection E as <- _. rewrite Ascii.eqb_refl in Hn'. discriminate.
  - injection E as -> _. rewrite Ascii.eqb_refl in Hn. discriminate.
  - injection E as <- E. apply orb_false_iff in Hn, Hn'. destruct (IH n' (proj2 Hn) (proj2 Hn') E) as [-> ->]. auto.
Qed.
Lemma no_equals_in n n' v : has_equals n = false -> n <> (n' ++ "=" ++ v)%string.
Proof.
  revert n. induction n' as [|c n' IH]; intros n Hn E; cbn in E; destruct n as [|x n]; try discriminate; injection E as -> E.
  - cbn in Hn. discriminate.
  - cbn in Hn. apply orb_false_iff in Hn. exact (IH n (proj2 Hn) E).
Qed.
Lemma split_equals_name l n o : split_equals l = (n, o) -> has_equals n = false.
Proof.
  revert n. induction l as [|c l IH]; cbn; intros n Hs; [injection Hs as <- _; reflexivity|]. destruct (Ascii.eqb c "="%char) eqn:E; [injection Hs as <- _; reflexivity|].
  destruct (split_equals l) as [a b]. injection Hs as <- <-. cbn. rewrite E. now apply IH.
Qed.

(** The first argument again, with what it excludes. *)
Inductive first_word (a : string) (r : list string) : option arg * (lex_state * list string) -> Prop :=
| fw_rest : a = "--" -> first_word a r (next_value r)
| fw_value : positional a -> first_word a r (Some (Value a), (LsNone, r))
| fw_long n : a = ("--" ++ n)%string -> n <> "" -> has_equals n = false -> first_word a r (Some (Long n), (LsNone, r))
| fw_long_equals n v : a = ("--" ++ n ++ "=" ++ v)%string -> has_equals n = false -> first_word a r (Some (Long n), (LsPending v, r))
| fw_short c s : a = String "-" (String c s) -> c <> "-"%char -> first_word a r (Some (Short c), (LsShorts s, r)).
Lemma next_word a r : first_word a r (next_arg (a :: r)).
Proof.
  destruct a as [|c a]; [apply fw_value; right; discriminate|].
  destruct (Ascii.eqb c "-"%char) eqn:Ec.
  2:{ assert (positional (String c a)). { right. intros x Hx. injection Hx as -> _. discriminate. }
      destruct c as [[] [] [] [] [] [] [] []]; try discriminate; apply fw_value; assumption. }
  apply Ascii.eqb_eq in Ec. subst c. destruct a as [|c a]; [apply fw_value; now left|].
  destruct (Ascii.eqb c "-"%char) eqn:Ec.
  - apply Ascii.eqb_eq in Ec. subst c. destruct a as [|c a]; [apply fw_rest; reflexivity|].
    change (next_arg (String "-" (String "-" (String c a)) :: r))
      with (match split_equals (String c a) with
            | (name, Some v) => (Some (Long name), (LsPending v, r))
            | (name, None) => (Some (Long name), (LsNone, r))
            end).
    destruct (split_equals (String c a)) as [n [v|]] eqn:E; pose proof (split_equals_name _ _ _ E).
    + apply fw_long_equals; [|assumption]. apply split_equals_some in E. now rewrite E.
    + apply split_equals_none in E. subst n. apply fw_long; [reflexivity|discriminate|assumption].
  - assert (c <> "-"%char) by (intros ->; discriminate).
    destruct c as [[] [] [] [] [] [] [] []]; try discriminate; apply fw_short; try reflexivity; assumption.
Qed.

Lemma parse_outcome n : forall args ps ds, length args < n -> outcome args ps ds (parse_args n LsNone args ps ds).
Proof.
  induction n as [|n IH]; intros args ps ds Hn; [lia|]. destruct args as [|a l].
  { cbn. rewrite <- (app_nil_r ps) at 2. rewrite <- (app_nil_r ds) at 2. apply oc_args. constructor. }
  cbn in Hn. cbn [parse_args lex_next]. destruct (next_word a l) as [->|Hp|m -> Hm He|m v -> He|c s -> Hc].
  - (* -- *)
    assert (E : match next_value l with
                | (None, _) => Args ps ds
                | (Some a, (st', args')) => match a with
                    | Long name => if String.eqb name "import-dir" then match lex_value name st' args' with Err e => BadArgs e | Ok (v, (st'', args'')) => parse_args n st'' args'' ps (ds ++ [v]) end else if String.eqb name "help" then Help else BadArgs (UnexpectedArg a)
                    | Short c => if Ascii.eqb c "h"%char then Help else BadArgs (UnexpectedArg a)
                    | Value v => parse_args n st' args' (ps ++ [v]) ds end end = Args (ps ++ l) (ds ++ [])).
    { destruct l as [|x l]; cbn [next_value]; [now rewrite !app_nil_r|]. rewrite parse_finished by (cbn in Hn; lia). now rewrite <- app_assoc, app_nil_r. }
    rewrite E. apply oc_args. constructor.
  - assert (IHl := IH l (ps ++ [a]) ds ltac:(lia)). inversion IHl as [ps' ds' Hw E|Hh E|e Hh Hw E].
    + rewrite <- app_assoc. cbn [app]. apply oc_args. now constructor.
    + apply oc_help. now apply ah_positional.
    + apply oc_bad.
      * intro X. inversion X; subst; try absurd_word; auto.
      * intros ps' ds' X. inversion X; subst; try absurd_word. eapply Hw; eassumption.
  - destruct (String.eqb m "import-dir") eqn:Em.
    + apply String.eqb_eq in Em. subst m. cbn [lex_value]. destruct l as [|d l].
      * apply oc_bad; [intro X|intros ps' ds' X]; inversion X; subst; absurd_word.
      * assert (IHl := IH l ps (ds ++ [d]) ltac:(cbn in Hn; lia)). inversion IHl as [ps' ds' Hw E|Hh E|e Hh Hw E].
        -- rewrite <- app_assoc. cbn [app]. apply oc_args. apply (w_dir d). assumption.
        -- apply oc_help. now apply (ah_dir d).
        -- apply oc_bad; [intro X|intros ps' ds' X]; inversion X; subst; try absurd_word; [auto|eapply Hw; eassumption].
    + apply String.eqb_neq in Em. destruct (String.eqb m "help") eqn:Eh.
      * apply String.eqb_eq in Eh. subst m. apply oc_help. constructor.
      * apply String.eqb_neq in Eh. apply oc_bad; [intro X|intros ps' ds' X].
        -- inversion X as [l0 E|v l0 E|r l0 E|d l0 Hx E|d l0 Hx E|w l0 Hp Hx E]; try (apply Em; congruence); try (apply Eh; congruence).
           ++ apply (no_equals_in m "help" v He). symmetry. exact E.
           ++ apply (no_equals_in m "import-dir" d He). symmetry. exact E.
           ++ subst. exact (not_positional_dash _ _ Hp).
        -- inversion X as [|l0 E|d l0 ps0 ds0 Hx E|d l0 ps0 ds0 Hx E|w l0 ps0 ds0 Hp Hx E].
           ++ apply Hm. congruence.
           ++ apply Em. congruence.
           ++ apply (no_equals_in m "import-dir" d He). symmetry. exact E.
           ++ subst. exact (not_positional_dash _ _ Hp).
  - destruct (String.eqb m "import-dir") eqn:Em.
    + apply String.eqb_eq in Em. subst m. cbn [lex_value].
      assert (IHl := IH l ps (ds ++ [v]) ltac:(lia)). inversion IHl as [ps' ds' Hw E|Hh E|e Hh Hw E].
      * rewrite <- app_assoc. cbn [app]. apply oc_args. apply (w_dir_equals v). assumption.
      * apply oc_help. now apply (ah_dir_equals v).
      * apply oc_bad; [intro X|intros ps' ds' X].
        -- inversion X as [l0 E'|v' l0 E'|r l0 E'|d l0 Hx E'|d l0 Hx E'|w l0 Hp Hx E']; try discriminate; subst; [auto|exact (not_positional_dash _ _ Hp)].
        -- inversion X as [|l0 E'|d l0 ps0 ds0 Hx E'|d l0 ps0 ds0 Hx E'|w l0 ps0 ds0 Hp Hx E']; try discriminate; subst; [eapply Hw; eassumption|exact (not_positional_dash _ _ Hp)].
    + apply String.eqb_neq in Em. destruct (String.eqb m "help") eqn:Eh.
      * apply String.eqb_eq in Eh. subst m. apply oc_help. apply (ah_long_equals v).
      * apply String.eqb_neq in Eh. apply oc_bad; [intro X|intros ps' ds' X].
        -- inversion X as [l0 E|v' l0 E|r l0 E|d l0 Hx E|d l0 Hx E|w l0 Hp Hx E].
           ++ apply (no_equals_in "help" m v eq_refl). exact E.
           ++ destruct (split_name "help" v' m v eq_refl He E) as [<- _]. now apply Eh.
           ++ apply (no_equals_in "import-dir" m v eq_refl). exact E.
           ++ destruct (split_name "import-dir" d m v eq_refl He E) as [<- _]. now apply Em.
           ++ subst. exact (not_positional_dash _ _ Hp).
        -- inversion X as [|l0 E|d l0 ps0 ds0 Hx E|d l0 ps0 ds0 Hx E|w l0 ps0 ds0 Hp Hx E].
           ++ destruct m; discriminate.
           ++ apply (no_equals_in "import-dir" m v eq_refl). exact E.
           ++ destruct (split_name "import-dir" d m v eq_refl He E) as [<- _]. now apply Em.
           ++ subst. exact (not_positional_dash _ _ Hp).
  - destruct (Ascii.eqb c "h"%char) eqn:Eh.
    + apply Ascii.eqb_eq in Eh. subst c. apply oc_help. apply (ah_short s).
    + apply Ascii.eqb_neq in Eh. apply oc_bad; [intro X|intros ps' ds' X]; inversion X; subst; try (now apply Hc); try (now apply Eh); absurd_word.
Qed.

Lemma words_no_help args ps ds : words args ps ds -> ~ asks_help args.
Proof.
  induction 1 as [|l|d l ps ds Hw IH|d l ps ds Hw IH|w l ps ds Hp Hw IH]; intro X; inversion X; subst; try absurd_word; auto.
Qed.
Lemma words_fun args ps ds ps' ds' : words args ps ds -> words args ps' ds' -> ps = ps' /\ ds = ds'.
Proof.
  intro Hw. revert ps' ds'. induction Hw as [|l|d l ps ds Hw IH|d l ps ds Hw IH|w l ps ds Hp Hw IH]; intros ps' ds' X; inversion X; subst; try absurd_word; try (split; reflexivity).
  all: match goal with Hx : words _ _ _ |- _ => destruct (IH _ _ Hx) as [-> ->] end; auto.
Qed.

Lemma parse_all_outcome args : outcome args [] [] (parse_all LsNone args).
Proof. apply parse_outcome. lia. Qed.
Lemma parse_all_args args ps ds : parse_all LsNone args = Args ps ds <-> words args ps ds.
Proof.
  pose proof (parse_all_outcome args) as O. split.
  - intro E. rewrite E in O. inversion O; subst. assumption.
  - intro Hw. inversion O as [ps' ds' Hw' E|Hh E|e Hh Hn E].
    + destruct (words_fun _ _ _ _ _ Hw Hw') as [-> ->]. reflexivity.
    + exfalso. exact (words_no_help _ _ _ Hw Hh).
    + exfalso. exact (Hn _ _ Hw).
Qed.
Lemma parse_all_help args : parse_all LsNone args = Help <-> asks_help args.
Proof.
  pose proof (parse_all_outcome args) as O. split.
  - intro E. rewrite E in O. inversion O; subst. assumption.
  - intro Hh. inversion O as [ps' ds' Hw' E|Hh' E|e Hn _ E]; [|reflexivity|].
    + exfalso. exact (words_no_help _ _ _ Hw' Hh).
    + exfalso. exact (Hn Hh).
Qed.
Lemma parse_all_bad args : (exists e, parse_all LsNone args = BadArgs e) <-> ~ asks_help args /\ forall ps ds, ~ words args ps ds.
Proof.
  pose proof (parse_all_outcome args) as O. split.
  - intros [e E]. rewrite E in O. inversion O; subst. auto.
  - intros [Hh Hn]. inversion O as [ps' ds' Hw' E|Hh' E|e Hn' _ E]; [|contradiction|eauto].
    exfalso. exact (Hn _ _ Hw').
Qed.

(** ** Writing schemas *)
Lemma app_suffix_inj a b s : (a ++ s)%string = (b ++ s)%string -> a = b.
Proof.
  intro E. assert (L : String.length a = String.length b).
  { apply (f_equal String.length) in E. assert (G : forall x y, String.length (x ++ y)%string = String.length x + String.length y).
    { induction x as [|c x IH]; intro y; cbn; [reflexivity|]. now rewrite IH. }
    rewrite !G in E. lia. }
  revert b E L. induction a as [|c a IH]; intros [|c' b] E L; try discriminate; [reflexivity|].
  cbn in E. injection E as <- E. cbn in L. f_equal. apply IH; [exact E|lia].
Qed.
Lemma app_prefix_inj a b c : (a ++ b)%string = (a ++ c)%string -> b = c.
Proof. induction a as [|x a IH]; cbn; [trivial|]. intro E. injection E as E. now apply IH. Qed.
Definition relative (n : string) : Prop := forall r, n <> String "/" r.
Lemma path_join_relative d n : relative n ->
  path_join d n = if str_is_empty d then n else if ends_with_slash d then (d ++ n)%string else (d ++ "/" ++ n)%string.
Proof.
  intro R. unfold path_join. destruct n as [|c n]; [reflexivity|]. destruct (Ascii.eqb c "/"%char) eqn:E.
  - apply Ascii.eqb_eq in E. subst. now destruct (R n).
  - destruct c as [[] [] [] [] [] [] [] []]; try reflexivity; discriminate.
Qed.
Lemma path_join_inj d n n' : relative n -> relative n' -> path_join d n = path_join d n' -> n = n'.
Proof.
  intros R R'. rewrite !path_join_relative by assumption. destruct (str_is_empty d); [trivial|]. destruct (ends_with_slash d); intro E.
  - exact (app_prefix_inj _ _ _ E).
  - exact (app_prefix_inj _ _ _ (app_prefix_inj _ _ _ E)).
Qed.
Lemma relative_avsc n : relative n -> relative (n ++ ".avsc")%string.
Proof. intros R r. destruct n as [|c n]; cbn; [discriminate|]. intro E. injection E as -> _. exact (R n eq_refl). Qed.

Section WithWorld.
  Context `{Unicode} `{Floats} `{Parser} `{FileSystem} `{JsonParser} `{Console}.

  Lemma valid_relative n : is_valid_avro_name n = true -> relative n.
  Proof. intros V r ->. cbn in V. discriminate. Qed.

  Lemma compile_registrable dirs src name dir ip o ws : compile dirs src name dir ip = (Ok o, ws) ->
    Forall (fun kv => registrable (snd kv) (fst kv)) (co_registry o).
  Proof.
    intro Hc. apply compile_ok in Hc. destruct Hc as (f & its0 & w & c & _ & Hf & _ & Hh & -> & _ & _). cbn [co_registry].
    apply (steps_registrable _ _ _ (handled_steps _ _ _ _ _ Hf Hh)). destruct (start_fields w ip) as (-> & _). constructor.
  Qed.

  (** The schemas of a file: one for each registered type *)
  Lemma extract_schemas_each lk l r : extract_schemas lk l = Some r -> Forall (fun s => schema_name s <> None) l ->
    Forall2 (fun s x => schema_name s = Some (nm_name x) /\ exists k, schema_to_json s [] None lk = Some (nm_schema x, k)) l r.
  Proof.
    revert r. induction l as [|s l IH]; cbn [extract_schemas]; intros r E Hl; [injection E as <-; constructor|]. inversion Hl as [|? ? Hs Hl']; subst.
    destruct (schema_name s) as [n|] eqn:En; [|congruence]. destruct (schema_to_json s [] None lk) as [[j k]|] eqn:Ej; [|discriminate].
    destruct (extract_schemas lk l) as [r'|]; [|discriminate]. injection E as <-. constructor; [|now apply IH]. cbn. eauto.
  Qed.
  Lemma registrable_name s full : registrable s full -> exists n, schema_name s = Some n /\ is_valid_avro_name n = true.
  Proof.
    intros (n & ns & Hi & _ & Hv & _). assert (E : schema_name s = Some n) by (inversion Hi; subst; reflexivity). exists n. split; [exact E|].
    now apply valid_name_iff.
  Qed.
  Lemma extract_impl_each dirs src name dir ip o ws x : compile dirs src name dir ip = (Ok o, ws) -> extract_impl o = Ok x ->
    Forall2 (fun s y => schema_name s = Some (nm_name y)
               /\ exists k, schema_to_json s [] None (build_lookup (reg_schemas (co_registry o)) None) = Some (nm_schema y, k))
            (reg_schemas (co_registry o)) (so_schemas x)
    /\ Forall (fun y => relative (nm_name y)) (so_schemas x).
  Proof.
    intros Hc. apply compile_registrable in Hc. unfold extract_impl. cbv zeta. destruct (extract_schemas _ _) as [r|] eqn:E; [|discriminate].
    intro Hx. injection Hx as <-. cbn [so_schemas].
    assert (Hn : Forall (fun s => exists n, schema_name s = Some n /\ is_valid_avro_name n = true) (reg_schemas (co_registry o))).
    { unfold reg_schemas. apply Forall_map. eapply Forall_impl; [|exact Hc]. intros kv Hr. exact (registrable_name _ _ Hr). }
    assert (G := extract_schemas_each _ _ _ E). specialize (G ltac:(eapply Forall_impl; [|exact Hn]; intros s (n & -> & _); discriminate)).
    split; [exact G|]. clear -G Hn. generalize dependent (build_lookup (reg_schemas (co_registry o)) None). generalize dependent (reg_schemas (co_registry o)). intros L Hn lk G. induction G as [|s y l r (En & _) _ IH]; constructor.
    - destruct (Forall_inv Hn) as (n & En' & V). rewrite En in En'. injection En' as ->. now apply valid_relative.
    - apply IH. exact (Forall_inv_tail Hn).
  Qed.
  Lemma extract_file_relative path b b' x : extract_file path b = (b', Ok x) -> Forall (fun y => relative (nm_name y)) (so_schemas x).
  Proof.
    unfold extract_file, compile_file. destruct (fs_read path); [|discriminate]. cbv zeta. destruct (compile _ _ _ _ _) as [[o|e] ws] eqn:Ec; [|discriminate].
    intro Hx. assert (Ex : extract_impl o = Ok x) by congruence. exact (proj2 (extract_impl_each _ _ _ _ _ _ _ _ Ec Ex)).
  Qed.
  Lemma extract_all_relative paths : forall acc b b' x, Forall (fun y => relative (nm_name y)) (so_schemas acc) ->
    extract_all paths acc b = (b', Ok x) -> Forall (fun y => relative (nm_name y)) (so_schemas x).
  Proof.
    induction paths as [|p paths IH]; cbn [extract_all]; intros acc b b' x Ha Hx; [injection Hx as <- <-; exact Ha|].
    destruct (extract_file p b) as [b1 [y|e]] eqn:E; [|discriminate]. eapply IH; [|exact Hx]. cbn. apply Forall_app. split; [exact Ha|]. eapply extract_file_relative; exact E.
  Qed.
  Lemma extract_relative path b b' x : extract path b = (b', Ok x) -> Forall (fun y => relative (nm_name y)) (so_schemas x).
  Proof.
    unfold extract. destruct (fs_is_dir path); intro E; [|eapply extract_file_relative; exact E]. eapply extract_all_relative; [|exact E]. constructor.
  Qed.

  Lemma write_schemas_ok dir l ws : write_schemas dir l = (None, ws) ->
    ws = map (fun s => (path_join dir (nm_name s ++ ".avsc")%string, (pretty (nm_schema s) ++ line_end)%string)) l.
  Proof.
    revert ws. induction l as [|s l IH]; cbn; intros ws E; [congruence|]. destruct (can_write _); [|discriminate].
    destruct (write_schemas dir l) as [e ws'] eqn:El. injection E as -> <-. now rewrite (IH _ eq_refl).
  Qed.
  Lemma write_schemas_err dir l e ws : write_schemas dir l = (Some e, ws) ->
    exists before s after, l = before ++ s :: after /\ can_write (path_join dir (nm_name s ++ ".avsc")%string) = false
      /\ e = CannotWrite (path_join dir (nm_name s ++ ".avsc")%string)
      /\ ws = map (fun s => (path_join dir (nm_name s ++ ".avsc")%string, (pretty (nm_schema s) ++ line_end)%string)) before.
  Proof.
    revert ws. induction l as [|s l IH]; cbn; intros ws E; [discriminate|]. destruct (can_write _) eqn:Ew.
    - destruct (write_schemas dir l) as [e' ws'] eqn:El. injection E as -> <-. destruct (IH _ eq_refl) as (b & s' & a & -> & Hw & He & ->).
      exists (s :: b), s', a. auto.
    - injection E as <- <-. exists [], s, l. auto.
  Qed.

  Lemma run_schemata_ok input outdir dirs r : run_idl2schemata input outdir dirs = r -> run_error r = None ->
    exists o, snd (extract input (fresh dirs)) = Ok o
      /\ run_warnings r = so_warnings o /\ run_stdout r = ""
      /\ run_writes r = map (fun s => (path_join (match outdir with Some d => d | None => "." end) (nm_name s ++ ".avsc")%string, (pretty (nm_schema s) ++ line_end)%string)) (so_schemas o)
      /\ Forall (fun y => relative (nm_name y)) (so_schemas o).
  Proof.
    unfold run_idl2schemata. change (with_dirs dirs) with (fresh dirs). destruct (extract input (fresh dirs)) as [b' [o|e]] eqn:E; intros <-; [|discriminate].
    cbv zeta. destruct (fs_exists _ && _); [discriminate|]. destruct (can_create _); [|discriminate].
    destruct (write_schemas _ _) as [e ws] eqn:Ew. cbn. intros ->. exists o. split; [reflexivity|]. split; [reflexivity|]. split; [reflexivity|].
    split; [exact (write_schemas_ok _ _ _ Ew)|]. exact (extract_relative _ _ _ _ E).
  Qed.

  Lemma run_schemata_written input outdir dirs r : run_idl2schemata input outdir dirs = r -> run_error r = None ->
    exists o, snd (extract input (fresh dirs)) = Ok o /\ run_warnings r = so_warnings o
      /\ (forall before s after, so_schemas o = before ++ s :: after -> ~ In (nm_name s) (map nm_name after) ->
            written (run_writes r) (path_join (match outdir with Some d => d | None => "." end) (nm_name s ++ ".avsc")) (pretty (nm_schema s) ++ line_end))
      /\ (forall path content, written (run_writes r) path content -> exists s, In s (so_schemas o)
            /\ path = path_join (match outdir with Some d => d | None => "." end) (nm_name s ++ ".avsc") /\ content = (pretty (nm_schema s) ++ line_end)%string).
  Proof.
    intros E En. destruct (run_schemata_ok _ _ _ _ E En) as (o & Eo & Ew & _ & Ewr & Hr). exists o. split; [exact Eo|]. split; [exact Ew|].
    set (dir := match outdir with Some d => d | None => "." end) in *. split.
    - intros before s after Es Hn. rewrite Ewr, Es, map_app. cbn [map]. eexists _, _. split; [reflexivity|].
      rewrite map_map. intro X. apply in_map_iff in X. destruct X as (s' & E' & Hs'). cbn [fst] in E'. rewrite Es in Hr. apply Forall_app in Hr.
      destruct Hr as [_ Hr]. inversion Hr as [|? ? Hs Hr']; subst. rewrite Forall_forall in Hr'. specialize (Hr' _ Hs').
      apply path_join_inj in E'; [|apply relative_avsc; assumption..]. apply app_suffix_inj in E'. apply Hn. rewrite <- E'. now apply in_map.
    - intros path content (b & a & Eb & _). rewrite Ewr in Eb. assert (Hi : In (path, content) (b ++ (path, content) :: a)) by (apply in_app_iff; right; now left).
      rewrite <- Eb in Hi. apply in_map_iff in Hi. destruct Hi as (s & Es & Hs). injection Es as <- <-. eauto.
  Qed.

  (** Nothing is written unless everything was compiled. *)
  Lemma run_schemata_err input outdir dirs r e : run_idl2schemata input outdir dirs = r -> snd (extract input (fresh dirs)) = Err e ->
    r = mkRun (Some (CompileError e)) (snd (drain_warnings (fst (extract input (fresh dirs))))) "" [].
  Proof.
    unfold run_idl2schemata. change (with_dirs dirs) with (fresh dirs). destruct (extract input (fresh dirs)) as [b' [o|e']]; cbn; intros <- Hx; [discriminate|congruence].
  Qed.

  Lemma run_idl_cases input output dirs r : run_idl input output dirs = r ->
    (r = failing CannotReadStdin /\ standard input /\ stdin_text = None)
    \/ (exists o ws, compiled input dirs (Ok o) ws /\ r = write_output output (pretty (io_json o)) ws)
    \/ (exists e ws, compiled input dirs (Err e) ws /\ r = mkRun (Some (CompileError e)) ws "" []).
  Proof.
    unfold run_idl. change (with_dirs dirs) with (fresh dirs). intros <-.
    assert (G : forall name, standard input -> name = match input with Some n => n | None => "<stdin>" end ->
      let r := match stdin_text with
               | Some source => match convert_str source name (fresh dirs) with
                                | (_, Ok o) => write_output output (pretty (io_json o)) (io_warnings o)
                                | (b', Err e) => mkRun (Some (CompileError e)) (snd (drain_warnings b')) "" [] end
               | None => failing CannotReadStdin end in
      (r = failing CannotReadStdin /\ standard input /\ stdin_text = None)
      \/ (exists o ws, compiled input dirs (Ok o) ws /\ r = write_output output (pretty (io_json o)) ws)
      \/ (exists e ws, compiled input dirs (Err e) ws /\ r = mkRun (Some (CompileError e)) ws "" [])).
    { intros name Hs Hn. cbv zeta. destruct stdin_text as [text|] eqn:Et; [|left; auto]. right.
      destruct (convert_str text name (fresh dirs)) as [b' [o|e]] eqn:E; [left|right]; eexists _, _; (split; [eapply co_stdin; eauto|reflexivity]). }
    destruct input as [path|]; [|apply G; [now left|reflexivity]].
    destruct (String.eqb path "-") eqn:Ep; [apply String.eqb_eq in Ep; subst; apply G; [now right|reflexivity]|]. apply String.eqb_neq in Ep. right.
    destruct (convert path (fresh dirs)) as [b' [o|e]] eqn:E; [left|right]; eexists _, _; (split; [eapply co_path; eauto|reflexivity]).
  Qed.

  Lemma run_idl_ok input output dirs r : run_idl input output dirs = r -> run_error r = None ->
    exists o, compiled input dirs (Ok o) (run_warnings r) /\
      (standard output /\ run_stdout r = pretty (io_json o) /\ run_writes r = []
       \/ exists path, output = Some path /\ path <> "-" /\ run_stdout r = "" /\ run_writes r = [(path, (pretty (io_json o) ++ line_end)%string)]).
  Proof.
    intros E En. destruct (run_idl_cases _ _ _ _ E) as [(-> & _)|[(o & ws & Hc & ->)|(e & ws & _ & ->)]]; try discriminate. clear E. exists o.
    unfold write_output in *. destruct output as [path|]; [|cbn; split; [exact Hc|left; split; [now left|auto]]].
    destruct (String.eqb path "-") eqn:Ep; [apply String.eqb_eq in Ep; subst; cbn; split; [exact Hc|left; split; [now right|auto]]|].
    apply String.eqb_neq in Ep. destruct (can_write path); [|discriminate]. cbn. split; [exact Hc|]. right. eauto.
  Qed.

  Lemma run_idl_err input output dirs r e : run_idl input output dirs = r -> run_error r = Some e ->
    run_stdout r = "" /\ run_writes r = []
    /\ ((exists e', e = CompileError e' /\ compiled input dirs (Err e') (run_warnings r))
        \/ (e = CannotReadStdin /\ (input = None \/ input = Some "-") /\ stdin_text = None)
        \/ (exists path o, e = CannotWrite path /\ output = Some path /\ can_write path = false /\ compiled input dirs (Ok o) (run_warnings r))).
  Proof.
    intros E En. destruct (run_idl_cases _ _ _ _ E) as [(-> & Hs & Ht)|[(o & ws & Hc & ->)|(e' & ws & Hc & ->)]]; clear E.
    - cbn in *. injection En as <-. split; [reflexivity|]. split; [reflexivity|]. right. left. auto.
    - unfold write_output in *. destruct output as [path|]; [|discriminate]. destruct (String.eqb path "-"); [discriminate|].
      destruct (can_write path) eqn:Ew; [discriminate|]. cbn in *. injection En as <-. split; [reflexivity|]. split; [reflexivity|]. right. right. eauto 8.
    - cbn in *. injection En as <-. split; [reflexivity|]. split; [reflexivity|]. left. eauto.
  Qed.
End WithWorld.

(** Without a subcommand *)
Lemma main_other `{Unicode} `{Floats} `{Parser} `{FileSystem} `{JsonParser} `{Console} :
  (forall name args, positional name -> name <> "idl" -> name <> "idl2schemata" -> main (name :: args) = failing (UnknownSubcommand name))
  /\ (exists e, main [] = failing e)
  /\ (forall w args, asks_general w -> main (w :: args) = quiet)
  /\ (forall w args, ~ asks_general w -> ~ positional w -> w <> "--" -> exists e, main (w :: args) = failing (BadUsage (Some e)))
  /\ (forall ps, main ("--" :: "idl" :: ps) = run_idl (nth_error ps 0) (nth_error ps 1) [])
  /\ (forall input ps, main ("--" :: "idl2schemata" :: input :: ps) = run_idl2schemata input (nth_error ps 0) [])
  /\ (forall name args, name <> "idl" -> name <> "idl2schemata" -> main ("--" :: name :: args) = failing (UnknownSubcommand name)).
Proof.
  split; [|split; [|split; [|split; [|split; [|split]]]]].
  - intros name args Hp Hn1 Hn2. unfold main. cbn [lex_next].
    destruct (next_word name args) as [->|_|m -> Hm He|m v -> He|c s -> Hc]; [destruct Hp as [E|E]; [discriminate|now elim (E "-")]| |exfalso; exact (not_positional_dash _ _ Hp)|exfalso; exact (not_positional_dash _ _ Hp)|exfalso; exact (not_positional_dash _ _ Hp)].
    apply String.eqb_neq in Hn1, Hn2. now rewrite Hn1, Hn2.
  - eexists. reflexivity.
  - intros w args Hw. unfold main. cbn [lex_next]. destruct Hw; try reflexivity.
  - intros w args Hw Hp Hn. unfold main. cbn [lex_next].
    destruct (next_word w args) as [->|Hp'|m -> Hm He|m v -> He|c s -> Hc]; [now elim Hn|now elim Hp| | |].
    + destruct (String.eqb m "help") eqn:E; [apply String.eqb_eq in E; subst m; elim Hw; constructor|].
      destruct (String.eqb m "version") eqn:E'; [apply String.eqb_eq in E'; subst m; elim Hw; constructor|]. cbn [orb]. eauto.
    + destruct (String.eqb m "help") eqn:E; [apply String.eqb_eq in E; subst m; elim Hw; exact (ag_help_equals v)|].
      destruct (String.eqb m "version") eqn:E'; [apply String.eqb_eq in E'; subst m; elim Hw; exact (ag_version_equals v)|]. cbn [orb]. eauto.
    + destruct (Ascii.eqb c "h"%char) eqn:E; [apply Ascii.eqb_eq in E; subst c; elim Hw; exact (ag_short_help s)|].
      destruct (Ascii.eqb c "V"%char) eqn:E'; [apply Ascii.eqb_eq in E'; subst c; elim Hw; exact (ag_short_version s)|]. cbn [orb]. eauto.
  - intros ps. unfold main. cbn [lex_next next_arg next_value]. change (String.eqb "idl" "idl") with true. cbn iota.
    unfold parse_all. now rewrite parse_finished by lia.
  - intros input ps. unfold main. cbn [lex_next next_arg next_value]. change (String.eqb "idl2schemata" "idl") with false.
    change (String.eqb "idl2schemata" "idl2schemata") with true. cbn iota.
    unfold parse_all. now rewrite parse_finished by lia.
  - intros name args Hn1 Hn2. unfold main. cbn [lex_next next_arg next_value]. apply String.eqb_neq in Hn1, Hn2. now rewrite Hn1, Hn2.
Qed.
