(** Places and what the texts say there: C62 *)
From Coq Require Import Sorted.
From Verif Require Export SpecPlaces.
From Verif Require Import SpecRewrite IdlParser FileProofs ReaderProofs LiteralsProofs WordProofs JsonTextProofs GrammarSound CutProofs ReadingProofs SpecLexer SpecGrammar.

(** ** Offsets *)
Lemma of_chars_length a b : String.length (of_chars (a ++ b)) = String.length (of_chars a) + String.length (of_chars b).
Proof. rewrite of_chars_app. induction (of_chars a) as [|c s IH]; cbn; [reflexivity|now rewrite IH]. Qed.
Lemma of_chars_some t : t <> [] -> 0 < String.length (of_chars t).
Proof.
  destruct t as [|c t]; [contradiction|]. intros _. change (c :: t) with ([c] ++ t). rewrite of_chars_length. unfold of_chars. cbn [flat_map]. rewrite app_nil_r.
  unfold utf8_encode_char. destruct (c <? 128)%N; [cbn; lia|]. destruct (c <? 2048)%N; [cbn; lia|]. destruct (c <? 65536)%N; cbn; lia.
Qed.
Lemma stream_offset l : forall o i x, In x (stream l o i) -> exists a t b,
  l = a ++ (Some (lx_type x), t) :: b /\ lx_text x = of_chars t /\ lx_offset x = (o + N.of_nat (String.length (of_chars (concat (map snd a)))))%N.
Proof.
  induction l as [|[k t] l IH]; intros o i x Hi; [destruct Hi|]. cbn [stream] in Hi.
  assert (R : forall i', In x (stream l (o + N.of_nat (String.length (of_chars t)))%N i') -> exists a t0 b,
    (k, t) :: l = a ++ (Some (lx_type x), t0) :: b /\ lx_text x = of_chars t0 /\ lx_offset x = (o + N.of_nat (String.length (of_chars (concat (map snd a)))))%N).
  { intros i' Hx. destruct (IH _ _ _ Hx) as (a & t0 & b & E & Et & Eo). exists ((k, t) :: a), t0, b. split; [now rewrite E|]. split; [exact Et|]. rewrite Eo. cbn [map concat snd]. rewrite of_chars_length. lia. }
  destruct k as [k|]; [|exact (R _ Hi)]. destruct (skipped k); [exact (R _ Hi)|]. destruct Hi as [<-|Hi]; [|exact (R _ Hi)].
  exists [], t, l. cbn. split; [reflexivity|]. split; [reflexivity|]. cbn. lia.
Qed.
Lemma stream_from l : forall o i x, In x (stream l o i) -> (o <= lx_offset x)%N.
Proof. intros o i x Hi. destruct (stream_offset _ _ _ _ Hi) as (a & t & b & _ & _ & ->). lia. Qed.
Lemma stream_sorted l : (forall k t, In (k, t) l -> t <> []) -> forall o i, StronglySorted N.lt (map lx_offset (stream l o i)).
Proof.
  induction l as [|[k t] l IH]; intros Hn o i; cbn [stream]; [constructor|]. assert (Hl : forall k t, In (k, t) l -> t <> []) by (intros; eapply Hn; right; eassumption).
  destruct k as [k|]; [|now apply IH]. destruct (skipped k); [now apply IH|]. cbn [map]. constructor; [now apply IH|]. apply Forall_forall. intros y Hy. apply in_map_iff in Hy as (x & <- & Hx).
  apply stream_from in Hx. cbn. pose proof (of_chars_some t (Hn _ t (or_introl eq_refl))). lia.
Qed.
Lemma filter_sorted f l : StronglySorted N.lt (map lx_offset l) -> StronglySorted N.lt (map lx_offset (filter f l)).
Proof.
  induction l as [|x l IH]; cbn; [auto|]. intro S. inversion S as [|? ? S' F]; subst. destruct (f x); [|auto]. cbn. constructor; [auto|]. rewrite Forall_forall in *. intros y Hy.
  apply in_map_iff in Hy as (z & <- & Hz). apply filter_In in Hz as [Hz _]. apply F. now apply in_map.
Qed.
Lemma cut_some text k t : In (k, t) (cut text) -> t <> [].
Proof.
  pose proof (proj1 (cut_iff text _) eq_refl) as T. revert T. generalize (cut text) as l. induction 1 as [|k' t' rest l Hn _ _ IH|t' rest l Hn _ _ IH]; [intros []| |];
    (intros [E|Hi]; [injection E as <- <-; exact Hn|exact (IH Hi)]).
Qed.
Lemma tokens_sorted text : StronglySorted N.lt (map lx_offset (tokens_of text)).
Proof. apply filter_sorted, stream_sorted. intros k t. apply cut_some. Qed.

(** ** What the text says at the place of a token *)
Lemma sub_char c : SpecLiterals.scalar c -> c <> 26%N -> Forall (fun a => Ascii.eqb a (ascii_of_nat 26) = false) (map ascii_of_N (utf8_encode_char c)).
Proof.
  intros [Hc _] Hn. assert (B : forall b, (b < 256)%N -> b <> 26%N -> Ascii.eqb (ascii_of_N b) (ascii_of_nat 26) = false).
  { intros b Hb Hx. apply Ascii.eqb_neq. intro E. apply Hx. rewrite <- (N_ascii_embedding b Hb), E. reflexivity. }
  pose proof (N.mod_lt c 64 ltac:(lia)). pose proof (N.mod_lt (c / 64) 64 ltac:(lia)). pose proof (N.mod_lt (c / 4096) 64 ltac:(lia)).
  unfold utf8_encode_char. destruct (c <? 128)%N eqn:E1; [apply N.ltb_lt in E1; repeat constructor; apply B; lia|]. apply N.ltb_ge in E1.
  destruct (c <? 2048)%N eqn:E2; [apply N.ltb_lt in E2; assert (c / 64 < 32)%N by (apply N.div_lt_upper_bound; lia); repeat constructor; apply B; lia|]. apply N.ltb_ge in E2.
  destruct (c <? 65536)%N eqn:E3; [apply N.ltb_lt in E3; assert (c / 4096 < 16)%N by (apply N.div_lt_upper_bound; lia); repeat constructor; apply B; lia|]. apply N.ltb_ge in E3.
  assert (c / 262144 < 5)%N by (apply N.div_lt_upper_bound; lia). repeat constructor; apply B; lia.
Qed.
Lemma until_sub_app a b : Forall (fun c => Ascii.eqb c (ascii_of_nat 26) = false) a -> until_sub (string_of_list_ascii a ++ b) = (string_of_list_ascii a ++ until_sub b)%string.
Proof. induction 1 as [|c a Hc F IH]; [reflexivity|]. cbn [string_of_list_ascii String.append until_sub]. rewrite Hc. now rewrite IH. Qed.
Lemma until_utf8 l : Forall SpecLiterals.scalar l -> exists l' rest, Forall SpecLiterals.scalar l' /\ until_sub (of_chars l) = of_chars l' /\ l = l' ++ rest.
Proof.
  induction 1 as [|c l Hc F IH]; [exists [], []; cbn; auto|]. destruct IH as (l' & rest & F' & E & ->).
  change (c :: l' ++ rest) with ([c] ++ (l' ++ rest)). rewrite of_chars_app. destruct (N.eq_dec c 26) as [->|Hn].
  - exists [], (26%N :: l' ++ rest). cbn. auto.
  - exists (c :: l'), rest. split; [now constructor|]. split; [|reflexivity]. change (c :: l') with ([c] ++ l'). rewrite (of_chars_app [c] l'). rewrite <- E.
    unfold of_chars at 1. cbn [flat_map]. rewrite app_nil_r. unfold string_of_bytes. rewrite until_sub_app by now apply sub_char. unfold of_chars at 2. cbn [flat_map]. now rewrite app_nil_r.
Qed.
Lemma string_app_assoc a b c : ((a ++ b) ++ c)%string = (a ++ b ++ c)%string.
Proof. induction a as [|x a IH]; cbn; [reflexivity|now rewrite IH]. Qed.
Lemma token_says file text x : utf8 text -> In x (tokens_of (until_sub text)) -> says file text (mkSpan file (lx_offset x)) (lx_text x).
Proof.
  intros (l & F & ->) Hi. destruct (until_utf8 l F) as (l' & rest & F' & E & El). rewrite E in Hi. unfold tokens_of, visible in Hi. rewrite chars_of_chars in Hi by exact F'.
  apply filter_In in Hi as [Hi _]. destruct (stream_offset _ _ _ _ Hi) as (a & t & b & Ec & Et & Eo).
  exists (of_chars (concat (map snd a))), (of_chars (concat (map snd b)) ++ of_chars rest)%string. split; [|now rewrite Eo].
  rewrite El, <- (cut_whole l') at 1. rewrite Ec, map_app, concat_app, !of_chars_app, Et. cbn [map concat snd]. rewrite of_chars_app. now rewrite !string_app_assoc.
Qed.

(** Keywords and signs *)
Lemma plain_word k w : In (k, w) (SpecLexer.reserved ++ signs) -> of_chars (chars w) = w.
Proof.
  intro Hi. apply String.eqb_eq. revert k w Hi. assert (E : forallb (fun kw => String.eqb (of_chars (chars (snd kw))) (snd kw)) (SpecLexer.reserved ++ signs) = true) by (vm_compute; reflexivity).
  rewrite forallb_forall in E. intros k w Hi. exact (E _ Hi).
Qed.
Lemma word_of_type text x k w : In x (tokens_of text) -> of_type k x -> In (k, w) (SpecLexer.reserved ++ signs) -> lx_text x = w.
Proof.
  intros Hi T Hw. destruct (token_shape _ _ Hi) as (u & S & -> & _). rewrite T in S. rewrite <- (plain_word _ _ Hw). f_equal. apply (shaped_as _ (spelled w) _ S); [|exact shapes_once].
  unfold shapes. rewrite !in_app_iff. right. left. change (k, spelled w) with ((fun kw : token_type * string => (fst kw, spelled (snd kw))) (k, w)). now apply in_map.
Qed.

(** ** References *)
Section Refs.
  Context (strict : bool) (file : string).
  Definition placed_in (ts : list lexeme) (r : string * option span) : Prop := exists x, In x ts /\ r = (lx_text x, Some (mkSpan file (lx_offset x))).
  Lemma placed_incl ts ts' r : placed_in ts r -> incl ts ts' -> placed_in ts' r.
  Proof. intros (x & Hx & ->) Hi. exists x. auto. Qed.
  Lemma separated_in {A} (P : list lexeme -> A -> Prop) ts l a : separated P ts l -> In a l -> exists sub, P sub a /\ incl sub ts.
  Proof.
    induction 1 as [ts b Hp|ts b comma ts' l Hp Hc Hs IH]; intro Hi.
    - destruct Hi as [<-|[]]. exists ts. split; [exact Hp|apply incl_refl].
    - destruct Hi as [<-|Hi]; [exists ts; split; [exact Hp|apply incl_appl, incl_refl]|]. destruct (IH Hi) as (sub & Hsub & Hin). exists sub. split; [exact Hsub|]. apply incl_appr, incl_tl, Hin.
  Qed.
  Lemma listed_in {A} (P : list lexeme -> A -> Prop) ts l a : listed P ts l -> In a l -> exists sub, P sub a /\ incl sub ts.
  Proof. intros [|ts' l' Hs] Hi; [destruct Hi|]. eapply separated_in; eauto. Qed.
  Lemma repeated_in {A} (P : list lexeme -> A -> Prop) ts l a : repeated P ts l -> In a l -> exists sub, P sub a /\ incl sub ts.
  Proof.
    induction 1 as [|ts b ts' l Hp Hr IH]; intro Hi; [destruct Hi|]. destruct Hi as [<-|Hi]; [exists ts; split; [exact Hp|apply incl_appl, incl_refl]|].
    destruct (IH Hi) as (sub & Hsub & Hin). exists sub. split; [exact Hsub|]. apply incl_appr, Hin.
  Qed.
  Lemma base_placed ts b r n : base strict file ts b -> In r (plain_references (PtNullable b n)) -> placed_in ts r.
  Proof. intros Hb Hr. inversion Hb; subst; cbn in Hr; try contradiction. destruct Hr as [<-|[]]. exists x. cbn. auto. Qed.
  Lemma types_placed :
    (forall t ts r, full strict file ts t -> In r (type_references t) -> placed_in ts r)
    /\ (forall p ts r, plain strict file ts p -> In r (plain_references p) -> placed_in ts r).
  Proof.
    apply types_ind.
    - intros pl a p IH ts r F Hr. inversion F as [ps a0 ts0 t0 p0 Hps Hp Ho E1 E2]; subst. eapply placed_incl; [exact (IH _ _ Hp Hr)|]. apply incl_appr, incl_refl.
    - intros t IH ts r Hp Hr. inversion Hp as [a0 l0 ts0 t0 g Ha Hl Hf Hg E1 E2| | | |]; subst. eapply placed_incl; [exact (IH _ _ Hf Hr)|]. do 2 apply incl_tl. apply incl_appl, incl_refl.
    - intros t IH ts r Hp Hr. inversion Hp as [|a0 l0 ts0 t0 g Ha Hl Hf Hg E1 E2| | |]; subst. eapply placed_incl; [exact (IH _ _ Hf Hr)|]. do 2 apply incl_tl. apply incl_appl, incl_refl.
    - intros l IH ts r Hp Hr. inversion Hp as [| |u b ts0 l0 r0 Hu Hb Hs He E1 E2| |]; subst. cbn in Hr. apply in_flat_map in Hr as (t & Ht & Hr).
      destruct (separated_in _ _ _ _ Hs Ht) as (sub & Hf & Hi). rewrite Forall_forall in IH. eapply placed_incl; [exact (IH t Ht _ _ Hf Hr)|]. do 2 apply incl_tl. now apply incl_appl.
    - intros b n ts r Hp Hr. inversion Hp as [| | |ts0 b0 Hb E1 E2|ts0 b0 q Hb Hq E1 E2]; subst; [eapply base_placed; eauto|]. eapply placed_incl; [eapply base_placed; eauto|]. apply incl_appl, incl_refl.
  Qed.
  Lemma item_placed m ts it r : item_rule strict file m ts it -> In r (item_references it) -> placed_in ts r.
  Proof.
    intros Hi Hr. inversion Hi as [i k kind x s Ti Tk Tx Ts E1 E2|ts0 d p Hn Ho E1 E2|ts0 md Em Hm E1 E2]; subst; cbn in Hr; [destruct Hr| |].
    - inversion Hn as [| |ps a k x b ts0 l r0 er i Hps Hk Hx Hb Hf Hrb Hs E1 E2]; subst; cbn in Hr; try contradiction. apply in_flat_map in Hr as (f & Hf' & Hr).
      destruct (repeated_in _ _ _ _ Hf Hf') as (sub & Hsub & Hin). inversion Hsub as [tsf t vs l2 s i2 Ht Hvs Hsc Hst E1 E2]; subst. cbn in Hr.
      eapply placed_incl; [exact (proj1 types_placed _ _ _ Ht Hr)|]. intros y Hy. apply in_or_app. right. do 3 right. apply in_or_app. left. apply Hin. apply in_or_app. now left.
    - inversion Hm as [ps a tsr t x l params ps' r0 e ow errs s i pl Hps Hres Hx Hl Hpar Hrp Hend Hsc Hst Hop E1 E2]; subst. cbn in Hr. rewrite !in_app_iff in Hr. destruct Hr as [Hr|[Hr|Hr]].
      + apply in_flat_map in Hr as (pa & Hpa & Hr). destruct (listed_in _ _ _ _ Hpar Hpa) as (sub & Hsub & Hin). inversion Hsub as [ts0 t0 vs v i0 Ht Hv Hst0 E1 E2]; subst. cbn in Hr.
        eapply placed_incl; [exact (proj1 types_placed _ _ _ Ht Hr)|]. intros y Hy. do 2 (apply in_or_app; right). do 2 right. apply in_or_app. left. apply Hin. apply in_or_app. now left.
      + destruct t as [t|]; [|destruct Hr]. inversion Hres as [|ts0 t0 Ht Hv E1 E2]; subst. eapply placed_incl; [exact (proj2 types_placed _ _ _ Ht Hr)|].
        intros y Hy. apply in_or_app. right. apply in_or_app. now left.
      + inversion Hend as [| |th ts0 l0 Hth Hs0 E1 E2]; subst; try destruct Hr. destruct (separated_in _ _ _ _ Hs0 Hr) as (sub & Hsub & Hin). inversion Hsub as [x0 Hx0 E1 E2]; subst.
        exists x0. split; [|reflexivity]. do 2 (apply in_or_app; right). do 2 right. apply in_or_app. right. right. right. apply in_or_app. left. apply Hin. now left.
  Qed.
  Lemma tree_item ts t it : file_rule strict file ts t -> In it (tree_items t) -> exists m sub, item_rule strict file m sub it /\ incl sub ts.
  Proof.
    intros F Hi. inversion F as [ps a p x b ts0 l r rest i Hps Hp Hx Hb Hr Hrb He Hst E1 E2|ns_ts ns main_ts main ts0 l rest Hns Hm Hr He E1 E2]; subst; cbn in Hi.
    - destruct (repeated_in _ _ _ _ Hr Hi) as (sub & Hsub & Hin). exists true, sub. split; [exact Hsub|]. intros y Hy. apply in_or_app. right. do 3 right. apply in_or_app. left. auto.
    - destruct (repeated_in _ _ _ _ Hr Hi) as (sub & Hsub & Hin). exists false, sub. split; [exact Hsub|]. intros y Hy. do 2 (apply in_or_app; right). apply in_or_app. left. auto.
  Qed.
  Lemma tree_placed ts t r : file_rule strict file ts t -> In r (tree_references t) -> placed_in ts r.
  Proof.
    intros F Hr. unfold tree_references in Hr. apply in_app_or in Hr as [Hr|Hr].
    - destruct t as [|ns [ft|] items]; try destruct Hr. inversion F as [|ns_ts ns' main_ts main ts0 l rest Hns Hm Hrep He E1 E2]; subst. inversion Hm as [|k ts1 t1 s Hk Hf Hs E1 E2]; subst.
      eapply placed_incl; [exact (proj1 types_placed _ _ _ Hf Hr)|]. intros y Hy. apply in_or_app. right. apply in_or_app. left. right. apply in_or_app. now left.
    - apply in_flat_map in Hr as (it & Hit & Hr). destruct (tree_item _ _ _ F Hit) as (m & sub & Hi & Hin). eapply placed_incl; [exact (item_placed _ _ _ _ Hi Hr)|exact Hin].
  Qed.
  (** Statements one after the other start at different places *)
  Lemma item_start m ts it p : item_rule strict file m ts it -> item_place it = Some p -> exists x r, ts = x :: r /\ p = mkSpan file (lx_offset x).
  Proof. intros Hi Ep. inversion Hi as [i k kind x s Ti Tk Tx Ts E1 E2|ts0 d q Hn Ho E1 E2|ts0 md Em Hm E1 E2]; subst; cbn in Ep; [|  |discriminate]; injection Ep as <-; [eauto|exact Ho]. Qed.
  Lemma repeated_places m ts l it it' p : repeated (item_rule strict file m) ts l -> StronglySorted N.lt (map lx_offset ts) ->
    In it l -> In it' l -> item_place it = Some p -> item_place it' = Some p -> it = it'.
  Proof.
    induction 1 as [|ts a ts' l Ha Hr IH]; intros S Hi Hi' Ep Ep'; [destruct Hi|].
    assert (S' : StronglySorted N.lt (map lx_offset ts')).
    { rewrite map_app in S. clear -S. induction (map lx_offset ts) as [|y ys IHy]; [exact S|]. inversion S; auto. }
    assert (Later : forall a0 b0, In b0 l -> a0 = a -> item_place a0 = Some p -> item_place b0 = Some p -> False).
    { intros a0 b0 Hb -> Pa Pb. destruct (item_start _ _ _ _ Ha Pa) as (x & r & -> & ->). destruct (repeated_in _ _ _ _ Hr Hb) as (sub & Hsub & Hin).
      destruct (item_start _ _ _ _ Hsub Pb) as (x' & r' & -> & E). injection E as E. cbn in S. inversion S as [|? ? _ F]; subst. rewrite Forall_forall in F.
      assert (lx_offset x < lx_offset x')%N; [|lia]. apply F. apply in_map. apply in_or_app. right. apply Hin. now left. }
    destruct Hi as [<-|Hi], Hi' as [<-|Hi']; [reflexivity|exfalso; eapply Later; eauto|exfalso; eapply Later; eauto|auto].
  Qed.
  Lemma sorted_part (a b c : list N) : StronglySorted N.lt (a ++ b ++ c) -> StronglySorted N.lt b.
  Proof.
    intro S. assert (S' : StronglySorted N.lt (b ++ c)) by (induction a; [exact S|inversion S; auto]). clear S. induction b as [|y b IH]; [constructor|].
    inversion S' as [|? ? S F]; subst. constructor; [auto|]. apply Forall_app in F. tauto.
  Qed.
  Lemma tree_places ts t it it' p : file_rule strict file ts t -> StronglySorted N.lt (map lx_offset ts) ->
    In it (tree_items t) -> In it' (tree_items t) -> item_place it = Some p -> item_place it' = Some p -> it = it'.
  Proof.
    intros F S. inversion F as [ps a p0 x b ts0 l r rest i Hps Hp Hx Hb Hr Hrb He Hst E1 E2|ns_ts ns main_ts main ts0 l rest Hns Hm Hr He E1 E2]; subst; cbn [tree_items]; eapply repeated_places; try exact Hr.
    - change (ps ++ p0 :: x :: b :: ts0 ++ r :: rest) with (ps ++ [p0; x; b] ++ ts0 ++ r :: rest) in S. rewrite app_assoc, map_app in S. rewrite (map_app _ ts0) in S. eapply sorted_part. exact S.
    - rewrite app_assoc, map_app in S. rewrite (map_app _ ts0) in S. eapply sorted_part. exact S.
  Qed.
  Lemma property_at ps a : repeated (property file) ps a -> (ps = [] /\ a = []) \/ (exists x r p l, ps = x :: r /\ of_type T_At x /\ a = p :: l).
  Proof. intros [|ts p ts' l Hp Hr]; [now left|]. right. inversion Hp as [at_ x l0 ts0 v r Ha Hx Hl Hv Hrp E1 E2]; subst. cbn. eauto 8. Qed.
  Lemma named_start ts d : named_rule strict file ts d -> exists x r, ts = x :: r /\ exists k, of_type k x /\ In (k, first_word d) (SpecLexer.reserved ++ signs).
  Proof.
    intro Hn. inversion Hn as [ps a f x l n r s i Hps Hf Hx Hl Hn' Hr Hs Hst E1 E2|ps a e x b ts0 l r d0 df i Hps He Hx Hb Hl Hr Hd Hst E1 E2|ps a k x b ts0 l r er i Hps Hk Hx Hb Hf Hrb Hs E1 E2]; subst;
      (destruct (property_at _ _ Hps) as [[-> ->]|(y & r' & p & l' & -> & Hy & ->)]; cbn [app]; eexists _, _; (split; [reflexivity|]); cbn [first_word r_annotations e_annotations x_annotations r_error]).
    1: exists T_Fixed. 2: exists T_At. 3: exists T_Enum. 4: exists T_At. 5: exists (if er then T_Error else T_Record). 6: exists T_At.
    all: try (split; [assumption|cbn; tauto]). destruct er; (split; [exact Hk|cbn; tauto]).
  Qed.
  Lemma json_start ts j : json_value file ts j -> exists x r, ts = x :: r /\ (lx_text x = json_word j \/ exists k, of_type k x /\ In (k, json_word j) (SpecLexer.reserved ++ signs)).
  Proof.
    intro Hj. destruct Hj; cbn [json_word]; eexists _, _; (split; [reflexivity|]); auto; right; eexists; (split; [eassumption|]); cbn; tauto.
  Qed.
  Lemma default_start m ts r p f v j : item_rule strict file m ts (ItNamed (NRecord r) p) -> In f (r_fields r) -> In v (fd_variables f) -> v_default v = Some j ->
    exists x, In x ts /\ v_place v = mkSpan file (lx_offset x) /\ (lx_text x = json_word j \/ exists k, of_type k x /\ In (k, json_word j) (SpecLexer.reserved ++ signs)).
  Proof.
    intros Hi Hf Hv Hd. inversion Hi as [|ts0 d q Hn Ho E1 E2|]; subst. inversion Hn as [| |ps a k x b ts0 l r0 er i Hps Hk Hx Hb Hfs Hrb Hs E1 E2]; subst. cbn in Hf.
    destruct (repeated_in _ _ _ _ Hfs Hf) as (sub & Hsub & Hin). inversion Hsub as [tsf t vs l2 s i2 Ht Hvs Hsc Hst E1 E2]; subst. cbn in Hv.
    destruct (separated_in _ _ _ _ Hvs Hv) as (vt & Hvt & Hvin). inversion Hvt as [|ps1 a1 x1 e1 ts1 v1 i1 p1 Hps1 Hx1 He1 Hj1 Hst1 Hop1 E1 E2]; subst; cbn in *; [discriminate|].
    injection Hd as <-. destruct Hop1 as (y & yr & Ey & ->). destruct (json_start _ _ Hj1) as (y' & yr' & Ey' & W). assert (y' = y) as -> by congruence.
    exists y. split; [|auto]. apply in_or_app. right. do 3 right. apply in_or_app. left. apply Hin. apply in_or_app. right. apply in_or_app. left. apply Hvin. apply in_or_app. right. do 2 right. rewrite Ey. now left.
  Qed.
End Refs.

(** ** The parser of the texts *)
Section Texts.
  Context `{Unicode} `{Floats} `{LexerMessages}.
  Existing Instance text_parser.
  Lemma text_reads f text tokens t file items ws : reads f text tokens t file items ws -> file_rule true f (tokens_of (until_sub text)) t.
  Proof. intros (v & lw & Hv & Ha & _). apply visible_until in Hv. subst v. apply parse_text_some in Ha as (Ha & _). exact Ha. Qed.
  Lemma reads_once f text tokens t file items ws tokens' t' file' items' ws' :
    reads f text tokens t file items ws -> reads f text tokens' t' file' items' ws' -> t = t'.
  Proof. intros (v & lw & Hv & Ha & _) (v' & lw' & Hv' & Ha' & _). apply visible_until in Hv, Hv'. subst. congruence. Qed.

  Lemma import_says f text k path p : utf8 text -> statement f text (ItImport k path p) -> says f text p "import".
  Proof.
    intros U (tokens & t & file & items & ws & R & Hi). apply text_reads in R. destruct (tree_item _ _ _ _ _ R Hi) as (m & sub & Hs & Hin).
    inversion Hs as [i k' kind x s Ti Tk Tx Ts E1 E2| |]; subst. assert (Hx : In i (tokens_of (until_sub text))) by (apply Hin; now left).
    pose proof (token_says f text i U Hx) as S. rewrite (word_of_type _ _ _ "import" Hx Ti) in S by (cbn; tauto). exact S.
  Qed.
  Lemma type_says f text d p : utf8 text -> statement f text (ItNamed d p) -> says f text p (first_word d).
  Proof.
    intros U (tokens & t & file & items & ws & R & Hi). apply text_reads in R. destruct (tree_item _ _ _ _ _ R Hi) as (m & sub & Hs & Hin).
    inversion Hs as [|ts0 d0 q Hn Ho E1 E2|]; subst. destruct Ho as (x & r & -> & ->). destruct (named_start _ _ _ _ Hn) as (x' & r' & E & k & Tk & Hk). injection E as <- <-.
    assert (Hx : In x (tokens_of (until_sub text))) by (apply Hin; now left). pose proof (token_says f text x U Hx) as S. rewrite (word_of_type _ _ _ _ Hx Tk Hk) in S. exact S.
  Qed.
  Lemma default_says f text r p fd v j : utf8 text -> statement f text (ItNamed (NRecord r) p) -> In fd (r_fields r) -> In v (fd_variables fd) -> v_default v = Some j ->
    says f text (v_place v) (json_word j).
  Proof.
    intros U (tokens & t & file & items & ws & R & Hi) Hf Hv Hd. apply text_reads in R. destruct (tree_item _ _ _ _ _ R Hi) as (m & sub & Hs & Hin).
    destruct (default_start _ _ _ _ _ _ _ _ _ Hs Hf Hv Hd) as (x & Hx & -> & W). apply Hin in Hx. pose proof (token_says f text x U Hx) as S. destruct W as [<-|(k & Tk & Hk)]; [exact S|].
    rewrite (word_of_type _ _ _ _ Hx Tk Hk) in S. exact S.
  Qed.
  Lemma reference_says f text i o : utf8 text -> refers_to f text i o -> exists p, o = Some p /\ says f text p i.
  Proof.
    intros U (tokens & t & file & items & ws & R & Hi). apply text_reads in R. destruct (tree_placed _ _ _ _ _ R Hi) as (x & Hx & E). injection E as -> ->.
    eexists. split; [reflexivity|]. now apply token_says.
  Qed.
  Lemma one_statement f text it it' p : statement f text it -> statement f text it' -> item_place it = Some p -> item_place it' = Some p -> it = it'.
  Proof.
    intros (tokens & t & file & items & ws & R & Hi) (tokens' & t' & file' & items' & ws' & R' & Hi'). pose proof (reads_once _ _ _ _ _ _ _ _ _ _ _ _ R R'). subst t'.
    apply text_reads in R. exact (tree_places _ _ _ _ _ _ _ R (tokens_sorted _) Hi Hi').
  Qed.
End Texts.
