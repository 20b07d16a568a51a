(** Sequences of tokens that are alike are read alike; and what the ambiguous
    grammar accepts the other one does too. *)
From Verif Require Import Canon GrammarSound ReaderProofs.
From Coq Require Import Lia.

(** The standard form of a token *)
Definition form_of (c : forms) (k : token_type) : string -> string :=
  match k with
  | T_StringLiteral => form_string c
  | T_IntegerLiteral => form_integer c
  | T_FloatingPointLiteral => form_float c
  | _ => form_name c
  end.
Definition kin (c : forms) (x y : lexeme) : Prop :=
  lx_type x = lx_type y /\ form_of c (lx_type x) (lx_text x) = form_of c (lx_type y) (lx_text y) /\ lx_index x = lx_index y.

Section Forms.
Context (fm : forms).
Local Notation alike := (kin fm).

Lemma alike_type k x y : of_type k x -> alike x y -> of_type k y.
Proof. unfold of_type. intros H (E & _ & _). congruence. Qed.
Lemma alike_name x y : a_name x -> alike x y -> a_name y.
Proof. unfold a_name. intros H (E & _ & _). rewrite <- E. exact H. Qed.
Lemma alike_text k x y : of_type k x -> alike x y -> form_of fm k (lx_text x) = form_of fm k (lx_text y).
Proof. unfold of_type. intros <- (E & E2 & _). rewrite E2, <- E. reflexivity. Qed.
Lemma name_text x y : a_name x -> alike x y -> form_name fm (lx_text x) = form_name fm (lx_text y).
Proof.
  intros Hx A. assert (E : form_of fm (lx_type x) = form_name fm).
  { destruct Hx as [->|Hx]; [reflexivity|]. cbn in Hx. repeat (destruct Hx as [<-|Hx]; [reflexivity|]). destruct Hx. }
  rewrite <- E. exact (alike_text _ _ _ eq_refl A).
Qed.
Lemma alike_length ts ts' : Forall2 alike ts ts' -> length ts = length ts'.
Proof. induction 1; cbn; congruence. Qed.

(** Taking sequences alike apart in the same way *)
Ltac apart := repeat match goal with
  | H : Forall2 alike [] _ |- _ => inversion H; subst; clear H
  | H : Forall2 alike (_ :: _) _ |- _ => let y := fresh "y" in let q := fresh "q" in let Hy := fresh "A" in let Hq := fresh "F" in inversion H as [|? y ? q Hy Hq]; subst; clear H
  | H : Forall2 alike (_ ++ _) _ |- _ => let q := fresh "q" in let q' := fresh "q" in let Hq := fresh "F" in let Hq' := fresh "F" in apply Forall2_app_inv_l in H as (q & q' & Hq & Hq' & ?); subst
  end.
(** The same tokens on the other side *)
Ltac tokens := repeat match goal with
  | H : of_type ?k ?x, A : alike ?x ?y |- _ => lazymatch goal with K : of_type k y |- _ => fail | _ => pose proof (alike_type _ _ _ H A) end
  | H : a_name ?x, A : alike ?x ?y |- _ => lazymatch goal with K : a_name y |- _ => fail | _ => pose proof (alike_name _ _ H A) end
  end.

(** The text of a token, on the other side *)
Ltac text x := unfold canon_word, located_at; cbn [w_text]; match goal with A : kin fm x _ |- _ => first
  [ match goal with H : of_type _ x |- _ => let E := fresh "Et" in pose proof (alike_text _ _ _ H A) as E; cbn [form_of] in E; rewrite E end
  | match goal with H : a_name x |- _ => rewrite (name_text _ _ H A) end ] end.

Section Moving.
  Context {A B : Type} (P : list lexeme -> A -> Prop) (Q : list lexeme -> B -> Prop) (R : A -> B -> Prop).
  Definition moves_below (n : nat) : Prop := forall ts a ts', P ts a -> Forall2 alike ts ts' -> length ts < n -> exists b, Q ts' b /\ R a b.
  Definition moves : Prop := forall ts a ts', P ts a -> Forall2 alike ts ts' -> exists b, Q ts' b /\ R a b.

  Lemma separated_below n ts l ts' : moves_below n -> separated P ts l -> Forall2 alike ts ts' -> length ts < n -> exists l', separated Q ts' l' /\ Forall2 R l l'.
  Proof.
    intros M H. revert ts'. induction H as [ts a Ha|ts a c ts2 l Ha Hc H IH]; intros ts' F Hn.
    - destruct (M _ _ _ Ha F Hn) as (b & Hb & Hr). exists [b]. split; [apply sep_one, Hb|]. auto.
    - rewrite app_length in Hn. cbn in Hn. apart. tokens. destruct (M _ _ _ Ha ltac:(eassumption) ltac:(lia)) as (b & Hb & Hr).
      destruct (IH _ ltac:(eassumption) ltac:(lia)) as (l' & Hl & Hr2). exists (b :: l'). split; [apply sep_more; assumption|]. auto.
  Qed.
  Lemma repeated_below n ts l ts' : moves_below n -> repeated P ts l -> Forall2 alike ts ts' -> length ts < n -> exists l', repeated Q ts' l' /\ Forall2 R l l'.
  Proof.
    intros M H. revert ts'. induction H as [|ts a ts2 l Ha H IH]; intros ts' F Hn; apart.
    - exists []. split; constructor.
    - rewrite app_length in Hn. destruct (M _ _ _ Ha ltac:(eassumption) ltac:(lia)) as (b & Hb & Hr).
      destruct (IH _ ltac:(eassumption) ltac:(lia)) as (l' & Hl & Hr2). exists (b :: l'). split; [apply rep_more; assumption|]. auto.
  Qed.
  Lemma listed_below n ts l ts' : moves_below n -> listed P ts l -> Forall2 alike ts ts' -> length ts < n -> exists l', listed Q ts' l' /\ Forall2 R l l'.
  Proof.
    intros M [|ts2 l2 H] F Hn; apart.
    - exists []. split; constructor.
    - destruct (separated_below n _ _ _ M H F Hn) as (l' & Hl & Hr). exists l'. split; [apply listed_some, Hl|exact Hr].
  Qed.
  Lemma below n : moves -> moves_below n.
  Proof. intros M ts a ts' H F _. exact (M _ _ _ H F). Qed.
  Lemma separated_moves ts l ts' : moves -> separated P ts l -> Forall2 alike ts ts' -> exists l', separated Q ts' l' /\ Forall2 R l l'.
  Proof. intros M H F. apply (separated_below (S (length ts)) _ _ _ (below _ M) H F). lia. Qed.
  Lemma repeated_moves ts l ts' : moves -> repeated P ts l -> Forall2 alike ts ts' -> exists l', repeated Q ts' l' /\ Forall2 R l l'.
  Proof. intros M H F. apply (repeated_below (S (length ts)) _ _ _ (below _ M) H F). lia. Qed.
  Lemma listed_moves ts l ts' : moves -> listed P ts l -> Forall2 alike ts ts' -> exists l', listed Q ts' l' /\ Forall2 R l l'.
  Proof. intros M H F. apply (listed_below (S (length ts)) _ _ _ (below _ M) H F). lia. Qed.
End Moving.

Lemma Forall2_eq {A} (l l' : list A) : Forall2 eq l l' -> l = l'.
Proof. induction 1; congruence. Qed.

Lemma Forall2_map_eq {A B} (f : A -> B) l l' : Forall2 (fun a b => f a = f b) l l' -> map f l = map f l'.
Proof. induction 1; cbn; congruence. Qed.
Lemma starts_alike ts ts' i : starts_at ts i -> Forall2 alike ts ts' -> starts_at ts' i.
Proof. intros (x & r & -> & <-) F. apart. eexists _, _. split; [reflexivity|]. match goal with A : alike x ?y |- _ => destruct A as (_ & _ & ->) end. reflexivity. Qed.

Section Files.
  Context (s s' : bool) (file file' : string).

  (** ** JSON and annotations: nothing but places changes *)
  Lemma json_below n : moves_below (json_value file) (json_value file') (fun a b => (canon_json fm) a = (canon_json fm) b) n.
  Proof.
    induction n as [|n IH]; intros ts v ts' H F Hn; [lia|].
    destruct H as [x Hx|x Hx|x Hx|x Hx|x Hx|x Hx|x ts l y Hx H Hy|x ts l y Hx H Hy]; apart; tokens.
    1-3: eexists; split; [constructor; assumption|cbn; text x; reflexivity].
    1-3: eexists; split; [constructor; assumption|reflexivity].
    - cbn [length] in Hn. rewrite app_length in Hn. destruct (listed_below _ _ _ n _ _ _ IH H ltac:(eassumption) ltac:(lia)) as (l' & Hl & E). apply Forall2_map_eq in E.
      eexists. split; [apply jv_array; eassumption|]. cbn. rewrite E. reflexivity.
    - cbn [length] in Hn. rewrite app_length in Hn.
      assert (M : moves_below (json_pair (json_value file)) (json_pair (json_value file')) (fun a b => (fun kv => (form_string fm (fst kv), canon_json fm (snd kv))) a = (fun kv => (form_string fm (fst kv), canon_json fm (snd kv))) b) n).
      { intros ts1 a ts1' [k c ts2 v Hk Hc Hv] F1 Hn1. apart. tokens. cbn [length] in Hn1. destruct (IH _ _ _ Hv ltac:(eassumption) ltac:(lia)) as (v' & Hv' & E).
        eexists. split; [constructor; eassumption|]. cbn. text k. rewrite E. reflexivity. }
      destruct (listed_below _ _ _ n _ _ _ M H ltac:(eassumption) ltac:(lia)) as (l' & Hl & E). apply Forall2_map_eq in E.
      eexists. split; [apply jv_object; eassumption|]. cbn. rewrite E. reflexivity.
  Qed.
  Lemma json_moves : moves (json_value file) (json_value file') (fun a b => (canon_json fm) a = (canon_json fm) b).
  Proof. intros ts v ts' H F. exact (json_below (S (length ts)) _ _ _ H F ltac:(lia)). Qed.
  Lemma property_moves : moves (property file) (property file') (fun a b => (canon_annotation fm) a = (canon_annotation fm) b).
  Proof.
    intros ts a ts' [a' x l ts2 v r Ha Hx Hl Hv Hr] F. apart. tokens. destruct (json_moves _ _ _ Hv ltac:(eassumption)) as (v' & Hv' & E).
    eexists. split; [constructor; eassumption|]. unfold canon_annotation. cbn. rewrite E. text x. reflexivity.
  Qed.
  Lemma properties_alike ts l ts' : repeated (property file) ts l -> Forall2 alike ts ts' ->
    exists l', repeated (property file') ts' l' /\ map (canon_annotation fm) l = map (canon_annotation fm) l'.
  Proof. intros H F. destruct (repeated_moves _ _ _ _ _ _ property_moves H F) as (l' & Hl & E). apply Forall2_map_eq in E. eauto. Qed.
  Ltac annotations Hp := destruct (properties_alike _ _ _ Hp ltac:(eassumption)) as (?a' & ?Hp' & ?Ea).

  (** From a reading of one grammar to one of the other; the same, but for places, if
      the first is unambiguous *)
  Definition same_as {A} (f : A -> A) (a b : A) : Prop := s = true -> f a = f b.
  Lemma same_map {A} (f : A -> A) l l' : Forall2 (same_as f) l l' -> s = true -> map f l = map f l'.
  Proof. intros H Hs. induction H as [|a b l l' Ha H IH]; cbn; [reflexivity|]. rewrite (Ha Hs), IH. reflexivity. Qed.

  Lemma base_moves : moves (base s file) (base s' file') (same_as (canon_base fm)).
  Proof.
    intros ts b ts' [x k Hk|d l p r Hd Hl Hp Hx|d l p c sc r Hd Hl Hp Hc Hs Hx|x Hx Hn] F; apart; tokens.
    - match goal with A : alike x _ |- _ => destruct A as (E & _ & _) end. rewrite E in Hk. eexists. split; [apply base_word; eassumption|]. intros _. reflexivity.
    - eexists. split; [apply base_decimal; assumption|]. intros _. cbn. text p. reflexivity.
    - eexists. split; [apply base_scaled; eassumption|]. intros _. cbn. text p. text sc. reflexivity.
    - match goal with A : alike x ?y |- _ => rename A into Ha; rename y into y' end. pose proof (name_text _ _ Hx Ha) as E2. destruct Ha as (E & _ & _).
      destruct (in_dec token_type_dec (lx_type y') (map fst primitive_words)) as [Hi|Hi].
      + apply in_map_iff in Hi as ([k w] & Ek & Hi). cbn in Ek. subst k. eexists. split; [apply base_word; eassumption|]. intros ->. exfalso.
        apply (Hn eq_refl). rewrite E. exact (in_map fst _ _ Hi).
      + eexists. split; [apply base_reference; [assumption|intros _; exact Hi]|]. intros _. cbn. rewrite E2. reflexivity.
  Qed.

  Lemma opens_alike ts p ts' : opens file ts p -> Forall2 alike ts ts' -> exists p', opens file' ts' p'.
  Proof. intros (x & r & -> & _) F. inversion F as [|? y ? r' _ _]; subst. eexists _, y, r'. split; reflexivity. Qed.
  Lemma full_below n : moves_below (full s file) (full s' file') (same_as (canon_full fm)) n.
  Proof.
    induction n as [|n IH]; intros ts t ts' H F Hn; [lia|]. destruct H as [ps a ts t p Hp Ht Ho]. destruct (opens_alike _ _ _ Ho F) as (p' & Ho'). rewrite app_length in Hn. apart. annotations Hp.
    assert (E : exists t', plain s' file' q0 t' /\ same_as (canon_plain fm) t t').
    { match goal with F : Forall2 alike ps _ |- _ => clear F end.
      destruct Ht as [a0 l ts t g Ha Hl Ht Hg|a0 l ts t g Ha Hl Ht Hg|u b ts l r Hu Hb Ht Hr|ts b Hb|ts b qm Hb Hq]; cbn [length] in Hn; rewrite ?app_length in Hn; apart; tokens.
      - destruct (IH _ _ _ Ht ltac:(eassumption) ltac:(lia)) as (t' & Ht' & E). eexists. split; [apply plain_array; eassumption|]. intro Hs. exact (f_equal PtArray (E Hs)).
      - destruct (IH _ _ _ Ht ltac:(eassumption) ltac:(lia)) as (t' & Ht' & E). eexists. split; [apply plain_map; eassumption|]. intro Hs. exact (f_equal PtMap (E Hs)).
      - destruct (separated_below _ _ _ n _ _ _ IH Ht ltac:(eassumption) ltac:(lia)) as (l' & Hl & E). eexists. split; [apply plain_union; eassumption|]. intro Hs. exact (f_equal PtUnion (same_map _ _ _ E Hs)).
      - destruct (base_moves _ _ _ Hb ltac:(eassumption)) as (b' & Hb' & E). eexists. split; [apply plain_base; eassumption|]. intro Hs. exact (f_equal (fun b => PtNullable b false) (E Hs)).
      - destruct (base_moves _ _ _ Hb ltac:(eassumption)) as (b' & Hb' & E). eexists. split; [apply plain_nullable; eassumption|]. intro Hs. exact (f_equal (fun b => PtNullable b true) (E Hs)). }
    destruct E as (t' & Ht' & E). eexists. split; [apply full_rule; eassumption|]. intro Hs. exact (f_equal2 (FullType nowhere) Ea (E Hs)).
  Qed.
  Lemma full_moves : moves (full s file) (full s' file') (same_as (canon_full fm)).
  Proof. intros ts v ts' H F. exact (full_below (S (length ts)) _ _ _ H F ltac:(lia)). Qed.
  Lemma plain_moves : moves (plain s file) (plain s' file') (same_as (canon_plain fm)).
  Proof.
    intros ts t ts' H F. assert (O : exists p, opens file ([] ++ ts) p) by (eexists; apply (opens_first file ts []); intros ->; apply plain_nonempty in H; congruence). destruct O as (p0 & O).
    destruct (full_moves ([] ++ ts) (FullType p0 [] t) ts' (full_rule _ _ [] [] ts t p0 (rep_none _) H O) F) as (f & Hf & E).
    inversion Hf as [ps a ts1 t1 p1 Hp Ht _ E1 E2]. subst. exists t1. destruct Hp as [|? ? ? ? [? ? ? ? ? ? Ha _ _ _ _] ?]; [split; [exact Ht|]; intro Hs; specialize (E Hs); exact (f_equal (fun x => match x with FullType _ _ p => p end) E)|].
    exfalso. (* a plain type starts with no annotation *)
    clear E Hf. cbn [app] in F. apart. assert (N : forall x r, ts = x :: r -> lx_type x <> T_At).
    { assert (B : forall ts b, base s file ts b -> forall x r, ts = x :: r -> lx_type x <> T_At).
      { intros ts4 b [x4 k4 Hk|d l4 p r4 Hd _ _ _|d l4 p c sc r4 Hd _ _ _ _ _|x4 Hx _] y4 r5 E; injection E as <- <-; try (rewrite Hd; discriminate).
        - intro E. rewrite E in Hk. cbn in Hk. repeat (destruct Hk as [Hk|Hk]; [discriminate|]). destruct Hk.
        - intro E. unfold a_name in Hx. rewrite E in Hx. destruct Hx as [Hx|Hx]; [discriminate|]. cbn in Hx. repeat (destruct Hx as [Hx|Hx]; [discriminate|]). destruct Hx. }
      intros x4 r4 E. destruct H as [a4 l4 ts4 t4 g4 Ha0 _ _ _|a4 l4 ts4 t4 g4 Ha0 _ _ _|a4 l4 ts4 t4 g4 Ha0 _ _ _|ts4 b Hb|ts4 b q Hb _]; try (injection E as <- _; rewrite Ha0; discriminate).
      - exact (B _ _ Hb _ _ E).
      - destruct ts4 as [|y4 ts4]; [destruct (plain_nonempty file s [] _ (plain_base _ _ _ _ Hb) eq_refl)|]. injection E as <- _. exact (B _ _ Hb _ _ eq_refl). }
    destruct ts as [|x0 ts]; inversion F as [|? ? ? ? A0 F0]; subst. apply (N x0 ts eq_refl). destruct A0 as (-> & _). exact Ha.
  Qed.

  Lemma variable_moves : moves (variable_rule file) (variable_rule file') (fun a b => (canon_variable fm) a = (canon_variable fm) b).
  Proof.
    intros ts v ts' [ps a x i p Hp Hx Hi Ho|ps a x e ts2 v2 i p Hp Hx He Hv Hi Ho] F.
    - pose proof (starts_alike _ _ _ Hi F) as Hi'. destruct (opens_alike _ _ _ Ho F) as (p' & Ho'). apart. tokens. annotations Hp. eexists. split; [apply variable_plain; eassumption|].
      unfold canon_variable. cbn. text x. now rewrite Ea.
    - apart. tokens. assert (Hi' : starts_at (q ++ [y]) i) by (apply (starts_alike _ _ _ Hi); apply Forall2_app; auto). destruct (opens_alike _ _ _ Ho ltac:(eassumption)) as (p' & Ho').
      annotations Hp. destruct (json_moves _ _ _ Hv ltac:(eassumption)) as (v' & Hv' & Ev). eexists. split; [apply variable_default; eassumption|].
      unfold canon_variable. cbn. text x. now rewrite Ea, Ev.
  Qed.
  Lemma field_moves : moves (field_rule s file) (field_rule s' file') (same_as (canon_field fm)).
  Proof.
    intros ts f ts' [ts2 t vs l sc i Ht Hv Hs Hi] F. apart. tokens. destruct (full_moves _ _ _ Ht ltac:(eassumption)) as (t' & Ht' & E).
    destruct (separated_moves _ _ _ _ _ _ variable_moves Hv ltac:(eassumption)) as (l' & Hl & E2). apply Forall2_map_eq in E2.
    eexists. split; [apply field_of; try eassumption; eapply starts_alike; eassumption|]. intro Hs'. unfold canon_field. cbn. rewrite (E Hs'), E2. reflexivity.
  Qed.
  Lemma parameter_moves : moves (parameter_rule s file) (parameter_rule s' file') (same_as (canon_parameter fm)).
  Proof.
    intros ts f ts' [ts2 t vs v i Ht Hv Hi] F. apart. destruct (full_moves _ _ _ Ht ltac:(eassumption)) as (t' & Ht' & E).
    destruct (variable_moves _ _ _ Hv ltac:(eassumption)) as (v' & Hv' & E2).
    eexists. split; [apply parameter_of; try eassumption; eapply starts_alike; eassumption|]. intro Hs'. unfold canon_parameter. cbn. rewrite (E Hs'), E2. reflexivity.
  Qed.
  Lemma symbol_moves : moves (symbol_rule file) (symbol_rule file') (fun a b => canon_word (form_name fm) a = canon_word (form_name fm) b).
  Proof.
    intros ts f ts' [ps a x p Hp Hx Ho] F. destruct (opens_alike _ _ _ Ho F) as (p' & Ho'). apart. tokens. annotations Hp. eexists. split; [eapply symbol_of; eassumption|].
    cbn. text x. reflexivity.
  Qed.
  Lemma enum_default_moves : moves (enum_default_rule file) (enum_default_rule file') (fun a b => option_map (canon_word (form_name fm)) a = option_map (canon_word (form_name fm)) b).
  Proof.
    intros ts f ts' [|e x sc He Hx Hs] F; apart; tokens.
    - eexists. split; [constructor|reflexivity].
    - eexists. split; [apply enum_default_of; assumption|]. cbn. text x. reflexivity.
  Qed.
  Lemma starts_more_alike ps x i ps' y : starts_at (ps ++ [x]) i -> Forall2 alike ps ps' -> alike x y -> starts_at (ps' ++ [y]) i.
  Proof. intros H F A. apply (starts_alike _ _ _ H). apply Forall2_app; auto. Qed.

  Lemma named_moves : moves (named_rule s file) (named_rule s' file') (same_as (canon_named fm)).
  Proof.
    intros ts d ts' [ps a f x l size r sc i Hp Hf Hx Hl Hs Hc He Hi|ps a f x b ts2 l r d2 default i Hp Hf Hx Hb Hl Hc Hd Hi|ps a k x b ts2 l r error i Hp Hf Hx Hb Hl Hc Hi] F.
    - apart. tokens. match goal with A : alike f ?y', F : Forall2 alike ps ?q |- _ => pose proof (starts_more_alike _ _ _ _ _ Hi F A) end. annotations Hp.
      eexists. split; [apply named_fixed; eassumption|]. intros _. cbn. rewrite Ea.
      text x. text size. reflexivity.
    - apart. tokens. match goal with A : alike f ?y', F : Forall2 alike ps ?q |- _ => pose proof (starts_more_alike _ _ _ _ _ Hi F A) end. annotations Hp.
      destruct (listed_moves _ _ _ _ _ _ symbol_moves Hl ltac:(eassumption)) as (l' & Hl' & E). apply Forall2_map_eq in E.
      destruct (enum_default_moves _ _ _ Hd ltac:(eassumption)) as (d' & Hd' & Ed).
      eexists. split; [apply named_enum; eassumption|]. intros _. cbn. rewrite Ea, E, Ed.
      text x. reflexivity.
    - apart. tokens. match goal with A : alike k ?y', F : Forall2 alike ps ?q |- _ => pose proof (starts_more_alike _ _ _ _ _ Hi F A);
        assert (if error then of_type T_Error y' else of_type T_Record y') by (destruct error; eapply alike_type; eassumption) end. annotations Hp.
      destruct (repeated_moves _ _ _ _ _ _ field_moves Hl ltac:(eassumption)) as (l' & Hl' & E).
      eexists. split; [apply named_record; eassumption|]. intro Hs. cbn. rewrite (same_map _ _ _ E Hs), Ea.
      text x. reflexivity.
  Qed.

  Lemma result_moves : moves (result_rule s file) (result_rule s' file') (same_as (option_map (canon_plain fm))).
  Proof.
    intros ts t ts' [v Hv|ts2 t2 H Hn] F.
    - apart. tokens. eexists. split; [apply result_void; assumption|]. intros _. reflexivity.
    - assert (D : (exists y, ts' = [y] /\ lx_type y = T_Void) \/ (forall y, ts' = [y] -> lx_type y <> T_Void)).
      { destruct ts' as [|y [|z r]]; [right; discriminate| |right; discriminate]. destruct (token_type_dec (lx_type y) T_Void) as [E|E]; [left; eauto|right]. intros y' X. injection X as <-. exact E. }
      destruct D as [(y & -> & Hy)|D].
      + exists None. split; [apply result_void; exact Hy|]. intros ->. exfalso. inversion F as [|x0 y0 r0 r0' A0 F0]; subst. inversion F0; subst.
        apply (Hn eq_refl x0 eq_refl). destruct A0 as (-> & _). exact Hy.
      + destruct (plain_moves _ _ _ H F) as (t' & Ht' & E). exists (Some t'). split; [apply result_plain; auto|]. intro Hs. cbn. rewrite (E Hs). reflexivity.
  Qed.
  Lemma name_moves : moves (name_rule file) (name_rule file') (fun a b => (canon_error fm) a = (canon_error fm) b).
  Proof.
    intros ts f ts' [x Hx] F. apart. tokens. eexists. split; [apply name_of; assumption|]. unfold canon_error. cbn. text x. reflexivity.
  Qed.
  Lemma ending_moves ts o l ts' : ending_rule file ts (o, l) -> Forall2 alike ts ts' -> exists l', ending_rule file' ts' (o, l') /\ map (canon_error fm) l = map (canon_error fm) l'.
  Proof.
    intros H F. inversion H as [|w Hw|t ts2 l2 Ht Hl]; subst; apart; tokens.
    - exists []. split; [constructor|reflexivity].
    - exists []. split; [apply ending_oneway; assumption|reflexivity].
    - destruct (separated_moves _ _ _ _ _ _ name_moves Hl ltac:(eassumption)) as (l' & Hl' & E). exists l'. split; [apply ending_throws; assumption|].
      clear - E. induction E as [|a b l l' Ha E IH]; cbn; congruence.
  Qed.
  Lemma message_moves : moves (message_rule s file) (message_rule s' file') (same_as (canon_message fm)).
  Proof.
    intros ts m ts' [ps a ts2 t x l params ps' r e oneway errors sc i p Hp Ht Hx Hl Hps Hr He Hs Hi Ho] F. apart. tokens. annotations Hp.
    destruct (result_moves _ _ _ Ht ltac:(eassumption)) as (t' & Ht' & Et).
    destruct (listed_moves _ _ _ _ _ _ parameter_moves Hps ltac:(eassumption)) as (l' & Hl' & El).
    destruct (ending_moves _ _ _ _ He ltac:(eassumption)) as (er' & He' & Ee).
    match goal with F1 : Forall2 alike ps ?p', F2 : Forall2 alike ts2 ?q |- _ => assert (starts_at (p' ++ q) i) by (apply (starts_alike _ _ _ Hi), Forall2_app; assumption);
      assert (O : exists pl, opens file' (p' ++ q) pl) by (apply (opens_alike _ _ _ Ho), Forall2_app; assumption); destruct O as (pl & O) end.
    eexists. split; [apply message_of; eassumption|]. intro Hs'. unfold canon_message. cbn.
    rewrite (Et Hs'), (same_map _ _ _ El Hs'), Ee, Ea. text x. reflexivity.
  Qed.

  Lemma item_moves m : moves (item_rule s file m) (item_rule s' file' m) (same_as (canon_item fm)).
  Proof.
    intros ts d ts' [i k kind x sc Hi Hk Hx Hs|ts2 d2 p H Ho|ts2 m2 Hm H] F.
    - apart. tokens. match goal with A : alike k _ |- _ => destruct A as (E & _) end. rewrite E in Hk. eexists. split; [apply item_import; eassumption|]. intros _.
      cbn. text x. reflexivity.
    - destruct (named_moves _ _ _ H F) as (d' & Hd & E). destruct (opens_alike _ _ _ Ho F) as (p' & Ho'). eexists. split; [apply item_named; [exact Hd|exact Ho']|]. intro Hs. cbn. rewrite (E Hs). reflexivity.
    - destruct (message_moves _ _ _ H F) as (d' & Hd & E). eexists. split; [apply item_message; eassumption|]. intro Hs. cbn. rewrite (E Hs). reflexivity.
  Qed.
  Lemma namespace_moves : moves namespace_rule namespace_rule (fun a b => option_map (form_name fm) a = option_map (form_name fm) b).
  Proof.
    intros ts f ts' [|e x sc He Hx Hs] F; apart; tokens.
    - eexists. split; [constructor|reflexivity].
    - eexists. split; [apply namespace_of; assumption|]. cbn. text x. reflexivity.
  Qed.
  Lemma main_moves : moves (main_rule s file) (main_rule s' file') (same_as (option_map (canon_full fm))).
  Proof.
    intros ts f ts' [|k ts2 t sc Hk Ht Hs] F; apart; tokens.
    - eexists. split; [constructor|intros _; reflexivity].
    - destruct (full_moves _ _ _ Ht ltac:(eassumption)) as (t' & Ht' & E). eexists. split; [apply main_of; eassumption|]. intro Hs'. cbn. rewrite (E Hs'). reflexivity.
  Qed.
  Lemma at_end_alike r r' : at_end r -> Forall2 alike r r' -> at_end r'.
  Proof. intros [->|(x & r2 & -> & Hx)] F; apart; tokens; [left; reflexivity|right; eauto]. Qed.

  Theorem file_moves : moves (file_rule s file) (file_rule s' file') (same_as (canon_tree fm)).
  Proof.
    intros ts t ts' [ps a p x b ts2 l r rest i Hp Hpr Hx Hb Hl Hr He Hi|ns_ts ns main_ts main ts2 l rest Hn Hm Hl He] F.
    - apart. tokens. match goal with A : alike p ?y', F : Forall2 alike ps ?q |- _ => pose proof (starts_more_alike _ _ _ _ _ Hi F A) end. annotations Hp.
      destruct (repeated_moves _ _ _ _ _ _ (item_moves true) Hl ltac:(eassumption)) as (l' & Hl' & E).
      eexists. split; [apply file_protocol; try eassumption; eapply at_end_alike; eassumption|]. intro Hs. cbn. rewrite (same_map _ _ _ E Hs), Ea.
      text x. reflexivity.
    - apart. destruct (namespace_moves _ _ _ Hn ltac:(eassumption)) as (n' & Hn' & En). destruct (main_moves _ _ _ Hm ltac:(eassumption)) as (m' & Hm' & Em).
      destruct (repeated_moves _ _ _ _ _ _ (item_moves false) Hl ltac:(eassumption)) as (l' & Hl' & E).
      eexists. split; [apply file_schema; try eassumption; eapply at_end_alike; eassumption|]. intro Hs. cbn. rewrite (same_map _ _ _ E Hs), (Em Hs), En. reflexivity.
  Qed.
End Files.
End Forms.

Lemma kin_refl c ts : Forall2 (kin c) ts ts.
Proof. induction ts; constructor; [repeat split|assumption]. Qed.
(** The ambiguous grammar accepts the same files *)
Theorem file_rule_either s s' file ts : (exists t, file_rule s file ts t) <-> exists t, file_rule s' file ts t.
Proof.
  split; intros [t H].
  - destruct (file_moves as_written s s' file file _ _ _ H (kin_refl _ ts)) as (t' & Ht' & _). eauto.
  - destruct (file_moves as_written s' s file file _ _ _ H (kin_refl _ ts)) as (t' & Ht' & _). eauto.
Qed.

(** ** Words as they are written *)
Lemma written_json t : canon_json as_written t = forget_json t.
Proof.
  induction t as [| | |raw|raw|raw|l IH|o IH] using json_tree_ind'; try reflexivity; cbn; f_equal.
  - induction IH as [|x l E _ IH]; cbn; [reflexivity|]. now rewrite E, IH.
  - induction IH as [|x l E _ IH]; cbn; [reflexivity|]. cbn in E. now rewrite E, IH.
Qed.
Lemma written_annotations l : map (canon_annotation as_written) l = map forget_annotation l.
Proof. apply map_ext. intro a. unfold canon_annotation, forget_annotation. now rewrite written_json. Qed.
Fixpoint written_full t : canon_full as_written t = forget_full t
with written_plain t : canon_plain as_written t = forget_plain t.
Proof.
  - destruct t as [p a t]. cbn. now rewrite written_annotations, written_plain.
  - destruct t as [t|t|l|b q]; cbn; f_equal; try apply written_full. induction l as [|x l IH]; cbn; [reflexivity|]. now rewrite written_full, IH.
Qed.
Lemma written_variable v : canon_variable as_written v = forget_variable v.
Proof. unfold canon_variable, forget_variable. rewrite written_annotations. destruct (v_default v); cbn; [now rewrite written_json|reflexivity]. Qed.
Lemma written_field f : canon_field as_written f = forget_field f.
Proof. unfold canon_field, forget_field. rewrite written_full. f_equal. apply map_ext, written_variable. Qed.
Lemma written_named d : canon_named as_written d = forget_named d.
Proof.
  destruct d as [r|e|x]; cbn; rewrite written_annotations; try reflexivity. do 2 f_equal. apply map_ext, written_field.
Qed.
Lemma written_message m : canon_message as_written m = forget_message m.
Proof.
  unfold canon_message, forget_message. rewrite written_annotations. f_equal; [destruct (md_result m); cbn; [now rewrite written_plain|reflexivity]|].
  apply map_ext. intro p. unfold canon_parameter, forget_parameter. now rewrite written_full, written_variable.
Qed.
Lemma written_items l : map (canon_item as_written) l = map forget_item l.
Proof. apply map_ext. intros [k p sp|d sp|m]; cbn; [reflexivity|now rewrite written_named|now rewrite written_message]. Qed.
Lemma written_tree t : canon_tree as_written t = forget_tree t.
Proof.
  destruct t as [i a x l|ns main l]; cbn; rewrite written_items; [now rewrite written_annotations|].
  f_equal; [destruct ns; reflexivity|]. destruct main; cbn; [now rewrite written_full|reflexivity].
Qed.
