(** Whatever follows the grammar the parser reads, and in one way. *)
From Verif Require Import SpecGrammar IdlParser GrammarSound.
From Coq Require Import Lia.

Lemma p_token_hit k x r : of_type k x -> p_token k (x :: r) = Some (x, r).
Proof. intro H. cbn. rewrite H, same_type_refl. reflexivity. Qed.
Lemma p_identifier_hit x r : a_name x -> p_identifier (x :: r) = Some (x, r).
Proof. intro H. cbn. rewrite (proj2 (identifier_name_type _) H). reflexivity. Qed.
Lemma ahead_hit k l x r : of_type k x -> ahead (k :: l) (x :: r) = ahead l r.
Proof. intro H. cbn. rewrite H, same_type_refl. reflexivity. Qed.
Lemma ahead_miss k l x r : lx_type x <> k -> ahead (k :: l) (x :: r) = false.
Proof. intro H. cbn. rewrite (proj2 (same_type_neq _ _) H). reflexivity. Qed.
Lemma ahead_other k k' l x r : of_type k' x -> same_type k' k = false -> ahead (k :: l) (x :: r) = false.
Proof. intros H E. apply ahead_miss. rewrite H. apply same_type_neq, E. Qed.

Ltac look := repeat match goal with
  | H : of_type ?k' ?x |- context [ahead (?k :: ?l) (?x :: ?r)] =>
      first [rewrite (ahead_other k k' l x r H eq_refl) | rewrite (ahead_hit k l x r H)]
  | |- context [ahead [] ?r] => change (ahead [] r) with true
  end; cbn [andb negb].

(** The next token, if any, is none of these *)
Definition next_not (l : list token_type) (ts : lexemes) : Prop := forall x r, ts = x :: r -> ~ In (lx_type x) l.
Lemma next_not_ahead l k m ts : next_not l ts -> In k l -> ahead (k :: m) ts = false.
Proof. intros H Hk. destruct ts as [|x r]; [reflexivity|]. apply ahead_miss. intros <-. exact (H x r eq_refl Hk). Qed.
Lemma next_not_incl l m ts : next_not l ts -> incl m l -> next_not m ts.
Proof. intros H Hi x r -> Hx. exact (H x r eq_refl (Hi _ Hx)). Qed.
Lemma next_not_type k x l r : of_type k x -> existsb (same_type k) l = false -> next_not l (x :: r).
Proof.
  intros H E y r' Hy Hi. injection Hy as <- <-. rewrite H in Hi. assert (existsb (same_type k) l = true); [|congruence].
  apply existsb_exists. exists k. split; [exact Hi|apply same_type_refl].
Qed.

Ltac other H := eapply (next_not_type _ _ _ _ H); reflexivity.
Ltac miss H := eapply (ahead_other _ _ _ _ _ H); reflexivity.

(** Declarations, types and their parts start with an annotation or a word *)
Definition name_start (k : token_type) : bool := identifier_type k || same_type k T_At.
Definition begins (ts : list lexeme) : Prop := exists x r, ts = x :: r /\ name_start (lx_type x) = true.
Lemma begins_not bad ts rest : begins ts -> forallb (fun k => negb (name_start k)) bad = true -> next_not bad (ts ++ rest).
Proof.
  intros (x & r & -> & Hx) Hb y r' E Hy. injection E as <- <-. rewrite forallb_forall in Hb. specialize (Hb _ Hy). rewrite Hx in Hb. discriminate.
Qed.
Ltac from H := eapply (begins_not _ _ _ H); reflexivity.
Lemma begins_app ts ts' : begins ts -> begins (ts ++ ts').
Proof. intros (x & r & -> & Hx). exists x, (r ++ ts'). auto. Qed.
Lemma begins_name x r : a_name x -> begins (x :: r).
Proof. intro H. exists x, r. split; [reflexivity|]. unfold name_start. rewrite (proj2 (identifier_name_type _) H). reflexivity. Qed.
Lemma begins_type k x r : of_type k x -> name_start k = true -> begins (x :: r).
Proof. intros H E. exists x, r. split; [reflexivity|]. rewrite H. exact E. Qed.
Lemma begins_length ts : begins ts -> 0 < length ts.
Proof. intros (x & r & -> & _). cbn. lia. Qed.
Lemma name_not x bad r : a_name x -> forallb (fun k => negb (name_start k)) bad = true -> next_not bad (x :: r).
Proof. intros H E. exact (begins_not bad [x] r (begins_name x [] H) E). Qed.
Lemma name_not_at x m r : a_name x -> ahead (T_At :: m) (x :: r) = false.
Proof. intro H. apply ahead_miss. intro E. apply identifier_name_type in H. rewrite E in H. discriminate. Qed.
Section WithSource.
  Context (file : string).
  Notation json_value := (json_value file). Notation property := (property file).
Lemma begins_props ps a ts : repeated property ps a -> begins ts -> begins (ps ++ ts).
Proof. intros Hp H. destruct Hp as [|? ? ? ? [] ?]; [exact H|]. eapply begins_type; [eassumption|reflexivity]. Qed.
Lemma begins_separated {A} (P : list lexeme -> A -> Prop) ts l : (forall ts a, P ts a -> begins ts) -> separated P ts l -> begins ts.
Proof. intros H [? ? Hp|? ? ? ? ? Hp _ _]; [exact (H _ _ Hp)|apply begins_app; exact (H _ _ Hp)]. Qed.

(** What follows the grammar is read, if what comes after it is [ok] *)
Definition complete {A} (ok : lexemes -> Prop) (p : lexemes -> option (A * lexemes)) (P : list lexeme -> A -> Prop) (n : nat) : Prop :=
  forall ts a rest, P ts a -> ok rest -> length ts < n -> p (ts ++ rest) = Some (a, rest).

Lemma p_list_complete {A} ok (p : lexemes -> option (A * lexemes)) P m :
  complete ok p P m -> (forall c r, of_type T_Comma c -> ok (c :: r)) ->
  forall n ts l rest, separated P ts l -> ok rest -> next_not [T_Comma] rest -> length ts < m -> length ts < n ->
  p_list p n (ts ++ rest) = Some (l, rest).
Proof.
  intros Hp Hc. induction n as [|n IH]; intros ts l rest H Hr Hn Hm Hl; [lia|]. cbn [p_list].
  destruct H as [ts a Ha|ts a c ts' l Ha Hcc H].
  - rewrite (Hp _ _ _ Ha Hr Hm). rewrite (next_not_ahead _ _ _ _ Hn (or_introl eq_refl)). reflexivity.
  - rewrite app_length in Hm, Hl. cbn [length] in Hm, Hl. rewrite <- app_assoc. cbn [app].
    rewrite (Hp _ _ _ Ha (Hc _ _ Hcc)) by lia. rewrite (ahead_hit _ _ _ _ Hcc). look. rewrite (p_token_hit _ _ _ Hcc).
    rewrite (IH _ _ _ H Hr Hn) by lia. reflexivity.
Qed.
Lemma p_loop_complete {A} ok more (p : lexemes -> option (A * lexemes)) P m :
  complete ok p P m -> (forall ts a r, P ts a -> ok (ts ++ r) /\ more (ts ++ r) = true /\ 0 < length ts) ->
  forall n ts l rest, repeated P ts l -> ok rest -> more rest = false -> length ts < m -> length ts < n ->
  p_loop more p n (ts ++ rest) = Some (l, rest).
Proof.
  intros Hp Hs. induction n as [|n IH]; intros ts l rest H Hr Hn Hm Hl; [lia|]. cbn [p_loop].
  destruct H as [|ts a ts' l Ha H].
  - cbn [app]. rewrite Hn. reflexivity.
  - rewrite app_length in Hm, Hl. rewrite <- app_assoc. destruct (Hs ts a (ts' ++ rest) Ha) as (_ & -> & Hpos).
    rewrite (Hp _ _ _ Ha); [|destruct H as [|ts2 a2 ts3 l3 Ha2 H]; [exact Hr|rewrite <- app_assoc; apply (Hs ts2 a2 _ Ha2)]|lia].
    rewrite (IH _ _ _ H Hr Hn) by lia. reflexivity.
Qed.

(** ** JSON *)
Definition anything (ts : lexemes) : Prop := True.

Lemma json_first ts v : json_value ts v -> exists x r, ts = x :: r /\ existsb (same_type (lx_type x))
  [T_StringLiteral; T_IntegerLiteral; T_FloatingPointLiteral; T_BTrue; T_BFalse; T_Null; T_LBracket; T_LBrace] = true.
Proof. intros []; unfold of_type in *; (do 2 eexists; split; [reflexivity|]); match goal with H : lx_type ?x = _ |- context [lx_type ?x] => rewrite H end; reflexivity. Qed.
Lemma json_not ts v bad rest : json_value ts v ->
  forallb (fun k => negb (existsb (same_type k) [T_StringLiteral; T_IntegerLiteral; T_FloatingPointLiteral; T_BTrue; T_BFalse; T_Null; T_LBracket; T_LBrace])) bad = true ->
  next_not bad (ts ++ rest).
Proof.
  intros H Hb y r' E Hy. destruct (json_first _ _ H) as (x & r & -> & Hx). injection E as <- <-. rewrite forallb_forall in Hb. specialize (Hb _ Hy). rewrite Hx in Hb. discriminate.
Qed.

Lemma p_json_pair_complete p n : complete anything p json_value n -> complete anything (p_json_pair p) (json_pair json_value) n.
Proof.
  intros Hp ts a rest [k c ts' v Hk Hc Hv] _ Hl. cbn [length] in Hl. unfold p_json_pair. cbn [app]. rewrite (p_token_hit _ _ _ Hk), (p_token_hit _ _ _ Hc), (Hp _ _ _ Hv I) by lia. reflexivity.
Qed.
Lemma p_json_complete n : complete anything (p_json file n) json_value n.
Proof.
  induction n as [|n IH]; intros ts v rest H _ Hl; [lia|]. cbn [p_json].
  destruct H as [x Hx|x Hx|x Hx|x Hx|x Hx|x Hx|x ts l y Hx H Hy|x ts l y Hx H Hy];
    cbn [app]; look; try (cbn [p_json_literal]; rewrite Hx; reflexivity).
  - rewrite (p_token_hit _ _ _ Hx). rewrite <- app_assoc. cbn [app]. destruct H as [|ts l H].
    + cbn [app]. rewrite (ahead_hit _ _ _ _ Hy). look. rewrite (p_token_hit _ _ _ Hy). reflexivity.
    + assert (N : next_not [T_RBracket] (ts ++ y :: rest)).
      { destruct H as [ts a Ha|ts a c ts' l Ha Hc H]; [|rewrite <- app_assoc]; eapply json_not; try eassumption; reflexivity. }
      rewrite (next_not_ahead _ _ _ _ N (or_introl eq_refl)). cbn [length] in Hl. rewrite app_length in Hl.
      rewrite (p_list_complete _ _ _ _ IH (fun _ _ _ => I) n ts l (y :: rest) H I ltac:(other Hy)) by lia.
      rewrite (p_token_hit _ _ _ Hy). reflexivity.
  - rewrite (p_token_hit _ _ _ Hx). rewrite <- app_assoc. cbn [app]. destruct H as [|ts l H].
    + cbn [app]. rewrite (ahead_hit _ _ _ _ Hy). look. rewrite (p_token_hit _ _ _ Hy). reflexivity.
    + assert (N : next_not [T_RBrace] (ts ++ y :: rest)).
      { destruct H as [ts a [k c ts' v Hk Hc Hv]|ts a c ts' l [k c' ts2 v Hk Hc' Hv] Hc H]; cbn [app]; other Hk. }
      rewrite (next_not_ahead _ _ _ _ N (or_introl eq_refl)). cbn [length] in Hl. rewrite app_length in Hl.
      rewrite (p_list_complete _ _ _ _ (p_json_pair_complete _ _ IH) (fun _ _ _ => I) n ts l (y :: rest) H I ltac:(other Hy)) by lia.
      rewrite (p_token_hit _ _ _ Hy). reflexivity.
Qed.

Lemma p_property_complete n : complete anything (p_property file n) property n.
Proof.
  intros ts a rest [a' x l ts' v r Ha Hx Hl Hv Hr] _ Hlen. cbn [length] in Hlen. rewrite app_length in Hlen. unfold p_property. cbn [app]. rewrite <- app_assoc. cbn [app].
  rewrite (p_token_hit _ _ _ Ha), (p_identifier_hit _ _ Hx), (p_token_hit _ _ _ Hl), (p_json_complete n _ _ _ Hv I), (p_token_hit _ _ _ Hr) by lia. reflexivity.
Qed.
Lemma p_properties_complete n : complete (fun r => ahead [T_At] r = false) (p_properties file n) (repeated property) n.
Proof.
  intros ts l rest H Hr Hl. unfold p_properties. apply (p_loop_complete anything _ _ _ n (p_property_complete n)); try assumption; [|exact I].
  intros ts' a' r' [a x l' ts2 v r Ha Hx Hl' Hv Hr']. split; [exact I|]. split; [|cbn; lia]. cbn [app]. exact (ahead_hit _ _ _ _ Ha).
Qed.

Lemma starts_at_index ps x i r : starts_at (ps ++ [x]) i -> first_index (ps ++ x :: r) = i.
Proof. intros (y & r' & E & <-). destruct ps; injection E as <- _; reflexivity. Qed.
Lemma starts_at_first ts i r : starts_at ts i -> first_index (ts ++ r) = i.
Proof. intros (y & r' & -> & <-). reflexivity. Qed.

  Notation base := (base true file). Notation plain := (plain true file). Notation full := (full true file).

  (** ** Types *)
  Definition after_base (ts : lexemes) : Prop := next_not [T_LT; T_LParen; T_LBrace] ts.
  Definition after_type (ts : lexemes) : Prop := next_not [T_LT; T_LParen; T_LBrace; T_QuestionMark] ts.

  Lemma p_base_complete ts b rest : base ts b -> after_base rest ->
    p_base file (ts ++ rest) = Some (b, rest) /\ ahead [T_Array; T_LT] (ts ++ rest) = false /\ ahead [T_Map; T_LT] (ts ++ rest) = false /\ ahead [T_Union; T_LBrace] (ts ++ rest) = false.
  Proof.
    intros H Hr. destruct H as [x k Hk|d l p r Hd Hl Hp Hx|d l p c s r Hd Hl Hp Hc Hs Hx|x Hx Hn].
    - cbn [app]. unfold p_base. pose proof (proj2 (plain_keyword_spec _ _) Hk) as E. rewrite E. split; [reflexivity|].
      repeat split; apply ahead_miss; intro X; rewrite X in E; discriminate.
    - cbn [app]. look. repeat split. unfold p_base.
      replace (plain_keyword (lx_type d)) with (@None prim_keyword) by (rewrite Hd; reflexivity). rewrite (ahead_hit _ _ _ _ Hd), (ahead_hit _ _ _ _ Hl). cbn [ahead]. unfold p_decimal.
      rewrite (p_token_hit _ _ _ Hd), (p_token_hit _ _ _ Hl), (p_token_hit _ _ _ Hp). look. rewrite (p_token_hit _ _ _ Hx). reflexivity.
    - cbn [app]. look. repeat split. unfold p_base.
      replace (plain_keyword (lx_type d)) with (@None prim_keyword) by (rewrite Hd; reflexivity). rewrite (ahead_hit _ _ _ _ Hd), (ahead_hit _ _ _ _ Hl). cbn [ahead]. unfold p_decimal.
      rewrite (p_token_hit _ _ _ Hd), (p_token_hit _ _ _ Hl), (p_token_hit _ _ _ Hp), (ahead_hit _ _ _ _ Hc). look. rewrite (p_token_hit _ _ _ Hc), (p_token_hit _ _ _ Hs), (p_token_hit _ _ _ Hx). reflexivity.
    - cbn [app]. assert (A : forall k k', In k' [T_LT; T_LParen; T_LBrace] -> ahead [k; k'] (x :: rest) = false).
      { intros k k' Hk. cbn [ahead]. change (same_type (lx_type x) k && ahead [k'] rest = false). rewrite (next_not_ahead _ _ _ _ Hr Hk). apply andb_false_r. }
      unfold p_base. rewrite (proj2 (plain_keyword_none _) (Hn eq_refl)). rewrite (A T_Decimal T_LParen) by (cbn; tauto). rewrite (p_identifier_hit _ _ Hx).
      split; [reflexivity|]. repeat split; apply A; cbn; tauto.
  Qed.

  Lemma begins_base ts b : base ts b -> begins ts.
  Proof.
    intros [x k Hk|d l p r Hd _ _ _|d l p c s r Hd _ _ _ _ _|x Hx _].
    - exists x, []. split; [reflexivity|]. apply plain_keyword_spec in Hk. destruct (lx_type x); try discriminate Hk; reflexivity.
    - exact (begins_type _ _ _ Hd eq_refl).
    - exact (begins_type _ _ _ Hd eq_refl).
    - exact (begins_name _ _ Hx).
  Qed.
  Lemma begins_plain ts t : plain ts t -> begins ts.
  Proof.
    intros [a l ? ? g Ha _ _ _|a l ? ? g Ha _ _ _|a l ? ? g Ha _ _ _|? ? Hb|? ? ? Hb _]; try exact (begins_type _ _ _ Ha eq_refl).
    - exact (begins_base _ _ Hb).
    - apply begins_app. exact (begins_base _ _ Hb).
  Qed.
  Lemma begins_full ts t : full ts t -> begins ts.
  Proof. intros [ps a ts' t' p Hp H _]. exact (begins_props _ _ _ Hp (begins_plain _ _ H)). Qed.

  (** The token before a type is never an annotation's sign once the annotations are read *)
  Lemma plain_no_at ts t rest : plain ts t -> ahead [T_At] (ts ++ rest) = false.
  Proof.
    assert (B : forall ts b rest, base ts b -> ahead [T_At] (ts ++ rest) = false).
    { intros ts' b rest' [x k Hk|d l p r Hd _ _ _|d l p c s r Hd _ _ _ _ _|x Hx _]; cbn [app].
      - apply ahead_miss. intro E. apply plain_keyword_spec in Hk. rewrite E in Hk. discriminate.
      - miss Hd.
      - miss Hd.
      - exact (name_not_at _ _ _ Hx). }
    intros [a l ? ? g Ha _ _ _|a l ? ? g Ha _ _ _|a l ? ? g Ha _ _ _|? ? Hb|? ? ? Hb _]; cbn [app]; try miss Ha.
    - exact (B _ _ _ Hb).
    - rewrite <- app_assoc. exact (B _ _ _ Hb).
  Qed.

  Lemma p_plain_with_complete p n : complete after_type p full n -> complete after_type (p_plain_with file p n) plain (S n).
  Proof.
    intros Hp ts t rest H Hr Hl. destruct H as [a l ts t g Ha Hlt Ht Hg|a l ts t g Ha Hlt Ht Hg|a l ts t g Ha Hlt Ht Hg|ts b Hb|ts b q Hb Hq]; unfold p_plain_with.
    - cbn [length] in Hl. rewrite app_length in Hl. cbn [app]. rewrite <- app_assoc. cbn [app].
      rewrite (ahead_hit _ _ _ _ Ha), (ahead_hit _ _ _ _ Hlt). look. rewrite (p_token_hit _ _ _ Ha), (p_token_hit _ _ _ Hlt).
      rewrite (Hp _ _ _ Ht ltac:(other Hg)) by lia. rewrite (p_token_hit _ _ _ Hg). reflexivity.
    - cbn [length] in Hl. rewrite app_length in Hl. cbn [app]. rewrite <- app_assoc. cbn [app].
      rewrite (ahead_other T_Array _ _ _ _ Ha eq_refl). rewrite (ahead_hit _ _ _ _ Ha), (ahead_hit _ _ _ _ Hlt). look. rewrite (p_token_hit _ _ _ Ha), (p_token_hit _ _ _ Hlt).
      rewrite (Hp _ _ _ Ht ltac:(other Hg)) by lia. rewrite (p_token_hit _ _ _ Hg). reflexivity.
    - cbn [length] in Hl. rewrite app_length in Hl. cbn [app]. rewrite <- app_assoc. cbn [app].
      rewrite (ahead_other T_Array _ _ _ _ Ha eq_refl). rewrite (ahead_other T_Map _ _ _ _ Ha eq_refl). rewrite (ahead_hit _ _ _ _ Ha), (ahead_hit _ _ _ _ Hlt). look. rewrite (p_token_hit _ _ _ Ha), (p_token_hit _ _ _ Hlt).
      rewrite (p_list_complete after_type p full n Hp ltac:(let c := fresh in let r := fresh in let Hc := fresh in intros c r Hc; other Hc) n ts t (g :: rest) Ht ltac:(other Hg) ltac:(other Hg)) by lia.
      rewrite (p_token_hit _ _ _ Hg). reflexivity.
    - assert (A : after_base rest) by (apply (next_not_incl _ _ _ Hr); intros k Hk; cbn in *; tauto).
      destruct (p_base_complete _ _ _ Hb A) as (Eb & -> & -> & ->). unfold p_nullable. rewrite Eb.
      rewrite (next_not_ahead _ _ _ _ Hr) by (cbn; tauto). reflexivity.
    - rewrite <- app_assoc. cbn [app]. destruct (p_base_complete _ _ (q :: rest) Hb ltac:(other Hq)) as (Eb & -> & -> & ->). unfold p_nullable. rewrite Eb.
      rewrite (ahead_hit _ _ _ _ Hq). look. rewrite (p_token_hit _ _ _ Hq). reflexivity.
  Qed.
  Lemma opens_place ts p rest : opens file ts p -> first_place file (ts ++ rest) = p.
  Proof. intros (x & r & -> & ->). reflexivity. Qed.
  Lemma opens_place_more ps x p rest : opens file (ps ++ [x]) p -> first_place file (ps ++ x :: rest) = p.
  Proof. intro H. replace (ps ++ x :: rest) with ((ps ++ [x]) ++ rest) by (rewrite <- app_assoc; reflexivity). exact (opens_place _ _ _ H). Qed.
  Lemma p_full_complete n : complete after_type (p_full file n) full n.
  Proof.
    induction n as [|n IH]; intros ts t rest H Hr Hl; [lia|]. cbn [p_full]. destruct H as [ps a ts t p Hps Ht Ho].
    apply (opens_place _ _ rest) in Ho. rewrite app_length in Hl. pose proof (begins_length _ (begins_plain _ _ Ht)). rewrite <- app_assoc in Ho |- *.
    rewrite (p_properties_complete n _ _ _ Hps (plain_no_at _ _ _ Ht)) by lia.
    rewrite (p_plain_with_complete _ _ IH _ _ _ Ht Hr), Ho by lia. reflexivity.
  Qed.
  Lemma p_plain_complete n : complete after_type (p_plain file n) plain n.
  Proof. intros ts t rest H Hr Hl. apply (p_plain_with_complete _ _ (p_full_complete n)); try assumption. lia. Qed.

  (** ** Fields and parameters *)
  Lemma begins_variable ts v : variable_rule file ts v -> begins ts.
  Proof. intros [ps a x i p Hp Hx _ _|ps a x e ts' v' i p Hp Hx _ _ _ _]; apply (begins_props _ _ _ Hp), begins_name, Hx. Qed.
  Lemma p_variable_complete n : complete (next_not [T_Equals]) (p_variable file n) (variable_rule file) n.
  Proof.
    intros ts v rest H Hr Hl. unfold p_variable. destruct H as [ps a x i p Hp Hx Hi Ho|ps a x e ts v i p Hp Hx He Hv Hi Ho]; rewrite app_length in Hl; cbn [length] in Hl; rewrite <- app_assoc; cbn [app];
      rewrite (p_properties_complete n _ _ _ Hp (name_not_at _ _ _ Hx)) by lia; rewrite (p_identifier_hit _ _ Hx), (starts_at_index _ _ _ _ Hi).
    - rewrite (next_not_ahead _ _ _ _ Hr (or_introl eq_refl)), (opens_place_more _ _ _ _ Ho). reflexivity.
    - rewrite (ahead_hit _ _ _ _ He). look. rewrite (p_token_hit _ _ _ He), (p_json_complete n _ _ _ Hv I), (opens_place _ _ _ Ho) by lia. reflexivity.
  Qed.
  Lemma begins_field ts f : field_rule true file ts f -> begins ts.
  Proof. intros [ts' t vs l s i Ht _ _ _]. apply begins_app. exact (begins_full _ _ Ht). Qed.
  Lemma p_field_complete n : complete anything (p_field file n) (field_rule true file) n.
  Proof.
    intros ts f rest [ts' t vs l s i Ht Hvs Hs Hi] _ Hlen. rewrite !app_length in Hlen. cbn [length] in Hlen. rewrite <- !app_assoc. cbn [app]. unfold p_field.
    rewrite (p_full_complete n _ _ _ Ht ltac:(from (begins_separated _ _ _ begins_variable Hvs))) by lia.
    rewrite (p_list_complete _ _ _ _ (p_variable_complete n) ltac:(let c := fresh in let r := fresh in let Hc := fresh in intros c r Hc; other Hc) n vs l (s :: rest) Hvs ltac:(other Hs) ltac:(other Hs)) by lia.
    rewrite (p_token_hit _ _ _ Hs), (starts_at_first _ _ _ Hi). reflexivity.
  Qed.
  Lemma begins_parameter ts f : parameter_rule true file ts f -> begins ts.
  Proof. intros [ts' t vs l i Ht _ _]. apply begins_app. exact (begins_full _ _ Ht). Qed.
  Lemma p_parameter_complete n : complete (next_not [T_Equals]) (p_parameter file n) (parameter_rule true file) n.
  Proof.
    intros ts f rest [ts' t vs l i Ht Hvs Hi] Hr Hlen. rewrite !app_length in Hlen. rewrite <- !app_assoc. unfold p_parameter.
    rewrite (p_full_complete n _ _ _ Ht ltac:(from (begins_variable _ _ Hvs))) by lia.
    rewrite (p_variable_complete n _ _ _ Hvs Hr), (starts_at_first _ _ _ Hi) by lia. reflexivity.
  Qed.

  (** ** Named types *)
  Lemma begins_symbol ts v : (symbol_rule file) ts v -> begins ts.
  Proof. intros [ps a x p Hp Hx _]. apply (begins_props _ _ _ Hp), begins_name, Hx. Qed.
  Lemma p_symbol_complete n : complete anything (p_symbol file n) (symbol_rule file) n.
  Proof.
    intros ts v rest [ps a x p Hp Hx Ho] _ Hl. rewrite app_length in Hl. rewrite <- app_assoc. unfold p_symbol. cbn [app].
    rewrite (p_properties_complete n _ _ _ Hp (name_not_at _ _ _ Hx)), (p_identifier_hit _ _ Hx), (opens_place_more _ _ _ _ Ho) by lia. reflexivity.
  Qed.
  Lemma p_enum_default_complete ts d rest : enum_default_rule file ts d -> next_not [T_Equals] rest -> p_enum_default file (ts ++ rest) = Some (d, rest).
  Proof.
    intros [|e x s He Hx Hs] Hr; unfold p_enum_default; cbn [app].
    - rewrite (next_not_ahead _ _ _ _ Hr (or_introl eq_refl)). reflexivity.
    - rewrite (ahead_hit _ _ _ _ He). look. rewrite (p_token_hit _ _ _ He), (p_identifier_hit _ _ Hx), (p_token_hit _ _ _ Hs). reflexivity.
  Qed.

  (** A list between brackets *)
  Lemma p_listed_complete {A} ok (p : lexemes -> option (A * lexemes)) P k n ts l c rest :
    complete ok p P n -> (forall ts a, P ts a -> begins ts) -> name_start k = false -> (forall c r, of_type T_Comma c -> ok (c :: r)) ->
    same_type k T_Comma = false ->
    of_type k c -> ok (c :: rest) -> listed P ts l -> length ts < n ->
    (if ahead [k] (ts ++ c :: rest) then @Some (list A * lexemes) ([], ts ++ c :: rest) else p_list p n (ts ++ c :: rest)) = Some (l, c :: rest).
  Proof.
    intros Hp Hb Hk Hc Hkc Hx Hr H Hl. destruct H as [|ts l H].
    - cbn [app]. rewrite (ahead_hit _ _ _ _ Hx). reflexivity.
    - assert (N : next_not [k] (ts ++ c :: rest)) by (apply begins_not; [exact (begins_separated _ _ _ Hb H)|cbn; rewrite Hk; reflexivity]).
      rewrite (next_not_ahead _ _ _ _ N (or_introl eq_refl)).
      apply (p_list_complete ok p P n Hp Hc); try assumption. apply (next_not_type _ _ _ _ Hx). cbn. rewrite Hkc. reflexivity.
  Qed.

  Lemma begins_named ts d : named_rule true file ts d -> begins ts.
  Proof.
    intros [ps a f x l n r s i Hp Hf|ps a f x b ts' l r d' default i Hp Hf|ps a k x b ts' l r [|] i Hp Hf]; intros; apply (begins_props _ _ _ Hp); exact (begins_type _ _ _ Hf eq_refl).
  Qed.

  (** The named types, read by [p_item] *)
  Lemma import_ahead_other k x r : of_type k x -> same_type k T_Import = false -> import_ahead (x :: r) = false.
  Proof. intros H E. unfold import_ahead. rewrite (ahead_other _ _ _ _ _ H E). reflexivity. Qed.
  Lemma import_ahead_props ps a k x r : repeated property ps a -> of_type k x -> same_type k T_Import = false -> import_ahead (ps ++ x :: r) = false.
  Proof. intros Hp H E. destruct Hp as [|? ? ? ? [] ?]; cbn [app]; [exact (import_ahead_other _ _ _ H E)|]. eapply import_ahead_other; [eassumption|reflexivity]. Qed.
  Lemma identifier_ahead_hit x r : a_name x -> identifier_ahead (x :: r) = true.
  Proof. intro H. unfold identifier_ahead. rewrite (p_identifier_hit _ _ H). reflexivity. Qed.

  Lemma p_item_named m n ts d p rest : named_rule true file ts d -> opens file ts p -> next_not [T_Equals] rest -> length ts < n ->
    p_item file m n (ts ++ rest) = Some (ItNamed d p, rest).
  Proof.
    intros H Ho Hr Hlen. unfold p_item. rewrite (opens_place _ _ _ Ho). destruct H as [ps a f x l size r s i Hp Hf Hx Hl Hs Hc He Hi|ps a f x b ts l r d default i Hp Hf Hx Hb Hl Hc Hd Hi|ps a k x b ts l r error i Hp Hf Hx Hb Hl Hc Hi];
      rewrite !app_length in Hlen; cbn [length] in Hlen; rewrite <- app_assoc; cbn [app].
    - rewrite (import_ahead_props _ _ _ _ _ Hp Hf eq_refl).
      rewrite (p_properties_complete n _ _ _ Hp ltac:(miss Hf)) by lia.
      unfold fixed_ahead. rewrite (ahead_hit _ _ _ _ Hf). cbn [tl ahead]. rewrite (identifier_ahead_hit _ _ Hx). rewrite Hl, Hs. cbn [same_type token_type_dec]. rewrite !same_type_refl. cbn [andb].
      rewrite (starts_at_index _ _ _ _ Hi). unfold p_fixed.
      rewrite (p_token_hit _ _ _ Hf), (p_identifier_hit _ _ Hx), (p_token_hit _ _ _ Hl), (p_token_hit _ _ _ Hs), (p_token_hit _ _ _ Hc), (p_token_hit _ _ _ He). reflexivity.
    - rewrite (import_ahead_props _ _ _ _ _ Hp Hf eq_refl).
      rewrite (p_properties_complete n _ _ _ Hp ltac:(miss Hf)) by lia.
      unfold fixed_ahead. rewrite (ahead_other T_Fixed _ _ _ _ Hf eq_refl). cbn [andb].
      unfold enum_ahead. rewrite (ahead_hit _ _ _ _ Hf). cbn [tl]. rewrite (identifier_ahead_hit _ _ Hx), (ahead_hit _ _ _ _ Hb). look.
      rewrite (starts_at_index _ _ _ _ Hi). unfold p_enum. rewrite app_length in Hlen. cbn [length] in Hlen. rewrite <- app_assoc. cbn [app].
      rewrite (p_token_hit _ _ _ Hf), (p_identifier_hit _ _ Hx), (p_token_hit _ _ _ Hb).
      assert (El : length ts < n) by lia.
      apply (p_listed_complete anything (p_symbol file n) (symbol_rule file) T_RBrace n ts l r (d ++ rest) (p_symbol_complete n) begins_symbol eq_refl (fun _ _ _ => I) eq_refl Hc I Hl) in El.
      unfold lexemes in *. rewrite El.
      rewrite (p_token_hit _ _ _ Hc), (p_enum_default_complete _ _ _ Hd Hr). reflexivity.
    - assert (K : exists k', of_type k' k /\ same_type k' T_Import = false /\ same_type k' T_At = false /\ same_type k' T_Fixed = false /\ same_type k' T_Enum = false /\
                  same_type k' T_Record || same_type k' T_Error = true /\ same_type k' T_Error = error).
      { destruct error; [exists T_Error|exists T_Record]; repeat split; exact Hf. }
      destruct K as (k' & Hk & K1 & K2 & K3 & K4 & K5 & K6).
      rewrite (import_ahead_props _ _ _ _ _ Hp Hk K1).
      rewrite (p_properties_complete n _ _ _ Hp (ahead_other _ _ _ _ _ Hk K2)) by lia.
      unfold fixed_ahead. rewrite (ahead_other T_Fixed _ _ _ _ Hk K3). cbn [andb].
      unfold enum_ahead. rewrite (ahead_other T_Enum _ _ _ _ Hk K4). cbn [andb].
      unfold record_ahead. cbn [tl]. rewrite (identifier_ahead_hit _ _ Hx), (ahead_hit _ _ _ _ Hb). change (ahead [] (ts ++ r :: rest)) with true. cbn [ahead]. rewrite Hk, !andb_true_r, K5. cbn [andb].
      rewrite (starts_at_index _ _ _ _ Hi). unfold p_record. rewrite app_length in Hlen. cbn [length] in Hlen. cbn iota beta. rewrite !Hk, K5. cbn iota. rewrite K6. rewrite <- app_assoc. cbn [app].
      rewrite (p_identifier_hit _ _ Hx), (p_token_hit _ _ _ Hb).
      rewrite (p_loop_complete anything (fun r => negb (ahead [T_RBrace] r)) (p_field file n) (field_rule true file) n (p_field_complete n)) with (l := l); try assumption; try lia; try exact I.
      + rewrite (p_token_hit _ _ _ Hc). reflexivity.
      + intros ts' f' r' Hf'. split; [exact I|]. split; [|exact (begins_length _ (begins_field _ _ Hf'))].
        rewrite (next_not_ahead [T_RBrace] _ _ _ ltac:(from (begins_field _ _ Hf')) (or_introl eq_refl)). reflexivity.
      + rewrite (ahead_hit _ _ _ _ Hc). reflexivity.
  Qed.

  (** ** Messages *)

  (** The token after a result type's first is no word *)
  Lemma result_shape ts t : result_rule true file ts t -> exists y r, ts = y :: r /\ identifier_type (lx_type y) = true /\
    (r = [] \/ exists z r', r = z :: r' /\ existsb (same_type (lx_type z)) [T_LT; T_LBrace; T_LParen; T_QuestionMark] = true).
  Proof.
    assert (B : forall ts b, base ts b -> exists y r, ts = y :: r /\ identifier_type (lx_type y) = true /\ (r = [] \/ exists z r', r = z :: r' /\ of_type T_LParen z)).
    { intros ts' b [x k Hk|d l p r Hd Hl _ _|d l p c s r Hd Hl _ _ _ _|x Hx _].
      - exists x, []. repeat split; [|left; reflexivity]. apply plain_keyword_spec in Hk. destruct (lx_type x); try discriminate Hk; reflexivity.
      - exists d, [l; p; r]. repeat split; [rewrite Hd; reflexivity|]. right. eauto.
      - exists d, [l; p; c; s; r]. repeat split; [rewrite Hd; reflexivity|]. right. eauto.
      - exists x, []. repeat split; [|left; reflexivity]. apply identifier_name_type, Hx. }
    intros [v Hv|ts' t' H _].
    - exists v, []. repeat split; [rewrite Hv; reflexivity|left; reflexivity].
    - destruct H as [a l ts1 t1 g Ha Hl Ht Hg|a l ts1 t1 g Ha Hl Ht Hg|a l ts1 t1 g Ha Hl Ht Hg|ts1 b Hb|ts1 b q Hb Hq].
      1-3: exists a; eexists; (split; [reflexivity|]); (split; [rewrite Ha; reflexivity|]); right; do 2 eexists; (split; [reflexivity|]); rewrite Hl; reflexivity.
      + destruct (B _ _ Hb) as (y & r & -> & Hy & [->|(z & r' & -> & Hz)]); exists y; eexists; repeat split; try exact Hy; [left; reflexivity|]. right. do 2 eexists. split; [reflexivity|]. rewrite Hz. reflexivity.
      + destruct (B _ _ Hb) as (y & r & -> & Hy & [->|(z & r' & -> & Hz)]); exists y; eexists; repeat split; try exact Hy; right; do 2 eexists; (split; [reflexivity|]).
        * rewrite Hq. reflexivity.
        * rewrite Hz. reflexivity.
  Qed.

  Lemma p_result_complete n : complete (fun r => after_type r) (p_result file n) (result_rule true file) n.
  Proof.
    intros ts t rest H Hr Hl. unfold p_result. destruct H as [v Hv|ts t Ht Hs].
    - cbn [app]. change (ahead [T_Void; T_QuestionMark] (v :: rest)) with (same_type (lx_type v) T_Void && ahead [T_QuestionMark] rest).
      rewrite (next_not_ahead _ T_QuestionMark [] _ Hr) by (cbn; tauto). rewrite andb_false_r. rewrite (ahead_hit _ _ _ _ Hv). cbn [ahead negb andb]. rewrite (p_token_hit _ _ _ Hv). reflexivity.
    - assert (E : ahead [T_Void] (ts ++ rest) && negb (ahead [T_Void; T_QuestionMark] (ts ++ rest)) = false).
      { assert (B : forall ts b, base ts b -> forall x r, ts = x :: r -> of_type T_Void x -> r = []).
        { intros ts' b [x k Hk|d l p r Hd Hl' _ _|d l p c s r Hd Hl' _ _ _ _|x Hx _] y r' E Hy; injection E as <- <-; try reflexivity; unfold of_type in *; congruence. }
        destruct Ht as [a l ts1 t1 g Ha Hlt Ht Hg|a l ts1 t1 g Ha Hlt Ht Hg|a l ts1 t1 g Ha Hlt Ht Hg|ts1 b Hb|ts1 b q Hb Hq]; try (cbn [app]; rewrite (ahead_other T_Void _ _ _ _ Ha eq_refl); reflexivity).
        - destruct (begins_base _ _ Hb) as (x & r & -> & _). cbn [app]. destruct (token_type_dec (lx_type x) T_Void) as [E|E]; [|rewrite (ahead_miss _ _ _ _ E); reflexivity].
          rewrite (B _ _ Hb _ _ eq_refl E) in Hs. destruct (Hs eq_refl x eq_refl E).
        - destruct (begins_base _ _ Hb) as (x & r & -> & _). cbn [app]. destruct (token_type_dec (lx_type x) T_Void) as [E|E]; [|rewrite (ahead_miss _ _ _ _ E); reflexivity].
          rewrite (B _ _ Hb _ _ eq_refl E). cbn [app]. rewrite !(ahead_hit _ _ _ _ E), (ahead_hit _ _ _ _ Hq). reflexivity. }
      rewrite E, (p_plain_complete n _ _ _ Ht Hr Hl). reflexivity.
  Qed.

  Lemma names_complete ts l : separated (name_rule file) ts l -> exists l', separated (fun ts x => ts = [x] /\ a_name x) ts l' /\ l = map (fun x => (lx_text x, place file x)) l'.
  Proof.
    induction 1 as [ts a [x Hx]|ts a c ts' l [x Hx] Hc H (l' & IH & ->)].
    - exists [x]. split; [apply sep_one; auto|reflexivity].
    - exists (x :: l'). split; [apply sep_more; auto|reflexivity].
  Qed.
  Lemma p_throws_complete n : complete (next_not [T_Oneway; T_Throws; T_Comma]) (p_throws file n) (ending_rule file) n.
  Proof.
    intros ts e rest H Hr Hl. unfold p_throws. destruct H as [|o Ho|t ts l Ht H]; cbn [app].
    - rewrite !(next_not_ahead _ _ _ _ Hr) by (cbn; tauto). reflexivity.
    - rewrite (ahead_hit _ _ _ _ Ho). look. rewrite (p_token_hit _ _ _ Ho). reflexivity.
    - look. rewrite (p_token_hit _ _ _ Ht). cbn [length] in Hl.
      destruct (names_complete _ _ H) as (l' & H' & ->).
      assert (C : complete anything p_identifier (fun ts x => ts = [x] /\ a_name x) n) by (intros ts' x' r' [-> Hx'] _ _; apply p_identifier_hit, Hx').
      rewrite (p_list_complete anything p_identifier _ n C (fun _ _ _ => I) n ts l' rest H' I) by (lia || apply (next_not_incl _ _ _ Hr); intros k Hk; cbn in *; tauto). reflexivity.
  Qed.

  Lemma begins_message ts d : message_rule true file ts d -> begins ts.
  Proof.
    intros [ps a ts' t x l params ps' r e oneway errors s i p Hp Ht _ _ _ _ _ _ _ _]. apply (begins_props _ _ _ Hp). apply begins_app.
    destruct (result_shape _ _ Ht) as (y & r' & -> & Hy & _). exists y, r'. split; [reflexivity|]. unfold name_start. rewrite Hy. reflexivity.
  Qed.

  (** The tokens ahead of a message are no import and no named type's *)
  Lemma message_ahead ts t x l rest : result_rule true file ts t -> a_name x -> of_type T_LParen l -> next_not [T_IntegerLiteral] rest ->
    let tail := ts ++ x :: l :: rest in
    ahead [T_At] tail = false /\ import_ahead tail = false /\ fixed_ahead tail = false /\ enum_ahead tail = false /\ record_ahead tail = false.
  Proof.
    intros Ht Hx Hl Hr tail. subst tail. destruct (result_shape _ _ Ht) as (y & r & -> & Hy & H). cbn [app].
    split; [apply ahead_miss; intro E; rewrite E in Hy; discriminate|].
    unfold import_ahead, fixed_ahead, enum_ahead, record_ahead. destruct H as [->|(z & r' & -> & Hz)]; cbn [app tl].
    - look. rewrite (next_not_ahead _ _ _ _ Hr (or_introl eq_refl)), !andb_false_r. repeat split.
      destruct (import_of (lx_type x)); apply andb_false_r.
    - assert (E : import_of (lx_type z) = None /\ identifier_ahead (z :: r' ++ x :: l :: rest) = false).
      { unfold identifier_ahead. cbn [p_identifier]. destruct (lx_type z); try discriminate Hz; split; reflexivity. }
      destruct E as [-> ->]. rewrite !andb_false_r. repeat split.
  Qed.

  Lemma p_item_message n ts m rest : message_rule true file ts m -> length ts < n ->
    p_item file true n (ts ++ rest) = Some (ItMessage m, rest).
  Proof.
    intros [ps a ts' t x l params ps' r e oneway errors s i p Hp Ht Hx Hl Hps Hr He Hs Hi Ho] Hlen.
    rewrite !app_length in Hlen. cbn [length] in Hlen. rewrite app_length in Hlen. cbn [length] in Hlen. rewrite app_length in Hlen. cbn [length] in Hlen.
    rewrite <- !app_assoc. cbn [app]. rewrite <- !app_assoc. cbn [app]. rewrite <- !app_assoc. cbn [app].
    assert (N : next_not [T_IntegerLiteral] (params ++ r :: e ++ s :: rest)).
    { destruct Hps as [|params ps' Hps]; [cbn [app]; other Hr|]. from (begins_separated _ _ _ begins_parameter Hps). }
    destruct (message_ahead _ _ _ _ _ Ht Hx Hl N) as (A1 & A2 & A3 & A4 & A5). unfold p_item.
    replace (import_ahead (ps ++ ts' ++ x :: l :: params ++ r :: e ++ s :: rest)) with false.
    2:{ symmetry. destruct Hp as [|? ? ? ? [] ?]; [exact A2|]. cbn [app]. eapply import_ahead_other; [eassumption|reflexivity]. }
    rewrite (p_properties_complete n _ _ _ Hp A1) by lia. rewrite A3, A4, A5.
    replace (first_index (ps ++ ts' ++ x :: l :: params ++ r :: e ++ s :: rest)) with i by (rewrite app_assoc; symmetry; apply starts_at_first, Hi).
    replace (first_place file (ps ++ ts' ++ x :: l :: params ++ r :: e ++ s :: rest)) with p by (rewrite app_assoc; symmetry; apply opens_place, Ho).
    unfold p_message. rewrite (p_result_complete n _ _ _ Ht) by (lia || (apply name_not; [exact Hx|reflexivity])).
    rewrite (p_identifier_hit _ _ Hx), (p_token_hit _ _ _ Hl).
    assert (El : length params < n) by lia.
    apply (p_listed_complete (next_not [T_Equals]) (p_parameter file n) (parameter_rule true file) T_RParen n params ps' r (e ++ s :: rest) (p_parameter_complete n) begins_parameter eq_refl ltac:(intros ? ? Hc; other Hc) eq_refl Hr ltac:(other Hr) Hps) in El.
    unfold lexemes in *. rewrite El, (p_token_hit _ _ _ Hr).
    rewrite (p_throws_complete n _ _ (s :: rest) He ltac:(other Hs)) by lia. rewrite (p_token_hit _ _ _ Hs). reflexivity.
  Qed.

  (** ** Files *)
  Lemma begins_item m ts d : item_rule true file m ts d -> begins ts.
  Proof.
    intros [i k kind x s Hi _ _ _|ts' d' p H _|ts' m' _ H]; [exact (begins_type _ _ _ Hi eq_refl)|exact (begins_named _ _ H)|exact (begins_message _ _ H)].
  Qed.
  Lemma p_item_complete m n : complete (next_not [T_Equals]) (p_item file m n) (item_rule true file m) n.
  Proof.
    intros ts d rest H Hr Hl. destruct H as [i k kind x s Hi Hk Hx Hs|ts d p H Ho|ts d -> H].
    - cbn [app]. unfold p_item. unfold import_ahead. cbn [tl]. apply import_of_spec in Hk. rewrite Hk. look. unfold p_import.
      rewrite (p_token_hit _ _ _ Hi). rewrite Hk, (p_token_hit _ _ _ Hx), (p_token_hit _ _ _ Hs). reflexivity.
    - exact (p_item_named _ _ _ _ _ _ H Ho Hr Hl).
    - exact (p_item_message _ _ _ _ H Hl).
  Qed.
  Lemma p_items_complete m more n ts l rest : repeated (item_rule true file m) ts l -> (forall ts r, begins ts -> more (ts ++ r) = true) -> more rest = false -> next_not [T_Equals] rest ->
    length ts < n -> p_loop more (p_item file m n) n (ts ++ rest) = Some (l, rest).
  Proof.
    intros H Hb Hr Hn Hl. apply (p_loop_complete (next_not [T_Equals]) more _ _ n (p_item_complete m n)) with (l := l); try assumption.
    intros ts' a r Ha. pose proof (begins_item _ _ _ Ha) as B. split; [from B|]. split; [exact (Hb _ _ B)|exact (begins_length _ B)].
  Qed.

  Lemma p_file_complete n ts t : file_rule true file ts t -> length ts < n -> p_file file n ts = Some t.
  Proof.
    intros H Hlen. unfold p_file. destruct H as [ps a p x b ts l r rest i Hp Hpr Hx Hb Hl Hr He Hi|ns_ts ns main_ts main ts l rest Hn Hm Hl He].
    - rewrite app_length in Hlen. cbn [length] in Hlen. rewrite app_length in Hlen. cbn [length] in Hlen.
      assert (Ep : p_properties file n (ps ++ p :: x :: b :: ts ++ r :: rest) = Some (a, p :: x :: b :: ts ++ r :: rest)).
      { apply (p_properties_complete n); [exact Hp|miss Hpr|lia]. }
      rewrite Ep. look. unfold p_protocol. rewrite Ep, (p_token_hit _ _ _ Hpr), (p_identifier_hit _ _ Hx), (p_token_hit _ _ _ Hb).
      rewrite (p_items_complete true (fun r : lexemes => negb (ahead [T_RBrace] r)) n ts l (r :: rest) Hl); try lia.
      + rewrite (p_token_hit _ _ _ Hr). apply file_end_spec in He. rewrite He, (starts_at_index _ _ _ _ Hi). reflexivity.
      + intros ts' r' B. rewrite (next_not_ahead [T_RBrace] _ _ _ ltac:(from B) (or_introl eq_refl)). reflexivity.
      + look. reflexivity.
      + other Hr.
    - rewrite !app_length in Hlen.
      assert (Eq : next_not [T_Equals; T_At; T_Protocol; T_Namespace; T_Schema] rest).
      { destruct He as [->|(y & r & -> & Hy)]; [intros y r X; discriminate|other Hy]. }
      assert (Ei : p_loop (fun r : lexemes => negb (file_end r)) (p_item file false n) n (ts ++ rest) = Some (l, rest)).
      { apply p_items_complete; try assumption; try lia.
        - intros ts' r' (y & r & -> & Hy). cbn. destruct (lx_type y); try discriminate Hy; reflexivity.
        - apply file_end_spec in He. rewrite He. reflexivity.
        - apply (next_not_incl _ _ _ Eq). intros k Hk. cbn in *. tauto. }
      assert (Hi : (exists a r, p_properties file n (ts ++ rest) = Some (a, r) /\ ahead [T_Protocol] r = false) /\ next_not [T_Namespace; T_Schema] (ts ++ rest)).
      { assert (Z : forall r, ahead [T_At] r = false -> p_properties file n r = Some ([], r)).
        { intros r E. exact (p_properties_complete n [] [] r (rep_none _) E ltac:(cbn; lia)). }
        destruct Hl as [|ts1 d ts2 l Hd Hl].
        - cbn [app]. split; [|apply (next_not_incl _ _ _ Eq); intros k Hk; cbn in *; tauto].
          exists [], rest. split; [apply Z|]; apply (next_not_ahead _ _ _ _ Eq); cbn; tauto.
        - rewrite <- app_assoc. rewrite app_length in Hlen. destruct Hd as [i k kind x s Hi _ _ _|ts1 d p0 Hd _|ts1 m Hf _]; [| |discriminate Hf].
          + cbn [app]. split; [|other Hi]. exists [], (i :: k :: x :: s :: ts2 ++ rest). split; [apply Z; miss Hi|miss Hi].
          + assert (Q : exists ps a k y r, ts1 = ps ++ y :: r /\ repeated property ps a /\ of_type k y /\ existsb (same_type k) [T_Fixed; T_Enum; T_Record; T_Error] = true).
            { destruct Hd as [ps a f x l' size r s i Hp Hf|ps a f x b ts' l' r d default i Hp Hf|ps a k x b ts' l' r error i Hp Hf]; exists ps, a.
              - exists T_Fixed, f. eexists. repeat split; try reflexivity; assumption.
              - exists T_Enum, f. eexists. repeat split; try reflexivity; assumption.
              - destruct error; [exists T_Error|exists T_Record]; exists k; eexists; repeat split; try reflexivity; assumption. }
            destruct Q as (ps & a & k & y & r & -> & Hp & Hk & Hq).
            assert (Q2 : same_type k T_At = false /\ same_type k T_Protocol = false /\ existsb (same_type k) [T_Namespace; T_Schema] = false) by (destruct k; try discriminate Hq; repeat split; reflexivity).
            destruct Q2 as (Q1 & Q2 & Q3). rewrite <- app_assoc. cbn [app]. rewrite app_length in Hlen. cbn [length] in Hlen. split.
            * exists a, (y :: r ++ ts2 ++ rest). split; [|exact (ahead_other _ _ _ _ _ Hk Q2)].
              apply (p_properties_complete n); [exact Hp|exact (ahead_other _ _ _ _ _ Hk Q1)|lia].
            * destruct Hp as [|? ? ? ? [] ?]; cbn [app]; [exact (next_not_type _ _ _ _ Hk Q3)|]. eapply next_not_type; [eassumption|reflexivity]. }
      destruct Hi as [(a & r & Ep & Er) Hi].
      assert (Es : p_schema_file file n (ns_ts ++ main_ts ++ ts ++ rest) = Some (TreeSchema ns main l, rest)).
      { assert (Em : p_main file n (main_ts ++ ts ++ rest) = Some (main, ts ++ rest)).
        { destruct Hm as [|k fts f s Hk Hf Hs]; unfold p_main; cbn [app].
          - rewrite (next_not_ahead _ _ _ _ Hi) by (cbn; tauto). reflexivity.
          - look. rewrite (p_token_hit _ _ _ Hk). rewrite <- app_assoc. cbn [app]. cbn [length] in Hlen. rewrite app_length in Hlen. cbn [length] in Hlen.
            rewrite (p_full_complete n _ _ _ Hf ltac:(other Hs)) by lia. rewrite (p_token_hit _ _ _ Hs). reflexivity. }
        unfold p_schema_file. assert (En : p_namespace (ns_ts ++ main_ts ++ ts ++ rest) = Some (ns, main_ts ++ ts ++ rest)).
        { destruct Hn as [|k x s Hk Hx Hs]; unfold p_namespace; cbn [app].
          - replace (ahead [T_Namespace] (main_ts ++ ts ++ rest)) with false; [reflexivity|]. symmetry. destruct Hm as [|k fts f s Hk Hf Hs]; cbn [app].
            + apply (next_not_ahead _ _ _ _ Hi). cbn. tauto.
            + miss Hk.
          - look. rewrite (p_token_hit _ _ _ Hk), (p_identifier_hit _ _ Hx), (p_token_hit _ _ _ Hs). reflexivity. }
        rewrite En, Em, Ei. reflexivity. }
      assert (Ef : exists a r, p_properties file n (ns_ts ++ main_ts ++ ts ++ rest) = Some (a, r) /\ ahead [T_Protocol] r = false).
      { assert (Z : forall k x r, of_type k x -> same_type k T_At = false -> same_type k T_Protocol = false -> exists a r', p_properties file n (x :: r) = Some (a, r') /\ ahead [T_Protocol] r' = false).
        { intros k x r' Hk K1 K2. exists [], (x :: r'). split; [|exact (ahead_other _ _ _ _ _ Hk K2)].
          exact (p_properties_complete n [] [] _ (rep_none _) (ahead_other _ _ _ _ _ Hk K1) ltac:(cbn; lia)). }
        destruct Hn as [|k x s Hk _ _]; cbn [app]; [|exact (Z _ _ _ Hk eq_refl eq_refl)].
        destruct Hm as [|k fts f s Hk _ _]; cbn [app]; [|exact (Z _ _ _ Hk eq_refl eq_refl)]. exists a, r. split; assumption. }
      destruct Ef as (a' & r' & -> & ->). rewrite Es. apply file_end_spec in He. rewrite He. reflexivity.
  Qed.

  (** The two together *)
  Theorem p_file_spec ts t : p_file file (S (length ts)) ts = Some t <-> file_rule true file ts t.
  Proof. split; [apply p_file_sound|]. intro H. apply (p_file_complete _ _ _ H). lia. Qed.
  Theorem p_file_fuel n ts : length ts < n -> p_file file n ts = p_file file (S (length ts)) ts.
  Proof.
    intro Hn. destruct (p_file file n ts) as [t|] eqn:E.
    - apply p_file_sound in E. symmetry. apply p_file_spec, E.
    - destruct (p_file file (S (length ts)) ts) as [t|] eqn:E2; [|reflexivity]. apply p_file_spec in E2. rewrite (p_file_complete _ _ _ E2 Hn) in E. discriminate.
  Qed.
  Theorem file_rule_unique ts t1 t2 : file_rule true file ts t1 -> file_rule true file ts t2 -> t1 = t2.
  Proof. rewrite <- !p_file_spec. congruence. Qed.
End WithSource.
