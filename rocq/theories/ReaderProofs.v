(** Proofs about the walker: annotations, types, names. *)
From Verif Require Import SpecReader BaseProofs NameProofs.

(** ** The monad *)
Lemma wbind_ok {A B} (m : walk A) (f : A -> walk B) b l :
  wbind m f = Ok (b, l) <-> exists a l1 l2, m = Ok (a, l1) /\ f a = Ok (b, l2) /\ l = l1 ++ l2.
Proof.
  unfold wbind. destruct m as [[a l1]|e].
  - destruct (f a) as [[b' l2]|e] eqn:E.
    + split.
      * intro Hx. injection Hx as -> <-. exists a, l1, l2. auto.
      * intros (a' & l1' & l2' & H1 & H2 & ->). injection H1 as <- <-. rewrite E in H2. injection H2 as -> ->. reflexivity.
    + split; [discriminate|]. intros (a' & l1' & l2' & H1 & H2 & _). injection H1 as <- <-. congruence.
  - split; [discriminate|]. intros (a' & l1' & l2' & H1 & _). discriminate.
Qed.
Lemma wret_ok {A} (a b : A) l : wret a = Ok (b, l) <-> b = a /\ l = [].
Proof. unfold wret. split; [intro Hx; injection Hx as -> <-; auto|intros [-> ->]; reflexivity]. Qed.
Lemma wopt_ok {A} p e (o : option A) b l : wopt p e o = Ok (b, l) <-> o = Some b /\ l = [].
Proof.
  unfold wopt. destruct o as [a|]; [rewrite wret_ok|unfold werr].
  - split; intros [Hx ->]; split; congruence.
  - split; [discriminate|]. intros [Hx _]. discriminate.
Qed.
Lemma emit_ok evs u l : emit evs = Ok (u, l) <-> l = evs.
Proof. unfold emit. destruct u. split; [intro Hx; now injection Hx as <-|now intros ->]. Qed.
Lemma werr_ok {A} p e (b : A) l : ~ werr p e = Ok (b, l).
Proof. discriminate. Qed.

Ltac winv H :=
  match type of H with
  | wbind _ _ = Ok (_, _) =>
      let a := fresh "a" in let l1 := fresh "l" in let l2 := fresh "l" in let E := fresh "E" in
      apply wbind_ok in H; destruct H as (a & l1 & l2 & E & H & ?); subst
  | wret _ = Ok (_, _) => apply wret_ok in H; destruct H as [? ?]; subst
  | wopt _ _ _ = Ok (_, _) => apply wopt_ok in H; destruct H as [? ?]; subst
  | emit _ = Ok (_, _) => apply emit_ok in H; subst
  | werr _ _ = Ok (_, _) => discriminate H
  end.

Lemma wmap_cons {A B} (f : A -> walk B) x l :
  wmap f (x :: l) = let* y := f x in let* ys := wmap f l in wret (y :: ys).
Proof. reflexivity. Qed.

Lemma wmap_ok {A B} (f : A -> walk B) l ys evs : wmap f l = Ok (ys, evs) ->
  exists zs, Forall2 (fun x z => f x = Ok z) l zs /\ ys = map fst zs /\ evs = flat_map snd zs.
Proof.
  revert ys evs. induction l as [|x l IH]; intros ys evs Hx.
  - apply wret_ok in Hx. destruct Hx as [-> ->]. exists []. repeat split; constructor.
  - rewrite wmap_cons in Hx. winv Hx. winv Hx. winv Hx. destruct (IH _ _ E0) as (zs & H1 & -> & ->).
    exists ((a, l0) :: zs). split; [constructor; auto|]. split; [reflexivity|]. cbn. now rewrite app_nil_r.
Qed.
Lemma wmap_ok_rev {A B} (f : A -> walk B) l zs : Forall2 (fun x z => f x = Ok z) l zs ->
  wmap f l = Ok (map fst zs, flat_map snd zs).
Proof.
  induction 1 as [|x [y e] l zs Hx Hl IH]; [reflexivity|]. rewrite wmap_cons, Hx, IH. cbn. now rewrite app_nil_r.
Qed.

Lemma wmap_Forall2 {A B} (f : A -> walk B) l ys evs : wmap f l = Ok (ys, evs) ->
  Forall2 (fun x y => exists e, f x = Ok (y, e)) l ys.
Proof.
  intro Hx. apply wmap_ok in Hx. destruct Hx as (zs & H2 & -> & _).
  induction H2 as [|x [y e] l zs Hx H2 IH]; constructor; eauto.
Qed.
Lemma wmap_silent {A B} (f : A -> walk B) l ys evs : wmap f l = Ok (ys, evs) ->
  (forall x y e, In x l -> f x = Ok (y, e) -> e = []) -> evs = [].
Proof.
  intros Hx Hs. apply wmap_ok in Hx. destruct Hx as (zs & H2 & _ & ->).
  induction H2 as [|x [y e] l zs Hx H2 IH]; [reflexivity|]. cbn.
  rewrite (Hs x y e (or_introl eq_refl) Hx), IH; [reflexivity|]. intros x' y' e' Hi. apply Hs. now right.
Qed.

(** Induction over trees *)
Section TreeInd.
  Variables (P : json_tree -> Prop).
  Hypothesis Hnull : P JTNull.
  Hypothesis Htrue : P JTTrue.
  Hypothesis Hfalse : P JTFalse.
  Hypothesis Hs : forall r, P (JTString r).
  Hypothesis Hi : forall r, P (JTInteger r).
  Hypothesis Hf : forall r, P (JTFloat r).
  Hypothesis Ha : forall l, Forall P l -> P (JTArray l).
  Hypothesis Ho : forall o, Forall (fun kv => P (snd kv)) o -> P (JTObject o).
  Fixpoint json_tree_ind' (t : json_tree) : P t :=
    match t with
    | JTNull => Hnull | JTTrue => Htrue | JTFalse => Hfalse
    | JTString r => Hs r | JTInteger r => Hi r | JTFloat r => Hf r
    | JTArray l => Ha l ((fix go l : Forall P l :=
                            match l with [] => Forall_nil _ | x :: r => Forall_cons _ (json_tree_ind' x) (go r) end) l)
    | JTObject o => Ho o ((fix go o : Forall (fun kv => P (snd kv)) o :=
                            match o with [] => Forall_nil _ | x :: r => Forall_cons _ (json_tree_ind' (snd x)) (go r) end) o)
    end.
End TreeInd.

Section TypeInd.
  Variables (P : full_type -> Prop) (Q : plain_type -> Prop).
  Hypothesis Hf : forall sp l p, Q p -> P (FullType sp l p).
  Hypothesis Ha : forall t, P t -> Q (PtArray t).
  Hypothesis Hm : forall t, P t -> Q (PtMap t).
  Hypothesis Hu : forall ts, Forall P ts -> Q (PtUnion ts).
  Hypothesis Hn : forall b o, Q (PtNullable b o).
  Fixpoint full_type_ind' (t : full_type) : P t :=
    match t with FullType sp l p => Hf sp l p (plain_type_ind' p) end
  with plain_type_ind' (p : plain_type) : Q p :=
    match p with
    | PtArray t => Ha t (full_type_ind' t)
    | PtMap t => Hm t (full_type_ind' t)
    | PtUnion ts => Hu ts ((fix go ts : Forall P ts :=
                              match ts with [] => Forall_nil _ | x :: r => Forall_cons _ (full_type_ind' x) (go r) end) ts)
    | PtNullable b o => Hn b o
    end.
  Lemma types_ind : (forall t, P t) /\ (forall p, Q p).
  Proof. exact (conj full_type_ind' plain_type_ind'). Qed.
End TypeInd.

Section Walker.
  Context `{Unicode} `{Floats}.

  (** ** JSON *)
  Lemma walk_json_means t : forall j evs, walk_json_value t = Ok (j, evs) -> json_means t j /\ evs = [].
  Proof.
    induction t as [| | |r|r|r|l IH|o IH] using json_tree_ind'; intros j evs Hx; cbn [walk_json_value] in Hx.
    - winv Hx. split; constructor.
    - winv Hx. split; constructor.
    - winv Hx. split; constructor.
    - winv Hx. split; constructor.
    - winv Hx. split; [now constructor|reflexivity].
    - winv Hx. split; [|reflexivity]. unfold parse_floating_point_literal in H1.
      destruct (parse_float_text r) as [[| [|] |m e]|] eqn:E; inversion H1; subst; constructor; auto.
    - winv Hx. winv Hx. apply wmap_ok in E. destruct E as (zs & H2 & -> & ->).
      assert (K : Forall2 json_means l (map fst zs) /\ flat_map snd zs = []).
      { clear -IH H2. induction H2 as [|x [y e] l zs Hx H2 IH']; [split; constructor|].
        inversion IH as [|? ? Px Pl]; subst. destruct (Px _ _ Hx) as [Hj ->]. destruct (IH' Pl) as [K1 K2].
        split; [constructor; auto|exact K2]. }
      destruct K as [K1 ->]. split; [now constructor|reflexivity].
    - winv Hx. winv Hx. apply wmap_ok in E. destruct E as (zs & H2 & -> & ->).
      assert (K : Forall2 (fun kt kj => fst kj = get_string_from_literal (fst kt) /\ json_means (snd kt) (snd kj)) o (map fst zs)
                  /\ flat_map snd zs = []).
      { clear -IH H2. induction H2 as [|x [y e] l zs Hx H2 IH']; [split; constructor|].
        inversion IH as [|? ? Px Pl]; subst. winv Hx. winv Hx. destruct (Px _ _ E) as [Hj ->].
        destruct (IH' Pl) as [K1 K2]. split; [constructor; auto|exact K2]. }
      destruct K as [K1 ->]. split; [|reflexivity].
      change (fold_left (fun m kv => bt_insert (fst kv) (snd kv) m) (map fst zs) []) with (bt_extend [] (map fst zs)).
      eapply jm_object; [exact K1| |].
      + apply bt_extend_sorted, sorted_nil.
      + intro k. rewrite assoc_bt_extend. destruct (assoc k (rev (map fst zs))); reflexivity.
  Qed.

  Lemma json_means_det t : forall j j', json_means t j -> json_means t j' -> j = j'.
  Proof.
    assert (F : forall l, Forall (fun t => forall j j', json_means t j -> json_means t j' -> j = j') l ->
                forall a b, Forall2 json_means l a -> Forall2 json_means l b -> a = b).
    { induction l as [|x l IHl]; intros Hp a b Ha Hb; inversion Ha; inversion Hb; subst; [reflexivity|].
      inversion Hp; subst. f_equal; eauto. }
    induction t as [| | |r|r|r|l IH|o IH] using json_tree_ind'; intros j j' Hj Hj'; inversion Hj; inversion Hj'; subst;
      try reflexivity; try congruence.
    - f_equal. eapply F; eauto.
    - assert (E : pairs = pairs0).
      { clear -IH H2 H7. revert pairs pairs0 H2 H7. induction IH as [|x l Px Pl IHl]; intros a b Ha Hb;
          inversion Ha as [|? [k1 j1] ? ? [K1 M1] Ha']; inversion Hb as [|? [k2 j2] ? ? [K2 M2] Hb']; subst; [reflexivity|].
        cbn in *. f_equal; [|now apply IHl]. f_equal; [congruence|]. eapply Px; eauto. }
      subst pairs0. f_equal. apply sorted_ext; [assumption|assumption|]. intro k. now rewrite H4, H9.
  Qed.

  Lemma parse_integer_number raw j : parse_integer_literal raw = Some j -> exists n, j = JNum n.
  Proof.
    unfold parse_integer_literal. destruct (split_last (remove_char "_" raw)) as [[i c]|];
      [destruct (Ascii.eqb c "l" || Ascii.eqb c "L")|]; (destruct (decode_i64 _) as [v|]; [|discriminate]);
      cbv zeta; unfold json_of_i64; destruct (_ || _); intro Hx; injection Hx as <-; try (destruct (_ <? _)%Z); eauto.
  Qed.

  Lemma walk_json_null t evs : walk_json_value t = Ok (JNull, evs) <-> t = JTNull /\ evs = [].
  Proof.
    split.
    - intro Hx. destruct (walk_json_means _ _ _ Hx) as [Hj ->]. split; [|reflexivity]. inversion Hj; subst; auto.
      exfalso. apply parse_integer_number in H1. destruct H1 as [n Hn]. discriminate.
    - intros [-> ->]. reflexivity.
  Qed.

  Lemma json_means_walk t : forall j, json_means t j -> walk_json_value t = Ok (j, []).
  Proof.
    assert (W : forall t j, json_means t j -> (exists j', walk_json_value t = Ok (j', [])) -> walk_json_value t = Ok (j, [])).
    { intros t' j Hj (j' & Hw). rewrite Hw. f_equal. f_equal. eapply json_means_det; [apply (walk_json_means _ _ _ Hw)|exact Hj]. }
    induction t as [| | |r|r|r|l IH|o IH] using json_tree_ind'; intros j Hj; inversion Hj; subst; cbn [walk_json_value]; try reflexivity.
    - now rewrite H2.
    - unfold parse_floating_point_literal. now rewrite H2.
    - unfold parse_floating_point_literal. now rewrite H2.
    - unfold parse_floating_point_literal. now rewrite H2.
    - unfold parse_floating_point_literal. now rewrite H2.
    - assert (E : wmap walk_json_value l = Ok (js, [])).
      { clear -IH H2. induction H2 as [|x y l js Hx H2 IH']; [reflexivity|]. inversion IH; subst.
        rewrite wmap_cons, (H3 _ Hx), IH' by assumption. reflexivity. }
      rewrite E. reflexivity.
    - apply (W (JTObject o)); [exact Hj|]. cbn [walk_json_value].
      match goal with |- context [wmap ?f o] => assert (E : wmap f o = Ok (pairs, [])) end.
      { clear -IH H2. induction H2 as [|x [k y] l js [Hk Hx] H2 IH']; [reflexivity|]. inversion IH as [|? ? Px Pl]; subst. cbn [fst snd] in Hk, Hx. subst k.
        rewrite wmap_cons, (Px _ Hx), IH' by assumption. reflexivity. }
      rewrite E. cbn. eauto.
  Qed.

  Lemma walk_json_iff t j evs : walk_json_value t = Ok (j, evs) <-> json_means t j /\ evs = [].
  Proof. split; [apply walk_json_means|intros [Hj ->]; now apply json_means_walk]. Qed.

  (** ** Annotations *)
  Lemma annotated_snoc l a k v : annotated (l ++ [a]) k v <->
    (identifier_text (an_name a) = k /\ json_means (an_value a) v) \/
    (identifier_text (an_name a) <> k /\ annotated l k v).
  Proof.
    split.
    - intros (b & x & c & E & Hk & Hv & Hc). destruct (@exists_last _ (x :: c)) as (c' & y & Ey); [congruence|].
      assert (E' : l ++ [a] = (b ++ c') ++ [y]) by (rewrite E, Ey, app_assoc; reflexivity).
      apply app_inj_tail in E'. destruct E' as [-> ->]. destruct c' as [|z c'].
      + injection Ey as <- <-. left. auto.
      + injection Ey as <- ->. right. split; [apply Hc, in_or_app; right; now left|].
        exists b, x, c'. split; [reflexivity|]. split; [exact Hk|]. split; [exact Hv|]. intros d Hd. apply Hc, in_or_app. now left.
    - intros [[Hk Hv]|[Hk (b & x & c & -> & Hx & Hv & Hc)]].
      + exists l, a, []. auto.
      + exists b, x, (c ++ [a]). rewrite <- app_assoc. split; [reflexivity|]. split; [exact Hx|]. split; [exact Hv|].
        intros d Hd. apply in_app_or in Hd. destruct Hd as [Hd|[<-|[]]]; auto.
  Qed.
  Lemma mentioned_snoc l a k : mentioned (l ++ [a]) k <-> identifier_text (an_name a) = k \/ mentioned l k.
  Proof.
    unfold mentioned. split.
    - intros (x & Hx & Hk). apply in_app_or in Hx. destruct Hx as [Hx|[<-|[]]]; eauto.
    - intros [Hk|(x & Hx & Hk)]; [exists a|exists x]; (split; [apply in_or_app; cbn; auto|exact Hk]).
  Qed.
  Lemma annotated_mentioned l k v : annotated l k v -> mentioned l k.
  Proof. intros (b & x & c & -> & Hk & _). exists x. split; [apply in_or_app; right; now left|exact Hk]. Qed.
  Lemma annotated_det l k v v' : annotated l k v -> annotated l k v' -> v = v'.
  Proof.
    revert v v'. induction l as [|a l IH] using rev_ind; intros v v' H1 H2.
    - destruct H1 as (b & x & c & E & _). destruct b; discriminate.
    - apply annotated_snoc in H1. apply annotated_snoc in H2.
      destruct H1 as [[K1 M1]|[K1 M1]], H2 as [[K2 M2]|[K2 M2]]; try congruence; eauto using json_means_det.
  Qed.

  Definition context_of (p : place) : property_context :=
    match p with
    | OnProtocol => PROTOCOL_PROPS
    | OnRecord | OnFixed => NAMED_TYPE_PROPS
    | OnEnum => ENUM_PROPS
    | OnField => VARIABLE_PROPS
    | OnType => BARE_PROPS
    | OnMessage => MESSAGE_PROPS
    end.

  Lemma upper_letter c u : (65 <= u <= 90)%N -> upper_char c = u -> same_letter u c.
  Proof.
    unfold upper_char, same_letter. intros Hu.
    destruct ((97 <=? c) && (c <=? 122))%N eqn:E.
    - apply andb_true_iff in E. rewrite !N.leb_le in E. lia.
    - destruct (N.eqb_spec c 305); [subst; intros <-; tauto|]. destruct (N.eqb_spec c 383); [subst; intros <-; tauto|]. auto.
  Qed.
  Lemma to_uppercase_word w s : Forall (fun u => 65 <= u <= 90)%N w -> same_chars (to_uppercase s) w = true ->
    Forall2 same_letter w (chars s).
  Proof.
    unfold same_chars, to_uppercase. destruct (list_eq_dec N.eq_dec (map upper_char (chars s)) w) as [E|]; [|discriminate].
    intros Hw _. revert w E Hw. induction (chars s) as [|c l IH]; intros w E Hw; cbn in E; subst w; [constructor|].
    inversion Hw; subst. constructor; [now apply upper_letter|auto].
  Qed.

  Lemma order_word_letters o w : In (o, w) order_words -> Forall (fun u => 65 <= u <= 90)%N w.
  Proof.
    intro Hw. assert (E : forallb (fun u => (65 <=? u) && (u <=? 90))%N w = true).
    { destruct Hw as [Hw|[Hw|[Hw|[]]]]; injection Hw as <- <-; reflexivity. }
    apply Forall_forall. intros u Hu. rewrite forallb_forall in E. specialize (E u Hu).
    apply andb_true_iff in E. rewrite !N.leb_le in E. exact E.
  Qed.

  Definition inv (p : place) (l : list annotation) (sp : schema_properties) : Prop :=
    holds_annotations p l (sp_props sp) /\
    (In "namespace" (special p) -> namespace_annotation l (sp_namespace sp)) /\
    (~ In "namespace" (special p) -> sp_namespace sp = None) /\
    (In "aliases" (special p) -> aliases_annotation l (sp_aliases sp)) /\
    (In "order" (special p) -> order_annotation l (sp_order sp)).

  Lemma walk_alias_ok sp l al evs : wmap (walk_alias sp) l = Ok (al, evs) -> l = map JStr al.
  Proof.
    intro Hx. apply wmap_Forall2 in Hx. induction Hx as [|x y l al (e & Hx) H2 IH]; [reflexivity|]. cbn. f_equal; [|exact IH].
    unfold walk_alias in Hx. destruct x; try discriminate. destruct (forallb _ _).
    - now winv Hx.
    - winv Hx. now winv Hx.
  Qed.

  Definition walk_events_only_warn (evs : list event) : Prop := consumed_of evs = [].

  (** The annotation [a] is none of those with a meaning of their own: nothing
      changes for them. *)
  Lemma keep_namespace l a ns : identifier_text (an_name a) <> "namespace" ->
    namespace_annotation l ns -> namespace_annotation (l ++ [a]) ns.
  Proof.
    intros Hn [(s & -> & Hs)|[-> Hs]]; [left; exists s; split; [reflexivity|]; apply annotated_snoc; auto|right].
    split; [reflexivity|]. rewrite mentioned_snoc. tauto.
  Qed.
  Lemma keep_aliases l a ns : identifier_text (an_name a) <> "aliases" ->
    aliases_annotation l ns -> aliases_annotation (l ++ [a]) ns.
  Proof.
    intros Hn [Hs|[-> Hs]]; [left; apply annotated_snoc; auto|right].
    split; [reflexivity|]. rewrite mentioned_snoc. tauto.
  Qed.
  Lemma keep_order l a ns : identifier_text (an_name a) <> "order" ->
    order_annotation l ns -> order_annotation (l ++ [a]) ns.
  Proof.
    intros Hn [(x & s & -> & Hs & Ho)|[-> Hs]]; [left; exists x, s; split; [reflexivity|]; split; [apply annotated_snoc; auto|exact Ho]|right].
    split; [reflexivity|]. rewrite mentioned_snoc. tauto.
  Qed.

  Lemma holds_special p l a ps : In (identifier_text (an_name a)) (special p) -> ~ In (identifier_text (an_name a)) (forbidden p) ->
    holds_annotations p l ps -> holds_annotations p (l ++ [a]) ps.
  Proof.
    intros Hs Hf (H1 & H2 & H3). split; [|split; [exact H2|]].
    - intros k v. rewrite H1, annotated_snoc. split.
      + intros [Ha Hk]. split; [|exact Hk]. right. split; [intros <-; contradiction|exact Ha].
      + intros [[[<- _]|[_ Ha]] Hk]; [contradiction|auto].
    - intros k Hk. apply mentioned_snoc in Hk. destruct Hk as [<-|Hk]; auto.
  Qed.
  Lemma holds_custom p l a ps v : ~ In (identifier_text (an_name a)) (special p) -> ~ In (identifier_text (an_name a)) (forbidden p) ->
    json_means (an_value a) v -> holds_annotations p l ps ->
    holds_annotations p (l ++ [a]) (hm_insert (identifier_text (an_name a)) v ps).
  Proof.
    intros Hs Hf Hv (H1 & H2 & H3). split; [|split].
    - intros k w. rewrite assoc_hm_insert, annotated_snoc. destruct (String.eqb_spec k (identifier_text (an_name a))) as [->|Hk].
      + split.
        * intro Hx. injection Hx as <-. auto.
        * intros [[[_ Hw]|[Hn _]] _]; [|congruence]. f_equal. eapply json_means_det; eauto.
      + rewrite H1. split; intros [Hx Hn]; (split; [|exact Hn]); [right; split; [congruence|exact Hx]|].
        destruct Hx as [[Hx _]|[_ Hx]]; [congruence|exact Hx].
    - now apply hm_insert_NoDup.
    - intros k Hk. apply mentioned_snoc in Hk. destruct Hk as [<-|Hk]; auto.
  Qed.

  Lemma special_namespace p : with_namespace (context_of p) = true <-> In "namespace" (special p).
  Proof. destruct p; cbn; split; intuition discriminate. Qed.
  Lemma special_aliases p : with_aliases (context_of p) = true <-> In "aliases" (special p).
  Proof. destruct p; cbn; split; intuition discriminate. Qed.
  Lemma special_order p : with_order (context_of p) = true <-> In "order" (special p).
  Proof. destruct p; cbn; split; intuition discriminate. Qed.
  Lemma special_not_forbidden p k : In k (special p) -> ~ In k (forbidden p).
  Proof. destruct p; cbn; intuition (subst; discriminate). Qed.
  Lemma special_cases p k : In k (special p) -> k = "namespace" \/ k = "aliases" \/ k = "order".
  Proof. destruct p; cbn; intuition auto. Qed.
  Lemma forbidden_reserved p k : ~ In k (special p) -> In k (reserved (context_of p)) <-> In k (forbidden p).
  Proof. destruct p; cbn; intuition (subst; auto). Qed.

  Lemma walk_property_inv p l sp a sp' evs : inv p l sp -> walk_property (context_of p) sp a = Ok (sp', evs) ->
    inv p (l ++ [a]) sp'.
  Proof.
    intros (Hh & Hn & Hn' & Ha & Ho) Hx. unfold walk_property in Hx. set (k := identifier_text (an_name a)) in *.
    winv Hx. rename a0 into v. apply walk_json_iff in E. destruct E as [Hv ->]. destruct sp as [ns al ord ps]. cbn in Hh, Hn, Hn', Ha, Ho.
    assert (Ka : (In "aliases" (special p) -> k <> "aliases") -> In "aliases" (special p) -> aliases_annotation (l ++ [a]) al).
    { intros Hk Hi. apply keep_aliases; auto. }
    assert (Ko : (In "order" (special p) -> k <> "order") -> In "order" (special p) -> order_annotation (l ++ [a]) ord).
    { intros Hk Hi. apply keep_order; auto. }
    assert (Kn : (In "namespace" (special p) -> k <> "namespace") -> In "namespace" (special p) -> namespace_annotation (l ++ [a]) ns).
    { intros Hk Hi. apply keep_namespace; auto. }
    destruct (with_namespace (context_of p) && String.eqb k "namespace") eqn:E1.
    { apply andb_true_iff in E1. destruct E1 as [E1 E2]. apply special_namespace in E1. apply String.eqb_eq in E2.
      destruct v; try discriminate. winv Hx. split; [|split; [|split; [|split]]]; cbn.
      - apply holds_special; fold k; rewrite ?E2; auto using special_not_forbidden.
      - intros _. left. exists s. split; [reflexivity|]. apply annotated_snoc. left. auto.
      - intro Hc. contradiction.
      - apply Ka. rewrite E2. discriminate.
      - apply Ko. rewrite E2. discriminate. }
    destruct (with_aliases (context_of p) && String.eqb k "aliases") eqn:E2.
    { apply andb_true_iff in E2. destruct E2 as [E2 E3]. apply special_aliases in E2. apply String.eqb_eq in E3.
      destruct v; try discriminate. winv Hx. winv Hx. apply walk_alias_ok in E. subst l0. split; [|split; [|split; [|split]]]; cbn.
      - apply holds_special; fold k; rewrite ?E3; auto using special_not_forbidden.
      - apply Kn. rewrite E3. discriminate.
      - exact Hn'.
      - intros _. left. apply annotated_snoc. left. auto.
      - apply Ko. rewrite E3. discriminate. }
    destruct (with_order (context_of p) && String.eqb k "order") eqn:E3.
    { apply andb_true_iff in E3. destruct E3 as [E3 E4]. apply special_order in E3. apply String.eqb_eq in E4.
      destruct v; try discriminate.
      assert (K : forall o w evs, In (o, w) order_words -> same_chars (to_uppercase s) w = true ->
                  wret (mkProperties ns al (Some o) ps) = Ok (sp', evs) -> inv p (l ++ [a]) sp').
      { clear Hx. intros o w evs Hw Hs Hx. winv Hx. split; [|split; [|split; [|split]]]; cbn.
        - apply holds_special; fold k; rewrite ?E4; auto using special_not_forbidden.
        - apply Kn. rewrite E4. discriminate.
        - exact Hn'.
        - apply Ka. rewrite E4. discriminate.
        - intros _. left. exists o, s. split; [reflexivity|]. split; [apply annotated_snoc; left; auto|]. exists w. split; [exact Hw|].
          apply to_uppercase_word; [|exact Hs]. eapply order_word_letters; exact Hw. }
      cbv zeta in Hx. destruct (same_chars _ (chars "ASCENDING")) eqn:S1; [eapply K; [left; reflexivity|exact S1|exact Hx]|].
      destruct (same_chars _ (chars "DESCENDING")) eqn:S2; [eapply K; [right; left; reflexivity|exact S2|exact Hx]|].
      destruct (same_chars _ (chars "IGNORE")) eqn:S3; [eapply K; [right; right; left; reflexivity|exact S3|exact Hx]|discriminate]. }
    assert (Ns : ~ In k (special p)).
    { intro Hk. apply andb_false_iff in E1, E2, E3. destruct (special_cases _ _ Hk) as [Hc|[Hc|Hc]]; rewrite Hc in *.
      - apply special_namespace in Hk. destruct E1; [congruence|discriminate].
      - apply special_aliases in Hk. destruct E2; [congruence|discriminate].
      - apply special_order in Hk. destruct E3; [congruence|discriminate]. }
    destruct (str_mem k (reserved (context_of p))) eqn:E4; [discriminate|]. apply str_mem_not_In in E4.
    rewrite forbidden_reserved in E4 by exact Ns. winv Hx. split; [|split; [|split; [|split]]]; cbn.
    - now apply holds_custom.
    - apply Kn. congruence.
    - exact Hn'.
    - apply Ka. congruence.
    - apply Ko. congruence.
  Qed.

  Lemma walk_properties_inv p l : forall pre sp sp' evs, inv p pre sp ->
    walk_properties_from (context_of p) sp l = Ok (sp', evs) -> inv p (pre ++ l) sp'.
  Proof.
    induction l as [|a l IH]; intros pre sp sp' evs Hi Hx; cbn in Hx.
    - winv Hx. now rewrite app_nil_r.
    - winv Hx. apply (walk_property_inv _ _ _ _ _ _ Hi) in E. change (a :: l) with ([a] ++ l). rewrite app_assoc. eapply IH; eauto.
  Qed.

  Lemma inv_start p : inv p [] (mkProperties None [] None []).
  Proof.
    assert (Na : forall k v, ~ annotated [] k v) by (intros k v (b & x & c & E & _); destruct b; discriminate).
    assert (Nm : forall k, ~ mentioned [] k) by (intros k (a & [] & _)).
    split; [|split; [|split; [|split]]]; cbn; try reflexivity.
    - split; [|split; [constructor|]].
      + intros k v. split; [discriminate|]. intros [Hx _]. now apply Na in Hx.
      + intros k Hk. now apply Nm in Hk.
    - intros _. right. auto.
    - intros _. right. auto.
    - intros _. right. auto.
  Qed.

  Lemma walk_schema_properties_inv p l sp evs : walk_schema_properties l (context_of p) = Ok (sp, evs) -> inv p l sp.
  Proof. intro Hx. apply (walk_properties_inv p l [] _ _ _ (inv_start p) Hx). Qed.

  (** Annotations consume no comments. *)
  Lemma consumed_app a b : consumed_of (a ++ b) = consumed_of a ++ consumed_of b.
  Proof. unfold consumed_of. apply flat_map_app. Qed.
  Lemma walk_property_quiet pctx sp a sp' evs : walk_property pctx sp a = Ok (sp', evs) -> consumed_of evs = [].
  Proof.
    unfold walk_property. intro Hx. winv Hx. apply walk_json_iff in E. destruct E as [_ ->]. destruct sp as [ns al ord ps]. cbn [app].
    destruct (_ && _); [destruct a0; try discriminate; winv Hx; reflexivity|].
    destruct (_ && _).
    { destruct a0; try discriminate. winv Hx. winv Hx. rewrite app_nil_r. apply wmap_ok in E. destruct E as (zs & H2 & _ & ->).
      induction H2 as [|x [y e] l zs Hx H2 IH]; [reflexivity|].
      change (flat_map snd ((y, e) :: zs)) with (e ++ flat_map snd zs). rewrite consumed_app, IH, app_nil_r.
      unfold walk_alias in Hx. destruct x; try discriminate. destruct (forallb _ _); [now winv Hx|]. winv Hx. winv Hx. winv E. reflexivity. }
    destruct (_ && _).
    { destruct a0; try discriminate. cbv zeta in Hx.
      generalize dependent (same_chars (to_uppercase s) (chars "ASCENDING")). intros b1 Hx.
      generalize dependent (same_chars (to_uppercase s) (chars "DESCENDING")). intros b2 Hx.
      generalize dependent (same_chars (to_uppercase s) (chars "IGNORE")). intros b3 Hx.
      destruct b1; [winv Hx; reflexivity|]. destruct b2; [winv Hx; reflexivity|]. destruct b3; [winv Hx; reflexivity|]. discriminate. }
    destruct (str_mem _ _); [discriminate|]. winv Hx. reflexivity.
  Qed.
  Lemma walk_properties_quiet pctx l sp evs : walk_schema_properties l pctx = Ok (sp, evs) -> consumed_of evs = [].
  Proof.
    unfold walk_schema_properties. generalize (mkProperties None [] None []). revert sp evs.
    induction l as [|a l IH]; intros sp evs sp0 Hx; cbn in Hx; [now winv Hx|]. winv Hx.
    rewrite consumed_app, (walk_property_quiet _ _ _ _ _ E), (IH _ _ _ Hx). reflexivity.
  Qed.
End Walker.
