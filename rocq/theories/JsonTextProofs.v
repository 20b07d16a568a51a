(** JSON values in source files. *)
From Verif Require Import FloatText FloatProofs LiteralsProofs BaseProofs CutProofs ReadingProofs ReaderProofs.
From Verif Require Export SpecJsonText WordProofs.
Local Open Scope Z_scope.

Lemma taken_apart_shaped s l : taken_apart s l -> forall k t, In (Some k, t) l -> shaped k t /\ exists a b, s = a ++ t ++ b.
Proof.
  induction 1 as [|k t rest l Ne L T IH|t rest l Ne L T IH]; intros k0 t0 Hi; [destruct Hi| |].
  - destruct Hi as [E|Hi]; [injection E as -> ->; split; [apply L|now exists [], rest]|].
    destruct (IH _ _ Hi) as (S & a & b & ->). split; [exact S|]. exists (t ++ a), b. now rewrite !app_assoc.
  - destruct Hi as [E|Hi]; [discriminate|]. destruct (IH _ _ Hi) as (S & a & b & ->). split; [exact S|]. exists (t ++ a), b. now rewrite !app_assoc.
Qed.
Lemma stream_piece l : forall o i x, In x (stream l o i) -> exists t, In (Some (lx_type x), t) l /\ lx_text x = of_chars t.
Proof.
  induction l as [|[k t] l IH]; intros o i x Hi; [destruct Hi|]. cbn [stream] in Hi. destruct k as [k|].
  - destruct (skipped k).
    + destruct (IH _ _ _ Hi) as (u & Hu & E). exists u. split; [now right|exact E].
    + destruct Hi as [<-|Hi]; [exists t; split; [now left|reflexivity]|]. destruct (IH _ _ _ Hi) as (u & Hu & E). exists u. split; [now right|exact E].
  - destruct (IH _ _ _ Hi) as (u & Hu & E). exists u. split; [now right|exact E].
Qed.
Lemma token_shape text x : In x (tokens_of text) -> exists u, shaped (lx_type x) u /\ lx_text x = of_chars u /\ (Forall scalar (chars text) -> Forall scalar u).
Proof.
  intro Hi. unfold tokens_of, visible in Hi. apply filter_In in Hi as [Hi _]. destruct (stream_piece _ _ _ _ Hi) as (u & Hu & E).
  destruct (taken_apart_shaped _ _ (proj1 (cut_iff _ _) eq_refl) _ _ Hu) as (S & a & b & Eq). exists u. split; [exact S|]. split; [exact E|].
  intro F. rewrite Eq, !Forall_app in F. tauto.
Qed.
Lemma shaped_as k P u : shaped k u -> In (k, P) shapes -> NoDup (map fst shapes) -> P u.
Proof.
  intros (Q & Hq & Qu) Hp Nd. assert (Q = P); [|now subst]. clear Qu. revert Hp Hq Nd. generalize shapes as l. induction l as [|[k' R] l IH]; intros Hp Hq Nd; [destruct Hp|].
  inversion Nd as [|? ? N1 N2]; subst. destruct Hp as [Ep|Hp], Hq as [Eq|Hq].
  - congruence.
  - injection Ep as -> ->. exfalso. apply N1. apply (in_map fst) in Hq. exact Hq.
  - injection Eq as -> ->. exfalso. apply N1. apply (in_map fst) in Hp. exact Hp.
  - now apply IH.
Qed.
Lemma shapes_once : NoDup (map fst shapes).
Proof.
  cbn. repeat (constructor; [cbn; intuition discriminate|]). constructor.
Qed.
Section Tokens.
  Context (text : string).
  Lemma integer_word x : In x (tokens_of text) -> of_type T_IntegerLiteral x -> exists z, int_literal (lx_text x) z.
  Proof.
    intros Hi T. destruct (token_shape _ _ Hi) as (u & S & -> & _). rewrite T in S. apply integer_denotes.
    apply (shaped_as _ integer _ S); [cbn; tauto|exact shapes_once].
  Qed.
  Lemma floating_word x : In x (tokens_of text) -> of_type T_FloatingPointLiteral x -> exists sg z t, sign_of sg z /\ lx_text x = (sg ++ t)%string /\
    (In t ["NaN"; "Infinity"] \/ exists v places e, decimal_text t v places e \/ hexadecimal_text t v places e).
  Proof.
    intros Hi T. destruct (token_shape _ _ Hi) as (u & S & -> & _). rewrite T in S. apply floating_text.
    apply (shaped_as _ floating _ S); [cbn; tauto|exact shapes_once].
  Qed.
  Lemma string_word x : Forall scalar (chars text) -> In x (tokens_of text) -> of_type T_StringLiteral x -> exists l, Forall scalar l /\ lx_text x = of_chars (quote :: l ++ [quote]) /\ (body l \/ surrogate_escape l).
  Proof.
    intros Sc Hi T. destruct (token_shape _ _ Hi) as (u & S & -> & F). rewrite T in S.
    destruct (string_token u) as (l & -> & B); [apply (shaped_as _ string_literal _ S); [cbn; tauto|exact shapes_once]|].
    exists l. specialize (F Sc). inversion F as [|? ? _ F']; subst. apply Forall_app in F' as [F' _]. auto.
  Qed.
End Tokens.

Lemma json_float_of r j : (match r with FNan => JStr "NaN" | FInfinite false => JStr "Infinity" | FInfinite true => JStr "-Infinity" | FFinite m e => JNum (NFloat m e) end) = j -> json_float r j.
Proof. intros <-. destruct r as [|[|]|m e]; constructor. Qed.

Lemma parse_sound text z j : int_literal text z -> parse_integer_literal text = Some j -> json_int z j.
Proof.
  assert (R : forall a b v, ranged a b v = Some v \/ ranged a b v = None) by (intros a b v; unfold ranged; destruct (_ && _); auto).
  intros Hl Hp. destruct Hl as [m v suf Hm Hs|m v suf Hm Hs].
  - rewrite (parse_pos _ _ _ Hm Hs) in Hp. destruct (R i64_min i64_hi (Z.of_N v)) as [E|E]; rewrite E in Hp; [|discriminate].
    injection Hp as <-. apply json_of_i64_int.
  - rewrite (parse_neg _ _ _ Hm Hs) in Hp. destruct (dec_magnitude_dec _ _ Hm) as [Hd|Hd].
    + rewrite (decode_neg_dec _ _ Hd) in Hp. destruct (R i64_min i64_hi (- Z.of_N v)) as [E|E]; rewrite E in Hp; [|discriminate].
      injection Hp as <-. apply json_of_i64_int.
    + rewrite (decode_neg _ _ Hm Hd) in Hp. destruct (R i64_min i64_hi (Z.of_N v)) as [E|E]; rewrite E in Hp; [|discriminate].
      injection Hp as <-. apply json_of_i64_int.
Qed.

Section Values.
  Context `{Unicode} `{Powers} (text : string) (Sc : Forall scalar (chars text)).

  Lemma string_value x : In x (tokens_of text) -> ordinary x -> of_type T_StringLiteral x -> token_means x (JStr (get_string_from_literal (lx_text x))).
  Proof.
    intros Hi [Or _] T. destruct (string_word text x Sc Hi T) as (l & F & E & B). assert (Bo : body l).
    { destruct B as [B|(a & h & v & b & -> & Hh & Hv)]; [exact B|]. exfalso. apply (Or T). rewrite E, chars_of_chars.
      - exists (quote :: a), h, v, (b ++ [quote]). split; [|auto]. unfold backslash. cbn [app]. f_equal. rewrite <- !app_assoc. cbn [app]. now rewrite <- app_assoc.
      - constructor; [unfold scalar, quote; lia|]. apply Forall_app. split; [exact F|]. constructor; [unfold scalar, quote; lia|constructor]. }
    destruct (body_denotes l Bo) as [t D].
    assert (G : get_string_from_literal (lx_text x) = of_chars t).
    { rewrite E. change (quote :: l ++ [quote]) with ([quote] ++ l ++ [quote]). rewrite !of_chars_app. exact (literal_denotes """" l t F D). }
    rewrite G. exact (tm_string x l t T E D).
  Qed.
  Lemma float_value x : In x (tokens_of text) -> ordinary x -> of_type T_FloatingPointLiteral x ->
    exists j, parse_floating_point_literal (lx_text x) = Some j /\ token_means x j.
  Proof.
    intros Hi [_ Or] T. destruct (floating_word text x Hi T) as (sg & z & t & Sg & E & [W|(v & places & e & [D|D])]).
    - destruct W as [<-|[<-|[]]].
      + exists (JStr "NaN"). split; [|exact (tm_nan x sg z T E Sg)]. rewrite E. destruct Sg as [S|[S|[S|[]]]]; injection S as <- <-; reflexivity.
      + destruct Sg as [S|[S|[S|[]]]]; injection S as <- <-.
        * exists (JStr "Infinity"). split; [now rewrite E|]. apply (tm_infinity x "" T E). now left.
        * exists (JStr "Infinity"). split; [now rewrite E|]. apply (tm_infinity x "+" T E). right. now left.
        * exists (JStr "-Infinity"). split; [now rewrite E|]. apply (tm_minus_infinity x T E).
    - destruct (decimal_literal t v places e sg z D Sg) as (r & Er & N). unfold parse_floating_point_literal. rewrite E, Er.
      destruct r as [|[|]|m e']; (eexists; split; [reflexivity|]); (eapply tm_decimal; [exact T|exact E|exact Sg|exact D|exact N|constructor]).
    - destruct (Or T sg z t v places e E Sg D) as (L1 & L2 & L3).
      destruct (hexadecimal_literal t v places e sg z D Sg L1 L2 L3) as (r & Er & N). unfold parse_floating_point_literal. rewrite E, Er.
      destruct r as [|[|]|m e']; (eexists; split; [reflexivity|]); (eapply tm_hexadecimal; [exact T|exact E|exact Sg|exact D|exact N|constructor]).
  Qed.
  Lemma integer_value x j : In x (tokens_of text) -> of_type T_IntegerLiteral x -> parse_integer_literal (lx_text x) = Some j -> token_means x j.
  Proof.
    intros Hi T P. destruct (integer_word text x Hi T) as (z & L). apply (tm_integer x z j T L).
    exact (parse_sound _ _ _ L P).
  Qed.

  Lemma value_sound file : forall ts t, json_value file ts t -> Forall (fun x => In x (tokens_of text) /\ ordinary x) ts ->
    forall j evs, walk_json_value t = Ok (j, evs) -> value_means ts j.
  Proof.
    fix IH 3. intros ts t V F j evs W. apply walk_json_iff in W as [W _].
    destruct V as [x T|x T|x T|x T|x T|x T|a ts l b Ta L Tb|a ts l b Ta L Tb].
    - inversion F as [|? ? [Hi Or] _]; subst. inversion W; subst. apply vm_token. now apply string_value.
    - inversion F as [|? ? [Hi Or] _]; subst. inversion W; subst. apply vm_token. now apply integer_value.
    - inversion F as [|? ? [Hi Or] _]; subst. destruct (float_value x Hi Or T) as (j' & E & M). apply vm_token.
      unfold parse_floating_point_literal in E. inversion W as [| | | | |? P|? P|? P|? ? ? P| |]; subst; cbn [w_text located_at] in P; rewrite P in E; injection E as <-; exact M.
    - inversion W; subst. now apply vm_token, tm_true.
    - inversion W; subst. now apply vm_token, tm_false.
    - inversion W; subst. now apply vm_token, tm_null.
    - inversion W as [| | | | | | | | |? js Ms|]; subst. apply vm_array; [exact Ta| |exact Tb].
      inversion F as [|? ? _ F']; subst. apply Forall_app in F' as [F' _]. clear F W Ta Tb.
      destruct L as [|ts l L]; [inversion Ms; constructor|]. apply listed_some. revert js Ms F'.
      induction L as [ts x V|ts x c ts' l V Tc L IHL]; intros js Ms F'.
      + inversion Ms as [|? y ? ? My Mr]; subst. inversion Mr; subst. apply sep_one. apply (IH ts x V F' y []). now apply json_means_walk.
      + inversion Ms as [|? y ? ? My Mr]; subst. apply Forall_app in F' as [F1 F2]. inversion F2 as [|? ? _ F3]; subst.
        apply sep_more; [|exact Tc|now apply IHL]. apply (IH ts x V F1 y []). now apply json_means_walk.
    - inversion W as [| | | | | | | | | |? pairs members Ms Bk As]; subst. apply (vm_object a ts pairs b members); [exact Ta| |exact Tb|exact Bk|exact As].
      inversion F as [|? ? _ F']; subst. apply Forall_app in F' as [F' _]. clear F W Ta Tb As Bk members.
      assert (P1 : forall ts kt kj, json_pair (json_value file) ts kt -> Forall (fun x => In x (tokens_of text) /\ ordinary x) ts ->
        fst kj = get_string_from_literal (fst kt) -> json_means (snd kt) (snd kj) -> pair_means value_means ts kj).
      { clear L Ms F'. intros ts0 kt [key v] V F Ek Mv. destruct V as [k colon ts1 w Tk Tc V]. cbn [fst snd] in *. subst key.
        inversion F as [|? ? [Hi Or] F2]; subst. inversion F2 as [|? ? _ F3]; subst.
        apply pm; [exact Tk|now apply string_value|exact Tc|]. apply (IH ts1 w V F3 v []). now apply json_means_walk. }
      destruct L as [|ts l L]; [inversion Ms; constructor|]. apply listed_some. revert pairs Ms F'.
      induction L as [ts x V|ts x c ts' l V Tc L IHL]; intros pairs Ms F'.
      + inversion Ms as [|? y ? ? [My1 My2] Mr]; subst. inversion Mr; subst. apply sep_one. now apply (P1 ts x y).
      + inversion Ms as [|? y ? ? [My1 My2] Mr]; subst. apply Forall_app in F' as [F1 F2]. inversion F2 as [|? ? _ F3]; subst.
        apply sep_more; [|exact Tc|now apply IHL]. now apply (P1 ts x y).
  Qed.

  Lemma value_total file : forall ts t, json_value file ts t -> Forall (fun x => In x (tokens_of text) /\ ordinary x /\ in_range x) ts ->
    exists j, walk_json_value t = Ok (j, []).
  Proof.
    fix IH 3. intros ts t V F.
    destruct V as [x T|x T|x T|x T|x T|x T|a ts l b Ta L Tb|a ts l b Ta L Tb]; try (eexists; reflexivity).
    - inversion F as [|? ? (Hi & _ & Ir) _]; subst. destruct (integer_word text x Hi T) as (z & Lz). destruct (parse_value _ _ Lz (Ir T z Lz)) as (j & E & _).
      exists j. cbn. now rewrite E.
    - inversion F as [|? ? (Hi & Or & _) _]; subst. destruct (float_value x Hi Or T) as (j & E & _). exists j. cbn. now rewrite E.
    - inversion F as [|? ? _ F']; subst. apply Forall_app in F' as [F' _].
      assert (E : exists js, Forall2 json_means l js).
      { clear F. destruct L as [|ts l L]; [exists []; constructor|].
        induction L as [ts x V|ts x c ts' l V Tc L IHL].
        - destruct (IH ts x V F') as [j W]. apply walk_json_iff in W as [W _]. exists [j]. repeat constructor. exact W.
        - apply Forall_app in F' as [F1 F2]. inversion F2 as [|? ? _ F3]; subst. destruct (IH ts x V F1) as [j W]. apply walk_json_iff in W as [W _].
          destruct (IHL F3) as [js Ms]. exists (j :: js). now constructor. }
      destruct E as [js Ms]. exists (JArr js). apply json_means_walk. now constructor.
    - inversion F as [|? ? _ F']; subst. apply Forall_app in F' as [F' _].
      assert (E : exists pairs, Forall2 (fun kt kj => fst kj = get_string_from_literal (fst kt) /\ json_means (snd kt) (snd kj)) l pairs).
      { clear F. destruct L as [|ts l L]; [exists []; constructor|].
        assert (P1 : forall ts kt, json_pair (json_value file) ts kt -> Forall (fun x => In x (tokens_of text) /\ ordinary x /\ in_range x) ts ->
          exists kj, fst kj = get_string_from_literal (fst kt) /\ json_means (snd kt) (snd kj)).
        { intros ts0 kt V F0. destruct V as [k colon ts1 w Tk Tc V]. inversion F0 as [|? ? _ F2]; subst. inversion F2 as [|? ? _ F3]; subst.
          destruct (IH ts1 w V F3) as [j W]. apply walk_json_iff in W as [W _]. exists (get_string_from_literal (lx_text k), j). split; [reflexivity|exact W]. }
        induction L as [ts x V|ts x c ts' l V Tc L IHL].
        - destruct (P1 ts x V F') as [kj W]. exists [kj]. repeat constructor; apply W.
        - apply Forall_app in F' as [F1 F2]. inversion F2 as [|? ? _ F3]; subst. destruct (P1 ts x V F1) as [kj W].
          destruct (IHL F3) as [js Ms]. exists (kj :: js). now constructor. }
      destruct E as [pairs Ms]. eexists. apply json_means_walk. apply (jm_object l pairs (bt_extend [] pairs)); [exact Ms| |].
      + apply bt_extend_sorted, sorted_nil.
      + intro k. rewrite assoc_bt_extend. destruct (assoc k (rev pairs)); reflexivity.
  Qed.
End Values.
