(** Doc comments in the texts of files: C63 *)
From Coq Require Import Sorted Lia.
From Verif Require Export SpecDocText Warnings.
From Verif Require Import SpecRewrite FileProofs ReadProofs DenoteProofs PlaceProofs WhereProofs WordProofs PatternProofs CutProofs ReadingProofs SpecGrammar SpecDocText.

(** ** Pieces and tokens *)
Lemma skipped_in k : skipped k = true <-> In k [T_WS; T_EmptyComment; T_MultiLineComment; T_SingleLineComment].
Proof. destruct k; cbn; split; intro E; try discriminate; try tauto; decompose [or] E; try discriminate; contradiction. Qed.
Lemma blank_iff k t : no_token (Some k, t) <-> skipped k = true.
Proof.
  unfold no_token. cbn. rewrite skipped_in. split; [intros [E|(k' & E & Hi)]; [discriminate|injection E as <-; exact Hi]|eauto].
Qed.
Lemma bytes_app a b : bytes (a ++ b) = (bytes a + bytes b)%N.
Proof. unfold bytes. rewrite map_app, concat_app, of_chars_length. apply Nat2N.inj_add. Qed.
Lemma bytes_cons p b : bytes (p :: b) = (N.of_nat (String.length (of_chars (snd p))) + bytes b)%N.
Proof. unfold bytes. cbn [map concat]. rewrite of_chars_length. apply Nat2N.inj_add. Qed.
Lemma stream_app a : forall b o i, stream (a ++ b) o i = stream a o i ++ stream b (o + bytes a)%N (i + length (stream a o i)).
Proof.
  induction a as [|[k t] a IH]; intros b o i; cbn [app stream].
  - cbn. rewrite N.add_0_r, Nat.add_0_r. reflexivity.
  - rewrite bytes_cons. cbn [snd]. rewrite N.add_assoc. destruct k as [k|]; [|apply IH]. destruct (skipped k); [apply IH|]. cbn [app length]. rewrite IH, Nat.add_succ_r. reflexivity.
Qed.
Lemma stream_length a : forall o i o' i', length (stream a o i) = length (stream a o' i').
Proof. induction a as [|[k t] a IH]; intros o i o' i'; cbn; [reflexivity|]. destruct k as [k|]; [destruct (skipped k)|]; cbn; auto. Qed.
Lemma stream_blank a o i : Forall no_token a <-> stream a o i = [].
Proof.
  revert o i. induction a as [|[k t] a IH]; intros o i; cbn [stream]; [split; auto|]. rewrite Forall_cons_iff. destruct k as [k|].
  - rewrite blank_iff. destruct (skipped k); [rewrite (IH (o + N.of_nat (String.length (of_chars t)))%N i); tauto|]. split; [intros [E _]; discriminate|discriminate].
  - rewrite (IH (o + N.of_nat (String.length (of_chars t)))%N i). split; [tauto|]. intro E. split; [now left|exact E].
Qed.
Lemma stream_nth l : forall o i n x, nth_error (stream l o i) n = Some x -> exists a t b,
  l = a ++ (Some (lx_type x), t) :: b /\ skipped (lx_type x) = false /\ length (stream a o i) = n
  /\ x = mkLexeme (lx_type x) (of_chars t) (o + bytes a)%N (i + n).
Proof.
  induction l as [|[k t] l IH]; intros o i n x E; [destruct n; discriminate|]. cbn [stream] in E.
  assert (R : forall i' m, nth_error (stream l (o + N.of_nat (String.length (of_chars t)))%N i') m = Some x -> exists a t0 b,
    (k, t) :: l = ((k, t) :: a) ++ (Some (lx_type x), t0) :: b /\ skipped (lx_type x) = false /\ length (stream a (o + N.of_nat (String.length (of_chars t)))%N i') = m
    /\ x = mkLexeme (lx_type x) (of_chars t0) (o + bytes ((k, t) :: a))%N (i' + m)).
  { intros i' m Hx. destruct (IH _ _ _ _ Hx) as (a & t0 & b & E1 & E2 & E3 & E4). exists a, t0, b. split; [cbn; now rewrite E1|]. repeat split; auto. rewrite bytes_cons. cbn [snd]. now rewrite N.add_assoc. }
  destruct k as [k|]; [destruct (skipped k) eqn:Es|].
  - destruct (R _ _ E) as (a & t0 & b & E1 & E2 & E3 & E4). eexists _, t0, b. repeat split; [exact E1|exact E2| |exact E4]. cbn [stream]. rewrite Es. exact E3.
  - destruct n as [|n]; cbn in E.
    + injection E as <-. exists [], t, l. cbn. rewrite N.add_0_r, Nat.add_0_r. auto.
    + destruct (R _ _ E) as (a & t0 & b & E1 & E2 & E3 & E4). eexists _, t0, b. repeat split; [exact E1|exact E2| |rewrite E4 at 1; f_equal; lia]. cbn [stream]. rewrite Es. cbn. now rewrite E3.
  - destruct (R _ _ E) as (a & t0 & b & E1 & E2 & E3 & E4). eexists _, t0, b. repeat split; [exact E1|exact E2|exact E3|exact E4].
Qed.
Lemma stream_at a k t b o i : skipped k = false -> nth_error (stream (a ++ (Some k, t) :: b) o i) (length (stream a o i)) = Some (mkLexeme k (of_chars t) (o + bytes a)%N (i + length (stream a o i))).
Proof. intro Es. rewrite stream_app, nth_error_app2, Nat.sub_diag by lia. cbn [stream]. rewrite Es. reflexivity. Qed.
Lemma sorted_nth s n m x y : StronglySorted N.lt (map lx_offset s) -> nth_error s n = Some x -> nth_error s m = Some y -> lx_offset x = lx_offset y -> n = m.
Proof.
  revert n m. induction s as [|z s IH]; intros n m S Ex Ey E; [destruct n; discriminate|]. inversion S as [|? ? S' F]; subst. rewrite Forall_forall in F.
  assert (L : forall w k, nth_error s k = Some w -> (lx_offset z < lx_offset w)%N) by (intros w k Hk; apply F, in_map; eapply nth_error_In; exact Hk).
  destruct n as [|n], m as [|m]; cbn in Ex, Ey.
  - reflexivity.
  - injection Ex as ->. apply L in Ey. lia.
  - injection Ey as ->. apply L in Ex. lia.
  - f_equal. eapply IH; eauto.
Qed.
Lemma pieces_cut text l : pieces text l <-> l = cut (chars (until_sub text)).
Proof.
  split.
  - intros (v & Hv & T). apply visible_until in Hv. subst v. symmetry. now apply cut_iff.
  - intros ->. exists (until_sub text). split; [apply until_visible|now apply cut_iff].
Qed.

Section Docs.
  Context (f text : string).
  Let l := cut (chars (until_sub text)).
  Let s := stream l 0 0.
  Lemma stream_index n x : nth_error s n = Some x -> lx_index x = n.
  Proof. intro E. destruct (stream_nth _ _ _ _ _ E) as (a & t & b & _ & _ & _ & ->). reflexivity. Qed.
  Lemma s_sorted : StronglySorted N.lt (map lx_offset s).
  Proof. apply stream_sorted. intros k t. apply cut_some. Qed.
  Lemma doc_nth i t : nth_error (doc_tokens s) i = Some t -> tk_kind t = TDocComment ->
    exists x, nth_error s i = Some x /\ lx_type x = T_DocComment /\ tk_text t = lx_text x.
  Proof.
    unfold doc_tokens. intros E K. destruct (Nat.lt_ge_cases i (length s)) as [Hl|Hl].
    - rewrite nth_error_app1 in E by now rewrite map_length. rewrite nth_error_map in E. destruct (nth_error s i) as [x|]; [|discriminate]. injection E as <-. cbn in *.
      exists x. split; [reflexivity|]. destruct (same_type (lx_type x) T_DocComment) eqn:Et; [|discriminate]. destruct (lx_type x); try discriminate. auto.
    - rewrite nth_error_app2 in E by now rewrite map_length. rewrite map_length in E. destruct (i - length s) as [|n]; [injection E as <-; discriminate|destruct n; discriminate].
  Qed.
  Lemma doc_at_nth i x : nth_error s i = Some x -> nth_error (doc_tokens s) i = Some (mkToken (if same_type (lx_type x) T_DocComment then TDocComment else TOther) (lx_text x)).
  Proof. intro E. unfold doc_tokens. rewrite nth_error_app1 by (rewrite map_length; apply nth_error_Some; congruence). rewrite nth_error_map, E. reflexivity. Qed.
  Lemma precedes_next i j x : nth_error s i = Some x -> (immediately_precedes (doc_tokens s) j i <-> i = S j /\ exists y, nth_error s j = Some y /\ lx_type y = T_DocComment).
  Proof.
    intro Hx. split.
    - intros (Hl & (t & Ht & Hk) & Hb). destruct (doc_nth _ _ Ht Hk) as (y & Hy & Ty & _). split; [|eauto].
      destruct (Nat.eq_dec i (S j)) as [E|Hn]; [exact E|]. exfalso. assert (Hs : (S j < length s)%nat) by (assert (i < length s)%nat by (apply nth_error_Some; congruence); lia).
      apply nth_error_Some in Hs. destruct (nth_error s (S j)) as [z|] eqn:Ez; [|contradiction]. pose proof (doc_at_nth _ _ Ez) as D.
      destruct (Hb (S j) _ ltac:(lia) D) as [K|K]; cbn in K; destruct (same_type _ _); discriminate.
    - intros (-> & y & Hy & Ty). split; [lia|]. split; [|intros k t Hk; lia]. pose proof (doc_at_nth _ _ Hy) as D. eexists. split; [exact D|]. cbn. rewrite Ty. reflexivity.
  Qed.
  Lemma right_before_iff i x c pc : nth_error s i = Some x ->
    (right_before f text c pc (mkSpan f (lx_offset x)) <-> exists j y, immediately_precedes (doc_tokens s) j i /\ nth_error s j = Some y /\ c = lx_text y /\ pc = mkSpan f (lx_offset y)).
  Proof.
    intro Hx. split.
    - intros (a & w & gap & k & t & rest & Hp & Hg & Hk & -> & -> & Ep). apply pieces_cut in Hp. fold l in Hp. injection Ep as Ep.
      rewrite blank_iff in Hk. apply Bool.not_true_is_false in Hk.
      assert (Hn : nth_error s (S (length (stream a 0 0))) = Some (mkLexeme k (of_chars t) (bytes (a ++ (Some T_DocComment, w) :: gap)) (S (length (stream a 0 0))))).
      { pose proof (stream_at (a ++ (Some T_DocComment, w) :: gap) k t rest 0%N 0 Hk) as A. rewrite <- app_assoc in A. cbn [app] in A. rewrite Hp in A. fold s in A.
        rewrite stream_app, app_length in A. cbn [stream skipped length] in A. rewrite (proj1 (stream_blank gap _ _) Hg) in A. cbn in A.
        rewrite Nat.add_1_r in A. exact A. }
      assert (i = S (length (stream a 0 0))) as -> by (eapply (sorted_nth s); [exact s_sorted|exact Hx|exact Hn|exact Ep]).
      pose proof (stream_at a T_DocComment w (gap ++ (Some k, t) :: rest) 0%N 0 eq_refl) as B. rewrite Hp in B. fold s in B.
      eexists _, _. split; [|split; [exact B|split; reflexivity]]. apply (precedes_next _ _ x Hx). split; [reflexivity|]. eauto.
    - intros (j & y & Hj & Hy & -> & ->). apply (precedes_next _ _ x Hx) in Hj as (-> & y' & Hy' & Ty). rewrite Hy in Hy'. injection Hy' as <-.
      destruct (stream_nth _ _ _ _ _ Hx) as (a' & t & b & El & Hs & Hlen & Ex). cbn in Ex.
      assert (Hy' : nth_error (stream a' 0 0) j = Some y).
      { unfold s in Hy. rewrite El, stream_app in Hy. rewrite nth_error_app1 in Hy by lia. exact Hy. }
      destruct (stream_nth _ _ _ _ _ Hy') as (a & w & gap & Ea & _ & Hla & Ey). cbn in Ey. rewrite Ty in Ea, Ey. subst a'.
      exists a, w, gap, (lx_type x), t, b. split; [|split; [|split; [|split; [|split]]]].
      + apply pieces_cut. fold l. rewrite El. now rewrite <- app_assoc.
      + apply (stream_blank gap (0 + bytes a + N.of_nat (String.length (of_chars w)))%N (0 + length (stream a 0%N 0) + 1)). rewrite stream_app, app_length in Hlen. cbn [stream skipped length] in Hlen.
        apply length_zero_iff_nil. rewrite (stream_length gap _ _ (0 + bytes a + N.of_nat (String.length (of_chars w)))%N (S (0 + length (stream a 0%N 0)))). lia.
      + rewrite blank_iff. congruence.
      + now rewrite Ey.
      + now rewrite Ey.
      + now rewrite Ex.
  Qed.
  Lemma documented_iff i x doc : nth_error s i = Some x -> (doc_at (doc_tokens s) i doc <-> documented f text (mkSpan f (lx_offset x)) doc).
  Proof.
    intro Hx. split; intro D.
    - destruct D as [Hn|j t Hj Ht].
      + constructor. intros c pc Hc. apply (right_before_iff _ _ _ _ Hx) in Hc as (j & y & Hj & _). exact (Hn j Hj).
      + pose proof Hj as (_ & (t' & Ht' & Hk) & _). rewrite Ht in Ht'. injection Ht' as <-. destruct (doc_nth _ _ Ht Hk) as (y & Hy & Ty & ->). apply (doc_some _ _ _ _ (mkSpan f (lx_offset y))). apply (right_before_iff _ _ _ _ Hx). eauto 6.
    - destruct D as [Hn|c pc Hc].
      + constructor. intros j Hj. pose proof Hj as (_ & (t & Ht & Hk) & _). destruct (doc_nth _ _ Ht Hk) as (y & Hy & Ty & _). apply (Hn (lx_text y) (mkSpan f (lx_offset y))). apply (right_before_iff _ _ _ _ Hx). eauto 6.
      + apply (right_before_iff _ _ _ _ Hx) in Hc as (j & y & Hj & Hy & -> & _). pose proof Hj as (_ & (t & Ht & Hk) & _). destruct (doc_nth _ _ Ht Hk) as (y' & Hy' & _ & E). rewrite Hy in Hy'. injection Hy' as <-.
        rewrite <- E. now constructor 2 with j.
  Qed.
End Docs.

Lemma counted_length a n : counted a n <-> length (stream a 0 0) = n.
Proof.
  assert (G : counted a (length (stream a 0 0))).
  { induction a as [|[k t] a IH]; cbn [stream]; [constructor|]. destruct k as [k|]; [destruct (skipped k) eqn:Ek|].
    - rewrite (stream_length a _ _ 0%N 0). constructor; [now apply blank_iff|exact IH].
    - cbn [length]. rewrite (stream_length a _ _ 0%N 0). constructor 3; [|exact IH]. rewrite blank_iff. congruence.
    - rewrite (stream_length a _ _ 0%N 0). constructor; [now left|exact IH]. }
  split; [|intros <-; exact G]. intro C. clear G. induction C as [|[k t] l n Hp C IH|[k t] l n Hp C IH]; cbn [stream]; [reflexivity| |].
  - destruct k as [k|]; [apply blank_iff in Hp; rewrite Hp|]; rewrite (stream_length l _ _ 0%N 0); exact IH.
  - destruct k as [k|]; [|elim Hp; now left]. rewrite blank_iff in Hp. apply Bool.not_true_is_false in Hp. rewrite Hp. cbn [length]. rewrite (stream_length l _ _ 0%N 0), IH. reflexivity.
Qed.
Lemma token_place_iff f text i p : token_place f text i p <-> exists x, nth_error (stream (cut (chars (until_sub text))) 0 0) i = Some x /\ p = mkSpan f (lx_offset x).
Proof.
  split.
  - intros (a & k & t & rest & Hp & Hk & Hc & ->). apply pieces_cut in Hp. apply counted_length in Hc. rewrite blank_iff in Hk. apply Bool.not_true_is_false in Hk.
    pose proof (stream_at a k t rest 0%N 0 Hk) as A. rewrite Hp, Hc in A. eexists. split; [exact A|reflexivity].
  - intros (x & Hx & ->). destruct (stream_nth _ _ _ _ _ Hx) as (a & t & b & El & Hs & Hlen & Ex). exists a, (lx_type x), t, b. repeat split.
    + now apply pieces_cut.
    + rewrite blank_iff. congruence.
    + now apply counted_length.
    + rewrite Ex. reflexivity.
Qed.
Lemma comment_nth f text c before p i : comment_at f text c before p -> counted before i ->
  exists x, nth_error (stream (cut (chars (until_sub text))) 0 0) i = Some x /\ lx_type x = T_DocComment /\ lx_text x = c /\ p = mkSpan f (lx_offset x).
Proof.
  intros (w & rest & Hp & -> & ->) Hc. apply pieces_cut in Hp. apply counted_length in Hc. pose proof (stream_at before T_DocComment w rest 0%N 0 eq_refl) as A. unfold piece in *. rewrite Hp, Hc in A. eexists. split; [exact A|]. auto.
Qed.

(** ** Where declarations start *)
Section Starts.
  Context (strict : bool) (file : string).
  Definition start_in (ts : list lexeme) (i : nat) : Prop := exists x, In x ts /\ lx_index x = i.
  Lemma start_incl ts ts' i : start_in ts i -> incl ts ts' -> start_in ts' i.
  Proof. intros (x & Hx & E) Hi. exists x. auto. Qed.
  Lemma starts_in ts ts' i : starts_at ts i -> incl ts ts' -> start_in ts' i.
  Proof. intros (x & r & -> & E) Hi. exists x. split; [apply Hi; now left|exact E]. Qed.
  Lemma variable_start ts v : variable_rule file ts v -> start_in ts (v_start v).
  Proof.
    intros [ps a x i p Hps Hx Hs Ho|ps a x e ts' j i p Hps Hx He Hj Hs Ho]; cbn; (eapply starts_in; [exact Hs|]); [apply incl_refl|].
    intros y Hy. apply in_or_app. apply in_app_or in Hy as [Hy|[<-|[]]]; [now left|right; now left].
  Qed.
  Lemma item_start_in m ts it i : item_rule strict file m ts it -> In i (item_starts it) -> start_in ts i.
  Proof.
    intros Hi Hr. inversion Hi as [i0 k kind x s Ti Tk Tx Ts E1 E2|ts0 d p Hn Ho E1 E2|ts0 md Em Hm E1 E2]; subst; cbn in Hr; [destruct Hr| |].
    - inversion Hn as [ps a f0 x l n r s i0 Hps Hf Hx Hl Hn' Hr' Hs Hst E1 E2|ps a e x b ts0 l r d0 df i0 Hps He Hx Hb Hl Hr' Hd Hst E1 E2|ps a k x b ts0 l r er i0 Hps Hk Hx Hb Hf Hrb Hst E1 E2]; subst; cbn in Hr.
      1, 2: destruct Hr as [<-|[]]; eapply starts_in; [exact Hst|]; intros y Hy; apply in_or_app; apply in_app_or in Hy as [Hy|[<-|[]]]; [now left|right; now left].
      destruct Hr as [<-|Hr]; [eapply starts_in; [exact Hst|]; intros y Hy; apply in_or_app; apply in_app_or in Hy as [Hy|[<-|[]]]; [now left|right; now left]|].
      apply in_flat_map in Hr as (f & Hf' & Hr). destruct (repeated_in _ _ _ _ Hf Hf') as (sub & Hsub & Hin). inversion Hsub as [tsf t vs l2 s i2 Ht Hvs Hsc Hst2 E1 E2]; subst. cbn in Hr.
      assert (I : incl (tsf ++ vs ++ [s]) (ps ++ k :: x :: b :: ts0 ++ [r])) by (intros y Hy; apply in_or_app; right; do 3 right; apply in_or_app; left; auto).
      destruct Hr as [<-|Hr]; [eapply starts_in; [exact Hst2|]; intros y Hy; apply I, in_or_app; now left|]. apply in_flat_map in Hr as (v & Hv & Hr). cbn in Hr. destruct Hr as [<-|[]].
      destruct (separated_in _ _ _ _ Hvs Hv) as (vt & Hvt & Hvin). eapply start_incl; [exact (variable_start _ _ Hvt)|]. intros y Hy. apply I, in_or_app. right. apply in_or_app. left. auto.
    - inversion Hm as [ps a tsr t x l params ps' r0 e ow errs s i0 p0 Hps Hres Hx Hl Hpar Hrp Hend Hsc Hst Hop E1 E2]; subst. cbn in Hr. destruct Hr as [<-|Hr].
      + eapply starts_in; [exact Hst|]. intros y Hy. apply in_or_app. apply in_app_or in Hy as [Hy|Hy]; [now left|]. right. apply in_or_app. now left.
      + apply in_flat_map in Hr as (pa & Hpa & Hr). destruct (listed_in _ _ _ _ Hpar Hpa) as (sub & Hsub & Hin). inversion Hsub as [ts0 t0 vs v i1 Ht Hv Hst0 E1 E2]; subst. cbn in Hr.
        assert (I : incl (ts0 ++ vs) (ps ++ tsr ++ x :: l :: params ++ r0 :: e ++ [s])) by (intros y Hy; do 2 (apply in_or_app; right); do 2 right; apply in_or_app; left; auto).
        destruct Hr as [<-|[<-|[]]]; [eapply starts_in; [exact Hst0|]; intros y Hy; apply I, in_or_app; now left|]. eapply start_incl; [exact (variable_start _ _ Hv)|]. intros y Hy. apply I, in_or_app. now right.
  Qed.
  Lemma tree_start_in ts t i : file_rule strict file ts t -> In i (tree_starts t) -> start_in ts i.
  Proof.
    intros F Hi. assert (G : In i (flat_map item_starts (tree_items t)) -> start_in ts i).
    { intro Hx. apply in_flat_map in Hx as (it & Hit & Hx). destruct (tree_item _ _ _ _ _ F Hit) as (m & sub & Hr & Hin). eapply start_incl; [exact (item_start_in _ _ _ _ Hr Hx)|exact Hin]. }
    destruct t as [st l n items|ns m items]; cbn in Hi; [|exact (G Hi)]. destruct Hi as [<-|Hi]; [|exact (G Hi)].
    inversion F as [ps a p x b ts0 l0 r rest i Hps Hp Hx Hb Hr Hrb He Hst E1 E2|]; subst. eapply starts_in; [exact Hst|]. intros y Hy. apply in_or_app. apply in_app_or in Hy as [Hy|[<-|[]]]; [now left|right; now left].
  Qed.
  (** The place of a declaration is that of its first token *)
  Lemma named_first m ts d p : item_rule strict file m ts (ItNamed d p) -> exists x, In x ts /\ lx_index x = named_start d /\ p = mkSpan file (lx_offset x).
  Proof.
    intro Hi. inversion Hi as [|ts0 d0 q Hn Ho E1 E2|]; subst. destruct Ho as (x & r & -> & ->). exists x. split; [now left|]. split; [|reflexivity].
    inversion Hn as [ps a f0 x0 l n r0 s i0 Hps Hf Hx Hl Hn' Hr' Hs Hst E1 E2|ps a e x0 b ts0 l r0 d0 df i0 Hps He Hx Hb Hl Hr' Hd Hst E1 E2|ps a k x0 b ts0 l r0 er i0 Hps Hk Hx Hb Hf Hrb Hst E1 E2]; subst; cbn;
      destruct Hst as (y & ry & Ey & <-); destruct ps; cbn in *; congruence.
  Qed.
End Starts.

(** ** Lines and columns *)
Lemma consume_lines t : forall p, fst (fold_left consume t p) = (fst p + N.of_nat (line_feeds t))%N.
Proof.
  unfold line_feeds. induction t as [|c t IH]; intro p; cbn [fold_left filter length]; [cbn; lia|]. rewrite IH. unfold consume. rewrite (N.eqb_sym 10 c). destruct (c =? 10)%N; cbn [fst length]; lia.
Qed.
Lemma consume_column t : forall p, (line_feeds t = 0 /\ snd (fold_left consume t p) = (snd p + N.of_nat (length t))%N)
  \/ exists a b, t = a ++ 10%N :: b /\ line_feeds b = 0 /\ snd (fold_left consume t p) = N.of_nat (length b).
Proof.
  induction t as [|c t IH]; intro p; [left; cbn; split; [reflexivity|lia]|]. cbn [fold_left]. destruct (IH (consume p c)) as [[E1 E2]|(a & b & -> & Eb & E)]; [|right; exists (c :: a), b; auto].
  destruct (N.eq_dec c 10) as [->|Hn].
  - right. exists [], t. split; [reflexivity|]. split; [exact E1|]. rewrite E2. cbn. lia.
  - left. unfold line_feeds in *. cbn [filter]. assert (X : (10 =? c)%N = false) by (apply N.eqb_neq; auto). rewrite X. split; [exact E1|]. rewrite E2. unfold consume. rewrite N.eqb_sym, X. cbn [snd length]. lia.
Qed.
Lemma positions_stream l : forall o i p, map fst (positions l o i p) = stream l o i.
Proof. induction l as [|[k t] l IH]; intros o i p; cbn; [reflexivity|]. destruct k as [k|]; [destruct (skipped k)|]; cbn; rewrite ?IH; reflexivity. Qed.
Lemma positions_app a : forall b o i p, positions (a ++ b) o i p = positions a o i p ++ positions b (o + bytes a)%N (i + length (stream a o i)) (fold_left consume (concat (map snd a)) p).
Proof.
  induction a as [|[k t] a IH]; intros b o i p; cbn [app positions stream].
  - cbn. rewrite N.add_0_r, Nat.add_0_r. reflexivity.
  - rewrite bytes_cons. cbn [snd map concat]. rewrite N.add_assoc, fold_left_app. destruct k as [k|]; [|apply IH]. destruct (skipped k); [apply IH|]. cbn [app length]. rewrite IH, Nat.add_succ_r. reflexivity.
Qed.
Lemma positions_nth l i x p : nth_error (positions l 0 0 (1, 0)%N) i = Some (x, p) -> exists a t b,
  l = a ++ (Some (lx_type x), t) :: b /\ length (stream a 0 0) = i /\ x = mkLexeme (lx_type x) (of_chars t) (bytes a) i /\ p = fold_left consume (concat (map snd a)) (1, 0)%N.
Proof.
  intro E. pose proof (f_equal (option_map fst) E) as Es. cbn in Es. rewrite <- nth_error_map, positions_stream in Es. destruct (stream_nth _ _ _ _ _ Es) as (a & t & b & El & Hs & Hl & Ex).
  exists a, t, b. split; [exact El|]. split; [exact Hl|]. split; [exact Ex|]. rewrite El, positions_app in E. assert (Lp : length (positions a 0 0 (1, 0)%N) = i) by (rewrite <- Hl, <- (positions_stream a 0 0 (1, 0)%N); symmetry; apply map_length).
  rewrite nth_error_app2, Lp, Nat.sub_diag in E by lia. cbn [positions] in E. rewrite Hs in E. cbn in E. now injection E as _ <-.
Qed.
Lemma consume_position before : line_column before (fst (fold_left consume before (1, 0)%N)) (snd (fold_left consume before (1, 0)%N) + 1).
Proof.
  split; [rewrite consume_lines; cbn [fst]; lia|]. destruct (consume_column before (1, 0)%N) as [[E1 E2]|(a & b & -> & Eb & E)].
  - exists [], before. rewrite E2. cbn [snd]. repeat split; auto. lia.
  - exists (a ++ [10%N]), b. rewrite <- app_assoc. repeat split; eauto. rewrite E. lia.
Qed.

(** ** Files *)
Section Files.
  Context `{Unicode} `{Floats} `{LexerMessages}.
  Existing Instance text_parser.
  Lemma reads_tokens f text tokens t file items ws : reads f text tokens t file items ws ->
    tokens = doc_tokens (stream (cut (chars (until_sub text))) 0 0) /\ file_rule true f (tokens_of (until_sub text)) t.
  Proof. intros (v & lw & Hv & Ha & _). apply visible_until in Hv. subst v. apply parse_text_some in Ha as (Ha & Ht & _). cbn in Ht. auto. Qed.
  Lemma token_nth text x : In x (tokens_of text) -> nth_error (stream (cut (chars text)) 0 0) (lx_index x) = Some x.
  Proof.
    intro Hi. unfold tokens_of, visible in Hi. apply filter_In in Hi as [Hi _]. apply In_nth_error in Hi as (n & Hn). destruct (stream_nth _ _ _ _ _ Hn) as (a & t & b & _ & _ & _ & E). rewrite E at 1. exact Hn.
  Qed.
  Lemma doc_text f text tokens t file items ws i p doc : reads f text tokens t file items ws -> token_place f text i p -> doc_at tokens i doc -> documented f text p doc.
  Proof. intros R P D. apply token_place_iff in P as (x & Hx & ->). apply reads_tokens in R as [-> _]. exact (proj1 (documented_iff _ _ _ _ _ Hx) D). Qed.
  Lemma start_place f text tokens t file items ws i : reads f text tokens t file items ws -> In i (tree_starts t) -> exists p, token_place f text i p.
  Proof. intros R Hi. apply reads_tokens in R as [_ R]. destruct (tree_start_in _ _ _ _ _ R Hi) as (x & Hx & E). eexists. apply token_place_iff. exists x. split; [|reflexivity]. subst i. now apply token_nth. Qed.
  Lemma variable_text f text tokens t file items ws i j doc : reads f text tokens t file items ws -> In i (tree_starts t) -> In j (tree_starts t) -> variable_doc tokens i j doc ->
    exists p q d d', token_place f text i p /\ token_place f text j q /\ documented f text p d /\ documented f text q d' /\ doc = match d with Some _ => d | None => d' end.
  Proof.
    intros R Hi Hj (d & d' & D & D' & ->). destruct (start_place _ _ _ _ _ _ _ _ R Hi) as (p & Hp). destruct (start_place _ _ _ _ _ _ _ _ R Hj) as (q & Hq).
    exists p, q, d, d'. repeat split; auto; eapply doc_text; eauto.
  Qed.
  (** Types *)
  Lemma type_doc f text file items ws s p fs : parse_idl f text = Ok (file, items, ws) -> In (DType s p fs) items -> documented f text p (schema_doc s).
  Proof.
    intros Hp Hi. destruct (accepted_reads _ _ _ _ _ Hp) as (tokens & t & R). destruct (reads_items _ _ _ _ _ _ _ R) as (ns & F).
    destruct (Forall2_in_r _ _ _ _ F Hi) as (it & Hit & Hd). inversion Hd as [|d s0 p0 Hn E1 E2]; subst. apply handed_on_items in Hit.
    pose proof (reads_tokens _ _ _ _ _ _ _ R) as [_ Hr]. destruct (tree_item _ _ _ _ _ Hr Hit) as (m & sub & Hs & Hin). destruct (named_first _ _ _ _ _ _ Hs) as (x & Hx & Ei & ->).
    apply (doc_text _ _ _ _ _ _ _ (named_start d) _ _ R); [apply token_place_iff; exists x; split; [rewrite <- Ei; now apply token_nth, Hin|reflexivity]|].
    inversion Hn as [r n q doc al ps fs' Hh|e n q doc al ps Hh|y n q doc al ps size Hh]; subst; exact (nh_doc _ _ _ _ _ _ _ _ Hh).
  Qed.
  (** The warnings *)
  Lemma reported f text tokens t file items ws before c p i : reads f text tokens t file items ws -> comment_at f text c before p -> counted before i ->
    (In (OrphanedDoc i) ws <-> forall j q, In j (tree_starts t) -> token_place f text j q -> ~ right_before f text c p q).
  Proof.
    intros R Hc Hn. rewrite (file_docs _ _ _ _ _ _ _ R i). destruct (comment_nth _ _ _ _ _ _ Hc Hn) as (x & Hx & Tx & Ex & ->). pose proof (reads_tokens _ _ _ _ _ _ _ R) as [-> _]. split.
    - intros [_ Hs] j q Hj Hq Hb. apply token_place_iff in Hq as (y & Hy & ->). apply (right_before_iff _ _ _ _ _ _ Hy) in Hb as (k & z & Hk & Hz & Ez & Eo). injection Eo as Eo.
      assert (k = i) as -> by (eapply (sorted_nth _ _ _ _ _ (s_sorted text)); eauto). exact (Hs j Hj Hk).
    - intro Hs. split; [eexists; split; [apply (doc_at_nth _ _ _ Hx)|cbn; now rewrite Tx]|]. intros j Hj Hk. destruct (start_place _ _ _ _ _ _ _ _ R Hj) as (q & Hq).
      apply (Hs j q Hj Hq). apply token_place_iff in Hq as (y & Hy & ->). apply (right_before_iff _ _ _ _ _ _ Hy). exists i, x. auto.
  Qed.
  Lemma reported_comment f text tokens t file items ws i : reads f text tokens t file items ws -> In (OrphanedDoc i) ws -> exists c before p, comment_at f text c before p /\ counted before i
    /\ exists line column, line_column (concat (map snd before)) line column /\ orphan_shown f text i = Some (mkShown (misplaced line column) p (N.of_nat (String.length c))).
  Proof.
    intros R Hw. apply (file_docs _ _ _ _ _ _ _ R) in Hw as [(tk & Ht & Hk) _]. pose proof (reads_tokens _ _ _ _ _ _ _ R) as [-> _]. destruct (doc_nth _ _ _ Ht Hk) as (x & Hx & Tx & _).
    pose proof Hx as Hp. rewrite <- (positions_stream _ _ _ (1, 0)%N), nth_error_map in Hp. destruct (nth_error (positions _ 0 0 (1, 0)%N) i) as [[y q]|] eqn:Ep; [|discriminate]. injection Hp as ->.
    destruct (positions_nth _ _ _ _ Ep) as (a & w & b & El & Hl & Ex & ->). rewrite Tx in El. exists (of_chars w), a, (mkSpan f (bytes a)). split; [exists w, b; split; [now apply pieces_cut|auto]|]. split; [now apply counted_length|].
    eexists _, _. split; [apply consume_position|]. unfold orphan_shown. rewrite Ep. destruct (fold_left consume _ _) as [line column]. unfold out_of_place_doc_comment, misplaced, show_N. cbn [fst snd]. rewrite Ex. reflexivity.
  Qed.
End Files.

(** ** Labels *)
Lemma within_app sub a b : within sub b = true -> within sub (a ++ b) = true.
Proof. intro E. induction a as [|c a IH]; cbn [append]; [exact E|]. cbn [within]. rewrite IH. apply Bool.orb_true_r. Qed.
Lemma misplaced_label line column : label_of (misplaced line column) = "out-of-place doc comment".
Proof. unfold label_of, misplaced. do 4 (rewrite within_app; [reflexivity|]). reflexivity. Qed.
