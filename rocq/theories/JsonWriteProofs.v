(** What is written can be read. *)
From Verif Require Import JsonFile SpecJsonFile JsonStripProofs JsonReadProofs LiteralsProofs SizeProofs SpecDefaults.
From Verif Require Import BaseProofs.
From Coq Require Import Lia Decimal DecimalString DecimalFacts DecimalN.

Local Notation dq := """"%char.
Local Notation bs := "\"%char.

(** ** Strings *)
Lemma escape_cases c : (exists e, JsonFile.escape_char c = String bs (String e "") /\ In (e, c) escapes)
  \/ (exists h, JsonFile.escape_char c = ("\u" ++ h)%string /\ hex_digits h (N_of_ascii c) /\ ~ (55296 <= N_of_ascii c <= 57343)%N /\ of_chars [N_of_ascii c] = String c "")
  \/ (JsonFile.escape_char c = String c "" /\ c <> dq /\ c <> bs /\ (32 <= N_of_ascii c)%N).
Proof.
  unfold JsonFile.escape_char.
  repeat match goal with |- context [Ascii.eqb c ?x] => destruct (Ascii.eqb_spec c x) as [->|?]; [left; eexists; split; [reflexivity|cbn; tauto]|] end.
  destruct (N.ltb_spec (N_of_ascii c) 32) as [L|L]; [right; left|right; right; auto].
  eexists (String "0" (String "0" (String (JsonFile.hex_char (N_of_ascii c / 16)) (String (JsonFile.hex_char (N_of_ascii c mod 16)) "")))). split; [reflexivity|].
  assert (K : forall c, (N_of_ascii c < 32)%N -> hex4 "0" "0" (JsonFile.hex_char (N_of_ascii c / 16)) (JsonFile.hex_char (N_of_ascii c mod 16)) = Some (N_of_ascii c) /\ of_chars [N_of_ascii c] = String c "").
  { clear. intros c L. assert (B : (N_of_ascii c <? 32)%N = true) by now apply N.ltb_lt. revert B. clear L. chars_of c; vm_compute; intro B; try discriminate B; split; reflexivity. }
  destruct (K c L) as [K1 K2]. split; [now apply hex4_sound|]. split; [lia|exact K2].
Qed.
Lemma escape_text s : string_text (JsonFile.escape s) s.
Proof.
  induction s as [|c s IH]; [constructor|]. cbn [JsonFile.escape]. destruct (escape_cases c) as [(e & -> & I)|[(h & -> & Hh & N & E)|(-> & N1 & N2 & L)]].
  - now constructor.
  - rewrite sapp_assoc. change (String c s) with (String c "" ++ s)%string. rewrite <- E. now apply st_unicode.
  - now constructor.
Qed.

(** ** Numbers *)
Lemma digits_of_uint d : str_all is_digit (NilEmpty.string_of_uint d) = true /\ forall p, decimal_value (NilEmpty.string_of_uint d) (Npos p) = Npos (Pos.of_uint_acc d p).
Proof.
  induction d; (split; [reflexivity || (cbn [NilEmpty.string_of_uint str_all]; rewrite (proj1 IHd); reflexivity)|]);
    intro p; cbn [NilEmpty.string_of_uint decimal_value Pos.of_uint_acc]; [reflexivity|..]; rewrite <- (proj2 IHd); f_equal; cbn [N_of_ascii N_of_digits]; lia.
Qed.
Lemma value_of_uint d : decimal_value (NilEmpty.string_of_uint d) 0 = N.of_uint d.
Proof.
  induction d; cbn [NilEmpty.string_of_uint decimal_value]; [reflexivity|exact IHd|..]; unfold N.of_uint; cbn [Pos.of_uint]; rewrite <- (proj2 (digits_of_uint d)); reflexivity.
Qed.
Lemma show_magnitude n : decimal_magnitude (NilZero.string_of_uint (N.to_uint n)) n.
Proof.
  destruct (N.eq_dec n 0) as [->|Hn]; [constructor|].
  assert (U : unorm (N.to_uint n) = N.to_uint n) by (rewrite <- Unsigned.to_of, Unsigned.of_to; reflexivity).
  pose proof (Unsigned.of_to n) as V. set (d := N.to_uint n) in *. clearbody d.
  assert (E : NilZero.string_of_uint d = NilEmpty.string_of_uint d) by (destruct d; [cbn in V; congruence|reflexivity..]). rewrite E.
  apply magnitude_decimal. split.
  - apply spells_decimal. split; [destruct d; [cbn in V; congruence|discriminate..]|]. split; [apply digits_of_uint|]. now rewrite value_of_uint.
  - destruct d as [|d|d|d|d|d|d|d|d|d|d]; try (cbn; destruct (NilEmpty.string_of_uint d); reflexivity); [reflexivity|].
    destruct d; [cbn in V; congruence| |..]; exfalso; unfold unorm in U; cbn [nzhead] in U; try discriminate U;
    match type of U with match nzhead ?x with _ => _ end = _ => pose proof (nzhead_nonzero x) as NZ; destruct (nzhead x); try discriminate U; (injection U as U; eapply NZ; reflexivity) || (eapply NZ; reflexivity) end.
Qed.

Section Writing.
  Context `{JsonNumbers}.
  Lemma show_number_text n : tidy (JNum n) -> number_text (show_number n) n.
  Proof.
    intro T. inversion T as [| |v L|z L|m e F| | |]; subst; cbn [show_number].
    - apply nt_pos; [apply show_magnitude|exact L].
    - replace (NNeg z) with (NNeg (- Z.of_N (Z.to_N (- z)))) by (f_equal; rewrite Z2N.id; lia). apply nt_neg; [apply show_magnitude|]. lia.
    - exact F.
  Qed.
  Lemma spaces_app a b : spaces a -> spaces b -> spaces (a ++ b).
  Proof. intros A B. induction a as [|c a IH]; [exact B|]. apply spaces_cons in A as [W A]. cbn. apply spaces_cons. auto. Qed.
  Lemma spaces_indent n : spaces (indent n).
  Proof. induction n; cbn; [apply spaces_nil|]. now rewrite !spaces_cons. Qed.
  Lemma spaces_nl w : spaces w -> spaces (String "010" w).
  Proof. intro S. now apply spaces_cons. Qed.

  Lemma lines_elements d g (l : list json) : l <> [] -> (forall x, In x l -> value_text d (g x) x) -> forall ind w w', spaces w -> spaces w' ->
    elements_text d (w ++ join_lines (map (fun x => indent ind ++ g x)%string l) ++ w') l.
  Proof.
    intros Ne G ind. induction l as [|x l IH]; [congruence|]. intros w w' S S'. destruct l as [|y l].
    - cbn [map join_lines]. rewrite sapp_assoc, <- sapp_assoc. apply et_one; [apply spaces_app; [exact S|apply spaces_indent]|apply G; now left|exact S'].
    - specialize (IH ltac:(discriminate) (fun x Hx => G x (or_intror Hx)) (String "010" "") w' (spaces_nl _ spaces_nil) S').
      set (r := (String "010" "" ++ join_lines (map (fun x => indent ind ++ g x)%string (y :: l)) ++ w')%string) in *.
      assert (E : (w ++ join_lines (map (fun x => indent ind ++ g x)%string (x :: y :: l)) ++ w')%string = ((w ++ indent ind) ++ g x ++ "" ++ String "," r)%string).
      { unfold r. cbn [map join_lines]. repeat (rewrite ?sapp_assoc; cbn [append]). reflexivity. }
      rewrite E. apply et_more; [apply spaces_app; [exact S|apply spaces_indent]|apply G; now left|apply spaces_nil|exact IH].
  Qed.
  Lemma lines_members d g (o : list (string * json)) : o <> [] -> (forall k x, In (k, x) o -> value_text d (g x) x) -> forall ind w w', spaces w -> spaces w' ->
    members_text d (w ++ join_lines (map (fun kv => indent ind ++ show_string (fst kv) ++ ": " ++ g (snd kv))%string o) ++ w') o.
  Proof.
    intros Ne G ind. induction o as [|[k x] l IH]; [congruence|]. intros w w' S S'. assert (S1 : spaces " ") by now apply spaces_cons. destruct l as [|y l].
    - assert (E : (w ++ join_lines (map (fun kv => indent ind ++ show_string (fst kv) ++ ": " ++ g (snd kv))%string [(k, x)]) ++ w')%string
        = ((w ++ indent ind) ++ String dq (JsonFile.escape k ++ String dq ("" ++ String ":" (" " ++ g x ++ w'))))%string).
      { cbn [map join_lines fst snd]. unfold show_string. repeat (rewrite ?sapp_assoc; cbn [append]). reflexivity. }
      rewrite E. apply mt_one; [apply spaces_app; [exact S|apply spaces_indent]|apply escape_text|apply spaces_nil|exact S1|apply (G k); now left|exact S'].
    - specialize (IH ltac:(discriminate) (fun k x Hx => G k x (or_intror Hx)) (String "010" "") w' (spaces_nl _ spaces_nil) S').
      set (r := (String "010" "" ++ join_lines (map (fun kv => indent ind ++ show_string (fst kv) ++ ": " ++ g (snd kv))%string (y :: l)) ++ w')%string) in *.
      assert (E : (w ++ join_lines (map (fun kv => indent ind ++ show_string (fst kv) ++ ": " ++ g (snd kv))%string ((k, x) :: y :: l)) ++ w')%string
        = ((w ++ indent ind) ++ String dq (JsonFile.escape k ++ String dq ("" ++ String ":" (" " ++ g x ++ "" ++ String "," r))))%string).
      { unfold r. cbn [map join_lines fst snd]. unfold show_string. repeat (rewrite ?sapp_assoc; cbn [append]). reflexivity. }
      rewrite E. apply mt_more; [apply spaces_app; [exact S|apply spaces_indent]|apply escape_text|apply spaces_nil|exact S1|apply (G k); now left|apply spaces_nil|exact IH].
  Qed.
  Lemma written_value j : tidy j -> forall d ind, nests d j -> value_text d (to_string_pretty ind j) j.
  Proof.
    induction j as [|b|n|s|l IH|o IH] using json_ind'; intros T d ind N.
    - constructor.
    - destruct b; constructor.
    - constructor. now apply show_number_text.
    - cbn. constructor. apply escape_text.
    - inversion T as [| | | | | |l' Tl|]; subst. inversion N as [| | | |d' l' Nl|]; subst. destruct l as [|x l]; [cbn; apply (vt_no_elements d' ""), spaces_nil|].
      rewrite Forall_forall in IH.
      assert (G : forall x0, In x0 (x :: l) -> value_text d' (to_string_pretty (S ind) x0) x0) by (intros y Hy; apply IH; auto).
      pose proof (lines_elements d' (to_string_pretty (S ind)) (x :: l) ltac:(discriminate) G (S ind) (String "010" "") (String "010" (indent ind)) (spaces_nl _ spaces_nil) (spaces_nl _ (spaces_indent _))) as E.
      apply vt_array in E. cbn [append] in E. rewrite !sapp_assoc in E. cbn [append] in E. exact E.
    - inversion T as [| | | | | | |o' B To]; subst. inversion N as [| | | | |d' o' No]; subst. destruct o as [|x o]; [cbn; apply (vt_no_members d' ""), spaces_nil|].
      rewrite Forall_forall in IH.
      assert (G : forall k v, In (k, v) (x :: o) -> value_text d' (to_string_pretty (S ind) v) v) by (intros k v Hy; apply (IH (k, v) Hy); eauto).
      pose proof (lines_members d' (to_string_pretty (S ind)) (x :: o) ltac:(discriminate) G (S ind) (String "010" "") (String "010" (indent ind)) (spaces_nl _ spaces_nil) (spaces_nl _ (spaces_indent _))) as E.
      apply (vt_object _ _ _ (x :: o)) in E; [|exact B|].
      + cbn [append] in E. rewrite !sapp_assoc in E. cbn [append] in E. exact E.
      + intro k. symmetry. apply assoc_rev_NoDup. apply sorted_NoDup. exact B.
  Qed.

  (** ** A text without comments is left alone. *)
  Definition inert (t : string) : Prop := forall s p, uncommented s p -> uncommented (t ++ s) (t ++ p).
  Lemma inert_nil : inert "".
  Proof. intros s p U. exact U. Qed.
  Lemma inert_app a b : inert a -> inert b -> inert (a ++ b).
  Proof. intros A B s p U. rewrite !sapp_assoc. apply A, B, U. Qed.
  Lemma inert_char c t : c <> dq -> c <> "/"%char -> inert t -> inert (String c t).
  Proof. intros N1 N2 I s p U. cbn. apply un_char; auto. Qed.
  Lemma inert_spaces w : spaces w -> inert w.
  Proof.
    induction w as [|c w IH]; intro S; [apply inert_nil|]. apply spaces_cons in S as [W S]. apply is_ws_in in W. cbn in W. apply inert_char; [| |auto]; intuition (subst; discriminate).
  Qed.
  Lemma hex_quoted h n s : hex_digits h n -> quoted s -> quoted (h ++ s).
  Proof.
    intros D Q. apply hex4_complete in D as (a & b & c & d & -> & E). unfold hex4 in E.
    assert (P : forall x v, hex_of x = Some v -> x <> dq /\ x <> bs) by (intros x v Hx; split; intros ->; discriminate Hx).
    destruct (hex_of a) eqn:Ea; [|discriminate E]. destruct (hex_of b) eqn:Eb; [|discriminate E]. destruct (hex_of c) eqn:Ec; [|discriminate E]. destruct (hex_of d) eqn:Ed; [|discriminate E].
    apply P in Ea, Eb, Ec, Ed. cbn [append]. repeat (apply q_char; [tauto|tauto|]). exact Q.
  Qed.
  Lemma text_quoted t v : string_text t v -> quoted t.
  Proof.
    induction 1 as [|c s v N1 N2 L S IH|c x s v I S IH|h n s v Hh Hn S IH|h n k m s v Hh Hk Hn Hm S IH]; [constructor|now constructor|now constructor|..].
    all: assert (Q : forall h n s, hex_digits h n -> quoted s -> quoted (h ++ s)) by exact hex_quoted.
    - cbn [append]. apply q_escape. eapply Q; eauto.
    - cbn [append]. apply q_escape. eapply Q; [eauto|]. cbn [append]. apply q_escape. eapply Q; eauto.
  Qed.
  Lemma inert_string t v : string_text t v -> forall u, inert u -> inert (String dq (t ++ String dq u)).
  Proof. intros T u I s p U. repeat (rewrite ?sapp_assoc; cbn [append]). apply un_string; [eapply text_quoted; exact T|]. apply I, U. Qed.
  Lemma inert_digits ds : str_all is_digit ds = true -> inert ds.
  Proof.
    induction ds as [|c ds IH]; cbn [str_all]; intro A; [apply inert_nil|]. apply andb_true_iff in A as [A1 A2]. apply inert_char; [| |auto]; intros ->; discriminate A1.
  Qed.
  Lemma inert_all_digits ds : all_digits ds -> inert ds.
  Proof. intros (v & S). apply spells_decimal in S as (_ & A & _). now apply inert_digits. Qed.
  Lemma inert_magnitude i v : decimal_magnitude i v -> inert i.
  Proof. intro M. apply magnitude_decimal in M as [M _]. apply inert_all_digits. now exists v. Qed.
  Lemma inert_number t n : number_text t n -> inert t.
  Proof.
    intros [i v M L|i v M L|sg i v f x m e Hs M F X L1 L2 E].
    - eapply inert_magnitude; eauto.
    - apply inert_char; [discriminate|discriminate|]. eapply inert_magnitude; eauto.
    - apply inert_app; [destruct Hs as [<-|[<-|[]]]; [apply inert_nil|apply inert_char; [discriminate|discriminate|apply inert_nil]]|]. apply inert_app; [eapply inert_magnitude; eauto|]. apply inert_app.
      + destruct F as [->|(ds & D & ->)]; [apply inert_nil|]. apply inert_char; [discriminate|discriminate|]. now apply inert_all_digits.
      + destruct X as [->|(e' & sg' & ds & He & Hsg & D & ->)]; [apply inert_nil|]. apply inert_char; [destruct He as [<-|[<-|[]]]; discriminate|destruct He as [<-|[<-|[]]]; discriminate|].
        apply inert_app; [|now apply inert_all_digits]. destruct Hsg as [<-|[<-|[<-|[]]]]; [apply inert_nil|..]; (apply inert_char; [discriminate|discriminate|apply inert_nil]).
  Qed.
  Lemma values_inert :
    (forall d t v, value_text d t v -> inert t) /\ (forall d t l, elements_text d t l -> inert t) /\ (forall d t l, members_text d t l -> inert t).
  Proof.
    assert (One : forall c, c <> dq -> c <> "/"%char -> inert (String c "")) by (intros; apply inert_char; auto using inert_nil).
    apply json_text_ind; intros;
      repeat first [ apply inert_nil | (eapply inert_number; eassumption) | (eapply inert_string; [eassumption|]) | (apply inert_spaces; assumption) | assumption | apply inert_app | (apply inert_char; [discriminate|discriminate|]) ].
  Qed.
  Lemma written_read j ind w : tidy j -> nests 127 j -> spaces w -> parse_json_with_comments (to_string_pretty ind j ++ w) = Some j.
  Proof.
    intros T N S. apply read_iff. pose proof (written_value j T 127 ind N) as V. exists (to_string_pretty ind j ++ w)%string, "", (to_string_pretty ind j), w.
    split; [|repeat split; auto using spaces_nil]. pose proof (inert_app _ _ (proj1 values_inert _ _ _ V) (inert_spaces w S) "" "" un_end) as U. now rewrite !app_empty in U.
  Qed.
End Writing.
Section Depth.
  Context `{JsonNumbers}.
  Lemma read_nests :
    (forall d t v, value_text d t v -> nests d v) /\ (forall d t l, elements_text d t l -> forall v, In v l -> nests d v)
    /\ (forall d t l, members_text d t l -> forall k v, In (k, v) l -> nests d v).
  Proof.
    apply json_text_ind; [intros; try (constructor; cbn; tauto); try (constructor; assumption)..| | | | |].
    - intros d t l o M IH B A. constructor. intros k0 v0 I. apply (In_assoc_NoDup _ _ _ (sorted_NoDup _ B)) in I. rewrite A in I. apply assoc_In in I. apply in_rev in I. eapply IH; exact I.
    - intros d w t w' v _ _ IH _ x [<-|[]]. exact IH.
    - intros d w t w' v r l _ _ IH _ _ IHl x [<-|I]; auto.
    - intros d w k key w1 w2 t w' v _ _ _ _ _ IH _ k0 v0 [E|[]]. injection E as <- <-. exact IH.
    - intros d w k key w1 w2 t w' v r l _ _ _ _ _ IH _ _ IHl k0 v0 [E|I]; [injection E as <- <-; exact IH|eauto].
  Qed.
  Lemma read_tidy (K : forall t m e, read_float t = Some (m, e) -> number_text (show_float m e) (NFloat m e)) :
    (forall d t v, value_text d t v -> tidy v) /\ (forall d t l, elements_text d t l -> forall v, In v l -> tidy v)
    /\ (forall d t l, members_text d t l -> forall k v, In (k, v) l -> tidy v).
  Proof.
    apply json_text_ind; [intros; try (constructor; cbn; tauto); try (constructor; assumption)..| | | | |].
    - match goal with N : number_text _ _ |- _ => inversion N; subst; constructor; [assumption|lia|eauto] end.
    - constructor; [constructor|intros k v []].
    - intros d t l o M IH B A. constructor; [exact B|]. intros k0 v0 I. apply (In_assoc_NoDup _ _ _ (sorted_NoDup _ B)) in I. rewrite A in I. apply assoc_In in I. apply in_rev in I. eapply IH; exact I.
    - intros d w t w' v _ _ IH _ x [<-|[]]. exact IH.
    - intros d w t w' v r l _ _ IH _ _ IHl x [<-|I]; auto.
    - intros d w k key w1 w2 t w' v _ _ _ _ _ IH _ k0 v0 [E|[]]. injection E as <- <-. exact IH.
    - intros d w k key w1 w2 t w' v r l _ _ _ _ _ IH _ _ IHl k0 v0 [E|I]; [injection E as <- <-; exact IH|eauto].
  Qed.
  Lemma read_wf :
    (forall d t v, value_text d t v -> wf_json v) /\ (forall d t l, elements_text d t l -> forall v, In v l -> wf_json v)
    /\ (forall d t l, members_text d t l -> forall k v, In (k, v) l -> wf_json v).
  Proof.
    apply json_text_ind; [intros; try (constructor; cbn; tauto); try (constructor; assumption)..| | | | |].
    - match goal with N : number_text _ _ |- _ => inversion N; subst; constructor; [assumption|lia] end.
    - constructor; [constructor|intros k v []].
    - intros d t l o M IH B A. constructor; [exact (sorted_NoDup _ B)|]. intros k0 v0 I. apply (In_assoc_NoDup _ _ _ (sorted_NoDup _ B)) in I. rewrite A in I. apply assoc_In in I. apply in_rev in I. eapply IH; exact I.
    - intros d w t w' v _ _ IH _ x [<-|[]]. exact IH.
    - intros d w t w' v r l _ _ IH _ _ IHl x [<-|I]; auto.
    - intros d w k key w1 w2 t w' v _ _ _ _ _ IH _ k0 v0 [E|[]]. injection E as <- <-. exact IH.
    - intros d w k key w1 w2 t w' v r l _ _ _ _ _ IH _ _ IHl k0 v0 [E|I]; [injection E as <- <-; exact IH|eauto].
  Qed.
End Depth.
