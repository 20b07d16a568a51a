(** Exactly the JSON texts are read. *)
From Verif Require Import JsonFile SpecJsonFile JsonStripProofs LiteralsProofs SizeProofs.
From Verif Require Import BaseProofs.
From Coq Require Import Lia.

Local Notation dq := """"%char.
Local Notation bs := "\"%char.
Ltac chars_of c := destruct c as [[] [] [] [] [] [] [] []].

(** ** White space *)
Lemma is_ws_in c : is_ws c = true <-> In c [" "; "009"; "010"; "013"]%char.
Proof.
  unfold is_ws. cbn [In]. rewrite !orb_true_iff, !Ascii.eqb_eq. split; intuition congruence.
Qed.
Lemma spaces_nil : spaces "".
Proof. intros c []. Qed.
Lemma spaces_cons c w : spaces (String c w) <-> is_ws c = true /\ spaces w.
Proof.
  unfold spaces. cbn [list_ascii_of_string]. split.
  - intro S. split; [apply is_ws_in, S; now left|]. intros x Hx. apply S. now right.
  - intros [W S] x [<-|Hx]; [now apply is_ws_in|auto].
Qed.
Lemma skip_spaces w s : spaces w -> skip_ws (w ++ s) = skip_ws s.
Proof. induction w as [|c w IH]; intro S; [reflexivity|]. apply spaces_cons in S as [E S]. cbn. rewrite E. auto. Qed.
Lemma skip_split s : exists w, spaces w /\ s = (w ++ skip_ws s)%string.
Proof.
  induction s as [|c s (w & S & E)]; [exists ""; split; [apply spaces_nil|reflexivity]|]. cbn. destruct (is_ws c) eqn:W.
  - exists (String c w). split; [now apply spaces_cons|]. cbn. now rewrite <- E.
  - exists "". split; [apply spaces_nil|reflexivity].
Qed.
Lemma skip_head c s : is_ws c = false -> skip_ws (String c s) = String c s.
Proof. intro W. cbn. now rewrite W. Qed.
Lemma skip_only s : skip_ws s = "" -> spaces s.
Proof. intro E. destruct (skip_split s) as (w & S & Es). rewrite E, app_empty in Es. now subst. Qed.
Lemma drop_word_app w s : drop_word w (w ++ s) = Some s.
Proof. induction w as [|a w IH]; [now destruct s|]. cbn. now rewrite Ascii.eqb_refl. Qed.
Lemma drop_word_some w : forall s r, drop_word w s = Some r -> s = (w ++ r)%string.
Proof.
  induction w as [|a w IH]; intros s r E; [destruct s; injection E as <-; reflexivity|]. destruct s as [|c s]; [discriminate|]. cbn in E.
  destruct (Ascii.eqb_spec a c); [|discriminate]. subst. cbn. f_equal. now apply IH.
Qed.

(** ** Strings *)
Lemma hex_of_digit c : hex_of c = to_digit 16 c.
Proof. chars_of c; vm_compute; reflexivity. Qed.
Lemma hex4_complete h n : hex_digits h n -> exists a b c d, h = String a (String b (String c (String d ""))) /\ hex4 a b c d = Some n.
Proof.
  intros [L S]. apply spells_value in S. destruct h as [|a [|b [|c [|d [|e h]]]]]; try discriminate L. exists a, b, c, d. split; [reflexivity|].
  unfold hex4. rewrite !hex_of_digit. cbn [digits_value] in S. destruct (to_digit 16 a), (to_digit 16 b), (to_digit 16 c), (to_digit 16 d); try discriminate S. injection S as <-. f_equal; lia.
Qed.
Lemma hex4_sound a b c d n : hex4 a b c d = Some n -> hex_digits (String a (String b (String c (String d "")))) n.
Proof.
  unfold hex4. rewrite !hex_of_digit. intro E. split; [reflexivity|].
  destruct (to_digit 16 a) as [x|] eqn:Ea; [|discriminate]. destruct (to_digit 16 b) as [y|] eqn:Eb; [|discriminate]. destruct (to_digit 16 c) as [z|] eqn:Ec; [|discriminate]. destruct (to_digit 16 d) as [w|] eqn:Ed; [|discriminate].
  injection E as <-. apply (spells_read 16 a _ _ x); [lia|exact Ea|]. cbn [digits_value]. rewrite Eb, Ec, Ed. f_equal; lia.
Qed.
Lemma unescape_iff c x : unescape c = Some x <-> In (c, x) escapes.
Proof.
  unfold unescape, escapes. split.
  - intro E. repeat match type of E with (if Ascii.eqb ?a ?b then _ else _) = _ => destruct (Ascii.eqb_spec a b); [subst; injection E as <-; cbn; tauto|] end. discriminate.
  - cbn [In]. intro I. repeat destruct I as [I|I]; try (injection I as <- <-; reflexivity). destruct I.
Qed.
Lemma p_chars_complete t v : string_text t v -> forall r, p_chars (t ++ String dq r) = Some (v, r).
Proof.
  induction 1 as [|c s v N1 N2 L S IH|c x s v I S IH|h n s v Hh Hn S IH|h n k m s v Hh Hk Hn Hm S IH]; intro r; cbn [append].
  - reflexivity.
  - cbn [p_chars]. destruct (Ascii.eqb_spec c dq); [congruence|]. destruct (Ascii.eqb_spec c bs); [congruence|]. destruct (N.ltb_spec (N_of_ascii c) 32); [lia|]. now rewrite IH.
  - assert (Eu : Ascii.eqb c "u" = false) by (cbn in I; repeat destruct I as [I|I]; try (injection I as <- <-; reflexivity); destruct I).
    cbn [p_chars]. replace (Ascii.eqb bs dq) with false by reflexivity. rewrite Ascii.eqb_refl, Eu. apply unescape_iff in I. now rewrite I, IH.
  - destruct (hex4_complete h n Hh) as (a & b & c & d & -> & E). cbn [append]. cbn [p_chars]. replace (Ascii.eqb bs dq) with false by reflexivity. rewrite !Ascii.eqb_refl, E.
    destruct (N.leb_spec 56320 n), (N.leb_spec n 57343); cbn [andb]; try lia; destruct (N.leb_spec 55296 n), (N.leb_spec n 56319); cbn [andb]; try lia; now rewrite IH.
  - destruct (hex4_complete h n Hh) as (a & b & c & d & -> & E). destruct (hex4_complete k m Hk) as (a' & b' & c' & d' & -> & E'). cbn [append]. cbn [p_chars]. replace (Ascii.eqb bs dq) with false by reflexivity. rewrite !Ascii.eqb_refl, E.
    destruct (N.leb_spec 56320 n); cbn [andb]; [lia|]. destruct (N.leb_spec 55296 n), (N.leb_spec n 56319); cbn [andb]; try lia. rewrite E'. destruct (N.leb_spec 56320 m), (N.leb_spec m 57343); cbn [andb]; try lia. now rewrite IH.
Qed.
Lemma push_some f p v r : push f p = Some (v, r) -> exists v', p = Some (v', r) /\ v = (f ++ v')%string.
Proof. destruct p as [[v' r']|]; intro E; [injection E as <- <-; eauto|discriminate]. Qed.
Lemma p_chars_sound s : forall v r, p_chars s = Some (v, r) -> exists t, s = (t ++ String dq r)%string /\ string_text t v.
Proof.
  remember (String.length s) as len eqn:Hl. revert s Hl. induction len as [len IH] using lt_wf_ind. intros s -> v r E.
  destruct s as [|c s]; [discriminate|]. cbn [p_chars] in E.
  destruct (Ascii.eqb_spec c dq) as [->|N1]. { injection E as <- <-. exists "". split; [reflexivity|constructor]. }
  destruct (Ascii.eqb_spec c bs) as [->|N2].
  - destruct s as [|e s]; [discriminate|]. destruct (Ascii.eqb_spec e "u") as [->|].
    + destruct s as [|h1 [|h2 [|h3 [|h4 s]]]]; try discriminate. destruct (hex4 h1 h2 h3 h4) as [n|] eqn:Eh; [|discriminate]. apply hex4_sound in Eh.
      destruct ((56320 <=? n) && (n <=? 57343))%N eqn:L1; [discriminate|]. apply andb_false_iff in L1. rewrite !N.leb_gt in L1.
      destruct ((55296 <=? n) && (n <=? 56319))%N eqn:L2.
      * apply andb_true_iff in L2. rewrite !N.leb_le in L2. destruct s as [|b [|u [|k1 [|k2 [|k3 [|k4 s]]]]]]; try discriminate.
        destruct (Ascii.eqb_spec b bs) as [->|]; [|discriminate]. destruct (Ascii.eqb_spec u "u") as [->|]; [|discriminate]. cbn [andb] in E.
        destruct (hex4 k1 k2 k3 k4) as [m|] eqn:Ek; [|discriminate]. apply hex4_sound in Ek. destruct ((56320 <=? m) && (m <=? 57343))%N eqn:L3; [|discriminate]. apply andb_true_iff in L3. rewrite !N.leb_le in L3.
        apply push_some in E as (v' & E & ->). eapply IH in E as (t & -> & S); [| |reflexivity]; [|cbn; lia].
        eexists ("\u" ++ String h1 (String h2 (String h3 (String h4 ""))) ++ "\u" ++ String k1 (String k2 (String k3 (String k4 ""))) ++ t)%string. split; [reflexivity|]. apply (st_pair _ n _ m); auto.
      * apply andb_false_iff in L2. rewrite !N.leb_gt in L2. apply push_some in E as (v' & E & ->). eapply IH in E as (t & -> & S); [| |reflexivity]; [|cbn; lia].
        eexists ("\u" ++ String h1 (String h2 (String h3 (String h4 ""))) ++ t)%string. split; [reflexivity|]. apply st_unicode; [exact Eh|lia|exact S].
    + destruct (unescape e) as [x|] eqn:Ex; [|discriminate]. apply push_some in E as (v' & E & ->). eapply IH in E as (t & -> & S); [| |reflexivity]; [|cbn; lia].
      exists (String bs (String e t)). split; [reflexivity|]. apply (st_escape e x); [now apply unescape_iff|exact S].
  - destruct (N.ltb_spec (N_of_ascii c) 32); [discriminate|]. apply push_some in E as (v' & E & ->). eapply IH in E as (t & -> & S); [| |reflexivity]; [|cbn; lia].
    exists (String c t). split; [reflexivity|]. now apply st_char.
Qed.

(** ** Numbers *)
Lemma digit_to c : to_digit 10 c = if is_digit c then Some (N_of_ascii c - 48)%N else None.
Proof. chars_of c; vm_compute; reflexivity. Qed.
Lemma digits_decimal s : forall acc, digits_value 10 s acc = if str_all is_digit s then Some (decimal_value s acc) else None.
Proof.
  induction s as [|c s IH]; intro acc; [reflexivity|]. cbn [digits_value str_all decimal_value]. rewrite digit_to. destruct (is_digit c); [apply IH|reflexivity].
Qed.
Lemma spells_decimal s v : spells 10 s v <-> s <> "" /\ str_all is_digit s = true /\ decimal_value s 0 = v.
Proof.
  split.
  - intro S. split; [exact (spells_nonempty _ _ _ S)|]. apply spells_value in S. rewrite digits_decimal in S. destruct (str_all is_digit s); [|discriminate]. now injection S as <-.
  - intros (N & A & V). destruct s as [|c s]; [congruence|]. pose proof (digits_decimal (String c s) 0) as E. rewrite A, V in E. cbn [digits_value] in E. destruct (to_digit 10 c) as [d|] eqn:Ed; [|discriminate].
    apply (spells_read 10 c s v d); [lia|exact Ed|]. exact E.
Qed.
Lemma magnitude_decimal i v : decimal_magnitude i v <-> spells 10 i v /\ leading_zero i = false.
Proof.
  split.
  - intros [|c s w N S].
    + split; [|reflexivity]. apply spells_decimal. repeat split. discriminate.
    + split; [exact S|]. destruct s; [reflexivity|]. cbn. destruct (Ascii.eqb_spec c "0"); [congruence|reflexivity].
  - intros [S L]. destruct i as [|c s]; [now apply spells_nonempty in S|]. destruct (Ascii.eqb_spec c "0") as [->|N].
    + destruct s; [|discriminate L]. apply spells_decimal in S as (_ & _ & V). cbn in V. subst. constructor.
    + now constructor.
Qed.
Definition no_digit (r : string) : Prop := match r with String c _ => is_digit c = false | EmptyString => True end.
Lemma span_digits_app ds r : str_all is_digit ds = true -> no_digit r -> span_digits (ds ++ r) = (ds, r).
Proof.
  intros A N. induction ds as [|c ds IH]; cbn.
  - destruct r as [|c r]; [reflexivity|]. cbn in N. cbn. now rewrite N.
  - cbn in A. apply andb_true_iff in A as [A1 A2]. now rewrite A1, IH.
Qed.
Lemma span_digits_split s : forall ds r, span_digits s = (ds, r) -> s = (ds ++ r)%string /\ str_all is_digit ds = true.
Proof.
  induction s as [|c s IH]; intros ds r E; cbn in E; [injection E as <- <-; now split|]. destruct (is_digit c) eqn:D; [|injection E as <- <-; now split].
  destruct (span_digits s) as [a b]. injection E as <- <-. destruct (IH _ _ eq_refl) as [-> A]. split; [reflexivity|]. cbn. now rewrite D.
Qed.
Lemma span_part_complete f ds r : all_digits ds -> no_digit r -> span_part f (ds ++ r) = Some ((f ++ ds)%string, r).
Proof.
  intros (v & S) N. apply spells_decimal in S as (Ne & A & _). unfold span_part. rewrite (span_digits_app ds r A N). destruct ds; [congruence|reflexivity].
Qed.
Lemma span_part_sound f s x r : span_part f s = Some (x, r) -> exists ds, all_digits ds /\ s = (ds ++ r)%string /\ x = (f ++ ds)%string.
Proof.
  unfold span_part. destruct (span_digits s) as [ds r'] eqn:E. apply span_digits_split in E as [-> A]. destruct ds as [|c ds]; [discriminate|]. intro X. injection X as <- <-.
  exists (String c ds). split; [|auto]. eexists. apply spells_decimal. repeat split; [discriminate|exact A].
Qed.
(** What may follow a number *)
Definition stop (r : string) : Prop :=
  match r with String c _ => is_digit c = false /\ c <> "."%char /\ c <> "e"%char /\ c <> "E"%char | EmptyString => True end.
Lemma digits_head ds c s : all_digits ds -> ds = String c s -> is_digit c = true.
Proof. intros (v & S) ->. apply spells_decimal in S as (_ & A & _). cbn in A. now apply andb_true_iff in A as [A _]. Qed.
Lemma span_exponent_complete x r : exponent_text x -> stop r -> span_exponent (x ++ r) = Some (x, r).
Proof.
  intros [ -> |(e & sg & ds & He & Hs & D & ->)] S.
  - destruct r as [|c r]; [reflexivity|]. destruct S as (S1 & S2 & S3 & S4). cbn. destruct (Ascii.eqb_spec c "e"); [congruence|]. destruct (Ascii.eqb_spec c "E"); [congruence|reflexivity].
  - assert (N : no_digit r) by (destruct r; [exact I|exact (proj1 S)]). cbn [append span_exponent].
    replace (Ascii.eqb e "e" || Ascii.eqb e "E") with true by (destruct He as [<-|[<-|[]]]; reflexivity).
    destruct Hs as [<-|[<-|[<-|[]]]]; cbn [append].
    + destruct ds as [|c ds]; [destruct D as (v & D); now apply spells_nonempty in D|]. pose proof (digits_head _ _ _ D eq_refl) as Hc. cbn [append].
      assert (Ascii.eqb c "+" || Ascii.eqb c "-" = false) as -> by (revert Hc; clear; chars_of c; vm_compute; congruence).
      exact (span_part_complete (String e "") (String c ds) r D N).
    + exact (span_part_complete (String e "+") ds r D N).
    + exact (span_part_complete (String e "-") ds r D N).
Qed.
Lemma exponent_stop x r : exponent_text x -> stop r -> match (x ++ r)%string with String c _ => is_digit c = false /\ c <> "."%char | EmptyString => True end.
Proof.
  intros [ -> |(e & sg & ds & He & Hs & D & ->)] S.
  - destruct r; [exact I|]. destruct S as (S1 & S2 & _). now split.
  - cbn. destruct He as [<-|[<-|[]]]; now split.
Qed.
Lemma span_fraction_complete f r : fraction_text f -> match r with String c _ => is_digit c = false /\ c <> "."%char | EmptyString => True end -> span_fraction (f ++ r) = Some (f, r).
Proof.
  intros [ -> |(ds & D & ->)] S.
  - destruct r as [|c r]; [reflexivity|]. destruct S as (S1 & S2). cbn. destruct (Ascii.eqb_spec c "."); [congruence|reflexivity].
  - cbn [append span_fraction]. rewrite Ascii.eqb_refl. apply (span_part_complete "." ds r D). destruct r; [exact I|exact (proj1 S)].
Qed.
Lemma span_exponent_sound s x r : span_exponent s = Some (x, r) -> exponent_text x /\ s = (x ++ r)%string.
Proof.
  unfold span_exponent. intro E. destruct s as [|c s]; [injection E as <- <-; split; [now left|reflexivity]|].
  destruct (Ascii.eqb c "e" || Ascii.eqb c "E") eqn:Ec; [|injection E as <- <-; split; [now left|reflexivity]].
  assert (He : In c ["e"; "E"]%char) by (apply orb_true_iff in Ec; rewrite !Ascii.eqb_eq in Ec; cbn; intuition congruence).
  destruct s as [|g s]; [discriminate|]. destruct (Ascii.eqb g "+" || Ascii.eqb g "-") eqn:Eg.
  - apply span_part_sound in E as (ds & D & -> & ->). split; [|reflexivity]. right. exists c, (String g ""), ds. repeat split; auto.
    apply orb_true_iff in Eg. rewrite !Ascii.eqb_eq in Eg. destruct Eg as [->| ->]; cbn; tauto.
  - apply span_part_sound in E as (ds & D & -> & ->). split; [|reflexivity]. right. exists c, "", ds. repeat split; auto. now left.
Qed.
Lemma span_fraction_sound s x r : span_fraction s = Some (x, r) -> fraction_text x /\ s = (x ++ r)%string.
Proof.
  unfold span_fraction. intro E. destruct s as [|c s]; [injection E as <- <-; split; [now left|reflexivity]|].
  destruct (Ascii.eqb_spec c ".") as [->|]; [|injection E as <- <-; split; [now left|reflexivity]].
  apply span_part_sound in E as (ds & D & -> & ->). split; [|reflexivity]. right. exists ds. auto.
Qed.
Lemma plain_pos v : plain_number false v = if (v <=? 18446744073709551615)%N then Some (NPos v) else None.
Proof. reflexivity. Qed.
Lemma plain_neg v : plain_number true v = if ((0 <? v) && (v <=? 9223372036854775808))%N then Some (NNeg (- Z.of_N v)) else None.
Proof. reflexivity. Qed.
Lemma append_eq_empty (a b : string) : (a ++ b)%string = "" -> a = "" /\ b = "".
Proof. destruct a; [now split|discriminate]. Qed.

Section Values.
  Context `{JsonNumbers}.
  Lemma p_magnitude_step neg i v f x r : decimal_magnitude i v -> fraction_text f -> exponent_text x -> stop r ->
    p_magnitude neg (i ++ f ++ x ++ r) =
      let float := match read_float ((if neg then "-" else "") ++ i ++ f ++ x) with Some (m, e) => Some (NFloat m e, r) | None => None end in
      if String.eqb f "" && String.eqb x "" then match plain_number neg v with Some n => Some (n, r) | None => float end else float.
  Proof.
    intros M F X S. apply magnitude_decimal in M as [M L]. apply spells_decimal in M as (Ne & A & V). unfold p_magnitude.
    pose proof (exponent_stop x r X S) as SX.
    assert (N : no_digit (f ++ x ++ r)) by (destruct F as [->|(ds & D & ->)]; [|reflexivity]; cbn [append]; destruct (x ++ r)%string; [exact I|exact (proj1 SX)]).
    rewrite (span_digits_app i _ A N), L. destruct (String.eqb_spec i ""); [congruence|]. cbn [orb].
    rewrite (span_fraction_complete f _ F SX), (span_exponent_complete x r X S), V. reflexivity.
  Qed.
  Lemma magnitude_head i v : decimal_magnitude i v -> exists c s, i = String c s /\ is_digit c = true.
  Proof. intro M. apply magnitude_decimal in M as [M _]. destruct i as [|c s]; [now apply spells_nonempty in M|]. exists c, s. split; [reflexivity|]. eapply digits_head; [exists v; exact M|reflexivity]. Qed.
  Lemma digit_not_minus c : is_digit c = true -> Ascii.eqb c "-" = false.
  Proof. chars_of c; vm_compute; congruence. Qed.
  Lemma p_number_positive i v t : decimal_magnitude i v -> p_number (i ++ t) = p_magnitude false (i ++ t).
  Proof. intro M. destruct (magnitude_head i v M) as (c & s & -> & D). cbn [append p_number]. now rewrite (digit_not_minus c D). Qed.
  Lemma p_number_complete t n r : number_text t n -> stop r -> p_number (t ++ r) = Some (n, r).
  Proof.
    intros T S. destruct T as [i v M L|i v M L|sg i v f x m e Hs M F X L1 L2 E].
    - rewrite (p_number_positive i v r M). pose proof (p_magnitude_step false i v "" "" r M (or_introl eq_refl) (or_introl eq_refl) S) as P. cbn [append] in P. rewrite P. cbn [String.eqb andb]. rewrite plain_pos. destruct (N.leb_spec v 18446744073709551615); [reflexivity|lia].
    - cbn [append p_number]. rewrite Ascii.eqb_refl. pose proof (p_magnitude_step true i v "" "" r M (or_introl eq_refl) (or_introl eq_refl) S) as P. cbn [append] in P. rewrite P. cbn [String.eqb andb plain_number].
      destruct (N.ltb_spec 0 v), (N.leb_spec v 9223372036854775808); cbn [andb]; try lia. reflexivity.
    - destruct Hs as [<-|[<-|[]]].
      + cbn [append] in *. rewrite !sapp_assoc. rewrite (p_number_positive i v _ M), (p_magnitude_step false i v f x r M F X S). cbv zeta. cbn [append]. rewrite E.
        destruct (String.eqb_spec f ""), (String.eqb_spec x ""); cbn [andb]; try reflexivity. rewrite plain_pos. specialize (L1 e0 e1 eq_refl). destruct (N.leb_spec v 18446744073709551615); [lia|reflexivity].
      + cbn [append p_number] in *. rewrite Ascii.eqb_refl, !sapp_assoc. rewrite (p_magnitude_step true i v f x r M F X S). cbv zeta. cbn [append]. rewrite E.
        destruct (String.eqb_spec f ""), (String.eqb_spec x ""); cbn [andb]; try reflexivity. cbn [plain_number]. specialize (L2 e0 e1 eq_refl). destruct (N.ltb_spec 0 v), (N.leb_spec v 9223372036854775808); cbn [andb]; try lia; reflexivity.
  Qed.
  Lemma p_magnitude_sound neg s n r : p_magnitude neg s = Some (n, r) -> exists t, s = (t ++ r)%string /\ number_text ((if neg then "-" else "") ++ t) n.
  Proof.
    unfold p_magnitude. destruct (span_digits s) as [ds r0] eqn:Ed. apply span_digits_split in Ed as [-> A]. destruct (String.eqb_spec ds ""); [discriminate|]. cbn [orb]. destruct (leading_zero ds) eqn:L; [discriminate|].
    assert (M : decimal_magnitude ds (decimal_value ds 0)) by (apply magnitude_decimal; split; [apply spells_decimal; auto|exact L]).
    destruct (span_fraction r0) as [[f r1]|] eqn:Ef; [|discriminate]. apply span_fraction_sound in Ef as [F ->]. destruct (span_exponent r1) as [[x r2]|] eqn:Ex; [|discriminate]. apply span_exponent_sound in Ex as [X ->].
    set (v := decimal_value ds 0) in *. cbv zeta. intro E.
    assert (Fl : (f = "" -> x = "" -> plain_number neg v = None) -> match read_float ((if neg then "-" else "") ++ ds ++ f ++ x) with Some (m, e) => Some (NFloat m e, r2) | None => None end = Some (n, r) ->
      exists t, (ds ++ f ++ x ++ r2)%string = (t ++ r)%string /\ number_text ((if neg then "-" else "") ++ t) n).
    { intros P R. destruct (read_float _) as [[m e]|] eqn:Er; [|discriminate]. injection R as <- <-. exists (ds ++ f ++ x)%string. split; [now rewrite !sapp_assoc|].
      apply (nt_float (if neg then "-" else "") ds v f x m e); auto; [destruct neg; cbn; tauto| |].
      - intros Hf Hx Hs. destruct neg; [discriminate|]. specialize (P Hf Hx). rewrite plain_pos in P. destruct (N.leb_spec v 18446744073709551615); [discriminate|assumption].
      - intros Hf Hx Hs. destruct neg; [|discriminate]. specialize (P Hf Hx). rewrite plain_neg in P. destruct (N.ltb_spec 0 v), (N.leb_spec v 9223372036854775808); cbn [andb] in P; try discriminate; lia. }
    destruct (String.eqb_spec f ""), (String.eqb_spec x ""); cbn [andb] in E; try (apply Fl; [intros; congruence|exact E]).
    destruct (plain_number neg v) as [k|] eqn:P; [|apply Fl; auto]. injection E as <- <-. subst f x. exists ds. split; [reflexivity|]. destruct neg; [rewrite plain_neg in P|rewrite plain_pos in P].
    - destruct (N.ltb_spec 0 v), (N.leb_spec v 9223372036854775808); cbn [andb] in P; try discriminate. injection P as <-. cbn [append]. now apply nt_neg.
    - destruct (N.leb_spec v 18446744073709551615); [|discriminate]. injection P as <-. cbn [append]. now apply nt_pos.
  Qed.
  Lemma p_number_sound s n r : p_number s = Some (n, r) -> exists t, s = (t ++ r)%string /\ number_text t n.
  Proof.
    unfold p_number. destruct s as [|c s]; [discriminate|]. destruct (Ascii.eqb_spec c "-") as [->|].
    - intro E. apply p_magnitude_sound in E as (t & -> & T). exists (String "-" t). split; [reflexivity|exact T].
    - intro E. apply p_magnitude_sound in E as (t & E & T). exists t. split; [exact E|exact T].
  Qed.
  Lemma number_head t n : number_text t n -> exists c s, t = String c s /\ (is_digit c = true \/ c = "-"%char).
  Proof.
    intros [i v M L|i v M L|sg i v f x m e Hs M F X L1 L2 E].
    - destruct (magnitude_head i v M) as (c & s & -> & D). eauto.
    - eauto.
    - destruct Hs as [<-|[<-|[]]]; [|cbn [append]; eauto]. destruct (magnitude_head i v M) as (c & s & -> & D). cbn [append]. eauto.
  Qed.

  (** ** Values *)
  Lemma p_value_S n d s : p_value (S n) d s =
        match skip_ws s with
        | EmptyString => None
        | String c r =>
            if Ascii.eqb c dq then match p_chars r with Some (v, r) => Some (JStr v, r) | None => None end
            else if Ascii.eqb c "[" then
              match d with
              | O => None
              | S d =>
                  match drop_word "]" (skip_ws r) with
                  | Some r' => Some (JArr [], r')
                  | None => match p_elements n d r with Some (l, r') => Some (JArr l, r') | None => None end
                  end
              end
            else if Ascii.eqb c "{" then
              match d with
              | O => None
              | S d =>
                  match drop_word "}" (skip_ws r) with
                  | Some r' => Some (JObj [], r')
                  | None => match p_members n d r with Some (l, r') => Some (JObj (bt_extend [] l), r') | None => None end
                  end
              end
            else if Ascii.eqb c "n" then option_map (pair JNull) (drop_word "ull" r)
            else if Ascii.eqb c "t" then option_map (pair (JBool true)) (drop_word "rue" r)
            else if Ascii.eqb c "f" then option_map (pair (JBool false)) (drop_word "alse" r)
            else match p_number (String c r) with Some (x, r) => Some (JNum x, r) | None => None end
        end.
  Proof. reflexivity. Qed.
  Lemma p_elements_S n d s : p_elements (S n) d s =
        match p_value n d s with
        | None => None
        | Some (v, r) =>
            match skip_ws r with
            | String c r' =>
                if Ascii.eqb c "]" then Some ([v], r')
                else if Ascii.eqb c "," then match p_elements n d r' with Some (l, r'') => Some (v :: l, r'') | None => None end
                else None
            | EmptyString => None
            end
        end.
  Proof. reflexivity. Qed.
  Lemma p_members_S n d s : p_members (S n) d s =
        match drop_word """" (skip_ws s) with
        | None => None
        | Some r0 =>
            match p_chars r0 with
            | None => None
            | Some (k, r1) =>
                match drop_word ":" (skip_ws r1) with
                | None => None
                | Some r2 =>
                    match p_value n d r2 with
                    | None => None
                    | Some (v, r) =>
                        match skip_ws r with
                        | String c r' =>
                            if Ascii.eqb c "}" then Some ([(k, v)], r')
                            else if Ascii.eqb c "," then match p_members n d r' with Some (l, r'') => Some ((k, v) :: l, r'') | None => None end
                            else None
                        | EmptyString => None
                        end
                    end
                end
            end
        end.
  Proof. reflexivity. Qed.
  Definition starts (c : ascii) : Prop := is_ws c = false /\ c <> "]"%char /\ c <> "}"%char.
  Lemma number_starts c : is_digit c = true \/ c = "-"%char -> starts c /\
    Ascii.eqb c dq = false /\ Ascii.eqb c "[" = false /\ Ascii.eqb c "{" = false /\ Ascii.eqb c "n" = false /\ Ascii.eqb c "t" = false /\ Ascii.eqb c "f" = false.
  Proof. intros [D| ->]; [|repeat split; discriminate]. revert D. unfold starts. chars_of c; vm_compute; intro D; try discriminate D; repeat split; discriminate. Qed.
  Lemma value_head d t v : value_text d t v -> exists c s, t = String c s /\ starts c.
  Proof.
    destruct 1 as [| | |d t n T| | | | |]; try (eexists _, _; split; [reflexivity|repeat split; discriminate]).
    destruct (number_head t n T) as (c & s & -> & D). exists c, s. split; [reflexivity|]. exact (proj1 (number_starts c D)).
  Qed.
  Lemma stop_spaces w c r : spaces w -> is_ws c = true \/ In c [","; "]"; "}"]%char -> stop (w ++ String c r).
  Proof.
    intros S C. assert (K : forall c r, is_ws c = true \/ In c [","; "]"; "}"]%char -> stop (String c r)).
    { clear. intros c r [W|I]; [apply is_ws_in in W; cbn in W|cbn in I]; cbn; intuition (subst; try reflexivity; try discriminate). }
    destruct w as [|a w]; [now apply K|]. apply spaces_cons in S as [W _]. apply K. now left.
  Qed.
  Lemma stop_end w : spaces w -> stop w.
  Proof. destruct w as [|a w]; intro S; [exact I|]. apply spaces_cons in S as [W _]. exact (stop_spaces "" a w spaces_nil (or_introl W)). Qed.
  Lemma object_is l o : by_key o -> (forall k, assoc k o = assoc k (rev l)) -> bt_extend [] l = o.
  Proof.
    intros B E. apply sorted_ext; [apply bt_extend_sorted, sorted_nil|exact B|]. intro k. rewrite assoc_bt_extend, E. now destruct (assoc k (rev l)).
  Qed.
  Lemma object_of l : by_key (bt_extend [] l) /\ forall k, assoc k (bt_extend [] l) = assoc k (rev l : list (string * json)).
  Proof.
    split; [apply bt_extend_sorted, sorted_nil|]. intro k. rewrite assoc_bt_extend. now destruct (assoc k (rev l)).
  Qed.

  Lemma at_head w c r : spaces w -> is_ws c = false -> skip_ws (w ++ String c r) = String c r.
  Proof. intros S W. rewrite (skip_spaces w _ S). now apply skip_head. Qed.
  Definition value_read (d : nat) (t : string) (v : json) : Prop :=
    forall n r w, spaces w -> stop r -> 2 * String.length t + 1 <= n -> p_value n d (w ++ t ++ r) = Some (v, r).
  Definition elements_read (d : nat) (t : string) (l : list json) : Prop :=
    (exists w c s, t = (w ++ String c s)%string /\ spaces w /\ starts c) /\ forall n r, 2 * String.length t + 2 <= n -> p_elements n d (t ++ String "]" r) = Some (l, r).
  Definition members_read (d : nat) (t : string) (l : list (string * json)) : Prop :=
    (exists w c s, t = (w ++ String c s)%string /\ spaces w /\ starts c) /\ forall n r, 2 * String.length t + 2 <= n -> p_members n d (t ++ String "}" r) = Some (l, r).
  Lemma elements_step d w t w' v n c r : spaces w -> value_read d t v -> spaces w' -> 2 * String.length t + 1 <= n -> In c [","; "]"]%char ->
    p_value n d (w ++ t ++ w' ++ String c r) = Some (v, (w' ++ String c r)%string) /\ skip_ws (w' ++ String c r) = String c r.
  Proof.
    intros S V S' L C. split.
    - apply V; [exact S| |exact L]. apply stop_spaces; [exact S'|]. right. cbn in *. intuition.
    - apply at_head; [exact S'|]. destruct C as [<-|[<-|[]]]; reflexivity.
  Qed.
  Lemma members_step d w k key w1 w2 t w' v n c r : spaces w -> string_text k key -> spaces w1 -> spaces w2 -> value_read d t v -> spaces w' -> 2 * String.length t + 1 <= n -> In c [","; "}"]%char ->
    drop_word """" (skip_ws (w ++ String dq (k ++ String dq (w1 ++ String ":" (w2 ++ t ++ w' ++ String c r))))) = Some (k ++ String dq (w1 ++ String ":" (w2 ++ t ++ w' ++ String c r)))%string
    /\ p_chars (k ++ String dq (w1 ++ String ":" (w2 ++ t ++ w' ++ String c r))) = Some (key, (w1 ++ String ":" (w2 ++ t ++ w' ++ String c r))%string)
    /\ drop_word ":" (skip_ws (w1 ++ String ":" (w2 ++ t ++ w' ++ String c r))) = Some (w2 ++ t ++ w' ++ String c r)%string
    /\ p_value n d (w2 ++ t ++ w' ++ String c r) = Some (v, (w' ++ String c r)%string) /\ skip_ws (w' ++ String c r) = String c r.
  Proof.
    intros S K S1 S2 V S' L C. split; [|split; [|split; [|split]]].
    - rewrite at_head by (exact S || reflexivity). now destruct (k ++ _)%string.
    - now apply p_chars_complete.
    - rewrite at_head by (exact S1 || reflexivity). cbn. now destruct (w2 ++ _)%string.
    - apply V; [exact S2| |exact L]. apply stop_spaces; [exact S'|]. right. cbn in *. intuition.
    - apply at_head; [exact S'|]. destruct C as [<-|[<-|[]]]; reflexivity.
  Qed.
  Lemma not_closed c0 w c s : spaces w -> starts c -> In c0 ["]"; "}"]%char -> drop_word (String c0 "") (skip_ws (w ++ String c s)) = None.
  Proof.
    intros S (W & N1 & N2) C. rewrite at_head by assumption. cbn [drop_word]. destruct (Ascii.eqb_spec c0 c) as [E|]; [|reflexivity]. destruct C as [C|[C|[]]]; congruence.
  Qed.
  Lemma values_complete :
    (forall d t v, value_text d t v -> value_read d t v)
    /\ (forall d t l, elements_text d t l -> elements_read d t l)
    /\ (forall d t l, members_text d t l -> members_read d t l).
  Proof.
    apply json_text_ind; unfold value_read; fold value_read.
    - intros d n r w S T L. destruct n as [|n]; [lia|]. rewrite p_value_S. cbn [append]. now rewrite at_head by (exact S || reflexivity).
    - intros d n r w S T L. destruct n as [|n]; [lia|]. rewrite p_value_S. cbn [append]. now rewrite at_head by (exact S || reflexivity).
    - intros d n r w S T L. destruct n as [|n]; [lia|]. rewrite p_value_S. cbn [append]. now rewrite at_head by (exact S || reflexivity).
    - intros d t x N n r w S T L. destruct n as [|n]; [lia|]. pose proof (p_number_complete t x r N T) as E. destruct (number_head t x N) as (c & s & -> & D).
      destruct (number_starts c D) as ((W & _) & E1 & E2 & E3 & E4 & E5 & E6). cbn [append] in *. rewrite p_value_S. rewrite at_head by assumption. now rewrite E1, E2, E3, E4, E5, E6, E.
    - intros d t v V n r w S T L. destruct n as [|n]; [lia|]. cbn [append]. rewrite sapp_assoc. cbn [append]. rewrite p_value_S. rewrite at_head by (exact S || reflexivity). rewrite Ascii.eqb_refl. now rewrite (p_chars_complete t v V r).
    - intros d w0 S0 n r w S T L. destruct n as [|n]; [lia|]. cbn [append]. rewrite sapp_assoc. cbn [append]. rewrite p_value_S. rewrite at_head by (exact S || reflexivity). cbn [Ascii.eqb Bool.eqb]. rewrite at_head by (exact S0 || reflexivity). now destruct r.
    - intros d t l _ [(w0 & c & s & Ht & S0 & C) E] n r w S T L. destruct n as [|n]; [lia|]. cbn [append]. rewrite sapp_assoc. cbn [append]. rewrite p_value_S. rewrite at_head by (exact S || reflexivity). cbn [Ascii.eqb Bool.eqb].
      assert (drop_word "]" (skip_ws (t ++ String "]" r)) = None) as -> by (subst t; rewrite sapp_assoc; apply not_closed; [exact S0|exact C|now left]).
      rewrite E; [reflexivity|]. cbn in L. rewrite slength_app in L. cbn in L. lia.
    - intros d w0 S0 n r w S T L. destruct n as [|n]; [lia|]. cbn [append]. rewrite sapp_assoc. cbn [append]. rewrite p_value_S. rewrite at_head by (exact S || reflexivity). cbn [Ascii.eqb Bool.eqb]. rewrite at_head by (exact S0 || reflexivity). now destruct r.
    - intros d t l o _ [(w0 & c & s & Ht & S0 & C) E] B A n r w S T L. destruct n as [|n]; [lia|]. cbn [append]. rewrite sapp_assoc. cbn [append]. rewrite p_value_S. rewrite at_head by (exact S || reflexivity). cbn [Ascii.eqb Bool.eqb].
      assert (drop_word "}" (skip_ws (t ++ String "}" r)) = None) as -> by (subst t; rewrite sapp_assoc; apply not_closed; [exact S0|exact C|right; now left]).
      rewrite E; [now rewrite (object_is l o B A)|]. cbn in L. rewrite slength_app in L. cbn in L. lia.
    - intros d w t w' v S V IV S'. destruct (value_head _ _ _ V) as (c & s & -> & C). split; [exists w, c, (s ++ w')%string; cbn; auto|].
      intros n r L. destruct n as [|n]; [lia|]. rewrite !sapp_assoc. cbn [append]. rewrite p_elements_S. rewrite !slength_app in L. destruct (elements_step d w (String c s) w' v n "]" r S IV S' ltac:(lia) ltac:(cbn; tauto)) as [X Y]. cbn [append] in X. repeat (rewrite ?sapp_assoc; cbn [append]). rewrite X, Y. reflexivity.
    - intros d w t w' v r0 l S V IV S' R (_ & IR). destruct (value_head _ _ _ V) as (c & s & -> & C). split; [exists w, c, (s ++ w' ++ String "," r0)%string; cbn; auto|].
      intros n r L. destruct n as [|n]; [lia|]. rewrite !sapp_assoc. cbn [append]. rewrite p_elements_S. rewrite !slength_app in L. cbn [String.length] in L.
      destruct (elements_step d w (String c s) w' v n "," (r0 ++ String "]" r) S IV S' ltac:(cbn; lia) ltac:(cbn; tauto)) as [X Y]. cbn [append] in X. repeat (rewrite ?sapp_assoc; cbn [append]). rewrite X, Y. cbn [Ascii.eqb Bool.eqb]. rewrite IR; [reflexivity|lia].
    - intros d w k key w1 w2 t w' v S K S1 S2 V IV S'. split; [eexists w, dq, _; split; [reflexivity|]; split; [exact S|repeat split; discriminate]|].
      intros n r L. destruct n as [|n]; [lia|]. repeat (rewrite ?sapp_assoc; cbn [append]). rewrite p_members_S. repeat (rewrite ?slength_app in L; cbn [String.length] in L).
      destruct (members_step d w k key w1 w2 t w' v n "}" r S K S1 S2 IV S' ltac:(lia) ltac:(cbn; tauto)) as (-> & -> & -> & -> & ->). reflexivity.
    - intros d w k key w1 w2 t w' v r0 l S K S1 S2 V IV S' R (_ & IR). split; [eexists w, dq, _; split; [reflexivity|]; split; [exact S|repeat split; discriminate]|].
      intros n r L. destruct n as [|n]; [lia|]. repeat (rewrite ?sapp_assoc; cbn [append]). rewrite p_members_S. repeat (rewrite ?slength_app in L; cbn [String.length] in L).
      destruct (members_step d w k key w1 w2 t w' v n "," (r0 ++ String "}" r) S K S1 S2 IV S' ltac:(lia) ltac:(cbn; tauto)) as (-> & -> & -> & -> & ->). cbn [Ascii.eqb Bool.eqb]. rewrite IR; [reflexivity|lia].
  Qed.
  Lemma plain_complete w t w' j : spaces w -> value_text 127 t j -> spaces w' -> parse_plain (w ++ t ++ w') = Some j.
  Proof.
    intros S V S'. unfold parse_plain. rewrite (proj1 values_complete _ _ _ V); [|exact S|now apply stop_end|rewrite !slength_app; lia].
    rewrite <- (app_empty w'), (skip_spaces w' "" S'). reflexivity.
  Qed.

  Lemma values_sound n : forall d,
    (forall s v r, p_value n d s = Some (v, r) -> exists w t, s = (w ++ t ++ r)%string /\ spaces w /\ value_text d t v)
    /\ (forall s l r, p_elements n d s = Some (l, r) -> exists t, s = (t ++ String "]" r)%string /\ elements_text d t l)
    /\ (forall s l r, p_members n d s = Some (l, r) -> exists t, s = (t ++ String "}" r)%string /\ members_text d t l).
  Proof.
    induction n as [|n IH]; intro d; [repeat split; intros; discriminate|]. split; [|split].
    - intros s v r E. rewrite p_value_S in E. destruct (skip_split s) as (w & S & Es). destruct (skip_ws s) as [|c s'] eqn:Ek; [discriminate|]. clear Ek. subst s.
      destruct (Ascii.eqb_spec c dq) as [->|N1]; [|destruct (Ascii.eqb_spec c "[") as [->|N2]; [|destruct (Ascii.eqb_spec c "{") as [->|N3]; [|destruct (Ascii.eqb_spec c "n") as [->|N4]; [|destruct (Ascii.eqb_spec c "t") as [->|N5]; [|destruct (Ascii.eqb_spec c "f") as [->|N6]]]]]].
      + destruct (p_chars s') as [[x r']|] eqn:Ec; [|discriminate]. injection E as <- <-. apply p_chars_sound in Ec as (t & -> & T). exists w, (String dq (t ++ String dq "")). split; [|split; [exact S|now constructor]]. cbn. now rewrite sapp_assoc.
      + destruct d as [|d]; [discriminate|]. destruct (drop_word "]" (skip_ws s')) as [r'|] eqn:Ed.
        * injection E as <- <-. apply drop_word_some in Ed. destruct (skip_split s') as (w' & S' & Es). rewrite Ed in Es. subst s'. exists w, (String "[" (w' ++ "]")). split; [cbn; now rewrite sapp_assoc|]. split; [exact S|now constructor].
        * destruct (p_elements n d s') as [[l r']|] eqn:Ee; [|discriminate]. injection E as <- <-. apply (proj1 (proj2 (IH d))) in Ee as (t & -> & T). exists w, (String "[" (t ++ "]")). split; [cbn; now rewrite sapp_assoc|]. split; [exact S|now constructor].
      + destruct d as [|d]; [discriminate|]. destruct (drop_word "}" (skip_ws s')) as [r'|] eqn:Ed.
        * injection E as <- <-. apply drop_word_some in Ed. destruct (skip_split s') as (w' & S' & Es). rewrite Ed in Es. subst s'. exists w, (String "{" (w' ++ "}")). split; [cbn; now rewrite sapp_assoc|]. split; [exact S|now constructor].
        * destruct (p_members n d s') as [[l r']|] eqn:Ee; [|discriminate]. injection E as <- <-. apply (proj2 (proj2 (IH d))) in Ee as (t & -> & T). exists w, (String "{" (t ++ "}")). split; [cbn; now rewrite sapp_assoc|]. split; [exact S|].
          destruct (object_of l) as [B A]. exact (vt_object d t l _ T B A).
      + destruct (drop_word "ull" s') as [r'|] eqn:Ed; [|discriminate]. injection E as <- <-. apply drop_word_some in Ed. subst. exists w, "null". split; [reflexivity|]. split; [exact S|constructor].
      + destruct (drop_word "rue" s') as [r'|] eqn:Ed; [|discriminate]. injection E as <- <-. apply drop_word_some in Ed. subst. exists w, "true". split; [reflexivity|]. split; [exact S|constructor].
      + destruct (drop_word "alse" s') as [r'|] eqn:Ed; [|discriminate]. injection E as <- <-. apply drop_word_some in Ed. subst. exists w, "false". split; [reflexivity|]. split; [exact S|constructor].
      + destruct (p_number (String c s')) as [[x r']|] eqn:Ed; [|discriminate]. injection E as <- <-. apply p_number_sound in Ed as (t & -> & T). exists w, t. split; [reflexivity|]. split; [exact S|now constructor].
    - intros s l r E. rewrite p_elements_S in E. destruct (p_value n d s) as [[v r1]|] eqn:Ev; [|discriminate]. apply (proj1 (IH d)) in Ev as (w & t & -> & S & V).
      destruct (skip_split r1) as (w' & S' & Es). destruct (skip_ws r1) as [|c r2]; [discriminate|]. subst r1.
      destruct (Ascii.eqb_spec c "]") as [->|N1]; [|destruct (Ascii.eqb_spec c ",") as [->|]; [|discriminate]].
      + injection E as <- <-. exists (w ++ t ++ w')%string. split; [now rewrite !sapp_assoc|now constructor].
      + destruct (p_elements n d r2) as [[l' r3]|] eqn:Ee; [|discriminate]. injection E as <- <-. apply (proj1 (proj2 (IH d))) in Ee as (t' & -> & T).
        exists (w ++ t ++ w' ++ String "," t')%string. split; [rewrite !sapp_assoc; reflexivity|now constructor].
    - intros s l r E. rewrite p_members_S in E. destruct (skip_split s) as (w & S & Es). destruct (drop_word """" (skip_ws s)) as [r0|] eqn:E0; [|discriminate]. apply drop_word_some in E0. rewrite E0 in Es. subst s. clear E0.
      destruct (p_chars r0) as [[k r1]|] eqn:Ek; [|discriminate]. apply p_chars_sound in Ek as (kt & -> & K).
      destruct (skip_split r1) as (w1 & S1 & Es). destruct (drop_word ":" (skip_ws r1)) as [r2|] eqn:E2; [|discriminate]. apply drop_word_some in E2. rewrite E2 in Es. subst r1. clear E2.
      destruct (p_value n d r2) as [[v r3]|] eqn:Ev; [|discriminate]. apply (proj1 (IH d)) in Ev as (w2 & t & -> & S2 & V).
      destruct (skip_split r3) as (w' & S' & Es). destruct (skip_ws r3) as [|c r4]; [discriminate|]. subst r3.
      destruct (Ascii.eqb_spec c "}") as [->|N1]; [|destruct (Ascii.eqb_spec c ",") as [->|]; [|discriminate]].
      + injection E as <- <-. exists (w ++ String dq (kt ++ String dq (w1 ++ String ":" (w2 ++ t ++ w'))))%string. split; [repeat (rewrite ?sapp_assoc; cbn [append]); reflexivity|now constructor].
      + destruct (p_members n d r4) as [[l' r5]|] eqn:Ee; [|discriminate]. injection E as <- <-. apply (proj2 (proj2 (IH d))) in Ee as (t' & -> & T).
        exists (w ++ String dq (kt ++ String dq (w1 ++ String ":" (w2 ++ t ++ w' ++ String "," t'))))%string. split; [repeat (rewrite ?sapp_assoc; cbn [append]); reflexivity|now constructor].
  Qed.
  Lemma read_iff text j : parse_json_with_comments text = Some j <-> json_text 127 text j.
  Proof.
    unfold parse_json_with_comments, json_text. split.
    - intro E. destruct (strip Top text) as [p|] eqn:Es; [|discriminate]. apply strip_sound in Es. unfold parse_plain in E. destruct (p_value _ _ p) as [[v r]|] eqn:Ev; [|discriminate].
      destruct (skip_ws r) eqn:Er; [|discriminate]. injection E as <-. apply (proj1 (values_sound _ _)) in Ev as (w & t & -> & S & V). exists (w ++ t ++ r)%string, w, t, r. repeat split; auto. now apply skip_only.
    - intros (p & w & t & w' & U & -> & S & V & S'). rewrite (strip_complete _ _ U). now apply plain_complete.
  Qed.
End Values.
