(** The literals the lexer cuts are the ones the literal parsers know. *)
From Verif Require Import FloatText FloatProofs LiteralsProofs.
From Verif Require Import SpecJsonText.
From Verif Require Export SpecFloatText FloatTextProofs SpecLexer.
Local Open Scope Z_scope.

Lemma of_chars_app a b : of_chars (a ++ b) = (of_chars a ++ of_chars b)%string.
Proof.
  unfold of_chars, string_of_bytes. rewrite flat_map_app, map_app. induction (map ascii_of_N (flat_map utf8_encode_char a)) as [|c l IH]; [reflexivity|]. cbn. now rewrite IH.
Qed.
Lemma of_char c : (c < 128)%N -> of_chars [c] = String (ascii_of_N c) "".
Proof. intro L. unfold of_chars, flat_map, utf8_encode_char. apply N.ltb_lt in L. now rewrite L. Qed.

(** Codes of characters, one by one *)
Lemma a_digit_value s : a_digit s -> exists c d, of_chars s = String c "" /\ to_digit 10 c = Some d.
Proof.
  intros (c & -> & L). rewrite of_char by lia. exists (ascii_of_N c).
  assert (exists d, to_digit 10 (ascii_of_N c) = Some d) as [d E]; [|eauto]. exists (c - 48)%N.
  assert (D : exists n, c = (48 + N.of_nat n)%N /\ (n < 10)%nat) by (exists (N.to_nat (c - 48)); lia). destruct D as (n & -> & Ln).
  do 10 (destruct n as [|n]; [reflexivity|]). lia.
Qed.
Lemma octal_value s : octal s -> exists c d, of_chars s = String c "" /\ to_digit 8 c = Some d.
Proof.
  intros (c & -> & L). rewrite of_char by lia. exists (ascii_of_N c), (c - 48)%N. split; [reflexivity|].
  assert (D : exists n, c = (48 + N.of_nat n)%N /\ (n < 8)%nat) by (exists (N.to_nat (c - 48)); lia). destruct D as (n & -> & Ln).
  do 8 (destruct n as [|n]; [reflexivity|]). lia.
Qed.
Lemma hexadecimal_value s : hexadecimal s -> exists c d, of_chars s = String c "" /\ to_digit 16 c = Some d.
Proof.
  intros [[(c & -> & L)|(c & -> & L)]|(c & -> & L)]; rewrite of_char by lia; exists (ascii_of_N c).
  - exists (c - 48)%N. split; [reflexivity|].
    assert (D : exists n, c = (48 + N.of_nat n)%N /\ (n < 10)%nat) by (exists (N.to_nat (c - 48)); lia). destruct D as (n & -> & Ln).
    do 10 (destruct n as [|n]; [reflexivity|]). lia.
  - exists (c - 55)%N. split; [reflexivity|].
    assert (D : exists n, c = (65 + N.of_nat n)%N /\ (n < 6)%nat) by (exists (N.to_nat (c - 65)); lia). destruct D as (n & -> & Ln).
    do 6 (destruct n as [|n]; [reflexivity|]). lia.
  - exists (c - 87)%N. split; [reflexivity|].
    assert (D : exists n, c = (97 + N.of_nat n)%N /\ (n < 6)%nat) by (exists (N.to_nat (c - 97)); lia). destruct D as (n & -> & Ln).
    do 6 (destruct n as [|n]; [reflexivity|]). lia.
Qed.
Lemma many_digits base (P : texts) s a : (forall x, P x -> exists c d, of_chars x = String c "" /\ to_digit base c = Some d) -> many P s ->
  exists v, digits_value base (of_chars s) a = Some v.
Proof.
  intros HP H. revert a. induction H as [|x s Hx H IH]; intro a; [exists a; reflexivity|].
  rewrite of_chars_app. destruct (HP x Hx) as (c & d & -> & E). cbn. rewrite E. apply IH.
Qed.
Lemma some_digits base (P : texts) s : (base <= 16)%N -> (forall x, P x -> exists c d, of_chars x = String c "" /\ to_digit base c = Some d) -> some_of P s ->
  exists v, spells base (of_chars s) v.
Proof.
  intros B HP (x & y & -> & Hx & Hy). destruct (HP x Hx) as (c & d & Ex & E).
  rewrite of_chars_app, Ex. destruct (many_digits base P y d HP Hy) as [v Ev]. exists v. apply spells_digits; [exact B|].
  split; [discriminate|]. cbn. now rewrite E.
Qed.
Lemma spelled_text w s : spelled w s -> of_chars s = of_chars (chars w).
Proof. now intros ->. Qed.

Lemma integer_denotes u : integer u -> exists z, int_literal (of_chars u) z.
Proof.
  intros (sg & r & -> & Hs & m & suf & -> & Hm & Hsuf). rewrite !of_chars_app.
  assert (Su : suffix (of_chars suf)) by (destruct Hsuf as [->|[->| ->]]; vm_compute; tauto).
  assert (Ma : exists v, magnitude (of_chars m) v).
  { destruct Hm as [[(a & b & -> & Ha & Hb)|(a & b & -> & -> & x & h & -> & Hx & Hh)]|(a & b & -> & -> & Ho)].
    - assert (Da : a_digit a) by (destruct Ha as (c & -> & L); exists c; split; [reflexivity|lia]).
      destruct (some_digits 10 a_digit (a ++ b) ltac:(lia) a_digit_value (ex_intro _ a (ex_intro _ b (conj eq_refl (conj Da Hb))))) as [v S].
      exists v. apply mag_dec. rewrite of_chars_app in *. destruct Ha as (c & -> & L). rewrite of_char in * by lia. cbn [String.append] in *. apply dm_dec; [|exact S].
      intro E. apply (f_equal N_of_ascii) in E. rewrite N_ascii_embedding in E by lia. subst c. cbn in L. lia.
    - destruct (some_digits 16 hexadecimal h ltac:(lia) hexadecimal_value Hh) as [v S]. exists v. rewrite !of_chars_app.
      destruct Hx as [->| ->]; (apply mag_hex; [cbn; tauto|exact S]).
    - rewrite of_chars_app. destruct Ho as [|x y Hx Hy]; [exists 0%N; apply mag_dec, dm_zero|].
      destruct (some_digits 8 octal (x ++ y) ltac:(lia) octal_value (ex_intro _ x (ex_intro _ y (conj eq_refl (conj Hx Hy))))) as [v S].
      exists v. now apply mag_oct. }
  destruct Ma as [v Ma]. destruct Hs as [->| ->].
  - exists (Z.of_N v). exact (il_pos (of_chars m) v (of_chars suf) Ma Su).
  - exists (- Z.of_N v). now apply (il_neg (of_chars m) v (of_chars suf)).
Qed.

(** ** Floating point *)
Lemma exponent_denotes (mark : texts) marks s : (forall x, mark x -> exists c, of_chars x = String c "" /\ In c marks) -> exponent mark s -> exists x, exponent_of marks (of_chars s) x.
Proof.
  intros HM (m & r & -> & Hm & sg & d & -> & Hs & Hd). rewrite !of_chars_app. destruct (HM m Hm) as (c & -> & Hc).
  destruct (some_digits 10 a_digit d ltac:(lia) a_digit_value Hd) as [v S].
  destruct Hs as [->|[->| ->]]; eexists; [eapply eo_plain|eapply eo_plus|eapply eo_minus]; eassumption.
Qed.
Lemma size_denotes s : maybe size_letter s -> size_suffix (of_chars s).
Proof. intros [->|(c & -> & Hc)]; [left; reflexivity|]. cbn in Hc. repeat (destruct Hc as [<-|Hc]; [vm_compute; tauto|]). destruct Hc. Qed.
Lemma e_mark x : (either (spelled "e") (spelled "E")) x -> exists c, of_chars x = String c "" /\ In c ["e"; "E"]%char.
Proof. intros [->| ->]; eexists; (split; [reflexivity|cbn; tauto]). Qed.
Lemma p_mark x : (either (spelled "p") (spelled "P")) x -> exists c, of_chars x = String c "" /\ In c ["p"; "P"]%char.
Proof. intros [->| ->]; eexists; (split; [reflexivity|cbn; tauto]). Qed.
Lemma maybe_exponent s : maybe (exponent (either (spelled "e") (spelled "E"))) s ->
  exists x, of_chars s = EmptyString /\ x = 0 \/ exponent_of ["e"; "E"]%char (of_chars s) x.
Proof. intros [->|H]; [exists 0; auto|]. destruct (exponent_denotes _ _ _ e_mark H) as [x E]. eauto. Qed.
Lemma spells_join base (P : texts) a b : (base <= 16)%N -> (forall x, P x -> exists c d, of_chars x = String c "" /\ to_digit base c = Some d) ->
  many P a -> many P b -> (of_chars a ++ of_chars b)%string <> EmptyString -> exists v, spells base (of_chars a ++ of_chars b) v.
Proof.
  intros B HP Ha Hb Ne. destruct (many_digits base P a 0 HP Ha) as [v Ea]. destruct (many_digits base P b v HP Hb) as [w Eb]. exists w.
  apply spells_digits; [exact B|]. split; [exact Ne|]. now rewrite digits_value_app, Ea.
Qed.
Lemma some_many P s : some_of P s -> many P s.
Proof. intros (x & y & -> & Hx & Hy). now constructor. Qed.
Lemma some_nonempty base (P : texts) s : (forall x, P x -> exists c d, of_chars x = String c "" /\ to_digit base c = Some d) -> some_of P s -> of_chars s <> EmptyString.
Proof. intros HP (x & y & -> & Hx & Hy). rewrite of_chars_app. destruct (HP x Hx) as (c & d & -> & _). discriminate. Qed.
Lemma app_nonempty a b : a <> EmptyString \/ b <> EmptyString -> (a ++ b)%string <> EmptyString.
Proof. intros [H|H]; destruct a; cbn; congruence. Qed.

Lemma decimal_float_text u : decimal_float u -> exists v places x, decimal_text (of_chars u) v places x.
Proof.
  assert (D : forall ip fp dot e sz, many a_digit ip -> many a_digit fp -> (of_chars ip ++ of_chars fp)%string <> EmptyString -> point dot (of_chars fp) ->
    maybe (exponent (either (spelled "e") (spelled "E"))) e -> maybe size_letter sz ->
    exists v places x, decimal_text (of_chars ip ++ dot ++ of_chars fp ++ of_chars e ++ of_chars sz) v places x).
  { intros ip fp dot e sz Hi Hf Ne Pt He Hs. destruct (spells_join 10 a_digit ip fp ltac:(lia) a_digit_value Hi Hf Ne) as [v S].
    destruct (maybe_exponent e He) as [x X]. exists v, (String.length (of_chars fp)), x. apply dt; try assumption. now apply size_denotes. }
  intros [[[(ip & r & -> & Hi & p & r2 & -> & -> & fp & r3 & -> & Hf & e & sz & -> & He & Hs)
           |(p & r2 & -> & -> & fp & r3 & -> & Hf & e & sz & -> & He & Hs)]
          |(ip & r & -> & Hi & e & sz & -> & He & Hs)]
         |(ip & sz & -> & Hi & Hs)]; rewrite !of_chars_app.
  - apply (D ip fp "."%string e sz); try assumption; [now apply some_many| |now left].
    apply app_nonempty. left. now apply (some_nonempty 10 a_digit ip a_digit_value).
  - apply (D [] fp "."%string e sz); try assumption; [constructor|now apply some_many| |now left].
    apply app_nonempty. right. now apply (some_nonempty 10 a_digit fp a_digit_value).
  - apply (D ip [] ""%string e sz); try assumption; [now apply some_many|constructor| |now right|now right].
    apply app_nonempty. left. now apply (some_nonempty 10 a_digit ip a_digit_value).
  - apply (D ip [] ""%string [] sz); [now apply some_many|constructor| |now right|now left|now right].
    apply app_nonempty. left. now apply (some_nonempty 10 a_digit ip a_digit_value).
Qed.
Lemma hexadecimal_float_text u : hexadecimal_float u -> exists v places x, hexadecimal_text (of_chars u) v places x.
Proof.
  intros (z & r & -> & -> & xx & r2 & -> & Hx & m & r3 & -> & Hm & e & sz & -> & He & Hs). rewrite !of_chars_app.
  destruct (exponent_denotes _ _ _ p_mark He) as [x X].
  assert (Xc : exists c, of_chars xx = String c "" /\ In c ["x"; "X"]%char) by (destruct Hx as [->| ->]; eexists; (split; [reflexivity|cbn; tauto])).
  destruct Xc as (c & -> & Hc).
  assert (M : exists ip dot fp v, of_chars m = (ip ++ dot ++ fp)%string /\ spells 16 (ip ++ fp) v /\ point dot fp).
  { destruct Hm as [(ip & d & -> & Hi & Hd)|(ip & r & -> & Hi & p & fp & -> & -> & Hf)]; rewrite !of_chars_app.
    - destruct (some_digits 16 hexadecimal ip ltac:(lia) hexadecimal_value Hi) as [v S].
      destruct Hd as [->| ->].
      + exists (of_chars ip), "", "", v. split; [reflexivity|]. split; [now rewrite app_empty_r|]. right. auto.
      + exists (of_chars ip), ".", "", v. split; [reflexivity|]. split; [now rewrite app_empty_r|]. now left.
    - destruct (spells_join 16 hexadecimal ip fp ltac:(lia) hexadecimal_value Hi (some_many _ _ Hf)) as [v S].
      + apply app_nonempty. right. now apply (some_nonempty 16 hexadecimal fp hexadecimal_value).
      + exists (of_chars ip), ".", (of_chars fp), v. split; [reflexivity|]. split; [exact S|]. now left. }
  destruct M as (ip & dot & fp & v & -> & S & Pt). exists v, (String.length fp), x.
  replace (of_chars (chars "0") ++ String c "" ++ (ip ++ dot ++ fp) ++ of_chars e ++ of_chars sz)%string with (String "0" (String c (ip ++ dot ++ fp ++ of_chars e ++ of_chars sz)))
    by (change (of_chars (chars "0")) with "0"; cbn [String.append]; now rewrite !str_assoc).
  apply ht; try assumption. now apply size_denotes.
Qed.
Lemma floating_text u : floating u -> exists sg z t, sign_of sg z /\ of_chars u = (sg ++ t)%string /\
  (In t ["NaN"; "Infinity"] \/ exists v places x, decimal_text t v places x \/ hexadecimal_text t v places x).
Proof.
  intros (s & r & -> & Hs & Hr). rewrite of_chars_app.
  assert (Sg : exists z, sign_of (of_chars s) z) by (destruct Hs as [->|[->| ->]]; eexists; [left|right; left|right; right; left]; reflexivity).
  destruct Sg as [z Sg]. exists (of_chars s), z, (of_chars r). split; [exact Sg|]. split; [reflexivity|].
  destruct Hr as [[[->| ->]|Hd]|Hh]; [left; vm_compute; tauto|left; vm_compute; tauto| |]; right.
  - destruct (decimal_float_text r Hd) as (v & p & x & T). eauto 6.
  - destruct (hexadecimal_float_text r Hh) as (v & p & x & T). eauto 6.
Qed.

(** ** Strings *)
Lemma octal_code s : octal s -> exists c d, s = [c] /\ octal_digit c d.
Proof. intros (c & -> & L). exists c, (c - 48)%N. split; [reflexivity|]. replace c with (48 + (c - 48))%N at 1 by lia. constructor. lia. Qed.
Lemma hexadecimal_code s : hexadecimal s -> exists c d, s = [c] /\ hexadecimal_digit c d.
Proof.
  intros [[(c & -> & L)|(c & -> & L)]|(c & -> & L)]; exists c.
  - exists (c - 48)%N. split; [reflexivity|]. replace c with (48 + (c - 48))%N at 1 by lia. apply hd_digit. lia.
  - exists (c - 55)%N. split; [reflexivity|]. replace c with (55 + (c - 55))%N at 1 by lia. apply hd_upper. lia.
  - exists (c - 87)%N. split; [reflexivity|]. replace c with (87 + (c - 87))%N at 1 by lia. apply hd_lower. lia.
Qed.
Lemma four_hex_below h v : four_hex h v -> (v < 65536)%N.
Proof.
  assert (D : forall c d, hexadecimal_digit c d -> (d < 16)%N) by (intros c d []; lia).
  intros [c3 c2 c1 c0 d3 d2 d1 d0 H3 H2 H1 H0]. apply D in H3, H2, H1, H0. lia.
Qed.
Lemma string_body l : many string_char l -> body l \/ surrogate_escape l.
Proof.
  assert (K : forall x l, surrogate_escape l -> surrogate_escape (x ++ l)).
  { intros x l0 (a & h & v & b & -> & Hh & Hv). exists (x ++ a), h, v, b. rewrite <- app_assoc. auto. }
  induction 1 as [|x l Hx H IH]; [left; constructor|].
  destruct IH as [IH|IH]; [|right; now apply K].
  destruct Hx as [[[[[(c & -> & Hc)|(b & e & -> & -> & c & -> & Hc)]|(b & o & -> & -> & Ho)]|(b & r & -> & -> & o1 & o0 & -> & Ho1 & Ho0)]
                    |(b & r & -> & -> & o2 & r2 & -> & Ho2 & o1 & o0 & -> & Ho1 & Ho0)]
                  |(b & r & -> & -> & u & r2 & -> & -> & h3 & r3 & -> & H3 & h2 & r4 & -> & H2 & h1 & h0 & -> & H1 & H0)].
  - left. cbn [app]. apply bo_plain; [|exact IH]. intro F. apply Hc. cbn in *. tauto.
  - left. cbn [app]. unfold quote, backslash in Hc. cbn in Hc.
    assert (E : exists d, In (c, d) simple_escapes).
    { repeat (destruct Hc as [<-|Hc]; [eexists; cbn; tauto|]). destruct Hc. }
    destruct E as [d E]. now apply (bo_simple c d).
  - left. destruct (octal_code o Ho) as (c & d & -> & Hd). cbn. now apply (bo_octal1 c d).
  - left. destruct (octal_code _ Ho1) as (c1 & d1 & -> & Hd1). destruct (octal_code _ Ho0) as (c0 & d0 & -> & Hd0). cbn. now apply (bo_octal2 c1 c0 d1 d0).
  - left. destruct Ho2 as (c2 & -> & L). destruct (octal_code _ Ho1) as (c1 & d1 & -> & Hd1). destruct (octal_code _ Ho0) as (c0 & d0 & -> & Hd0). cbn.
    apply (bo_octal3 c2 c1 c0 (c2 - 48) d1 d0)%N; try assumption; [|lia]. replace c2 with (48 + (c2 - 48))%N at 1 by lia. constructor. lia.
  - destruct (hexadecimal_code _ H3) as (c3 & d3 & -> & D3). destruct (hexadecimal_code _ H2) as (c2 & d2 & -> & D2).
    destruct (hexadecimal_code _ H1) as (c1 & d1 & -> & D1). destruct (hexadecimal_code _ H0) as (c0 & d0 & -> & D0).
    pose proof (fh _ _ _ _ _ _ _ _ D3 D2 D1 D0) as F. set (v := (d3 * 4096 + d2 * 256 + d1 * 16 + d0)%N) in F. clearbody v.
    change (body (92 :: 117 :: [c3; c2; c1; c0] ++ l)%N \/ surrogate_escape (92 :: 117 :: [c3; c2; c1; c0] ++ l)%N).
    pose proof (four_hex_below _ _ F).
    destruct (N.le_gt_cases 55296 v) as [L|L]; [destruct (N.le_gt_cases v 57343) as [U|U]|].
    + right. exists [], [c3; c2; c1; c0], v, l. auto.
    + left. apply (bo_unicode _ v); [exact F|unfold scalar; lia|exact IH].
    + left. apply (bo_unicode _ v); [exact F|unfold scalar; lia|exact IH].
Qed.
Lemma string_token u : string_literal u -> exists l, u = quote :: l ++ [quote] /\ (body l \/ surrogate_escape l).
Proof. intros (a & r & -> & -> & l & b & -> & Hl & ->). exists l. split; [reflexivity|]. now apply string_body. Qed.
