(** Comments in JSON files are found. *)
From Verif Require Import JsonFile SpecJsonFile.
From Coq Require Import Lia.

Local Notation dq := """"%char.
Local Notation bs := "\"%char.
Definition no_end (b : string) : Prop := forall x y, b <> (x ++ "*/" ++ y)%string.
Definition slash_first (b : string) : Prop := exists r, b = String "/" r.
Lemma no_end_nil : no_end "".
Proof. intros [|] y; discriminate. Qed.
Lemma no_end_cons c b : no_end (String c b) <-> no_end b /\ ~ (c = "*"%char /\ slash_first b).
Proof.
  split.
  - intro N. split; [intros x y E; apply (N (String c x) y); cbn; now f_equal|]. intros [-> (r & ->)]. apply (N "" r). reflexivity.
  - intros [N F] [|c' x] y E; cbn in E; injection E as -> E; [apply F; split; [reflexivity|exists y; exact E]|exact (N x y E)].
Qed.
Lemma omap_omap {A B C} (f : A -> B) (g : B -> C) o : option_map g (option_map f o) = option_map (fun x => g (f x)) o.
Proof. now destruct o. Qed.
Lemma omap_ext {A B} (f g : A -> B) o : (forall x, f x = g x) -> option_map f o = option_map g o.
Proof. intro E. destruct o; cbn; [now rewrite E|reflexivity]. Qed.
Lemma omap_some {A B} (f : A -> B) o y : option_map f o = Some y -> exists x, o = Some x /\ y = f x.
Proof. destruct o as [x|]; intro E; [injection E as <-; eauto|discriminate]. Qed.
Lemma sapp_assoc (a b c : string) : ((a ++ b) ++ c = a ++ b ++ c)%string.
Proof. induction a; cbn; congruence. Qed.
Lemma slength_app (a b : string) : String.length (a ++ b) = String.length a + String.length b.
Proof. induction a; cbn; congruence. Qed.

Lemma strip_string b s : quoted b -> strip InString (b ++ String dq s) = option_map (fun p => b ++ String dq p)%string (strip Top s).
Proof.
  induction 1 as [|c b N1 N2 Q IH|c b Q IH]; cbn [append].
  - cbn. apply omap_ext. reflexivity.
  - cbn [strip]. destruct (Ascii.eqb_spec c dq); [congruence|]. destruct (Ascii.eqb_spec c bs); [congruence|]. rewrite IH, omap_omap. reflexivity.
  - cbn [strip]. replace (Ascii.eqb bs dq) with false by reflexivity. rewrite Ascii.eqb_refl, IH, !omap_omap. reflexivity.
Qed.
Lemma strip_block b s : no_end b ->
  strip InBlock (b ++ "*/" ++ s) = option_map (fun p => blanks (2 + String.length b) ++ p)%string (strip Top s)
  /\ (~ slash_first b -> strip MaybeEnd (b ++ "*/" ++ s) = option_map (fun p => blanks (2 + String.length b) ++ p)%string (strip Top s)).
Proof.
  induction b as [|c b IH]; intro N.
  - split; [|intros _]; cbn; rewrite !omap_omap; reflexivity.
  - apply no_end_cons in N as [N F]. destruct (IH N) as [I1 I2].
    assert (Star : c = "*"%char -> strip MaybeEnd (b ++ "*/" ++ s) = option_map (fun p => blanks (2 + String.length b) ++ p)%string (strip Top s)) by (intro E; apply I2; intro X; now apply F).
    set (t := ("*/" ++ s)%string) in *. clearbody t.
    change (blanks (2 + String.length (String c b))) with (String " " (blanks (2 + String.length b))). split.
    + cbn [append strip]. destruct (Ascii.eqb_spec c "*"); [rewrite Star by assumption|rewrite I1]; rewrite omap_omap; apply omap_ext; reflexivity.
    + intro NS. cbn [append strip]. destruct (Ascii.eqb_spec c "/") as [->|]; [exfalso; apply NS; now exists b|]. destruct (Ascii.eqb_spec c "*"); [rewrite Star by assumption|rewrite I1]; rewrite omap_omap; apply omap_ext; reflexivity.
Qed.
Lemma strip_line b s : ~ In "010"%char (list_ascii_of_string b) -> line_follows s ->
  strip InLine (b ++ s) = option_map (fun p => blanks (String.length b) ++ p)%string (strip Top s).
Proof.
  intros N F. induction b as [|c b IH]; cbn [append String.length blanks].
  - destruct F as [->|(r & ->)]; [reflexivity|]. cbn. rewrite omap_omap. apply omap_ext. reflexivity.
  - cbn [list_ascii_of_string In] in N. cbn [strip]. destruct (Ascii.eqb_spec c "010") as [->|]; [exfalso; apply N; now left|]. rewrite IH by tauto. rewrite omap_omap. apply omap_ext. reflexivity.
Qed.
Lemma strip_complete text plain : uncommented text plain -> strip Top text = Some plain.
Proof.
  induction 1 as [|c s p N1 N2 U IH|b s p Q U IH|b s p N U IH|b s p N F U IH].
  - reflexivity.
  - cbn [strip]. destruct (Ascii.eqb_spec c dq); [congruence|]. destruct (Ascii.eqb_spec c "/"); [congruence|]. now rewrite IH.
  - cbn [strip]. rewrite Ascii.eqb_refl, (strip_string b s Q), IH. reflexivity.
  - assert (E : strip Top ("/*" ++ b ++ "*/" ++ s) = option_map (String " ") (option_map (String " ") (strip InBlock (b ++ "*/" ++ s)))) by reflexivity.
    rewrite E, (proj1 (strip_block b s N)), IH. reflexivity.
  - assert (E : strip Top ("//" ++ b ++ s) = option_map (String " ") (option_map (String " ") (strip InLine (b ++ s)))) by reflexivity.
    rewrite E, (strip_line b s N F), IH. reflexivity.
Qed.

Definition ended (st : strip_state) (s p : string) : Prop :=
  match st with
  | Top => True
  | InString => exists b s' p', quoted b /\ s = (b ++ String dq s')%string /\ p = (b ++ String dq p')%string /\ strip Top s' = Some p'
  | StringEscape => exists c b s' p', quoted b /\ s = String c (b ++ String dq s') /\ p = String c (b ++ String dq p') /\ strip Top s' = Some p'
  | InComment => True
  | InBlock => exists b s' p', no_end b /\ s = (b ++ "*/" ++ s')%string /\ p = (blanks (2 + String.length b) ++ p')%string /\ strip Top s' = Some p'
  | MaybeEnd => exists b s' p', no_end b /\ String "*" s = (b ++ "*/" ++ s')%string /\ p = (blanks (1 + String.length b) ++ p')%string /\ strip Top s' = Some p'
  | InLine => exists b s' p', ~ In "010"%char (list_ascii_of_string b) /\ line_follows s' /\ s = (b ++ s')%string /\ p = (blanks (String.length b) ++ p')%string /\ strip Top s' = Some p'
  end.
Lemma strip_ended s : forall st p, strip st s = Some p -> ended st s p.
Proof.
  induction s as [|c s IH]; intros st p E.
  - destruct st; try discriminate; cbn; [exact I|]. injection E as <-. exists "", "", "". cbn. repeat split; auto. now left.
  - destruct st; cbn [strip] in E; cbn [ended]; try exact I.
    + destruct (Ascii.eqb_spec c dq) as [->|N1]; [|destruct (Ascii.eqb_spec c bs) as [->|N2]]; apply omap_some in E as (q & E & ->).
      * exists "", s, q. repeat split; auto. constructor.
      * destruct (IH _ _ E) as (x & b & s' & p' & Q & -> & -> & T). exists (String bs (String x b)), s', p'. repeat split; auto. now constructor.
      * destruct (IH _ _ E) as (b & s' & p' & Q & -> & -> & T). exists (String c b), s', p'. repeat split; auto. now constructor.
    + apply omap_some in E as (q & E & ->). destruct (IH _ _ E) as (b & s' & p' & Q & -> & -> & T). exists c, b, s', p'. auto.
    + destruct (Ascii.eqb_spec c "*") as [->|N1]; apply omap_some in E as (q & E & ->).
      * destruct (IH _ _ E) as (b & s' & p' & Q & Eb & -> & T). exists b, s', p'. auto.
      * destruct (IH _ _ E) as (b & s' & p' & Q & -> & -> & T). exists (String c b), s', p'. split; [apply no_end_cons; split; [exact Q|intros [X _]; congruence]|]. auto.
    + destruct (Ascii.eqb_spec c "/") as [->|N1]; [|destruct (Ascii.eqb_spec c "*") as [->|N2]]; apply omap_some in E as (q & E & ->).
      * exists "", s, q. split; [apply no_end_nil|]. auto.
      * destruct (IH _ _ E) as (b & s' & p' & Q & Eb & -> & T). exists (String "*" b), s', p'. split; [|cbn; rewrite Eb; auto].
        apply no_end_cons. split; [exact Q|]. intros [_ (r & ->)]. discriminate.
      * destruct (IH _ _ E) as (b & s' & p' & Q & -> & -> & T). exists (String "*" (String c b)), s', p'. split; [|auto].
        apply no_end_cons. split; [apply no_end_cons; split; [exact Q|intros [X _]; congruence]|]. intros [_ (r & X)]. injection X as -> _. congruence.
    + destruct (Ascii.eqb_spec c "010") as [->|N1]; [|apply omap_some in E as (q & E & ->)].
      * exists "", (String "010" s), p. repeat split; auto. right. eauto.
      * destruct (IH _ _ E) as (b & s' & p' & Q & L & -> & -> & T). exists (String c b), s', p'. repeat split; auto. cbn. intros [X|X]; [congruence|tauto].
Qed.
Lemma strip_sound text plain : strip Top text = Some plain -> uncommented text plain.
Proof.
  remember (String.length text) as n eqn:Hn. revert text plain Hn. induction n as [n IH] using lt_wf_ind. intros text plain -> E.
  destruct text as [|c s]; [injection E as <-; constructor|]. cbn [strip] in E.
  destruct (Ascii.eqb_spec c dq) as [->|N1]; [|destruct (Ascii.eqb_spec c "/") as [->|N2]]; apply omap_some in E as (q & E & ->).
  - destruct (strip_ended _ _ _ E) as (b & s' & p' & Q & -> & -> & T). apply un_string; [exact Q|]. eapply IH; [|reflexivity|exact T]. cbn. rewrite slength_app. cbn. lia.
  - destruct s as [|c s]; [discriminate|]. cbn [strip] in E. destruct (Ascii.eqb_spec c "*") as [->|N1']; [|destruct (Ascii.eqb_spec c "/") as [->|]; [|discriminate]]; apply omap_some in E as (q' & E & ->).
    + destruct (strip_ended _ _ _ E) as (b & s' & p' & Q & -> & -> & T). apply (un_block b s' p' Q). eapply IH; [|reflexivity|exact T]. cbn. rewrite !slength_app. cbn. lia.
    + destruct (strip_ended _ _ _ E) as (b & s' & p' & Q & F & -> & -> & T). apply (un_line b s' p' Q F). eapply IH; [|reflexivity|exact T]. cbn. rewrite !slength_app. lia.
  - apply un_char; [exact N1|exact N2|]. eapply IH; [|reflexivity|exact E]. cbn. lia.
Qed.
