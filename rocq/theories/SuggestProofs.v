(** Suggestions are the closest acceptable candidates. *)
From Verif Require Import BaseProofs EditProofs SpecSuggest.

Definition cand := (string * nat * nat * bool)%type.
Definition step_cand (b : best_match) (c : cand) : best_match :=
  let '(s, d, t, p) := c in consider b s d t p.

Definition prim_cands (simple : string) : list cand :=
  map (fun p => (p, levenshtein simple p,
                 max_edit_distance (Nat.min (String.length simple) (String.length p)), true)) primitive_type_names.
Definition reg_cands (u simple : string) (names : list string) : list cand :=
  flat_map (fun full =>
    [(full, levenshtein u full, max_edit_distance (Nat.min (String.length u) (String.length full)), false);
     (full, levenshtein simple (after_last_dot full),
      max_edit_distance (Nat.min (String.length simple) (String.length (after_last_dot full))), false)]) names.

Lemma best_as_fold u r :
  best_suggestion u r
  = fold_left step_cand (prim_cands (after_last_dot u) ++ reg_cands u (after_last_dot u) (reg_names r)) None.
Proof.
  unfold best_suggestion. rewrite fold_left_app.
  assert (Hr : forall names b,
             consider_registered u (after_last_dot u) names b
             = fold_left step_cand (reg_cands u (after_last_dot u) names) b).
  { induction names as [|n names IH]; intro b; [reflexivity|]. cbn [reg_cands flat_map app fold_left].
    unfold consider_registered in *. cbn [fold_left]. rewrite IH. reflexivity. }
  rewrite Hr. f_equal.
Qed.

Definition acceptable (l : list cand) (s : string) (d : nat) : Prop :=
  exists t p, In (s, d, t, p) l /\ d <= t.

(** Invariant of the fold: the best so far is acceptable and minimal. *)
Definition is_best (l : list cand) (b : best_match) : Prop :=
  match b with
  | None => forall s d, ~ acceptable l s d
  | Some (s, d, _) => acceptable l s d /\ forall s' d', acceptable l s' d' -> d <= d'
  end.

Lemma acceptable_app l m s d : acceptable (l ++ m) s d <-> acceptable l s d \/ acceptable m s d.
Proof.
  unfold acceptable. split.
  - intros (t & p & Hin & Hd). apply in_app_iff in Hin. destruct Hin; [left|right]; eauto.
  - intros [(t & p & Hin & Hd)|(t & p & Hin & Hd)]; exists t, p; rewrite in_app_iff; auto.
Qed.

Lemma step_is_best l b c : is_best l b -> is_best (l ++ [c]) (step_cand b c).
Proof.
  destruct c as [[[s d] t] p]. cbn [step_cand]. unfold consider. intro Hb.
  assert (Hc : forall s' d', acceptable [(s, d, t, p)] s' d' <-> s' = s /\ d' = d /\ d <= t).
  { intros s' d'. split.
    - intros (t' & p' & [E|[]] & Hd). injection E as <- <- <- <-. auto.
    - intros (-> & -> & Hd). exists t, p. split; [left; reflexivity|exact Hd]. }
  destruct (Nat.leb_spec d t) as [Hd|Hd]; cbn [andb].
  - destruct b as [[[bs bd] bp]|].
    + destruct Hb as [Ha Hm]. destruct (Nat.ltb_spec d bd) as [Hlt|Hge]; cbn [is_best].
      * split; [apply acceptable_app; right; apply Hc; auto|]. intros s' d' Hs. apply acceptable_app in Hs.
        destruct Hs as [Hs|Hs]; [apply Hm in Hs; lia|apply Hc in Hs; lia].
      * split; [apply acceptable_app; left; exact Ha|]. intros s' d' Hs. apply acceptable_app in Hs.
        destruct Hs as [Hs|Hs]; [apply Hm in Hs; lia|apply Hc in Hs; lia].
    + cbn [is_best] in *. split; [apply acceptable_app; right; apply Hc; auto|].
      intros s' d' Hs. apply acceptable_app in Hs. destruct Hs as [Hs|Hs]; [destruct (Hb _ _ Hs)|apply Hc in Hs; lia].
  - destruct b as [[[bs bd] bp]|]; cbn [is_best] in *.
    + destruct Hb as [Ha Hm]. split; [apply acceptable_app; left; exact Ha|]. intros s' d' Hs.
      apply acceptable_app in Hs. destruct Hs as [Hs|Hs]; [apply Hm in Hs; lia|apply Hc in Hs; lia].
    + intros s' d' Hs. apply acceptable_app in Hs. destruct Hs as [Hs|Hs]; [exact (Hb _ _ Hs)|apply Hc in Hs; lia].
Qed.

Lemma fold_is_best m : forall l b, is_best l b -> is_best (l ++ m) (fold_left step_cand m b).
Proof.
  induction m as [|c m IH]; intros l b Hb; [rewrite app_nil_r; exact Hb|]. cbn [fold_left].
  replace (l ++ c :: m) with ((l ++ [c]) ++ m) by (rewrite <- app_assoc; reflexivity).
  apply IH, step_is_best, Hb.
Qed.

Lemma simple_part_fun s a : simple_part s a <-> a = after_last_dot s.
Proof.
  unfold simple_part, after_last_dot. destruct (rsplit_once_dot s) as [[x y]|] eqn:E.
  - split.
    + intros [Ha [->|(ns & ->)]].
      * apply rsplit_None in Ha. congruence.
      * assert (E2 : rsplit_once_dot (ns ++ "." ++ a)%string = Some (ns, a)) by (apply rsplit_Some; auto).
        rewrite E2 in E. injection E as _ ->. reflexivity.
    + intros ->. apply rsplit_Some in E. destruct E as [-> Hy]. split; [exact Hy|]. right. eauto.
  - split.
    + intros [Ha [->|(ns & ->)]]; [reflexivity|]. apply rsplit_None in E.
      rewrite contains_dot_app in E. cbn in E. rewrite orb_true_r in E. discriminate.
    + intros ->. split; [apply rsplit_None; exact E|]. auto.
Qed.

Lemma tolerance_eq n : max_edit_distance n = tolerance n.
Proof. unfold max_edit_distance, tolerance. destruct (Nat.leb_spec n 4), (Nat.ltb_spec 4 n); lia. Qed.

Definition lev_is (a b : string) (d : nat) : Prop := d = levenshtein a b.

Lemma candidate_iff u r s d :
  acceptable (prim_cands (after_last_dot u) ++ reg_cands u (after_last_dot u) (reg_names r)) s d
  <-> exists t, candidate lev_is u (reg_names r) s d t /\ d <= t.
Proof.
  rewrite acceptable_app. unfold acceptable. split.
  - intros [(t & p & Hin & Hd)|(t & p & Hin & Hd)].
    + unfold prim_cands in Hin. apply in_map_iff in Hin. destruct Hin as (q & E & Hq). injection E as <- <- <- <-.
      exists (tolerance (Nat.min (String.length (after_last_dot u)) (String.length q))). rewrite tolerance_eq in Hd.
      split; [|exact Hd]. eapply cand_primitive; [exact Hq|apply simple_part_fun; reflexivity|reflexivity].
    + unfold reg_cands in Hin. apply in_flat_map in Hin. destruct Hin as (f & Hf & [E|[E|[]]]); injection E as <- <- <- <-;
        rewrite tolerance_eq in Hd; (eexists; split; [|exact Hd]).
      * apply cand_full; [exact Hf|reflexivity].
      * eapply cand_simple; [exact Hf|apply simple_part_fun; reflexivity|apply simple_part_fun; reflexivity|reflexivity].
  - intros (t & Hc & Hd). destruct Hc as [su p d Hp Hs E|f d Hf E|su f sf d Hf Hs Hsf E]; unfold lev_is in E; subst d.
    + left. apply simple_part_fun in Hs. subst su. do 2 eexists. split; [|rewrite <- tolerance_eq in Hd; exact Hd].
      unfold prim_cands. apply in_map_iff. exists p. split; [reflexivity|exact Hp].
    + right. do 2 eexists. split; [|rewrite <- tolerance_eq in Hd; exact Hd].
      unfold reg_cands. apply in_flat_map. exists f. split; [exact Hf|left; reflexivity].
    + right. apply simple_part_fun in Hs, Hsf. subst su sf. do 2 eexists.
      split; [|rewrite <- tolerance_eq in Hd; exact Hd].
      unfold reg_cands. apply in_flat_map. exists f. split; [exact Hf|right; left; reflexivity].
Qed.

Lemma suggestion_spec u r :
  ~ simple_part u "void" -> ~ simple_part u "decimal" ->
  match suggest_similar_name u r with
  | None => forall s d t, candidate lev_is u (reg_names r) s d t -> t < d
  | Some msg => exists s d t, proposes msg s /\ candidate lev_is u (reg_names r) s d t /\ d <= t
      /\ forall s' d' t', candidate lev_is u (reg_names r) s' d' t' -> d' <= t' -> d <= d'
  end.
Proof.
  intros Hv Hd. unfold suggest_similar_name. unfold keyword_misuse_hint.
  destruct (String.eqb_spec (after_last_dot u) "void") as [E|_].
  { exfalso. apply Hv, simple_part_fun. symmetry. exact E. }
  destruct (String.eqb_spec (after_last_dot u) "decimal") as [E|_].
  { exfalso. apply Hd, simple_part_fun. symmetry. exact E. }
  pose proof (fold_is_best (prim_cands (after_last_dot u) ++ reg_cands u (after_last_dot u) (reg_names r)) [] None
                (fun s d '(ex_intro _ t (ex_intro _ p (conj Hin _))) => Hin)) as Hb.
  rewrite <- best_as_fold in Hb. cbn [app] in Hb.
  destruct (best_suggestion u r) as [[[s d] p]|]; cbn [is_best] in Hb.
  - destruct Hb as [Ha Hm]. apply candidate_iff in Ha. destruct Ha as (t & Hc & Ht).
    assert (Hmin : forall s' d' t', candidate lev_is u (reg_names r) s' d' t' -> d' <= t' -> d <= d').
    { intros s' d' t' Hc' Ht'. apply (Hm s'). apply candidate_iff. eauto. }
    destruct (p && eq_ignore_ascii_case (after_last_dot u) s); exists s, d, t; repeat split; auto;
      unfold proposes; auto.
  - intros s d t Hc. destruct (Nat.le_gt_cases d t) as [Hle|Hgt]; [|exact Hgt]. exfalso.
    apply (Hb s d), candidate_iff. eauto.
Qed.

(** For ASCII names the distance is the true one. *)
Lemma is_edit_distance_fun a b d d' : is_edit_distance a b d -> is_edit_distance a b d' -> d = d'.
Proof. intros [A B] [A' B']. apply B in A'. apply B' in A. lia. Qed.

Lemma true_distance_lev a b d :
  is_ascii_string a = true -> is_ascii_string b = true -> true_distance a b d <-> lev_is a b d.
Proof.
  intros Ha Hb. unfold true_distance, lev_is. split.
  - intro E. exact (is_edit_distance_fun _ _ _ _ E (levenshtein_correct a b Ha Hb)).
  - intros ->. apply levenshtein_correct; assumption.
Qed.

Lemma bytes_app a b : bytes_of (a ++ b)%string = bytes_of a ++ bytes_of b.
Proof. induction a as [|c a IH]; cbn; [reflexivity|]. f_equal. exact IH. Qed.

Lemma simple_part_ascii s a : simple_part s a -> is_ascii_string s = true -> is_ascii_string a = true.
Proof.
  intros [_ [->|(ns & ->)]] Ha; [exact Ha|]. unfold is_ascii_string in *. rewrite !bytes_app in Ha.
  rewrite !forallb_app in Ha. apply andb_true_iff in Ha. destruct Ha as [_ Ha]. apply andb_true_iff in Ha. apply Ha.
Qed.

Lemma candidate_true u names s d t :
  is_ascii_string u = true -> Forall (fun n => is_ascii_string n = true) names ->
  candidate true_distance u names s d t <-> candidate lev_is u names s d t.
Proof.
  intros Hu Hn. rewrite Forall_forall in Hn. split; intros Hc.
  - destruct Hc as [su p d Hp Hs E|f d Hf E|su f sf d Hf Hs Hsf E].
    + eapply cand_primitive; eauto. apply true_distance_lev in E; [exact E|exact (simple_part_ascii _ _ Hs Hu)|].
      cbn in Hp. decompose [or] Hp; subst; reflexivity || contradiction.
    + eapply cand_full; eauto. apply true_distance_lev in E; auto.
    + eapply cand_simple; eauto.
      apply true_distance_lev in E; [exact E|exact (simple_part_ascii _ _ Hs Hu)|exact (simple_part_ascii _ _ Hsf (Hn _ Hf))].
  - destruct Hc as [su p d Hp Hs E|f d Hf E|su f sf d Hf Hs Hsf E].
    + eapply cand_primitive; eauto. apply true_distance_lev; [exact (simple_part_ascii _ _ Hs Hu)| |exact E].
      cbn in Hp. decompose [or] Hp; subst; reflexivity || contradiction.
    + eapply cand_full; eauto. apply true_distance_lev; auto.
    + eapply cand_simple; eauto.
      apply true_distance_lev; [exact (simple_part_ascii _ _ Hs Hu)|exact (simple_part_ascii _ _ Hsf (Hn _ Hf))|exact E].
Qed.

Lemma suggestion_true u r :
  is_ascii_string u = true -> Forall (fun n => is_ascii_string n = true) (reg_names r) ->
  ~ simple_part u "void" -> ~ simple_part u "decimal" ->
  match suggest_similar_name u r with
  | None => forall s d t, candidate true_distance u (reg_names r) s d t -> t < d
  | Some msg => exists s d t, proposes msg s /\ candidate true_distance u (reg_names r) s d t /\ d <= t
      /\ forall s' d' t', candidate true_distance u (reg_names r) s' d' t' -> d' <= t' -> d <= d'
  end.
Proof.
  intros Hu Hn Hv Hd. pose proof (suggestion_spec u r Hv Hd) as Hs.
  destruct (suggest_similar_name u r) as [msg|].
  - destruct Hs as (s & d & t & A & B & C & D). exists s, d, t. split; [exact A|].
    split; [apply candidate_true; assumption|]. split; [exact C|]. intros s' d' t' Hc.
    apply candidate_true in Hc; [|assumption..]. exact (D _ _ _ Hc).
  - intros s d t Hc. apply candidate_true in Hc; [|assumption..]. exact (Hs _ _ _ Hc).
Qed.

(** *** Keywords *)

Definition kw_best (low : string) (l : list string) (b : option (string * nat)) : Prop :=
  match b with
  | None => forall k, In k l -> tolerance (String.length k) < levenshtein low k
  | Some (k, d) => In k l /\ d = levenshtein low k /\ d <= tolerance (String.length k)
      /\ forall k', In k' l -> levenshtein low k' <= tolerance (String.length k') -> d <= levenshtein low k'
  end.

Lemma keyword_loop_spec low kws : forall l b,
  Forall (fun k => 3 <= String.length k) kws ->
  (forall k, In k l -> levenshtein low k <> 0) -> kw_best low l b ->
  match keyword_loop low kws b with
  | None => exists k, In k kws /\ levenshtein low k = 0
  | Some b' => (forall k, In k (l ++ kws) -> levenshtein low k <> 0) /\ kw_best low (l ++ kws) b'
  end.
Proof.
  induction kws as [|k kws IH]; intros l b Hlen Hnz Hb; cbn [keyword_loop].
  - rewrite app_nil_r. auto.
  - inversion Hlen as [|? ? Hk Hlen']; subst.
    destruct (Nat.ltb_spec (String.length k) 3) as [Hlt|_]; [lia|].
    destruct (Nat.eqb_spec (levenshtein low k) 0) as [E|Hne].
    + exists k. split; [left; reflexivity|exact E].
    + assert (Hstep : forall b', kw_best low (l ++ [k]) b' ->
                match keyword_loop low kws b' with
                | None => exists k0, In k0 (k :: kws) /\ levenshtein low k0 = 0
                | Some b2 => (forall k0, In k0 (l ++ k :: kws) -> levenshtein low k0 <> 0) /\ kw_best low (l ++ k :: kws) b2
                end).
      { intros b' Hb'. specialize (IH (l ++ [k]) b' Hlen').
        assert (Hnz' : forall k0, In k0 (l ++ [k]) -> levenshtein low k0 <> 0).
        { intros k0 Hin. apply in_app_iff in Hin. destruct Hin as [Hin|[<-|[]]]; [exact (Hnz _ Hin)|exact Hne]. }
        specialize (IH Hnz' Hb'). destruct (keyword_loop low kws b').
        - rewrite <- app_assoc in IH. exact IH.
        - destruct IH as (k0 & Hin & E). exists k0. split; [right; exact Hin|exact E]. }
      rewrite tolerance_eq.
      destruct (Nat.leb_spec (levenshtein low k) (tolerance (String.length k))) as [Hle|Hgt]; cbn [andb].
      * destruct b as [[bk bd]|].
        -- cbn [kw_best] in Hb. destruct Hb as (B1 & B2 & B3 & B4).
           destruct (Nat.ltb_spec (levenshtein low k) bd) as [Hlt|Hge]; apply Hstep; cbn [kw_best];
             (split; [apply in_app_iff; cbn; auto|]; split; [auto|]; split; [auto|]);
             intros k' Hin Ht; apply in_app_iff in Hin;
             (destruct Hin as [Hin|[<-|[]]]; [specialize (B4 _ Hin Ht); lia|lia]).
        -- apply Hstep. cbn [kw_best] in *.
           split; [apply in_app_iff; cbn; auto|]. split; [reflexivity|]. split; [exact Hle|].
           intros k' Hin Ht. apply in_app_iff in Hin. destruct Hin as [Hin|[<-|[]]]; [|lia].
           specialize (Hb _ Hin). lia.
      * apply Hstep. destruct b as [[bk bd]|]; cbn [kw_best] in *.
        -- destruct Hb as (B1 & B2 & B3 & B4).
           split; [apply in_app_iff; cbn; auto|]. split; [auto|]. split; [auto|].
           intros k' Hin Ht. apply in_app_iff in Hin. destruct Hin as [Hin|[<-|[]]]; [exact (B4 _ Hin Ht)|lia].
        -- intros k' Hin. apply in_app_iff in Hin. destruct Hin as [Hin|[<-|[]]]; [exact (Hb _ Hin)|lia].
Qed.

Lemma keywords_long : Forall (fun k => 3 <= String.length k) avro_keywords.
Proof. repeat constructor. Qed.

Lemma suggest_keyword_spec ident :
  match suggest_keyword ident with
  | Some k => In k avro_keywords /\ (forall k', In k' avro_keywords -> levenshtein (to_ascii_lowercase ident) k' <> 0)
      /\ levenshtein (to_ascii_lowercase ident) k <= tolerance (String.length k)
      /\ forall k', In k' avro_keywords ->
           levenshtein (to_ascii_lowercase ident) k' <= tolerance (String.length k') ->
           levenshtein (to_ascii_lowercase ident) k <= levenshtein (to_ascii_lowercase ident) k'
  | None => (exists k, In k avro_keywords /\ levenshtein (to_ascii_lowercase ident) k = 0)
      \/ forall k, In k avro_keywords -> tolerance (String.length k) < levenshtein (to_ascii_lowercase ident) k
  end.
Proof.
  unfold suggest_keyword. set (low := to_ascii_lowercase ident).
  pose proof (keyword_loop_spec low avro_keywords [] None keywords_long
                (fun k Hin => match Hin with end) (fun k Hin => match Hin with end)) as Hk.
  destruct (keyword_loop low avro_keywords None) as [[[k d]|]|].
  - destruct Hk as [Hnz (A & -> & C & D)]. auto.
  - right. exact (proj2 Hk).
  - left. exact Hk.
Qed.

Lemma to_lower_ascii s : is_ascii_string s = true -> is_ascii_string (to_ascii_lowercase s) = true.
Proof.
  unfold is_ascii_string, bytes_of. induction s as [|c s IH]; [reflexivity|]. cbn. intro E. apply andb_true_iff in E.
  destruct E as [Ec E]. rewrite (IH E), andb_true_r. unfold lower_ascii.
  destruct ((65 <=? N_of_ascii c)%N && (N_of_ascii c <=? 90)%N) eqn:E2; [|exact Ec].
  apply andb_true_iff in E2. destruct E2 as [A B]. apply N.leb_le in A, B. rewrite N_ascii_embedding by lia.
  apply N.ltb_lt. lia.
Qed.

Lemma keywords_ascii : Forall (fun k => is_ascii_string k = true) avro_keywords.
Proof. repeat constructor. Qed.

Lemma dist_zero a b : dist a b = 0 -> a = b.
Proof.
  intro E. pose proof (edits_dist a b) as He. rewrite E in He. inversion He. reflexivity.
Qed.

Lemma bytes_inj a b : bytes_of a = bytes_of b -> a = b.
Proof.
  revert b. induction a as [|c a IH]; destruct b as [|c' b]; cbn; try discriminate; [reflexivity|].
  intro E. injection E as Ec E. apply IH in E. subst b.
  rewrite <- (ascii_N_embedding c), <- (ascii_N_embedding c'), Ec. reflexivity.
Qed.

Lemma levenshtein_zero a b :
  is_ascii_string a = true -> is_ascii_string b = true -> levenshtein a b = 0 <-> a = b.
Proof.
  intros Ha Hb. rewrite levenshtein_dist.
  - rewrite (ascii_chars a Ha), (ascii_chars b Hb). split.
    + intro E. apply bytes_inj, dist_zero, E.
    + intros ->. apply dist_self.
  - rewrite ascii_chars by exact Ha. apply bytes_length.
  - rewrite ascii_chars by exact Hb. apply bytes_length.
Qed.
