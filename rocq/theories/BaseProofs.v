(** Lemmas about strings and the two map types. *)
From Verif Require Export Base.
From Coq Require Export Permutation Sorted.
Require Import ZifyBool ZifyNat ZifyN.

(** ** Booleans and membership *)

Lemma str_mem_In s l : str_mem s l = true <-> In s l.
Proof.
  unfold str_mem. rewrite existsb_exists. split.
  - intros [x [H1 H2]]. apply String.eqb_eq in H2. subst. exact H1.
  - intros H. exists s. split; [exact H|apply String.eqb_refl].
Qed.

Lemma str_mem_not_In s l : str_mem s l = false <-> ~ In s l.
Proof.
  rewrite <- str_mem_In. destruct (str_mem s l); split; intro H; try easy; exfalso; apply H; reflexivity.
Qed.

Lemma ostr_eqb_eq a b : ostr_eqb a b = true <-> a = b.
Proof.
  destruct a as [a|], b as [b|]; simpl; split; intro H; try easy.
  - apply String.eqb_eq in H. subst. reflexivity.
  - inversion H. apply String.eqb_refl.
Qed.

Lemma ostr_eqb_neq a b : ostr_eqb a b = false <-> a <> b.
Proof.
  rewrite <- ostr_eqb_eq. destruct (ostr_eqb a b); split; intro H; try easy; exfalso; apply H; reflexivity.
Qed.

Lemma str_is_empty_eq s : str_is_empty s = true <-> s = "".
Proof. destruct s; simpl; split; intro H; try easy. Qed.

(** ** Byte order of strings *)

Lemma ascii_compare_refl a : Ascii.compare a a = Eq.
Proof. unfold Ascii.compare. apply N.compare_refl. Qed.

Lemma ascii_compare_eq a b : Ascii.compare a b = Eq -> a = b.
Proof.
  unfold Ascii.compare. intro H. apply N.compare_eq in H.
  rewrite <- (ascii_N_embedding a), <- (ascii_N_embedding b), H. reflexivity.
Qed.

Lemma compare_refl s : String.compare s s = Eq.
Proof. induction s as [|c s IH]; simpl; [reflexivity|]. rewrite ascii_compare_refl. exact IH. Qed.

Lemma compare_eq s t : String.compare s t = Eq <-> s = t.
Proof.
  split.
  - revert t. induction s as [|c s IH]; intros [|d t]; simpl; intro H; try easy.
    destruct (Ascii.compare c d) eqn:E; try easy.
    apply ascii_compare_eq in E. subst. f_equal. apply IH. exact H.
  - intros ->. apply compare_refl.
Qed.

Lemma compare_antisym s t : String.compare t s = CompOpp (String.compare s t).
Proof.
  revert t. induction s as [|c s IH]; intros [|d t]; simpl; try reflexivity.
  unfold Ascii.compare. rewrite (N.compare_antisym (N_of_ascii d) (N_of_ascii c)).
  destruct (N.compare (N_of_ascii d) (N_of_ascii c)); simpl; try reflexivity. apply IH.
Qed.

Definition str_lt (a b : string) : Prop := String.compare a b = Lt.

Lemma str_lt_trans a b c : str_lt a b -> str_lt b c -> str_lt a c.
Proof.
  unfold str_lt. revert b c. induction a as [|x a IH]; intros [|y b] [|z c]; simpl; intros H1 H2; try easy.
  unfold Ascii.compare in *.
  destruct (N.compare_spec (N_of_ascii x) (N_of_ascii y)) as [E|E|E]; try easy;
  destruct (N.compare_spec (N_of_ascii y) (N_of_ascii z)) as [E'|E'|E']; try easy.
  - rewrite E, E', N.compare_refl. eapply IH; eassumption.
  - rewrite E. apply N.compare_lt_iff in E'. rewrite E'. reflexivity.
  - rewrite <- E'. apply N.compare_lt_iff in E. rewrite E. reflexivity.
  - assert (E3 : (N_of_ascii x < N_of_ascii z)%N) by lia.
    apply N.compare_lt_iff in E3. rewrite E3. reflexivity.
Qed.

Lemma str_lt_irrefl a : ~ str_lt a a.
Proof. unfold str_lt. rewrite compare_refl. discriminate. Qed.

Lemma compare_gt_lt a b : String.compare a b = Gt -> str_lt b a.
Proof. intro H. unfold str_lt. rewrite compare_antisym, H. reflexivity. Qed.

Lemma compare_neq a b : String.compare a b <> Eq -> a <> b.
Proof. intros H E. apply H. apply compare_eq. exact E. Qed.

(** ** Association lists *)

Section MapLemmas.
  Context {A : Type}.
  Implicit Types (l m : list (string * A)).

  Definition key_lt (a b : string * A) : Prop := str_lt (fst a) (fst b).
  Definition sorted l : Prop := StronglySorted key_lt l.

  Lemma assoc_In k v l : assoc k l = Some v -> In (k, v) l.
  Proof.
    induction l as [|[k' v'] l IH]; simpl; [discriminate|].
    destruct (String.eqb_spec k k') as [->|Hne]; intro H.
    - inversion H. left. reflexivity.
    - right. apply IH. exact H.
  Qed.

  Lemma assoc_None k l : assoc k l = None <-> ~ In k (keys l).
  Proof.
    induction l as [|[k' v'] l IH]; simpl; [easy|].
    destruct (String.eqb_spec k k') as [->|Hne]; split; intro H; try easy.
    - exfalso. apply H. left. reflexivity.
    - intros [E|E]; [congruence|]. apply IH in H. contradiction.
    - apply IH. intro E. apply H. right. exact E.
  Qed.

  Lemma assoc_Some_In_keys k v l : assoc k l = Some v -> In k (keys l).
  Proof. intro H. apply assoc_In in H. apply (in_map fst) in H. exact H. Qed.

  Lemma In_keys_assoc k l : In k (keys l) -> exists v, assoc k l = Some v.
  Proof.
    intro H. destruct (assoc k l) as [v|] eqn:E; [eauto|]. apply assoc_None in E. contradiction.
  Qed.

  Lemma In_assoc_NoDup k v l : NoDup (keys l) -> In (k, v) l -> assoc k l = Some v.
  Proof.
    induction l as [|[k' v'] l IH]; simpl; [easy|]. intros Hn [E|E].
    - inversion E. rewrite String.eqb_refl. reflexivity.
    - inversion Hn as [|? ? Hni Hn']; subst.
      destruct (String.eqb_spec k k') as [->|Hne]; [|apply IH; assumption].
      exfalso. apply Hni. apply (in_map fst) in E. exact E.
  Qed.

  Lemma assoc_app k l m :
    assoc k (l ++ m) = match assoc k l with Some v => Some v | None => assoc k m end.
  Proof.
    induction l as [|[k' v'] l IH]; simpl; [reflexivity|].
    destruct (String.eqb k k'); [reflexivity|apply IH].
  Qed.

  Lemma assoc_Permutation k l m :
    NoDup (keys l) -> Permutation l m -> assoc k l = assoc k m.
  Proof.
    intros Hn Hp. assert (Hm : NoDup (keys m)).
    { unfold keys. eapply Permutation_NoDup; [|exact Hn]. apply Permutation_map. exact Hp. }
    destruct (assoc k l) as [v|] eqn:E.
    - apply assoc_In in E. symmetry. apply In_assoc_NoDup; [exact Hm|].
      eapply Permutation_in; eassumption.
    - symmetry. apply assoc_None. apply assoc_None in E. intro H. apply E.
      unfold keys in *. eapply Permutation_in; [|exact H].
      apply Permutation_map. symmetry. exact Hp.
  Qed.

  (** [hm_insert] *)
  Lemma assoc_hm_insert k k' v l :
    assoc k (hm_insert k' v l) = if String.eqb k k' then Some v else assoc k l.
  Proof.
    induction l as [|[k2 v2] l IH]; simpl; [reflexivity|].
    destruct (String.eqb_spec k' k2) as [->|Hne]; simpl.
    - destruct (String.eqb_spec k k2); reflexivity.
    - rewrite IH. destruct (String.eqb_spec k k2) as [->|]; [|reflexivity].
      destruct (String.eqb_spec k2 k') as [->|]; [contradiction|reflexivity].
  Qed.

  Lemma keys_hm_insert k v l :
    keys (hm_insert k v l) = if existsb (String.eqb k) (keys l) then keys l else keys l ++ [k].
  Proof.
    induction l as [|[k2 v2] l IH]; simpl; [reflexivity|].
    destruct (String.eqb_spec k k2) as [->|Hne]; simpl; [reflexivity|].
    rewrite IH. destruct (existsb (String.eqb k) (keys l)); reflexivity.
  Qed.


  Lemma NoDup_snoc (x : string) (xs : list string) : NoDup xs -> ~ In x xs -> NoDup (xs ++ [x]).
  Proof.
    intros Hn Hx. apply NoDup_rev in Hn. rewrite <- (rev_involutive (xs ++ [x])).
    apply NoDup_rev. rewrite rev_app_distr. simpl. constructor; [|exact Hn].
    rewrite <- in_rev. exact Hx.
  Qed.

  Lemma hm_insert_NoDup k v l : NoDup (keys l) -> NoDup (keys (hm_insert k v l)).
  Proof.
    intro H. rewrite keys_hm_insert. destruct (existsb (String.eqb k) (keys l)) eqn:E; [exact H|].
    apply str_mem_not_In in E. apply NoDup_snoc; assumption.
  Qed.

  Lemma hm_extend_NoDup m l : NoDup (keys m) -> NoDup (keys (hm_extend m l)).
  Proof.
    unfold hm_extend. revert m. induction l as [|[k v] l IH]; intros m H; simpl; [exact H|].
    apply IH. apply hm_insert_NoDup. exact H.
  Qed.

  Lemma assoc_hm_extend k m l :
    assoc k (hm_extend m l) = match assoc k (rev l) with Some v => Some v | None => assoc k m end.
  Proof.
    unfold hm_extend. revert m. induction l as [|[k' v'] l IH]; intros m; simpl; [reflexivity|].
    rewrite IH, assoc_app. simpl. rewrite assoc_hm_insert.
    destruct (assoc k (rev l)) as [v|]; [reflexivity|].
    destruct (String.eqb k k'); reflexivity.
  Qed.

  Lemma assoc_rev_NoDup k l : NoDup (keys l) -> assoc k (rev l) = assoc k l.
  Proof. intro H. symmetry. apply assoc_Permutation; [exact H|apply Permutation_rev]. Qed.

  (** [hm_remove] and filtering by key *)
  Lemma assoc_filter (p : string -> bool) k l :
    assoc k (filter (fun kv => p (fst kv)) l) = if p k then assoc k l else None.
  Proof.
    induction l as [|[k' v'] l IH]; simpl; [destruct (p k); reflexivity|].
    destruct (p k') eqn:E; simpl; rewrite IH.
    - destruct (String.eqb_spec k k') as [->|]; [rewrite E; reflexivity|reflexivity].
    - destruct (String.eqb_spec k k') as [->|]; [rewrite E; reflexivity|reflexivity].
  Qed.

  Lemma assoc_hm_remove k k' l :
    assoc k (hm_remove k' l) = if String.eqb k' k then None else assoc k l.
  Proof.
    unfold hm_remove. rewrite (assoc_filter (fun x => negb (String.eqb k' x))).
    destruct (String.eqb k' k); reflexivity.
  Qed.

  Lemma keys_filter_NoDup (p : string * A -> bool) l : NoDup (keys l) -> NoDup (keys (filter p l)).
  Proof.
    induction l as [|kv l IH]; simpl; [trivial|]. intro H. inversion H as [|? ? Hni Hn]; subst.
    destruct (p kv); simpl; [|apply IH; exact Hn]. constructor; [|apply IH; exact Hn].
    intro Hin. apply Hni. unfold keys in *. apply in_map_iff in Hin. destruct Hin as [x [E Hx]].
    apply filter_In in Hx. rewrite <- E. apply in_map. apply Hx.
  Qed.

  (** [bt_insert] *)
  Lemma assoc_bt_insert k k' v l :
    assoc k (bt_insert k' v l) = if String.eqb k k' then Some v else assoc k l.
  Proof.
    induction l as [|[k2 v2] l IH]; simpl; [reflexivity|].
    destruct (String.compare k' k2) eqn:E; simpl.
    - apply compare_eq in E. subst k2. destruct (String.eqb k k'); reflexivity.
    - reflexivity.
    - rewrite IH. destruct (String.eqb_spec k k2) as [->|]; [|reflexivity].
      destruct (String.eqb_spec k2 k') as [->|]; [|reflexivity].
      rewrite compare_refl in E. discriminate.
  Qed.

  Lemma bt_insert_Forall (P : string * A -> Prop) k v l :
    P (k, v) -> Forall P l -> Forall P (bt_insert k v l).
  Proof.
    intros Hkv. induction l as [|[k2 v2] l IH]; simpl; intro H.
    - constructor; [exact Hkv|constructor].
    - inversion H as [|? ? H1 H2]; subst. destruct (String.compare k k2).
      + constructor; assumption.
      + constructor; assumption.
      + constructor; [assumption|apply IH; assumption].
  Qed.

  Lemma bt_insert_sorted k v l : sorted l -> sorted (bt_insert k v l).
  Proof.
    unfold sorted. induction l as [|[k2 v2] l IH]; simpl; intro H.
    - constructor; constructor.
    - inversion H as [|? ? Hs Hf]; subst. destruct (String.compare k k2) eqn:E.
      + apply compare_eq in E. subst k2. constructor; assumption.
      + constructor; [exact H|]. constructor; [exact E|].
        eapply Forall_impl; [|exact Hf]. intros x Hx. eapply str_lt_trans; [exact E|exact Hx].
      + constructor; [apply IH; exact Hs|]. apply bt_insert_Forall; [|exact Hf].
        apply compare_gt_lt. exact E.
  Qed.

  Lemma bt_extend_sorted m l : sorted m -> sorted (bt_extend m l).
  Proof.
    unfold bt_extend. revert m. induction l as [|[k v] l IH]; intros m H; simpl; [exact H|].
    apply IH. apply bt_insert_sorted. exact H.
  Qed.

  Lemma sorted_nil : sorted [].
  Proof. constructor. Qed.

  Lemma assoc_bt_extend k m l :
    assoc k (bt_extend m l) = match assoc k (rev l) with Some v => Some v | None => assoc k m end.
  Proof.
    unfold bt_extend. revert m. induction l as [|[k' v'] l IH]; intros m; simpl; [reflexivity|].
    rewrite IH, assoc_app. simpl. rewrite assoc_bt_insert.
    destruct (assoc k (rev l)) as [v|]; [reflexivity|].
    destruct (String.eqb k k'); reflexivity.
  Qed.

  Lemma assoc_bt_extend_NoDup k m l :
    NoDup (keys l) ->
    assoc k (bt_extend m l) = match assoc k l with Some v => Some v | None => assoc k m end.
  Proof. intro H. rewrite assoc_bt_extend, assoc_rev_NoDup by exact H. reflexivity. Qed.

  Lemma sorted_filter p l : sorted l -> sorted (filter p l).
  Proof.
    unfold sorted. induction l as [|x l IH]; simpl; intro H; [constructor|].
    inversion H as [|? ? Hs Hf]; subst. destruct (p x); [|apply IH; exact Hs].
    constructor; [apply IH; exact Hs|]. rewrite Forall_forall in *. intros y Hy.
    apply filter_In in Hy. apply Hf. apply Hy.
  Qed.

  Lemma sorted_NoDup l : sorted l -> NoDup (keys l).
  Proof.
    unfold sorted. induction l as [|x l IH]; simpl; intro H; [constructor|].
    inversion H as [|? ? Hs Hf]; subst. constructor; [|apply IH; exact Hs].
    intro Hin. unfold keys in Hin. apply in_map_iff in Hin. destruct Hin as [y [E Hy]].
    rewrite Forall_forall in Hf. specialize (Hf y Hy). unfold key_lt in Hf. rewrite E in Hf.
    exact (str_lt_irrefl _ Hf).
  Qed.

  (** Sorted maps are determined by their lookups. *)
  Lemma sorted_ext l m :
    sorted l -> sorted m -> (forall k, assoc k l = assoc k m) -> l = m.
  Proof.
    revert m. induction l as [|[k v] l IH]; intros m Hl Hm He.
    - destruct m as [|[k2 v2] m]; [reflexivity|]. specialize (He k2). simpl in He.
      rewrite String.eqb_refl in He. discriminate.
    - destruct m as [|[k2 v2] m].
      { specialize (He k). simpl in He. rewrite String.eqb_refl in He. discriminate. }
      inversion Hl as [|? ? Hls Hlf]; subst. inversion Hm as [|? ? Hms Hmf]; subst.
      assert (Hk : k = k2).
      { destruct (String.compare k k2) eqn:E.
        - apply compare_eq. exact E.
        - exfalso. pose proof (He k) as H1. simpl in H1. rewrite String.eqb_refl in H1.
          destruct (String.eqb_spec k k2) as [->|_]; [rewrite compare_refl in E; discriminate|].
          symmetry in H1. apply assoc_In in H1. rewrite Forall_forall in Hmf. apply Hmf in H1.
          unfold key_lt in H1. simpl in H1. apply (str_lt_irrefl k).
          eapply str_lt_trans; [exact E|exact H1].
        - exfalso. apply compare_gt_lt in E. pose proof (He k2) as H1. simpl in H1.
          rewrite String.eqb_refl in H1.
          destruct (String.eqb_spec k2 k) as [->|_]; [exact (str_lt_irrefl _ E)|].
          apply assoc_In in H1. rewrite Forall_forall in Hlf. apply Hlf in H1.
          unfold key_lt in H1. simpl in H1. apply (str_lt_irrefl k2).
          eapply str_lt_trans; [exact E|exact H1]. }
      subst k2. pose proof (He k) as H1. simpl in H1. rewrite String.eqb_refl in H1.
      inversion H1; subst v2. f_equal. apply IH; [assumption|assumption|].
      intro k'. specialize (He k'). simpl in He.
      destruct (String.eqb_spec k' k) as [Ek|Nk]; [clear He; rewrite Ek|exact He].
      apply sorted_NoDup in Hl. apply sorted_NoDup in Hm. simpl in Hl, Hm.
      inversion Hl; subst. inversion Hm; subst.
      transitivity (@None A); [|symmetry]; apply assoc_None; assumption.
  Qed.

  Lemma bt_extend_Permutation m l l' :
    sorted m -> NoDup (keys l) -> Permutation l l' -> bt_extend m l = bt_extend m l'.
  Proof.
    intros Hm Hn Hp. assert (Hn' : NoDup (keys l')).
    { unfold keys. eapply Permutation_NoDup; [|exact Hn]. apply Permutation_map. exact Hp. }
    apply sorted_ext; try (apply bt_extend_sorted; exact Hm).
    intro k. rewrite !assoc_bt_extend_NoDup by assumption.
    rewrite (assoc_Permutation k l l') by assumption. reflexivity.
  Qed.
End MapLemmas.

(** ** Dotted names *)

Lemma contains_dot_app a b : contains_dot (a ++ b)%string = contains_dot a || contains_dot b.
Proof. induction a as [|c a IH]; simpl; [reflexivity|]. rewrite IH. apply orb_assoc. Qed.

Lemma rsplit_None s : rsplit_once_dot s = None <-> contains_dot s = false.
Proof.
  induction s as [|c s IH]; simpl; [easy|].
  destruct (rsplit_once_dot s) as [[a b]|].
  - split; [easy|]. intro H. apply orb_false_iff in H. destruct H as [_ H].
    apply IH in H. discriminate.
  - destruct (is_dot c); simpl; split; intro H; try easy; apply IH; reflexivity.
Qed.

Lemma rsplit_Some s a b :
  rsplit_once_dot s = Some (a, b) <-> s = (a ++ "." ++ b)%string /\ contains_dot b = false.
Proof.
  revert a b. induction s as [|c s IH]; intros a b; simpl.
  - split; [easy|]. intros [H _]. destruct a; discriminate.
  - destruct (rsplit_once_dot s) as [[a' b']|] eqn:E.
    + split.
      * intro H. inversion H; subst. destruct (proj1 (IH a' b) eq_refl) as [H1 H2].
        subst s. split; [reflexivity|exact H2].
      * intros [H1 H2]. destruct a as [|c' a]; simpl in H1; injection H1 as Hc Hs.
        -- exfalso. destruct (proj1 (IH a' b') eq_refl) as [H3 H4]. rewrite Hs in H3.
           rewrite H3, contains_dot_app in H2. simpl in H2. rewrite orb_true_r in H2. discriminate.
        -- destruct (IH a b) as [_ IH2]. specialize (IH2 (conj Hs H2)). inversion IH2; subst.
           reflexivity.
    + apply rsplit_None in E. unfold is_dot. destruct (Ascii.eqb_spec c "."%char) as [->|Hc].
      * split.
        -- intro H. inversion H; subst. split; [reflexivity|exact E].
        -- intros [H1 H2]. destruct a as [|c' a]; simpl in H1; inversion H1; subst; [reflexivity|].
           rewrite contains_dot_app in E. simpl in E. rewrite orb_true_r in E. discriminate.
      * split; [easy|]. intros [H1 H2]. destruct a as [|c' a]; simpl in H1; inversion H1; subst.
        -- contradiction.
        -- rewrite contains_dot_app in E. simpl in E. rewrite orb_true_r in E. discriminate.
Qed.

(** ** Traversals *)

Lemma map_st_nil {A B S} (f : A -> S -> option (B * S)) st : map_st f [] st = Some ([], st).
Proof. reflexivity. Qed.

Lemma map_st_cons {A B S} (f : A -> S -> option (B * S)) x l st :
  map_st f (x :: l) st
  = match f x st with
    | None => None
    | Some (y, st1) =>
        match map_st f l st1 with
        | None => None
        | Some (ys, st2) => Some (y :: ys, st2)
        end
    end.
Proof. reflexivity. Qed.

Lemma map_res_cons {A B E} (f : A -> result B E) x l :
  map_res f (x :: l)
  = match f x with
    | Err e => Err e
    | Ok y => match map_res f l with Err e => Err e | Ok ys => Ok (y :: ys) end
    end.
Proof. reflexivity. Qed.

Lemma map_opt_cons {A B} (f : A -> option B) x l :
  map_opt f (x :: l)
  = match f x with
    | None => None
    | Some y => match map_opt f l with None => None | Some ys => Some (y :: ys) end
    end.
Proof. reflexivity. Qed.
