(** The dynamic program computes the edit distance. *)
From Verif Require Import BaseProofs Suggest SpecEdit.

(** The textbook recursion, used only inside the proofs. *)
Fixpoint dist (a : list N) : list N -> nat :=
  match a with
  | [] => fun b => length b
  | x :: a' =>
      fix dist_b (b : list N) : nat :=
        match b with
        | [] => S (length a')
        | y :: b' =>
            Nat.min (Nat.min (dist a' b' + (if (x =? y)%N then 0 else 1)) (dist a' b + 1)) (dist_b b' + 1)
        end
  end.

Lemma dist_nil_r a : dist a [] = length a.
Proof. destruct a; reflexivity. Qed.

Lemma dist_cons x a y b :
  dist (x :: a) (y :: b) =
  Nat.min (Nat.min (dist a b + (if (x =? y)%N then 0 else 1)) (dist a (y :: b) + 1)) (dist (x :: a) b + 1).
Proof. reflexivity. Qed.

Global Opaque dist.

Lemma dist_nil_l b : dist [] b = length b.
Proof. Transparent dist. reflexivity. Opaque dist. Qed.

Lemma dist_del_l x a c : dist (x :: a) c <= dist a c + 1.
Proof.
  destruct c as [|y c].
  - rewrite !dist_nil_r. cbn. lia.
  - rewrite dist_cons. lia.
Qed.

Lemma dist_del_r x a c : dist a (x :: c) <= dist a c + 1.
Proof.
  destruct a as [|y a].
  - rewrite !dist_nil_l. cbn. lia.
  - rewrite dist_cons. lia.
Qed.

Lemma dist_add_l x a c : dist a c <= dist (x :: a) c + 1.
Proof.
  induction c as [|y c IH].
  - rewrite !dist_nil_r. cbn. lia.
  - rewrite dist_cons. pose proof (dist_del_r y a c). lia.
Qed.

Lemma dist_self a : dist a a = 0.
Proof. induction a as [|x a IH]; [apply dist_nil_l|]. rewrite dist_cons, N.eqb_refl, IH. lia. Qed.

(** One edit changes the distance to anything by at most one. *)
Lemma dist_prefix l a b :
  (forall c, dist a c <= dist b c + 1) -> forall c, dist (l ++ a) c <= dist (l ++ b) c + 1.
Proof.
  intro Hab. induction l as [|x l IHl]; [exact Hab|]. cbn [app]. intro c.
  induction c as [|y c IHc].
  - pose proof (IHl []) as Hl. rewrite !dist_nil_r in *. cbn. lia.
  - rewrite !dist_cons. pose proof (IHl c) as A. pose proof (IHl (y :: c)) as B.
    destruct (x =? y)%N; lia.
Qed.

Lemma one_edit_sym a b : one_edit a b -> one_edit b a.
Proof. destruct 1; constructor. Qed.

Lemma one_edit_dist a b c : one_edit a b -> dist a c <= dist b c + 1.
Proof.
  intros E. destruct E as [l x r|l x r|l x y r]; apply dist_prefix.
  - intro d. apply dist_add_l.
  - intro d. apply dist_del_l.
  - clear. intro d. induction d as [|z d IH].
    + rewrite !dist_nil_r. cbn. lia.
    + rewrite !dist_cons. destruct (x =? z)%N, (y =? z)%N; pose proof (dist_add_l y r d);
        pose proof (dist_del_l x r d); lia.
Qed.

Lemma edits_lower n a b : edits n a b -> dist a b <= n.
Proof.
  induction 1 as [a|n a b c E _ IH]; [rewrite dist_self; lia|].
  pose proof (one_edit_dist _ _ c E). lia.
Qed.

Lemma one_edit_cons x a b : one_edit a b -> one_edit (x :: a) (x :: b).
Proof.
  destruct 1 as [l y r|l y r|l y z r].
  - exact (ed_insert (x :: l) y r).
  - exact (ed_delete (x :: l) y r).
  - exact (ed_subst (x :: l) y z r).
Qed.

Lemma edits_cons x n a b : edits n a b -> edits n (x :: a) (x :: b).
Proof. induction 1; econstructor; [apply one_edit_cons; eassumption|assumption]. Qed.

Lemma edits_del_all a : edits (length a) a [].
Proof. induction a as [|x a IH]; cbn; econstructor; [exact (ed_delete [] x a)|exact IH]. Qed.
Lemma edits_ins_all b : edits (length b) [] b.
Proof.
  induction b as [|x b IH]; cbn; [constructor|]. econstructor; [exact (ed_insert [] x [])|].
  apply edits_cons, IH.
Qed.

Lemma edits_trans n m a b c : edits n a b -> edits m b c -> edits (n + m) a c.
Proof. induction 1; [auto|]. intro Hm. cbn. econstructor; eauto. Qed.

Lemma edits_dist a b : edits (dist a b) a b.
Proof.
  revert b. induction a as [|x a IHa].
  - intro b. rewrite dist_nil_l. apply edits_ins_all.
  - induction b as [|y b IHb].
    + rewrite dist_nil_r. apply edits_del_all.
    + rewrite dist_cons.
      destruct (Nat.min_spec (Nat.min (dist a b + (if (x =? y)%N then 0 else 1)) (dist a (y :: b) + 1))
                  (dist (x :: a) b + 1)) as [[_ ->]|[_ ->]].
      * destruct (Nat.min_spec (dist a b + (if (x =? y)%N then 0 else 1)) (dist a (y :: b) + 1)) as [[_ ->]|[_ ->]].
        -- destruct (N.eqb_spec x y) as [->|Hne].
           ++ rewrite Nat.add_0_r. apply edits_cons, IHa.
           ++ rewrite Nat.add_1_r. econstructor; [exact (ed_subst [] x y a)|]. apply edits_cons, IHa.
        -- rewrite Nat.add_1_r. econstructor; [exact (ed_delete [] x a)|]. apply IHa.
      * rewrite Nat.add_1_r. econstructor; [exact (ed_insert [] y (x :: a))|]. apply edits_cons, IHb.
Qed.

Lemma dist_is_edit_distance a b : is_edit_distance a b (dist a b).
Proof. split; [apply edits_dist|intros n; apply edits_lower]. Qed.

(** Reversal. *)
Lemma one_edit_rev a b : one_edit a b -> one_edit (rev a) (rev b).
Proof.
  destruct 1 as [l x r|l x r|l x y r]; rewrite !rev_app_distr; cbn [rev]; rewrite <- ?app_assoc; cbn [app].
  - apply ed_insert.
  - apply ed_delete.
  - apply ed_subst.
Qed.
Lemma edits_rev n a b : edits n a b -> edits n (rev a) (rev b).
Proof. induction 1; econstructor; [apply one_edit_rev; eassumption|assumption]. Qed.

Lemma dist_rev a b : dist (rev a) (rev b) = dist a b.
Proof.
  apply Nat.le_antisymm.
  - apply edits_lower, edits_rev, edits_dist.
  - apply edits_lower. pose proof (edits_rev _ _ _ (edits_dist (rev a) (rev b))) as E.
    rewrite !rev_involutive in E. exact E.
Qed.

(** *** The rows of the dynamic program *)

(** Distances from the reversed prefix [ra] to the reversed prefixes of [b]
    that extend [rb]. *)
Fixpoint drow (ra rb bs : list N) : list nat :=
  match bs with
  | [] => []
  | c :: bs' => dist ra (c :: rb) :: drow ra (c :: rb) bs'
  end.

Lemma drow_length ra rb bs : length (drow ra rb bs) = length bs.
Proof. revert rb. induction bs as [|c bs IH]; intro rb; cbn; [reflexivity|]. rewrite IH. reflexivity. Qed.

Lemma lev_inner_row ca ra bs : forall rb curr,
  length curr = length bs ->
  lev_inner ca bs (dist ra rb :: drow ra rb bs) curr (dist (ca :: ra) rb) = drow (ca :: ra) rb bs.
Proof.
  induction bs as [|cb bs IH]; intros rb curr Hl.
  - destruct curr; [reflexivity|discriminate].
  - destruct curr as [|c0 curr]; [discriminate|]. cbn [drow lev_inner].
    rewrite <- dist_cons. f_equal. apply IH. cbn in Hl. lia.
Qed.

Lemma lev_outer_row bs cas : forall ra curr,
  length curr = S (length bs) ->
  lev_outer (length ra) cas bs (dist ra [] :: drow ra [] bs) curr
  = dist (rev cas ++ ra) [] :: drow (rev cas ++ ra) [] bs.
Proof.
  induction cas as [|ca cas IH]; intros ra curr Hl; cbn [lev_outer]; [reflexivity|].
  destruct curr as [|c0 curr]; [discriminate|]. cbn [tl].
  assert (Ed : length ra + 1 = dist (ca :: ra) []) by (rewrite dist_nil_r; cbn; lia).
  assert (El : length ra + 1 = length (ca :: ra)) by (cbn; lia).
  assert (Er : lev_inner ca bs (dist ra [] :: drow ra [] bs) curr (length ra + 1) = drow (ca :: ra) [] bs).
  { rewrite Ed. apply lev_inner_row. cbn in Hl. lia. }
  rewrite Er, El. rewrite <- (dist_nil_r (ca :: ra)) at 2.
  rewrite IH.
  - cbn [rev]. rewrite <- app_assoc. reflexivity.
  - cbn. rewrite drow_length. reflexivity.
Qed.

Lemma drow_nil bs rb : drow [] rb bs = seq (S (length rb)) (length bs).
Proof.
  revert rb. induction bs as [|c bs IH]; intro rb; cbn; [reflexivity|]. rewrite dist_nil_l. cbn.
  rewrite IH. reflexivity.
Qed.

Lemma drow_last ra bs : forall rb d,
  nth (length bs) (dist ra rb :: drow ra rb bs) d = dist ra (rev bs ++ rb).
Proof.
  induction bs as [|c bs IH]; intros rb d; [reflexivity|]. cbn [drow length].
  change (nth (S (length bs)) (dist ra rb :: dist ra (c :: rb) :: drow ra (c :: rb) bs) d)
    with (nth (length bs) (dist ra (c :: rb) :: drow ra (c :: rb) bs) d).
  rewrite IH. cbn [rev]. rewrite <- app_assoc. reflexivity.
Qed.

(** When every character is one byte. *)
Lemma levenshtein_dist a b :
  length (chars a) = String.length a -> length (chars b) = String.length b ->
  levenshtein a b = dist (chars a) (chars b).
Proof.
  intros Ha Hb. unfold levenshtein.
  destruct (Nat.eqb_spec (String.length a) 0) as [Ea|Ea].
  - rewrite Ea in Ha. destruct (chars a); [|discriminate]. rewrite dist_nil_l. lia.
  - destruct (Nat.eqb_spec (String.length b) 0) as [Eb|Eb].
    + rewrite Eb in Hb. destruct (chars b); [|discriminate]. rewrite dist_nil_r. lia.
    + replace (seq 0 (String.length b + 1)) with (dist [] [] :: drow [] [] (chars b)).
      2:{ rewrite drow_nil, Hb, Nat.add_1_r. rewrite dist_nil_l. reflexivity. }
      rewrite (lev_outer_row (chars b) (chars a) []) by (rewrite repeat_length; lia).
      rewrite <- Hb, drow_last, !app_nil_r. apply dist_rev.
Qed.

Lemma decode_ascii_id l : forallb (fun b => (b <? 128)%N) l = true -> utf8_decode_bytes l = l.
Proof.
  induction l as [|b l IH]; [reflexivity|]. cbn [forallb]. intro E. apply andb_true_iff in E. destruct E as [Eb E].
  cbn [utf8_decode_bytes]. rewrite Eb, (IH E). reflexivity.
Qed.

Lemma bytes_length s : length (bytes_of s) = String.length s.
Proof. induction s as [|c s IH]; cbn; [reflexivity|]. f_equal. exact IH. Qed.

Lemma ascii_chars s : is_ascii_string s = true -> chars s = bytes_of s.
Proof. apply decode_ascii_id. Qed.

Lemma levenshtein_correct a b :
  is_ascii_string a = true -> is_ascii_string b = true ->
  is_edit_distance (chars a) (chars b) (levenshtein a b).
Proof.
  intros Ha Hb. rewrite levenshtein_dist.
  - apply dist_is_edit_distance.
  - rewrite ascii_chars by exact Ha. apply bytes_length.
  - rewrite ascii_chars by exact Hb. apply bytes_length.
Qed.
