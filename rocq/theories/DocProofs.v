(** What a successful reading says about the names a document defines. *)
From Verif Require Export SimProofs SpecDoc.
From Coq Require Import Permutation.

(** [D] are the names defined by what was read between the two states. *)
Definition adds (D : list string) (st st' : rstate) : Prop :=
  Permutation (fst st') (D ++ fst st)
  /\ (exists new, snd st' = snd st ++ new /\ Permutation (keys new) D)
  /\ (NoDup (fst st) -> NoDup (fst st')).

Lemma adds_nil st : adds [] st st.
Proof. repeat split; auto. exists []. rewrite app_nil_r. auto. Qed.

Lemma adds_app D1 D2 a b c : adds D1 a b -> adds D2 b c -> adds (D1 ++ D2) a c.
Proof.
  intros (P1 & (n1 & E1 & K1) & N1) (P2 & (n2 & E2 & K2) & N2). repeat split.
  - rewrite P2, P1, !app_assoc. apply Permutation_app_tail, Permutation_app_comm.
  - exists (n1 ++ n2). rewrite E2, E1, app_assoc. split; [reflexivity|].
    unfold keys in *. rewrite map_app. apply Permutation_app; assumption.
  - auto.
Qed.

Lemma map_st_adds {A B} (g : A -> rstate -> option (B * rstate)) (D : A -> list string) l :
  (forall x st y st', In x l -> g x st = Some (y, st') -> adds (D x) st st') ->
  forall st ys st', map_st g l st = Some (ys, st') -> adds (flat_map D l) st st'.
Proof.
  induction l as [|x l IH]; intros Hg st ys st' E.
  - rewrite map_st_nil in E. inversion E; subst. apply adds_nil.
  - rewrite map_st_cons in E. destruct (g x st) as [[y st1]|] eqn:E1; [|discriminate].
    destruct (map_st g l st1) as [[ys' st2]|] eqn:E2; [|discriminate]. inversion E; subst.
    cbn [flat_map]. eapply adds_app; [eapply Hg; [left; reflexivity|exact E1]|].
    eapply IH; [|exact E2]. intros x' s1 y' s2 Hin. apply Hg. right. exact Hin.
Qed.

Lemma adds_def full d (known : list string) (ds : list (string * adef)) D st1 :
  ~ In full known -> adds D (full :: known, ds) st1 ->
  adds (full :: D) (known, ds) (fst st1, snd st1 ++ [(full, d)]).
Proof.
  intros Hn (P & (new & E & K) & N). cbn [fst snd] in *. repeat split; cbn [fst snd].
  - rewrite P. simpl. rewrite Permutation_middle. reflexivity.
  - exists (new ++ [(full, d)]). rewrite E, app_assoc. split; [reflexivity|].
    unfold keys in *. rewrite map_app. simpl. rewrite K. symmetry. apply Permutation_cons_append.
  - intro H. apply N. constructor; assumption.
Qed.

Lemma read_adds n : forall j enc st t st', read n j enc st = Some (t, st') -> adds (defined n enc j) st st'.
Proof.
  induction n as [|n IH]; intros j enc st t st' E; [discriminate|].
  destruct j as [ | b | m | s | l | o]; try discriminate.
  - cbn [read defined] in *. destruct (str_mem s spec_primitives); [inversion E; subst; apply adds_nil|].
    cbv zeta in E. destruct (str_mem (resolve_name enc s) (fst st)); [|discriminate]. inversion E; subst. apply adds_nil.
  - cbn [read defined] in *. destruct (map_st _ l st) as [[ts st1]|] eqn:Em in E; [|discriminate].
    inversion E; subst. eapply map_st_adds; [|exact Em]. intros x s1 y s2 _ Hx. eapply IH. exact Hx.
  - destruct st as [known ds]. cbn [read defined] in *. unfold is_definition.
    destruct (sget "type" o) as [ty|] eqn:Ety; [|discriminate].
    destruct (str_mem ty ["record"; "error"]) eqn:Er.
    { assert (Hd : str_mem ty ["record"; "error"; "enum"; "fixed"] = true).
      { apply str_mem_In in Er. apply str_mem_In. simpl in *. tauto. }
      rewrite Hd. destruct (def_name o enc) as [[full ns]|] eqn:Edn; [|discriminate].
      destruct (assoc "fields" o) as [[ | | | | fjs | ]|] eqn:Ef; try discriminate.
      cbn [fst snd] in E. destruct (str_mem full known) eqn:Ek; [discriminate|]. apply str_mem_not_In in Ek.
      destruct (map_st _ fjs _) as [[fields st1]|] eqn:Em in E; [|discriminate].
      destruct (def_aliases o ns) as [al|]; [|discriminate]. inversion E; subst.
      apply adds_def; [exact Ek|]. eapply map_st_adds; [|exact Em].
      intros fj s1 y s2 _ Hf. destruct fj as [ | | | | | fo]; try discriminate.
      destruct (sget "name" fo) as [fname|]; [|discriminate].
      destruct (assoc "type" fo) as [tj|]; [|discriminate].
      destruct (read n tj ns s1) as [[t1 s3]|] eqn:Et; [|discriminate]. inversion Hf; subst.
      eapply IH. exact Et. }
    destruct (String.eqb_spec ty "enum") as [->|Hne].
    { cbn. destruct (def_name o enc) as [[full ns]|] eqn:Edn; [|discriminate].
      destruct (assoc "symbols" o) as [[ | | | | sl | ]|] eqn:Ef; try discriminate.
      cbn [fst snd] in E. destruct (str_mem full known) eqn:Ek; [discriminate|]. apply str_mem_not_In in Ek.
      destruct (all_strings sl); [|discriminate]. destruct (def_aliases o ns); [|discriminate]. inversion E; subst.
      apply (adds_def full _ known ds [] (full :: known, ds) Ek). apply adds_nil. }
    destruct (String.eqb_spec ty "fixed") as [->|Hnf].
    { cbn. destruct (def_name o enc) as [[full ns]|] eqn:Edn; [|discriminate].
      destruct (assoc "size" o) as [[ | | [size|?|? ?] | | | ]|] eqn:Ef; try discriminate.
      cbn [fst snd] in E. destruct (str_mem full known) eqn:Ek; [discriminate|]. apply str_mem_not_In in Ek.
      destruct (def_aliases o ns); [|discriminate]. inversion E; subst.
      apply (adds_def full _ known ds [] (full :: known, ds) Ek). apply adds_nil. }
    assert (Hd : str_mem ty ["record"; "error"; "enum"; "fixed"] = false).
    { apply str_mem_not_In. apply str_mem_not_In in Er. simpl in *. intuition congruence. }
    rewrite Hd. destruct (String.eqb ty "array").
    { destruct (assoc "items" o) as [ij|]; [|discriminate].
      destruct (read n ij enc (known, ds)) as [[t1 s1]|] eqn:Et; [|discriminate]. inversion E; subst.
      eapply IH. exact Et. }
    destruct (String.eqb ty "map").
    { destruct (assoc "values" o) as [ij|]; [|discriminate].
      destruct (read n ij enc (known, ds)) as [[t1 s1]|] eqn:Et; [|discriminate]. inversion E; subst.
      eapply IH. exact Et. }
    destruct (str_mem ty spec_primitives); [|discriminate]. inversion E; subst. apply adds_nil.
Qed.

(** A definition read at top level is named after what it is read as. *)
Lemma read_entry n j enc st full st' :
  read n j enc st = Some (TNamed full, st') -> is_string j = false -> entry_name enc j = Some full.
Proof.
  intros E Hs. destruct n as [|n]; [discriminate|].
  destruct j as [ | b | m | s | l | o]; try discriminate.
  - cbn [read] in E. destruct (map_st _ l st) as [[ts st1]|]; discriminate.
  - cbn [read] in E. cbn [entry_name]. destruct (sget "type" o) as [ty|]; [|discriminate].
    destruct (str_mem ty ["record"; "error"]).
    { destruct (def_name o enc) as [[f ns]|]; [|discriminate].
      destruct (assoc "fields" o) as [[ | | | | fjs | ]|]; try discriminate.
      destruct (str_mem f (fst st)); [discriminate|].
      destruct (map_st _ fjs _) as [[fields st1]|] in E; [|discriminate].
      destruct (def_aliases o ns); [|discriminate]. inversion E; subst. reflexivity. }
    destruct (String.eqb ty "enum").
    { destruct (def_name o enc) as [[f ns]|]; [|discriminate].
      destruct (assoc "symbols" o) as [[ | | | | fjs | ]|]; try discriminate.
      destruct (str_mem f (fst st)); [discriminate|].
      destruct (all_strings fjs); [|discriminate].
      destruct (def_aliases o ns); [|discriminate]. inversion E; subst. reflexivity. }
    destruct (String.eqb ty "fixed").
    { destruct (def_name o enc) as [[f ns]|]; [|discriminate].
      destruct (assoc "size" o) as [[ | | [size|?|? ?] | | | ]|]; try discriminate.
      destruct (str_mem f (fst st)); [discriminate|].
      destruct (def_aliases o ns); [|discriminate]. inversion E; subst. reflexivity. }
    destruct (String.eqb ty "array").
    { destruct (assoc "items" o) as [ij|]; [|discriminate].
      destruct (read n ij enc st) as [[t1 s1]|]; discriminate. }
    destruct (String.eqb ty "map").
    { destruct (assoc "values" o) as [ij|]; [|discriminate].
      destruct (read n ij enc st) as [[t1 s1]|]; discriminate. }
    destruct (str_mem ty spec_primitives); discriminate.
Qed.

Lemma read_field_adds n fj ns st f st' :
  read_field n fj ns st = Some (f, st') -> adds (defined_field n ns fj) st st'.
Proof.
  intro E. destruct fj as [ | | | | | fo]; try discriminate. cbn [read_field defined_field] in *.
  destruct (sget "name" fo) as [fname|]; [|discriminate].
  destruct (assoc "type" fo) as [tj|]; [|discriminate].
  destruct (read n tj ns st) as [[t1 s3]|] eqn:Et; [|discriminate]. inversion E; subst.
  eapply read_adds. exact Et.
Qed.

Definition message_defined (n : nat) (ns : string) (j : json) : list string :=
  match j with
  | JObj m =>
      flat_map (defined_field n ns) (jarr (assoc "request" m))
      ++ flat_map (defined n ns) (jopt (assoc "response" m))
      ++ flat_map (defined n ns) (jarr (assoc "errors" m))
  | _ => []
  end.

Lemma read_message_adds n j ns st m st' :
  read_message n j ns st = Some (m, st') -> adds (message_defined n ns j) st st'.
Proof.
  intro E. destruct j as [ | | | | | o]; try discriminate. cbn [read_message message_defined] in *.
  destruct (assoc "request" o) as [[ | | | | rq | ]|]; try discriminate.
  destruct (assoc "response" o) as [rs|]; [|discriminate].
  destruct (map_st _ rq st) as [[fields st1]|] eqn:E1 in E; [|discriminate].
  destruct (read n rs ns st1) as [[rt st2]|] eqn:E2; [|discriminate].
  cbn [jarr jopt flat_map]. rewrite app_nil_r.
  eapply adds_app; [eapply map_st_adds; [|exact E1]|].
  { intros x s1 y s2 _ Hx. eapply read_field_adds. exact Hx. }
  eapply adds_app; [eapply read_adds; exact E2|].
  destruct (assoc "errors" o) as [[ | | | | es | ]|]; try discriminate.
  - destruct (map_st _ es st2) as [[ets st3]|] eqn:E3 in E; [|discriminate]. inversion E; subst.
    cbn [jarr]. eapply map_st_adds; [|exact E3]. intros x s1 y s2 _ Hx. eapply read_adds. exact Hx.
  - inversion E; subst. apply adds_nil.
Qed.

Lemma adds_same D st : adds D st st -> D = [].
Proof.
  intros (P & _). apply Permutation_length in P. rewrite app_length in P. destruct D; [reflexivity|simpl in P; lia].
Qed.
