(** Which imported documents are accepted. *)
From Verif Require Import Import SpecLenient LenientProofs.
From Coq Require Import Lia.

Definition succeeds {A E} (r : result A E) : Prop := exists a, r = Ok a.
Lemma no_error {A E} (e : E) : ~ succeeds (Err e : result A E).
Proof. intros [a E1]. discriminate. Qed.
Lemma an_ok {A E} (a : A) : succeeds (Ok a : result A E).
Proof. now exists a. Qed.
Lemma map_res_ok {A B E} (f : A -> result B E) l : succeeds (map_res f l) <-> forall x, In x l -> succeeds (f x).
Proof.
  induction l as [|x l IH]; cbn; [split; [easy|intros _; apply an_ok]|]. split.
  - destruct (f x) as [b|e] eqn:F; [|intro H; now apply no_error in H]. destruct (map_res f l) as [bs|e]; [|intro H; now apply no_error in H].
    intros _ y [<-|Hy]; [rewrite F; apply an_ok|]. apply IH; [apply an_ok|exact Hy].
  - intro H. destruct (H x (or_introl eq_refl)) as [b ->]. destruct (proj2 IH (fun y Hy => H y (or_intror Hy))) as [bs ->]. apply an_ok.
Qed.

Lemma name_ok o dns : has_name o <-> parse_name o dns <> None.
Proof.
  unfold has_name, parse_name, get_str. fold (jget "name" o). split.
  - intros [s ->]. cbn. now destruct (split_full_name s).
  - destruct (jget "name" o) as [[| | |s| |]|]; cbn; try (intro H; now destruct H). intros _. now exists s.
Qed.
Lemma text_ok o k : (exists s, assoc k o = Some (JStr s)) <-> get_str k o <> None.
Proof.
  unfold get_str. change (assoc k o) with (jget k o). split.
  - now intros [s ->].
  - destruct (jget k o) as [[| | |s| |]|]; cbn; try (intro H; now destruct H). intros _. now exists s.
Qed.
Lemma enum_ok o dns : succeeds (parse_enum o dns) <-> has_name o.
Proof. rewrite (name_ok o dns). unfold parse_enum. destruct (parse_name o dns) as [[n s]|]; split; try easy; try (intros _; apply an_ok). intro H. now apply no_error in H. Qed.
Lemma fixed_ok o dns : succeeds (parse_fixed o dns) <-> has_name o /\ has_size o.
Proof.
  rewrite (name_ok o dns). unfold parse_fixed, has_size, get_u64. change (assoc "size" o) with (jget "size" o). destruct (parse_name o dns) as [[n s]|].
  2: { split; [intro H; now apply no_error in H|intros [H _]; now destruct H]. }
  destruct (jget "size" o) as [[| |[v|v|v]| | |]|]; cbn; try (split; [intro H; now apply no_error in H|intros [_ (x & H & _)]; discriminate]).
  unfold u32_of_u64, u32_max. destruct (N.leb_spec v 4294967295) as [L|L].
  - split; [|intros _; apply an_ok]. intros _. split; [discriminate|]. now exists v.
  - split; [intro H; now apply no_error in H|]. intros [_ (x & H & Hx)]. injection H as <-. lia.
Qed.
Lemma primitive_ok o p : succeeds (parse_annotated_primitive o p) <-> ~ no_digits o.
Proof.
  unfold parse_annotated_primitive, no_digits, get_str, get_u64. change (assoc "logicalType" o) with (jget "logicalType" o). change (assoc "precision" o) with (jget "precision" o).
  destruct (jget "logicalType" o) as [[| | |ln| |]|]; cbn [as_str];
    try (destruct (collect_extra_properties o ["type"]); (split; [intros _ [H _]; discriminate H|intros _; apply an_ok])).
  destruct (String.eqb_spec ln "decimal") as [->|N].
  - unfold parse_logical_type. cbn [String.eqb Ascii.eqb Bool.eqb].
    destruct (jget "precision" o) as [[| |[v|v|v]| | |]|]; cbn [as_u64]; try (split; [intros _ [_ H]; discriminate H|intros _; apply an_ok]).
    unfold u32_of_u64, u32_max. destruct (N.leb_spec v 4294967295) as [L|L].
    + destruct (N.ltb_spec v 1) as [Z|Z].
      * assert (v = 0%N) as -> by lia. split; [intro H; now apply no_error in H|intro H; now destruct H].
      * split; [|intros _; apply an_ok]. intros _ [_ H]. injection H as ->. lia.
    + split; [|intros _; apply an_ok]. intros _ [_ H]. injection H as ->. lia.
  - assert (forall a b, match parse_logical_type ln a b with Some (LDecimal _ _) => False | _ => True end) as D.
    { intros a b. unfold parse_logical_type. apply String.eqb_neq in N. rewrite N. repeat (destruct (String.eqb ln _); [easy|]). easy. }
    split; [intros _ [H _]; injection H as ->; now destruct N|]. intros _.
    match goal with |- context [parse_logical_type ln ?a ?b] => specialize (D a b); destruct (parse_logical_type ln a b) as [[]|] end; try (apply an_ok); destruct D.
Qed.
Lemma prims t : In t ["null"; "boolean"; "int"; "long"; "float"; "double"; "bytes"; "string"] <-> prim_of_str t <> None.
Proof.
  split.
  - cbn. intro H. repeat (destruct H as [<-|H]; [discriminate|]). destruct H.
  - unfold prim_of_str. cbn. repeat (match goal with |- context [String.eqb t ?x] => destruct (String.eqb_spec t x) as [->|]; [tauto|] end). intro H. now destruct H.
Qed.

Lemma accept_n n : forall j dns, jdepth j <= n -> acceptable j <-> succeeds (json_to_schema_n n j dns).
Proof.
  induction n as [|n IH]; intros j dns Hn; [destruct j; cbn in Hn; lia|].
  destruct j as [| | |s|l|o]; try (split; [intro H; inversion H|intro H; now apply no_error in H]).
  - split; [intros _; cbn; apply an_ok|constructor].
  - cbn [json_to_schema_n]. pose proof (map_res_ok (fun t => json_to_schema_n n t dns) l) as M.
    assert (D : forall x, In x l -> jdepth x <= n) by (intros x Hx; apply depth_in in Hx; cbn in Hn; lia).
    split.
    + intro A. inversion A as [|l0 A1| | | | | |]; subst. destruct (proj2 M) as [b ->]; [|apply an_ok]. intros x Hx. apply IH; auto.
    + intro S. constructor. intros x Hx. apply (IH x dns); auto. apply (proj1 M); [|exact Hx]. destruct (map_res _ l); [apply an_ok|]. now apply no_error in S.
  - rewrite schema_n_object.
    assert (G : forall k j, assoc k o = Some j -> jdepth j <= n) by (intros k j E; apply (depth_get k) in E; lia).
    destruct (get_str "type" o) as [ty|] eqn:Et.
    2: { split; [|intro H; now apply no_error in H]. intro A. exfalso. inversion A; subst;
         match goal with T : typed o ?x |- _ => apply (proj1 (text_ok o "type")); [exists x; exact T|exact Et] end. }
    assert (T : typed o ty).
    { unfold typed. unfold get_str in Et. change (assoc "type" o) with (jget "type" o). destruct (jget "type" o) as [[| | |s| |]|]; cbn in Et; try discriminate. now injection Et as ->. }
    assert (U : forall x, typed o x -> x = ty) by (intros x X; unfold typed in *; congruence).
    unfold object_n.
    destruct (String.eqb ty "record" || String.eqb ty "error") eqn:K1.
    { assert (R : In ty ["record"; "error"]).
      { apply Bool.orb_true_iff in K1 as [K|K]; apply String.eqb_eq in K as ->; cbn; auto. }
      assert (Fd : forall f l fns, assoc "fields" o = Some (JArr l) -> In f l -> acceptable_field f <-> succeeds (to_field_n n f fns)).
      { intros f l fns El Hf. apply G in El. apply depth_in in Hf. cbn in El. destruct f as [| | | | |fo]; try (split; [intro A; inversion A|intro A; now apply no_error in A]).
        unfold to_field_n. pose proof (text_ok fo "name") as Tn. split.
        - intro A. inversion A as [fo' j N E A1]; subst. destruct (get_str "name" fo); [|now destruct (proj1 Tn N)]. change (assoc "type" fo) with (jget "type" fo) in E. rewrite E.
          apply depth_get in E. cbn in *. destruct (proj1 (IH j fns ltac:(lia)) A1) as [x ->]. apply an_ok.
        - intro S. destruct (get_str "name" fo) eqn:N; [|now apply no_error in S]. destruct (jget "type" fo) as [tj|] eqn:E; [|now apply no_error in S].
          apply (af_field fo tj); [now apply Tn|exact E|]. apply depth_get in E. cbn in *. apply (IH tj fns); [lia|]. destruct (json_to_schema_n n tj fns); [apply an_ok|now apply no_error in S]. }
      unfold record_n. pose proof (name_ok o dns) as Nm. split.
      - intro A. assert (A' : has_name o /\ (forall l f, assoc "fields" o = Some (JArr l) -> In f l -> acceptable_field f)).
        { inversion A as [| |? ? T0 I0 N0 F0|? T0|? T0|? ? T0|? ? T0|? ? T0 I0]; subst; try (split; assumption); exfalso; pose proof (U _ T0) as <-; cbn in *; try discriminate K1; repeat (destruct I0 as [<-|I0]; [discriminate K1|]); destruct I0. }
        destruct A' as [N0 F0]. destruct (parse_name o dns) as [[nm ns]|]; [|now destruct (proj1 Nm N0)].
        change (jget "fields" o) with (assoc "fields" o). destruct (assoc "fields" o) as [[| | | |fl|]|] eqn:Ef; try (apply an_ok).
        destruct (proj2 (map_res_ok (fun f => to_field_n n f (opt_or ns dns)) fl)) as [b ->]; [|apply an_ok]. intros f Hf. apply (Fd f fl _ eq_refl Hf). now apply (F0 fl).
      - intro S. destruct (parse_name o dns) as [[nm ns]|] eqn:Pn; [|now apply no_error in S]. apply (ac_record o ty T R); [now apply Nm|]. intros l f El Hf.
        apply (Fd f l (opt_or ns dns) El Hf). change (jget "fields" o) with (assoc "fields" o) in S. rewrite El in S.
        apply (proj1 (map_res_ok (fun f => to_field_n n f (opt_or ns dns)) l)); [|exact Hf]. destruct (map_res _ l); [apply an_ok|now apply no_error in S]. }
    assert (NR : ~ In ty ["record"; "error"]) by (cbn; intros [<-|[<-|[]]]; discriminate K1).
    destruct (String.eqb_spec ty "enum") as [->|N2].
    { rewrite enum_ok. split; [|intro N; now apply ac_enum].
      intro A. inversion A as [| |? ? T0 I0 N0 F0|? T0|? T0|? ? T0|? ? T0|? ? T0 I0]; subst; try assumption; pose proof (U _ T0) as Eu; try discriminate Eu; subst; cbn in I0; exfalso; repeat (destruct I0 as [I0|I0]; [discriminate I0|]); destruct I0. }
    destruct (String.eqb_spec ty "fixed") as [->|N3].
    { rewrite fixed_ok. split; [|intros [N Z]; now apply ac_fixed].
      intro A. inversion A as [| |? ? T0 I0 N0 F0|? T0|? T0|? ? T0|? ? T0|? ? T0 I0]; subst; try (split; assumption); pose proof (U _ T0) as Eu; try discriminate Eu; subst; cbn in I0; exfalso; repeat (destruct I0 as [I0|I0]; [discriminate I0|]); destruct I0. }
    destruct (String.eqb_spec ty "array") as [->|N4].
    { unfold array_n. change (jget "items" o) with (assoc "items" o). split.
      - intro A. inversion A as [| |? ? T0 I0 N0 F0|? T0|? T0|? j0 T0 E0 A0|? ? T0|? ? T0 I0]; subst; pose proof (U _ T0) as Eu; try discriminate Eu.
        1: subst; cbn in I0; exfalso; repeat (destruct I0 as [I0|I0]; [discriminate I0|]); destruct I0.
        2: subst; cbn in I0; exfalso; repeat (destruct I0 as [I0|I0]; [discriminate I0|]); destruct I0.
        rewrite E0. destruct (proj1 (IH j0 dns (G _ _ E0)) A0) as [x ->]. apply an_ok.
      - intro S. destruct (assoc "items" o) as [j0|] eqn:E0; [|now apply no_error in S]. apply (ac_array o j0 T E0). apply (IH j0 dns (G _ _ E0)). destruct (json_to_schema_n n j0 dns); [apply an_ok|now apply no_error in S]. }
    destruct (String.eqb_spec ty "map") as [->|N5].
    { unfold map_n. change (jget "values" o) with (assoc "values" o). split.
      - intro A. inversion A as [| |? ? T0 I0 N0 F0|? T0|? T0|? ? T0|? j0 T0 E0 A0|? ? T0 I0]; subst; pose proof (U _ T0) as Eu; try discriminate Eu.
        1: subst; cbn in I0; exfalso; repeat (destruct I0 as [I0|I0]; [discriminate I0|]); destruct I0.
        2: subst; cbn in I0; exfalso; repeat (destruct I0 as [I0|I0]; [discriminate I0|]); destruct I0.
        rewrite E0. destruct (proj1 (IH j0 dns (G _ _ E0)) A0) as [x ->]. apply an_ok.
      - intro S. destruct (assoc "values" o) as [j0|] eqn:E0; [|now apply no_error in S]. apply (ac_map o j0 T E0). apply (IH j0 dns (G _ _ E0)). destruct (json_to_schema_n n j0 dns); [apply an_ok|now apply no_error in S]. }
    pose proof (prims ty) as P. split.
    + intro A. inversion A as [| |? ? T0 I0 N0 F0|? T0|? T0|? ? T0|? ? T0|? ? T0 I0 D0]; subst; pose proof (U _ T0) as Eu; subst; try (exfalso; congruence).
      destruct (prim_of_str ty); [now apply primitive_ok|now destruct (proj1 P I0)].
    + intro S. destruct (prim_of_str ty) as [p|]; [|now apply no_error in S]. apply (ac_primitive o ty T); [now apply P|]. now apply (primitive_ok o p).
Qed.
Lemma accept_schema j dns : acceptable j <-> succeeds (json_to_schema j dns).
Proof. now apply accept_n. Qed.
Lemma accept_field f fns : acceptable_field f <-> succeeds (json_to_field f fns).
Proof.
  destruct f as [| | | | |fo]; try (split; [intro A; inversion A|intro A; now apply no_error in A]).
  unfold json_to_field. pose proof (text_ok fo "name") as Tn. split.
  - intro A. inversion A as [fo' j N E A1]; subst. destruct (get_str "name" fo); [|now destruct (proj1 Tn N)]. change (assoc "type" fo) with (jget "type" fo) in E. rewrite E.
    destruct (proj1 (accept_schema j fns) A1) as [x ->]. apply an_ok.
  - intro S. destruct (get_str "name" fo) eqn:N; [|now apply no_error in S]. destruct (jget "type" fo) as [tj|] eqn:E; [|now apply no_error in S].
    apply (af_field fo tj); [now apply Tn|exact E|]. apply (accept_schema tj fns). destruct (json_to_schema tj fns); [apply an_ok|now apply no_error in S].
Qed.
Lemma accept_message m dns : acceptable_message m <-> succeeds (json_to_message m dns).
Proof.
  destruct m as [| | | | |o]; try (split; [intro A; inversion A|intro A; now apply no_error in A]).
  unfold json_to_message. change (jget "request" o) with (assoc "request" o). change (jget "response" o) with (assoc "response" o). change (jget "errors" o) with (assoc "errors" o).
  set (rq := match assoc "request" o with Some (JArr l) => _ | _ => _ end).
  set (rs := match assoc "response" o with Some r => _ | None => _ end).
  set (er := match assoc "errors" o with Some (JArr l) => _ | _ => _ end).
  assert (Q : succeeds rq <-> forall l f, assoc "request" o = Some (JArr l) -> In f l -> acceptable_field f).
  { subst rq. destruct (assoc "request" o) as [[| | | |l|]|]; try (split; [intros _ l0 f0 X; discriminate X|intros _; apply an_ok]).
    rewrite map_res_ok. split; [intros H l0 f0 X Hf; injection X as <-; apply (accept_field f0 dns); auto|intros H x Hx; apply accept_field; now apply (H l)]. }
  assert (R : succeeds rs <-> forall j, assoc "response" o = Some j -> acceptable j).
  { subst rs. destruct (assoc "response" o) as [j|]; [|split; [intros _ j X; discriminate X|intros _; apply an_ok]].
    rewrite <- accept_schema. split; [intros H j0 X; now injection X as <-|intro H; now apply H]. }
  assert (E : succeeds er <-> forall l j, assoc "errors" o = Some (JArr l) -> In j l -> acceptable j).
  { subst er. destruct (assoc "errors" o) as [[| | | |l|]|]; try (split; [intros _ l0 f0 X; discriminate X|intros _; apply an_ok]).
    pose proof (map_res_ok (fun e => json_to_schema e dns) l) as M. split.
    - intros S l0 j X Hj. injection X as <-. apply (accept_schema j dns). apply (proj1 M); [|exact Hj]. destruct (map_res _ l); [apply an_ok|now apply no_error in S].
    - intro H. destruct (proj2 M) as [b ->]; [|apply an_ok]. intros x Hx. apply accept_schema. now apply (H l). }
  split.
  - intro A. inversion A as [o0 A1 A2 A3]; subst. destruct (proj2 Q A1) as [q ->]. destruct (proj2 R A2) as [r ->]. destruct (proj2 E A3) as [e ->]. apply an_ok.
  - intro S. destruct rq as [q|]; [|now apply no_error in S]. destruct rs as [r|]; [|now apply no_error in S]. destruct er as [e|]; [|now apply no_error in S].
    constructor; [apply Q|apply R|apply E]; apply an_ok.
Qed.
Section Files.
  Context `{Unicode}.
  Lemma accept_types l dns : forall r, (forall t, In t l -> acceptable t) <-> snd (import_types l dns r) = None.
  Proof.
    induction l as [|t l IH]; intro r; cbn; [easy|]. pose proof (accept_schema t dns) as A. destruct (json_to_schema t dns) as [s|e].
    - rewrite <- IH. split; [intros X y Hy; apply X; now right|]. intros X y [<-|Hy]; [apply A; apply an_ok|now apply X].
    - split; [|discriminate]. intro X. exfalso. eapply no_error. apply A. apply X. now left.
  Qed.
  Lemma accept_protocol j r : acceptable_protocol j <-> succeeds (snd (import_protocol j r)).
  Proof.
    unfold import_protocol, acceptable_protocol. destruct j as [| | | | |o]; try (cbn; split; [intros _; apply an_ok|intros _ o0 X; discriminate X]).
    cbn [value_get]. set (dns := match jget "namespace" o with Some v => as_str v | None => None end). set (ts := match jget "types" o with Some (JArr l) => l | _ => [] end).
    assert (T : (forall l t, assoc "types" o = Some (JArr l) -> In t l -> acceptable t) <-> (forall t, In t ts -> acceptable t)).
    { subst ts. change (jget "types" o) with (assoc "types" o). destruct (assoc "types" o) as [[| | | |l|]|]; try (split; [intros _ t []|intros _ l0 t X; discriminate X]). split; [intros X t Ht; now apply (X l)|intros X l0 t Y; injection Y as <-; apply X]. }
    rewrite (accept_types ts dns r) in T. destruct (import_types ts dns r) as [r1 [e|]]; cbn [snd] in *.
    - split; [|intro X; now apply no_error in X]. intro X. destruct (X o eq_refl) as [X1 _]. apply T in X1. discriminate.
    - change (jget "messages" o) with (assoc "messages" o). destruct (assoc "messages" o) as [[| | | | |ms]|] eqn:Em; cbn [snd];
        try (split; [intros _; apply an_ok|intros _ o0 X; injection X as <-; split; [now apply T|intros ms9 n9 m9 X; congruence]]).
      pose proof (map_res_ok (fun kv => match json_to_message (snd kv) dns with Err e => Err e | Ok m => Ok (fst kv, m) end) ms) as M. fold (import_messages ms dns) in M.
      assert (M' : succeeds (import_messages ms dns) <-> (forall n m, In (n, m) ms -> acceptable_message m)).
      { rewrite M. split.
        - intros X n m Hm. apply (accept_message m dns). specialize (X _ Hm). cbn in X. destruct (json_to_message m dns); [apply an_ok|now apply no_error in X].
        - intros X [n m] Hm. cbn. destruct (proj1 (accept_message m dns) (X n m Hm)) as [x ->]. apply an_ok. }
      destruct (import_messages ms dns) as [msgs|e]; cbn [snd].
      + split; [intros _; apply an_ok|]. intros _ o0 X. injection X as <-. split; [now apply T|]. intros ms0 n m X. assert (ms0 = ms) as -> by congruence. apply M'. apply an_ok.
      + split; [|intro X; now apply no_error in X]. intro X. destruct (X o eq_refl) as [_ X2]. exfalso. eapply no_error. apply M'. intros n m. now apply X2.
  Qed.
  Lemma accept_file j r : acceptable j <-> succeeds (snd (import_schema j r)).
  Proof. rewrite (accept_schema j None). unfold import_schema. destruct (json_to_schema j None); cbn; split; intro X; try (apply an_ok); now apply no_error in X. Qed.
End Files.
