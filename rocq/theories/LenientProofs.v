(** Attributes of the wrong type make no difference to an import. *)
From Verif Require Import Import SpecLenient.
From Coq Require Import Lia.

Lemma jget_app k a (b : list (string * json)) : jget k (a ++ b) = match jget k a with Some v => Some v | None => jget k b end.
Proof. unfold jget. induction a as [|[x v] a IH]; cbn; [reflexivity|]. destruct (String.eqb k x); [reflexivity|exact IH]. Qed.
Lemma jget_none k (a : list (string * json)) : ~ In k (map fst a) -> jget k a = None.
Proof. unfold jget. induction a as [|[x v] a IH]; cbn; [reflexivity|]. intro N. destruct (String.eqb_spec k x) as [->|]; [now destruct N; left|]. apply IH. tauto. Qed.

(** The same but for [k] *)
Record same_but (k : string) (o o' : list (string * json)) : Prop := {
  sb_get k' : k' <> k -> jget k' o = jget k' o';
  sb_extra known : str_mem k known = true -> collect_extra_properties o known = collect_extra_properties o' known
}.
Lemma without_but k v o o' : without k v o o' -> same_but k o o' /\ jget k o = Some v /\ jget k o' = None.
Proof.
  intros (a & b & -> & -> & Na & Nb). split; [split|].
  - intros k' N. rewrite !jget_app. destruct (jget k' a); [reflexivity|]. unfold jget. cbn. now apply String.eqb_neq in N as ->.
  - intros known M. unfold collect_extra_properties. rewrite !filter_app. cbn. now rewrite M.
  - rewrite !jget_app, (jget_none _ _ Na), (jget_none _ _ Nb). split; [|reflexivity]. unfold jget. cbn. now rewrite String.eqb_refl.
Qed.
Lemma changed_but k v v' o o' : changed k v v' o o' -> same_but k o o' /\ jget k o = Some v /\ jget k o' = Some v'.
Proof.
  intros (a & b & -> & -> & Na). split; [split|].
  - intros k' N. rewrite !jget_app. destruct (jget k' a); [reflexivity|]. unfold jget. cbn. now apply String.eqb_neq in N as ->.
  - intros known M. unfold collect_extra_properties. rewrite !filter_app. cbn. now rewrite M.
  - rewrite !jget_app, (jget_none _ _ Na). unfold jget. cbn. now rewrite String.eqb_refl.
Qed.

(** ** Attributes *)
Lemma as_str_not v : not_string v -> as_str v = None.
Proof. intro N. destruct v; try reflexivity. now destruct (N s). Qed.
Lemma array_not v : not_array v -> extract_string_array (Some v) = [].
Proof. intro N. destruct v; try reflexivity. now destruct (N l). Qed.
Lemma array_entry l x r : not_string x -> extract_string_array (Some (JArr (l ++ x :: r))) = extract_string_array (Some (JArr (l ++ r))).
Proof. intro N. unfold extract_string_array. rewrite !flat_map_app. cbn. now rewrite (as_str_not _ N). Qed.
Lemma order_not v : ~ In v [JStr "ascending"; JStr "descending"; JStr "ignore"] -> parse_order (as_str v) = None.
Proof.
  intro N. destruct v; try reflexivity. cbn. destruct (String.eqb_spec s "ascending") as [->|]; [now destruct N; left|].
  destruct (String.eqb_spec s "descending") as [->|]; [now destruct N; right; left|]. destruct (String.eqb_spec s "ignore") as [->|]; [now destruct N; right; right; left|]. reflexivity.
Qed.

(** ** Fuel *)
Lemma depth_in j l : In j l -> jdepth j <= fold_right (fun x n => Nat.max (jdepth x) n) 0 l.
Proof. induction l as [|x l IH]; [easy|]. intros [->|H]; cbn; [lia|]. specialize (IH H). lia. Qed.
Lemma depth_get k o j : jget k o = Some j -> jdepth j < jdepth (JObj o).
Proof.
  unfold jget. cbn. intro E. apply Nat.lt_succ_r. induction o as [|[x v] o IH]; cbn in *; [discriminate|]. destruct (String.eqb k x); [injection E as ->; lia|]. specialize (IH E). lia.
Qed.
Lemma map_res_ext {A B E} (f g : A -> result B E) l : (forall x, In x l -> f x = g x) -> map_res f l = map_res g l.
Proof. induction l as [|x l IH]; intro H; cbn; [reflexivity|]. rewrite (H x) by now left. destruct (g x); [|reflexivity]. rewrite IH; [reflexivity|]. intros y Hy. apply H. now right. Qed.

Definition to_field_n (n : nat) (fj : json) (fns : option string) : ires field :=
  match fj with
  | JObj o =>
      match get_str "name" o with
      | None => Err (IErr "field missing 'name'")
      | Some name =>
          match jget "type" o with
          | None => Err (IErr "field missing 'type'")
          | Some tj =>
              match json_to_schema_n n tj fns with
              | Err e => Err e
              | Ok s =>
                  Ok (mkField name s (get_str "doc" o) (jget "default" o)
                              (parse_order (get_str "order" o))
                              (extract_string_array (jget "aliases" o))
                              (collect_extra_properties o
                                 ["name"; "type"; "doc"; "default"; "order"; "aliases"]))
              end
          end
      end
  | _ => Err (IErr "field must be an object")
  end.
Definition record_n (n : nat) (o : list (string * json)) (dns : option string) (ty : string) : ires schema :=
  match parse_name o dns with
  | None => Err (IErr "record missing 'name'")
  | Some (name, ns) =>
      match (match jget "fields" o with
             | Some (JArr fj) => map_res (fun f => to_field_n n f (opt_or ns dns)) fj
             | _ => Ok []
             end) with
      | Err e => Err e
      | Ok fields =>
          Ok (SRecord name ns (get_str "doc" o) fields (String.eqb ty "error")
                      (extract_string_array (jget "aliases" o))
                      (collect_extra_properties o
                         ["type"; "name"; "namespace"; "doc"; "fields"; "aliases"]))
      end
  end.
Definition array_n (n : nat) (o : list (string * json)) (dns : option string) : ires schema :=
  match jget "items" o with
  | None => Err (IErr "array missing 'items'")
  | Some ij => match json_to_schema_n n ij dns with Err e => Err e | Ok s => Ok (SArray s (collect_extra_properties o ["type"; "items"])) end
  end.
Definition map_n (n : nat) (o : list (string * json)) (dns : option string) : ires schema :=
  match jget "values" o with
  | None => Err (IErr "map missing 'values'")
  | Some ij => match json_to_schema_n n ij dns with Err e => Err e | Ok s => Ok (SMap s (collect_extra_properties o ["type"; "values"])) end
  end.
Definition object_n (n : nat) (o : list (string * json)) (dns : option string) (ty : string) : ires schema :=
  if String.eqb ty "record" || String.eqb ty "error" then record_n n o dns ty
  else if String.eqb ty "enum" then parse_enum o dns
  else if String.eqb ty "fixed" then parse_fixed o dns
  else if String.eqb ty "array" then array_n n o dns
  else if String.eqb ty "map" then map_n n o dns
  else match prim_of_str ty with Some p => parse_annotated_primitive o p | None => Err (IErr "unknown schema type") end.
Lemma schema_n_object n o dns : json_to_schema_n (S n) (JObj o) dns =
  match get_str "type" o with None => Err (IErr "schema object missing 'type' field") | Some ty => object_n n o dns ty end.
Proof. reflexivity. Qed.

Lemma fuel_same n : forall m j dns, jdepth j <= n -> jdepth j <= m -> json_to_schema_n n j dns = json_to_schema_n m j dns.
Proof.
  induction n as [|n IH]; intros m j dns Hn Hm; [destruct j; cbn in Hn; lia|]. destruct m as [|m]; [destruct j; cbn in Hm; lia|].
  destruct j as [| | | |l|o]; try reflexivity.
  - cbn [json_to_schema_n]. rewrite (map_res_ext _ (fun t => json_to_schema_n m t dns)); [reflexivity|]. intros x Hx. apply depth_in in Hx. cbn in Hn, Hm. apply IH; lia.
  - rewrite !schema_n_object. destruct (get_str "type" o) as [ty|]; [|reflexivity]. unfold object_n.
    assert (G : forall k j, jget k o = Some j -> jdepth j <= n /\ jdepth j <= m) by (intros k j E; apply depth_get in E; lia).
    destruct (String.eqb ty "record" || String.eqb ty "error").
    + unfold record_n. destruct (parse_name o dns) as [[nm ns]|]; [|reflexivity]. destruct (jget "fields" o) as [[| | | |fj|]|] eqn:F; try reflexivity.
      rewrite (map_res_ext _ (fun f => to_field_n m f (opt_or ns dns))); [reflexivity|]. intros f Hf. unfold to_field_n. destruct f as [| | | | |fo]; try reflexivity.
      destruct (get_str "name" fo); [|reflexivity]. destruct (jget "type" fo) as [tj|] eqn:T; [|reflexivity].
      destruct (G _ _ F) as [G1 G2]. apply depth_in in Hf. apply depth_get in T. cbn in *. rewrite (IH m tj _); [reflexivity|lia|lia].
    + destruct (String.eqb ty "enum"); [reflexivity|]. destruct (String.eqb ty "fixed"); [reflexivity|]. destruct (String.eqb ty "array").
      * unfold array_n. destruct (jget "items" o) as [ij|] eqn:F; [|reflexivity]. destruct (G _ _ F). rewrite (IH m ij); [reflexivity|lia|lia].
      * destruct (String.eqb ty "map"); [|reflexivity]. unfold map_n. destruct (jget "values" o) as [ij|] eqn:F; [|reflexivity]. destruct (G _ _ F). rewrite (IH m ij); [reflexivity|lia|lia].
Qed.

(** ** Objects *)
Ltac other_keys SB :=
  repeat match goal with
  | |- context [jget ?k ?o] => match type of SB with same_but ?k0 o ?o' => lazymatch k with k0 => fail | _ => rewrite (sb_get _ _ _ SB k) by discriminate end end
  end;
  rewrite ?(sb_extra _ _ _ SB) by reflexivity.
Ltac silent :=
  repeat match goal with
  | H : not_string ?v |- context [as_str ?v] => rewrite (as_str_not v H)
  | H : not_array ?v |- context [extract_string_array (Some ?v)] => rewrite (array_not v H)
  | H : not_string ?x |- context [extract_string_array (Some (JArr (?l ++ ?x :: ?r)))] => rewrite (array_entry l x r H)
  | H : ~ In ?v _ |- context [parse_order (as_str ?v)] => rewrite (order_not v H)
  end; try reflexivity.
Ltac wrong_type := match goal with H : not_array ?x |- _ => destruct x | H : not_boolean ?x |- _ => destruct x | H : not_object ?x |- _ => destruct x end; try reflexivity; exfalso; match goal with H : not_array (JArr ?l) |- _ => exact (H l eq_refl) | H : not_boolean (JBool ?l) |- _ => exact (H l eq_refl) | H : not_object (JObj ?l) |- _ => exact (H l eq_refl) end.
Ltac attribute :=
  match goal with
  | H : tidied _ _ _ |- _ =>
      destruct H as [oo oo' key v W P|oo oo' key l x rest W L N];
      [apply without_but in W as (SB & E & E')|apply changed_but in W as (SB & E & E')];
      [inversion P; subst|inversion L; subst];
      try match goal with H : In _ (_ :: _) |- _ => exfalso; cbn in H; repeat (destruct H as [H|H]; [discriminate H|]); exact H end
  end.

Lemma tidied_record n o o' dns ty : tidied ARecord o o' -> record_n n o dns ty = record_n n o' dns ty.
Proof.
  intro T. attribute; unfold record_n, parse_name, get_str; other_keys SB; rewrite ?E, ?E'; silent.
  match goal with H : not_array v |- _ => destruct v as [| | | |l|]; try reflexivity; now destruct (H l) end.
Qed.
Lemma tidied_enum o o' dns : tidied AnEnum o o' -> parse_enum o dns = parse_enum o' dns.
Proof. intro T. attribute; unfold parse_enum, parse_name, get_str; other_keys SB; rewrite ?E, ?E'; silent. Qed.
Lemma tidied_fixed o o' dns : tidied AFixed o o' -> parse_fixed o dns = parse_fixed o' dns.
Proof. intro T. attribute; unfold parse_fixed, parse_name, get_str, get_u64; other_keys SB; rewrite ?E, ?E'; silent. Qed.
Lemma tidied_field n o o' fns : tidied AField o o' -> to_field_n n (JObj o) fns = to_field_n n (JObj o') fns.
Proof. intro T. attribute; unfold to_field_n, get_str; other_keys SB; rewrite ?E, ?E'; silent. Qed.
Lemma tidied_type c o o' : In c [ARecord; AnEnum; AFixed] -> tidied c o o' -> jget "type" o = jget "type" o'.
Proof. intros _ T. attribute; other_keys SB; reflexivity. Qed.

Lemma map_res_one {A B E} (f : A -> result B E) a b x y : f x = f y -> map_res f (a ++ x :: b) = map_res f (a ++ y :: b).
Proof. intro H. induction a as [|z a IH]; cbn; [now rewrite H|]. destruct (f z); [|reflexivity]. now rewrite IH. Qed.
Lemma depth_middle a b j : jdepth j < jdepth (JArr (a ++ j :: b)).
Proof. cbn. apply Nat.lt_succ_r, depth_in, in_elt. Qed.

Scheme lost_ind2 := Induction for lost Sort Prop with lost_field_ind2 := Induction for lost_field Sort Prop.
Combined Scheme lost_both from lost_ind2, lost_field_ind2.
Lemma lost_same :
  (forall j j', lost j j' -> forall n dns, jdepth j <= n -> jdepth j' <= n -> json_to_schema_n n j dns = json_to_schema_n n j' dns)
  /\ (forall f f', lost_field f f' -> forall n fns, jdepth f <= S n -> jdepth f' <= S n -> to_field_n n f fns = to_field_n n f' fns).
Proof.
  apply lost_both.
  - intros o o' c (ty & Et & Hc) T n dns Hn Hn'. destruct n as [|n]; [cbn in Hn; lia|]. rewrite !schema_n_object. unfold get_str.
    assert (Hk : In c [ARecord; AnEnum; AFixed]) by (cbn in Hc; repeat (destruct Hc as [Hc|Hc]; [injection Hc as <- <-; cbn; tauto|]); destruct Hc).
    rewrite <- (tidied_type c o o' Hk T). replace (jget "type" o) with (Some (JStr ty)) by (symmetry; exact Et). cbn [as_str]. unfold object_n.
    cbn in Hc. repeat (destruct Hc as [Hc|Hc]; [injection Hc as <- <-; cbn [String.eqb Ascii.eqb Bool.eqb andb orb]; first [now apply tidied_record|now apply tidied_enum|now apply tidied_fixed]|]). destruct Hc.
  - intros a b j j' L IH n dns Hn Hn'. destruct n as [|n]; [cbn in Hn; lia|]. cbn [json_to_schema_n].
    pose proof (depth_middle a b j). pose proof (depth_middle a b j'). rewrite (map_res_one _ a b j j'); [reflexivity|]. apply IH; lia.
  - intros o o' j j' Et W L IH n dns Hn Hn'. destruct n as [|n]; [cbn in Hn; lia|]. rewrite !schema_n_object. unfold get_str. apply changed_but in W as (SB & E & E').
    rewrite <- (sb_get _ _ _ SB "type") by discriminate. replace (jget "type" o) with (Some (JStr "array")) by (symmetry; exact Et).
    change (array_n n o dns = array_n n o' dns). unfold array_n. pose proof (depth_get _ _ _ E). pose proof (depth_get _ _ _ E'). rewrite E, E', (IH n dns) by lia.
    now rewrite (sb_extra _ _ _ SB) by reflexivity.
  - intros o o' j j' Et W L IH n dns Hn Hn'. destruct n as [|n]; [cbn in Hn; lia|]. rewrite !schema_n_object. unfold get_str. apply changed_but in W as (SB & E & E').
    rewrite <- (sb_get _ _ _ SB "type") by discriminate. replace (jget "type" o) with (Some (JStr "map")) by (symmetry; exact Et).
    change (map_n n o dns = map_n n o' dns). unfold map_n. pose proof (depth_get _ _ _ E). pose proof (depth_get _ _ _ E'). rewrite E, E', (IH n dns) by lia.
    now rewrite (sb_extra _ _ _ SB) by reflexivity.
  - intros o o' a b f f' (ty & Et & Hc) W L IH n dns Hn Hn'. destruct n as [|n]; [cbn in Hn; lia|]. rewrite !schema_n_object. unfold get_str. apply changed_but in W as (SB & E & E').
    rewrite <- (sb_get _ _ _ SB "type") by discriminate. replace (jget "type" o) with (Some (JStr ty)) by (symmetry; exact Et). cbn [as_str].
    assert (Eo : forall oo, object_n n oo dns ty = record_n n oo dns ty) by (intro oo; cbn in Hc; repeat (destruct Hc as [Hc|Hc]; [try discriminate Hc; injection Hc as <-; reflexivity|]); destruct Hc).
    rewrite !Eo. unfold record_n, parse_name, get_str. other_keys SB. destruct (match _ with Some raw => _ | None => None end) as [[nm ns]|]; [|reflexivity].
    rewrite E, E'. rewrite (map_res_one _ a b f f'); [reflexivity|]. pose proof (depth_get _ _ _ E). pose proof (depth_get _ _ _ E'). pose proof (depth_middle a b f). pose proof (depth_middle a b f'). apply IH; lia.
  - intros o o' T n fns _ _. now apply tidied_field.
  - intros o o' j j' W L IH n fns Hn Hn'. apply changed_but in W as (SB & E & E'). pose proof (depth_get _ _ _ E). pose proof (depth_get _ _ _ E').
    unfold to_field_n, get_str. other_keys SB. rewrite E, E', (IH n fns) by lia. reflexivity.
Qed.
Lemma lost_schema j j' dns : lost j j' -> json_to_schema j dns = json_to_schema j' dns.
Proof.
  intro L. unfold json_to_schema. rewrite (fuel_same _ (Nat.max (jdepth j) (jdepth j'))) by lia. rewrite (fuel_same (jdepth j') (Nat.max (jdepth j) (jdepth j'))) by lia.
  apply (proj1 lost_same); [exact L|lia|lia].
Qed.
Lemma json_to_field_n n o fns : jdepth (JObj o) <= S n -> json_to_field (JObj o) fns = to_field_n n (JObj o) fns.
Proof.
  intro Hn. unfold json_to_field, to_field_n. destruct (get_str "name" o); [|reflexivity]. destruct (jget "type" o) as [tj|] eqn:E; [|reflexivity]. apply depth_get in E.
  unfold json_to_schema. rewrite (fuel_same (jdepth tj) n) by lia. reflexivity.
Qed.
Lemma lost_field_same f f' fns : lost_field f f' -> json_to_field f fns = json_to_field f' fns.
Proof.
  intro L. pose proof (proj2 lost_same f f' L (Nat.max (jdepth f) (jdepth f')) fns) as S.
  destruct L as [o o' T|o o' j j' W L]; rewrite (json_to_field_n (Nat.max (jdepth (JObj o)) (jdepth (JObj o')))), (json_to_field_n (Nat.max (jdepth (JObj o)) (jdepth (JObj o'))) o') by lia; apply S; lia.
Qed.
Lemma lost_message_same m m' dns : lost_message m m' -> json_to_message m dns = json_to_message m' dns.
Proof.
  intro L. destruct L as [o o' T|o o' a b f f' W L|o o' j j' W L|o o' a b j j' W L].
  - attribute; unfold json_to_message, get_str; other_keys SB; rewrite ?E, ?E'; silent;
      wrong_type.
  - apply changed_but in W as (SB & E & E'). unfold json_to_message, get_str. other_keys SB. rewrite E, E'. rewrite (map_res_one _ a b f f'); [reflexivity|]. now apply lost_field_same.
  - apply changed_but in W as (SB & E & E'). unfold json_to_message, get_str. other_keys SB. rewrite E, E'. rewrite (lost_schema j j' dns L). reflexivity.
  - apply changed_but in W as (SB & E & E'). unfold json_to_message, get_str. other_keys SB. rewrite E, E'. rewrite (map_res_one _ a b j j'); [reflexivity|]. now apply lost_schema.
Qed.
Section Files.
  Context `{Unicode}.
  Lemma types_one a b j j' dns r : json_to_schema j dns = json_to_schema j' dns -> import_types (a ++ j :: b) dns r = import_types (a ++ j' :: b) dns r.
  Proof. intro E. revert r. induction a as [|x a IH]; intro r; cbn; [now rewrite E|]. destruct (json_to_schema x dns); [apply IH|reflexivity]. Qed.
  Lemma lost_protocol_same j j' r : lost_protocol j j' -> import_protocol j r = import_protocol j' r.
  Proof.
    intro L. destruct L as [o o' T|o o' a b t t' W L|o o' a b k m m' W L].
    - attribute; unfold import_protocol, value_get; try congruence; other_keys SB; rewrite ?E, ?E'; silent;
        wrong_type.
    - apply changed_but in W as (SB & E & E'). unfold import_protocol, value_get. other_keys SB. rewrite E, E'. rewrite (types_one a b t t'); [reflexivity|]. now apply lost_schema.
    - apply changed_but in W as (SB & E & E'). unfold import_protocol, value_get. other_keys SB. rewrite E, E'. unfold import_messages. rewrite (map_res_one _ a b (k, m) (k, m')); [reflexivity|]. cbn. now rewrite (lost_message_same m m' _ L).
  Qed.
  Lemma lost_file_same j j' r : lost j j' -> import_schema j r = import_schema j' r.
  Proof. intro L. unfold import_schema. now rewrite (lost_schema j j' None L). Qed.
End Files.
