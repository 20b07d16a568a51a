(** C69, C70: what an import ignores and what it insists on. *)
From Verif Require Import Import ImportProofs ImportDocProofs Samples PropRegistry PropImport LenientProofs AcceptProofs SpecLenient.

(** ** C69: what is of the wrong type is ignored *)

Lemma often_same {A B} (R : A -> A -> Prop) (f : A -> B) : (forall x y, R x y -> f x = f y) -> forall x y, often R x y -> f x = f y.
Proof. intros H x y O. induction O as [|x y z X _ IH]; [reflexivity|]. now rewrite (H _ _ X). Qed.

(** A schema, wherever it stands, with any number of such attributes taken out *)
Theorem C69_schema :
  forall j j' dns, often lost j j' -> json_to_schema j dns = json_to_schema j' dns.
Proof. intros j j' dns. apply (often_same lost (fun j => json_to_schema j dns)). intros x y. apply lost_schema. Qed.
Print Assumptions C69_schema.

(** A schema file: the same types are registered, with the same outcome *)
Theorem C69_schema_file :
  forall (U : Unicode) j j' r, often lost j j' -> import_schema j r = import_schema j' r.
Proof. intros U j j' r. apply (often_same lost (fun j => import_schema j r)). intros x y. apply lost_file_same. Qed.
Print Assumptions C69_schema_file.

(** A protocol file: the same types and messages *)
Theorem C69_protocol_file :
  forall (U : Unicode) j j' r, often lost_protocol j j' -> import_protocol j r = import_protocol j' r.
Proof. intros U j j' r. apply (often_same lost_protocol (fun j => import_protocol j r)). intros x y. apply lost_protocol_same. Qed.
Print Assumptions C69_protocol_file.

Definition messy_enum : json :=
  JObj [("aliases", JArr [JStr "Old"; JNull; JStr "Older"]); ("default", JNum (NPos 1)); ("name", JStr "E"); ("symbols", JArr [JStr "A"; JNum (NPos 7); JStr "B"]); ("type", JStr "enum")].
Definition tidy_enum : json :=
  JObj [("aliases", JArr [JStr "Old"; JStr "Older"]); ("name", JStr "E"); ("symbols", JArr [JStr "A"; JStr "B"]); ("type", JStr "enum")].
Definition messy_record (e order : json) : json :=
  JObj [("doc", JBool true); ("fields", JArr [JObj [("name", JStr "f"); ("order", order); ("type", JArr [JStr "null"; JObj [("items", e); ("type", JStr "array")]])]]); ("name", JStr "R"); ("type", JStr "record")].
Definition tidy_record (e : json) : json :=
  JObj [("fields", JArr [JObj [("name", JStr "f"); ("type", JArr [JStr "null"; JObj [("items", e); ("type", JStr "array")]])]]); ("name", JStr "R"); ("type", JStr "record")].
Definition messy_protocol : json :=
  JObj [("messages", JObj [("m", JObj [("errors", JStr "E"); ("one-way", JStr "yes"); ("request", JNull); ("response", JStr "null")])]);
        ("namespace", JNum (NPos 3)); ("protocol", JStr "P"); ("types", JArr [messy_record messy_enum (JStr "up")])].
Definition tidy_protocol : json :=
  JObj [("messages", JObj [("m", JObj [("response", JStr "null")])]); ("protocol", JStr "P"); ("types", JArr [tidy_record tidy_enum])].

Lemma often_trans {A} (R : A -> A -> Prop) x y z : often R x y -> often R y z -> often R x z.
Proof. induction 1 as [|x y w X _ IH]; [easy|]. intro O. apply (of_more R x y z X). now apply IH. Qed.
Lemma often_map {A B} (R : A -> A -> Prop) (S : B -> B -> Prop) (f : A -> B) : (forall x y, R x y -> S (f x) (f y)) -> forall x y, often R x y -> often S (f x) (f y).
Proof. intros H x y O. induction O as [|x y z X _ IH]; [constructor|]. now apply (of_more S _ (f y)); [apply H|]. Qed.
Ltac absent := let H := fresh in cbn; intro H; repeat (destruct H as [H|H]; [discriminate H|]); exact H.
Ltac untrue := let x := fresh in intro x; let H := fresh in intro H; discriminate H.

Example C69_enum : often lost messy_enum tidy_enum.
Proof.
  apply of_more with (JObj [("aliases", JArr [JStr "Old"; JStr "Older"]); ("default", JNum (NPos 1)); ("name", JStr "E"); ("symbols", JArr [JStr "A"; JNum (NPos 7); JStr "B"]); ("type", JStr "enum")]).
  { apply (lo_here _ _ AnEnum); [exists "enum"; cbn; tauto|]. apply (ti_entry AnEnum _ _ "aliases" [JStr "Old"] JNull [JStr "Older"]); [|constructor; cbn; tauto|untrue].
    exists [], [("default", JNum (NPos 1)); ("name", JStr "E"); ("symbols", JArr [JStr "A"; JNum (NPos 7); JStr "B"]); ("type", JStr "enum")]. repeat split. absent. }
  apply of_more with (JObj [("aliases", JArr [JStr "Old"; JStr "Older"]); ("name", JStr "E"); ("symbols", JArr [JStr "A"; JNum (NPos 7); JStr "B"]); ("type", JStr "enum")]).
  { apply (lo_here _ _ AnEnum); [exists "enum"; cbn; tauto|]. apply (ti_attribute AnEnum _ _ "default" (JNum (NPos 1))); [|constructor; untrue].
    exists [("aliases", JArr [JStr "Old"; JStr "Older"])], [("name", JStr "E"); ("symbols", JArr [JStr "A"; JNum (NPos 7); JStr "B"]); ("type", JStr "enum")]. repeat split; absent. }
  apply of_more with tidy_enum; [|constructor].
  apply (lo_here _ _ AnEnum); [exists "enum"; cbn; tauto|]. apply (ti_entry AnEnum _ _ "symbols" [JStr "A"] (JNum (NPos 7)) [JStr "B"]); [|constructor|untrue].
  exists [("aliases", JArr [JStr "Old"; JStr "Older"]); ("name", JStr "E")], [("type", JStr "enum")]. repeat split. absent.
Qed.
Example C69_record : often lost (messy_record messy_enum (JStr "up")) (tidy_record tidy_enum).
Proof.
  apply often_trans with (messy_record tidy_enum (JStr "up")).
  - apply (often_map lost lost (fun e => messy_record e (JStr "up"))); [|exact C69_enum]. intros x y L.
    apply (lo_field _ _ [] [] (JObj [("name", JStr "f"); ("order", JStr "up"); ("type", JArr [JStr "null"; JObj [("items", x); ("type", JStr "array")]])])
                              (JObj [("name", JStr "f"); ("order", JStr "up"); ("type", JArr [JStr "null"; JObj [("items", y); ("type", JStr "array")]])])).
    + exists "record". cbn. tauto.
    + exists [("doc", JBool true)], [("name", JStr "R"); ("type", JStr "record")]. repeat split. absent.
    + apply (lf_type _ _ (JArr [JStr "null"; JObj [("items", x); ("type", JStr "array")]]) (JArr [JStr "null"; JObj [("items", y); ("type", JStr "array")]])).
      * exists [("name", JStr "f"); ("order", JStr "up")], []. repeat split. absent.
      * apply (lo_branch [JStr "null"] []). apply (lo_items _ _ x y); [reflexivity| |exact L]. exists [], [("type", JStr "array")]. repeat split. absent.
  - apply of_more with (JObj [("fields", JArr [JObj [("name", JStr "f"); ("order", JStr "up"); ("type", JArr [JStr "null"; JObj [("items", tidy_enum); ("type", JStr "array")]])]]); ("name", JStr "R"); ("type", JStr "record")]).
    + apply (lo_here _ _ ARecord); [exists "record"; cbn; tauto|]. apply (ti_attribute ARecord _ _ "doc" (JBool true)); [|constructor; [discriminate|untrue]].
      eexists [], _. repeat split; absent.
    + apply of_more with (tidy_record tidy_enum); [|constructor].
      apply (lo_field _ _ [] [] (JObj [("name", JStr "f"); ("order", JStr "up"); ("type", JArr [JStr "null"; JObj [("items", tidy_enum); ("type", JStr "array")]])])
                                (JObj [("name", JStr "f"); ("type", JArr [JStr "null"; JObj [("items", tidy_enum); ("type", JStr "array")]])])).
      * exists "record". cbn. tauto.
      * eexists [], _. repeat split. absent.
      * apply lf_here. apply (ti_attribute AField _ _ "order" (JStr "up")); [|constructor; absent]. eexists [("name", JStr "f")], _. repeat split; absent.
Qed.
Example C69_protocol : often lost_protocol messy_protocol tidy_protocol.
Proof.
  set (ty := ("types", JArr [messy_record messy_enum (JStr "up")])). set (pr := ("protocol", JStr "P")). set (ns := ("namespace", JNum (NPos 3))).
  assert (M : forall m m', lost_message m m' -> lost_protocol (JObj [("messages", JObj [("m", m)]); ns; pr; ty]) (JObj [("messages", JObj [("m", m')]); ns; pr; ty])).
  { intros m m' L. apply (lp_message _ _ [] [] "m" m m'); [|exact L]. eexists [], _. repeat split. absent. }
  apply of_more with (JObj [("messages", JObj [("m", JObj [("one-way", JStr "yes"); ("request", JNull); ("response", JStr "null")])]); ns; pr; ty]).
  { apply M, lm_here, (ti_attribute AMessage _ _ "errors" (JStr "E")); [|constructor; untrue]. eexists [], _. repeat split; absent. }
  apply of_more with (JObj [("messages", JObj [("m", JObj [("request", JNull); ("response", JStr "null")])]); ns; pr; ty]).
  { apply M, lm_here, (ti_attribute AMessage _ _ "one-way" (JStr "yes")); [|constructor; untrue]. eexists [], _. repeat split; absent. }
  apply of_more with (JObj [("messages", JObj [("m", JObj [("response", JStr "null")])]); ns; pr; ty]).
  { apply M, lm_here, (ti_attribute AMessage _ _ "request" JNull); [|constructor; untrue]. eexists [], _. repeat split; absent. }
  apply of_more with (JObj [("messages", JObj [("m", JObj [("response", JStr "null")])]); pr; ty]).
  { apply lp_here, (ti_attribute AProtocol _ _ "namespace" (JNum (NPos 3))); [|constructor; [cbn; tauto|untrue]]. eexists [("messages", _)], _. repeat split; absent. }
  apply (often_map lost lost_protocol (fun t => JObj [("messages", JObj [("m", JObj [("response", JStr "null")])]); pr; ("types", JArr [t])])); [|exact C69_record].
  intros x y L. apply (lp_type _ _ [] [] x y); [|exact L]. eexists [("messages", _); pr], []. repeat split. absent.
Qed.
Example C69_sample :
  keys (fst (import_protocol (H := ascii_only) messy_protocol [])) = ["E"; "R"]
  /\ import_protocol (H := ascii_only) messy_protocol [] = import_protocol (H := ascii_only) tidy_protocol [].
Proof. split; [vm_compute; reflexivity|apply C69_protocol_file, C69_protocol]. Qed.

(** Attributes the specification requires are among them: a record without fields
    and an enum without symbols are no schemas, and are imported as empty ones. *)
Theorem C69_required_refuted :
  exists rec enum r e,
    (forall n, read_document n rec = None) /\ (forall n, read_document n enum = None)
    /\ import_schema (H := ascii_only) rec [] = ([("R", r)], Ok tt) /\ named_meaning r = Some ("R", DRecord false [] [] [])
    /\ import_schema (H := ascii_only) enum [] = ([("E", e)], Ok tt) /\ named_meaning e = Some ("E", DEnum [] [] []).
Proof.
  exists (JObj [("name", JStr "R"); ("type", JStr "record")]), (JObj [("name", JStr "E"); ("type", JStr "enum")]). do 2 eexists.
  split; [now intros []|]. split; [now intros []|]. vm_compute. repeat split.
Qed.
Print Assumptions C69_required_refuted.

(** ** C70: what an import insists on *)

Theorem C70_schema :
  forall j dns, acceptable j <-> exists s, json_to_schema j dns = Ok s.
Proof. intros j dns. apply accept_schema. Qed.
Print Assumptions C70_schema.

Theorem C70_schema_file :
  forall (U : Unicode) j r, acceptable j <-> snd (import_schema j r) = Ok tt.
Proof. intros U j r. rewrite (accept_file j r). split; [now intros [[] E]|now exists tt]. Qed.
Print Assumptions C70_schema_file.

Theorem C70_protocol_file :
  forall (U : Unicode) j r, acceptable_protocol j <-> exists ms, snd (import_protocol j r) = Ok ms.
Proof. intros U j r. apply accept_protocol. Qed.
Print Assumptions C70_protocol_file.

(** Nothing of a schema file that is refused stays behind *)
Theorem C70_refused_schema :
  forall (U : Unicode) j r, ~ acceptable j -> fst (import_schema j r) = r.
Proof. intros U j r N. rewrite (accept_schema j None) in N. unfold import_schema. destruct (json_to_schema j None) as [s|e]; [destruct N; apply an_ok|reflexivity]. Qed.
Print Assumptions C70_refused_schema.

Example C70_sample :
  acceptable_protocol messy_protocol /\ acceptable_protocol (JStr "anything")
  /\ ~ acceptable (JObj [("name", JStr "F"); ("size", JStr "16"); ("type", JStr "fixed")])
  /\ ~ acceptable (messy_record (JObj [("logicalType", JStr "decimal"); ("precision", JNum (NPos 0)); ("type", JStr "bytes")]) JNull).
Proof.
  split; [|split; [|split]].
  - apply (C70_protocol_file ascii_only messy_protocol []). eexists. vm_compute. reflexivity.
  - intros o E. discriminate.
  - rewrite (C70_schema _ None). intros [s E]. vm_compute in E. discriminate.
  - rewrite (C70_schema _ None). intros [s E]. vm_compute in E. discriminate.
Qed.
