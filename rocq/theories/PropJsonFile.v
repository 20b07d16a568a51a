(** C77: exactly the JSON texts are read, each as the value it denotes.
    C78: what is written can be read, unless it is nested too deeply. *)
From Verif Require Import JsonFile SpecJsonFile JsonReadProofs JsonWriteProofs SizeProofs.
From Coq Require Import Lia.

Section Files.
  Context `{JsonNumbers}.
  (** ** C77 *)
  (** A text is read as [j] if and only if it is a JSON text for [j] with C-style
      comments and at most 127 brackets inside one another. *)
  Theorem C77_read text j : parse_json_with_comments text = Some j <-> json_text 127 text j.
  Proof. exact (read_iff text j). Qed.
  (** Everything else is refused. *)
  Theorem C77_refused text : parse_json_with_comments text = None <-> forall j, ~ json_text 127 text j.
  Proof.
    split; intro E.
    - intros j T. apply read_iff in T. congruence.
    - destruct (parse_json_with_comments text) as [j|] eqn:P; [|reflexivity]. exfalso. apply (E j). now apply read_iff.
  Qed.
  (** So no text denotes two values, *)
  Theorem C77_one text j k : json_text 127 text j -> json_text 127 text k -> j = k.
  Proof. intros J K. apply read_iff in J, K. congruence. Qed.
  (** and comments are as good as the blanks they cover. *)
  Theorem C77_comments text plain : uncommented text plain -> uncommented plain plain ->
    parse_json_with_comments text = parse_json_with_comments plain.
  Proof.
    intros U V. unfold parse_json_with_comments. rewrite (JsonStripProofs.strip_complete _ _ U), (JsonStripProofs.strip_complete _ _ V). reflexivity.
  Qed.

  (** ** C78 *)
  Theorem C78_written j w : tidy j -> spaces w ->
    (parse_json_with_comments (to_string_pretty 0 j ++ w) = Some j <-> nests 127 j).
  Proof.
    intros T S. split; [|intro N; now apply written_read]. intro P. apply read_iff in P as (p & a & t & b & _ & _ & _ & V & _). exact (proj1 read_nests _ _ _ V).
  Qed.
  (** What is written is a JSON text, however deeply it is nested, and has no comments. *)
  Theorem C78_text j d : tidy j -> nests d j -> value_text d (to_string_pretty 0 j) j /\ uncommented (to_string_pretty 0 j) (to_string_pretty 0 j).
  Proof.
    intros T N. pose proof (written_value j T d 0 N) as V. split; [exact V|].
    pose proof (proj1 values_inert _ _ _ V "" "" un_end) as I. now rewrite !app_empty in I.
  Qed.
  (** What was read can be written and read again, if floating point numbers can. *)
  Theorem C78_again text j : (forall t m e, read_float t = Some (m, e) -> number_text (show_float m e) (NFloat m e)) ->
    parse_json_with_comments text = Some j -> parse_json_with_comments (to_string_pretty 0 j) = Some j.
  Proof.
    intros K P. apply read_iff in P as (p & a & t & b & _ & _ & _ & V & _). rewrite <- (app_empty (to_string_pretty 0 j)).
    apply written_read; [exact (proj1 (read_tidy K) _ _ _ V)|exact (proj1 read_nests _ _ _ V)|apply spaces_nil].
  Qed.
  (** Two values are never written alike. *)
  Theorem C78_distinct j k : tidy j -> tidy k -> nests 127 j -> nests 127 k -> to_string_pretty 0 j = to_string_pretty 0 k -> j = k.
  Proof.
    intros J K Nj Nk E. pose proof (written_read j 0 "" J Nj spaces_nil) as Pj. pose proof (written_read k 0 "" K Nk spaces_nil) as Pk. rewrite E in Pj. congruence.
  Qed.

  (** The program writes documents that it will not read: nothing limits how
      deeply a document that is written may be nested. *)
  Fixpoint deep (n : nat) : json := match n with O => JNull | S n => JArr [deep n] end.
  Theorem C78_deep_refuted : exists j, tidy j /\ nests 128 j /\ parse_json_with_comments (to_string_pretty 0 j ++ String "010" "") <> Some j.
  Proof.
    assert (T : forall n, tidy (deep n)) by (induction n; cbn; constructor; intros v [<-|[]]; assumption).
    assert (N : forall n, nests n (deep n)) by (induction n; cbn; constructor; intros v [<-|[]]; assumption).
    assert (M : forall n m, nests m (deep n) -> n <= m) by (induction n; intros m I; [lia|]; inversion I as [| | | |d l Hl|]; subst; specialize (IHn d (Hl _ (or_introl eq_refl))); lia).
    exists (deep 128). split; [apply T|]. split; [apply N|]. intro P. apply C78_written in P; [|apply T|apply spaces_nl, spaces_nil]. apply M in P. lia.
  Qed.
End Files.
Print Assumptions C77_read.
Print Assumptions C77_refused.
Print Assumptions C77_one.
Print Assumptions C77_comments.
Print Assumptions C78_written.
Print Assumptions C78_text.
Print Assumptions C78_again.
Print Assumptions C78_distinct.
Print Assumptions C78_deep_refuted.

(** ** Samples *)
Section Sample.
  (** Halves only *)
  Local Instance halves : JsonNumbers := {|
    read_float s := if String.eqb s "1.5" then Some (3, -1)%Z else if String.eqb s "15e-1" then Some (3, -1)%Z else None;
    show_float _ _ := "1.5" |}.
  Definition comment_text : string := "// a
{ ""b"" /* * / */ : [1, -2, 15e-1, true], ""a"": ""xé\n//😀"",
  ""b"": null }
".
  Definition comment_value : json :=
    JObj [("a", JStr (String "x" (of_chars [233; 10; 47; 47; 128512]%N))); ("b", JNull)].
  Example C77_sample : parse_json_with_comments comment_text = Some comment_value.
  Proof. vm_compute. reflexivity. Qed.
  Example C77_sample_text : json_text 127 comment_text comment_value.
  Proof. apply C77_read, C77_sample. Qed.
  Example C77_sample_refused : map parse_json_with_comments
    ["[1,]"; "{""a"":1,}"; "01"; "1."; "/* "; "[1] 2"; "# x"; """\x"""; """\ud800"""; ""; "nul"; "[1 2]"; "-"; "1.5e"; "/ 1"; "2.5"] = repeat None 16.
  Proof. vm_compute. reflexivity. Qed.
  Example C77_sample_comments : uncommented "1 // x" "1     " /\ uncommented "1     " "1     ".
  Proof.
    split; [|repeat (apply un_char; [discriminate|discriminate|]); constructor].
    do 2 (apply un_char; [discriminate|discriminate|]). apply (un_line " x" "" ""); [intros [E|[E|[]]]; discriminate E|now left|constructor].
  Qed.
  Definition written_value_sample : json :=
    JObj [("a", JArr [JNum (NPos 120); JNum (NNeg (-7)); JNum (NFloat 3 (-1)); JArr []]); ("b""", JStr (String "001" "/*x")); ("c", JObj [("d", JBool false)])].
  Example C78_sample_tidy : tidy written_value_sample /\ nests 127 written_value_sample.
  Proof.
    split.
    - unfold written_value_sample. constructor; [repeat constructor|]. intros k v Hk. cbn in Hk.
      repeat match goal with I : _ \/ _ |- _ => destruct I as [E|I]; [injection E as <- <-|] end; try contradiction.
      + constructor. intros v Hv. cbn in Hv. repeat match goal with I : _ \/ _ |- _ => destruct I as [<-|I] end; try contradiction; try (constructor; lia).
        * constructor. apply (nt_float "" "1" 1 ".5" "" 3 (-1)); cbn; auto; try discriminate.
          -- apply dm_dec; [discriminate|]. apply (spells_read 10 "1" "" _ 1); [lia|reflexivity|reflexivity].
          -- right. exists "5". split; [|reflexivity]. exists 5%N. apply (spells_read 10 "5" "" _ 5); [lia|reflexivity|reflexivity].
          -- now left.
        * constructor. intros v [].
      + constructor.
      + constructor; [repeat constructor|]. intros k v [E|[]]. injection E as <- <-. constructor.
    - constructor. intros k v Hk. cbn in Hk. repeat match goal with I : _ \/ _ |- _ => destruct I as [E|I]; [injection E as <- <-|] end; try contradiction; constructor.
      + intros v Hv. cbn in Hv. repeat match goal with I : _ \/ _ |- _ => destruct I as [<-|I] end; try contradiction; constructor. intros v [].
      + intros k v [E|[]]. injection E as <- <-. constructor.
  Qed.
  Example C78_sample : to_string_pretty 0 written_value_sample = "{
  ""a"": [
    120,
    -7,
    1.5,
    []
  ],
  ""b\"""": ""\u0001/*x"",
  ""c"": {
    ""d"": false
  }
}" /\ parse_json_with_comments (to_string_pretty 0 written_value_sample ++ String "010" "") = Some written_value_sample.
  Proof. vm_compute. split; reflexivity. Qed.
End Sample.
