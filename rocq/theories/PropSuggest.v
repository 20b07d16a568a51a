(** C32, C33: edit distance and suggestions. *)
From Verif Require Import EditProofs SuggestProofs SpecSuggest.

(** ** C32: the edit distance *)

(** For ASCII strings [levenshtein] is the least number of single-character
    insertions, deletions and substitutions. *)
Theorem C32_levenshtein_is_edit_distance :
  forall a b, is_ascii_string a = true -> is_ascii_string b = true ->
  is_edit_distance (chars a) (chars b) (levenshtein a b).
Proof. exact levenshtein_correct. Qed.
Print Assumptions C32_levenshtein_is_edit_distance.

(** It vanishes exactly on equal strings. *)
Theorem C32_zero_iff_equal :
  forall a b, is_ascii_string a = true -> is_ascii_string b = true ->
  (levenshtein a b = 0 <-> a = b).
Proof. exact levenshtein_zero. Qed.
Print Assumptions C32_zero_iff_equal.

Example C32_sample : levenshtein "kitten" "sitting" = 3 /\ levenshtein "stirng" "string" = 2.
Proof. vm_compute. auto. Qed.

(** "x" and "é" (U+00E9, bytes C3 A9) are given distance 0: the rows are as
    long as the byte length, the loop runs over characters. *)
Definition e_acute : string := string_of_bytes [195; 169]%N.

Theorem C32_non_ascii_refuted :
  exists a b, levenshtein a b = 0 /\ chars a <> chars b.
Proof. exists "x", e_acute. split; [vm_compute; reflexivity|vm_compute; discriminate]. Qed.
Print Assumptions C32_non_ascii_refuted.

(** ** C33: suggestions *)

(** For an undefined name (other than the two special keywords, which get their
    own hint) a suggestion is made exactly when some primitive or registered
    name is within its tolerance, and the one made is within its tolerance and
    no acceptable candidate is closer. *)
Theorem C33_type_suggestions :
  forall u r,
  is_ascii_string u = true -> Forall (fun n => is_ascii_string n = true) (reg_names r) ->
  ~ simple_part u "void" -> ~ simple_part u "decimal" ->
  match suggest_similar_name u r with
  | None => forall s d t, candidate true_distance u (reg_names r) s d t -> t < d
  | Some msg => exists s d t, proposes msg s /\ candidate true_distance u (reg_names r) s d t /\ d <= t
      /\ forall s' d' t', candidate true_distance u (reg_names r) s' d' t' -> d' <= t' -> d <= d'
  end.
Proof. exact suggestion_true. Qed.
Print Assumptions C33_type_suggestions.

(** The same for arbitrary names, with the distance the code computes. *)
Theorem C33_type_suggestions_any_name :
  forall u r, ~ simple_part u "void" -> ~ simple_part u "decimal" ->
  match suggest_similar_name u r with
  | None => forall s d t, candidate (fun a b d => d = levenshtein a b) u (reg_names r) s d t -> t < d
  | Some msg => exists s d t, proposes msg s
      /\ candidate (fun a b d => d = levenshtein a b) u (reg_names r) s d t /\ d <= t
      /\ forall s' d' t', candidate (fun a b d => d = levenshtein a b) u (reg_names r) s' d' t' -> d' <= t' -> d <= d'
  end.
Proof. exact suggestion_spec. Qed.
Print Assumptions C33_type_suggestions_any_name.

(** Misspelled keywords. *)
Theorem C33_keyword_suggestions :
  forall ident, is_ascii_string ident = true ->
  let low := to_ascii_lowercase ident in
  match suggest_keyword ident with
  | Some k => In k avro_keywords /\ ~ In low avro_keywords
      /\ levenshtein low k <= tolerance (String.length k)
      /\ forall k', In k' avro_keywords -> levenshtein low k' <= tolerance (String.length k') ->
           levenshtein low k <= levenshtein low k'
  | None => In low avro_keywords
      \/ forall k, In k avro_keywords -> tolerance (String.length k) < levenshtein low k
  end.
Proof.
  intros ident Ha low. pose proof (suggest_keyword_spec ident) as Hs. fold low in Hs.
  assert (Hz : forall k, In k avro_keywords -> levenshtein low k = 0 <-> low = k).
  { intros k Hk. apply levenshtein_zero; [apply to_lower_ascii, Ha|].
    pose proof keywords_ascii as Hf. rewrite Forall_forall in Hf. exact (Hf k Hk). }
  destruct (suggest_keyword ident) as [k|].
  - destruct Hs as (A & B & C & D). repeat split; auto. intro Hl. apply (B low Hl), Hz; auto.
  - destruct Hs as [(k & Hk & E)|Hs]; [left|right; exact Hs]. apply Hz in E; [|exact Hk]. rewrite E. exact Hk.
Qed.
Print Assumptions C33_keyword_suggestions.

Example C33_sample :
  suggest_similar_name "test.stiring" [("test.Foo", SPrim PInt)] = Some "did you mean `string`?"
  /\ suggest_similar_name "test.Fo" [("test.Foo", SPrim PInt)] = Some "did you mean `test.Foo`?"
  /\ suggest_similar_name "Zebra" [("test.Foo", SPrim PInt)] = None
  /\ suggest_keyword "Recrod" = Some "record" /\ suggest_keyword "record" = None
  /\ suggest_keyword "UserName" = None.
Proof. vm_compute. repeat split. Qed.
