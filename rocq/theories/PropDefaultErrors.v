(** C73: the reason given for a rejected default value is the right one. *)
From Verif Require Import DefaultErrorProofs PropDefaults.

(** For every value and type (references inside the type are not judged), the
    check gives a reason exactly when the specification has one, and that one. *)
Theorem C73_reason :
  forall v s reason, wf_json v ->
  (validate_default v s = Some reason <-> explains (fun v s => is_valid_default v s = true) v s reason).
Proof. intros v s reason W. split; [now apply explained|now apply explains_said]. Qed.
Print Assumptions C73_reason.

(** Where no references are left, in terms of what Avro allows. *)
Theorem C73_avro :
  forall env v s reason, wf_json v -> ref_free s = true ->
  (validate_default v s = Some reason <-> explains (fun v s => allows false env s v) v s reason).
Proof.
  intros env v s reason W R. rewrite (C73_reason v s reason W).
  split; apply explains_agree; auto; intros v' s' W' R'; rewrite (C19_accepts_exactly env s' v' W' R'); tauto.
Qed.
Print Assumptions C73_avro.

(** Every rejected value has a reason. *)
Theorem C73_total :
  forall v s, wf_json v -> is_valid_default v s = false ->
  exists reason, explains (fun v s => is_valid_default v s = true) v s reason.
Proof. intros v s W E. destruct (validate_default_some v s E) as [m Hm]. exists m. now apply C73_reason. Qed.
Print Assumptions C73_total.

Definition line := SRecord "Line" None None
  [mkField "from" point None None None [] []; mkField "to" point None None None [] [];
   mkField "width" (SPrim PLong) None None None [] []] false [] [].
Example C73_sample :
  validate_default (JObj [("from", JObj [("x", JNum (NPos 1))]); ("to", JObj [("x", JNum (NNeg (-3000000000)))]); ("width", JNum (NPos 1))]) line
    = Some "invalid value for field `to`: invalid value for field `x`: value -3000000000 out of range for int (must be between -2147483648 and 2147483647)"
  /\ validate_default (JObj [("from", JObj [("x", JNum (NPos 1))])]) line = Some "missing required fields in record `Line`: to, width"
  /\ validate_default (JObj [("from", JObj []); ("to", JStr ""); ("width", JNum (NPos 18446744073709551615))]) line
    = Some "invalid value for field `from`: missing required field in record `Point`: x"
  /\ validate_default (JNum (NPos 18446744073709551615)) (SPrim PLong)
    = Some "value 18446744073709551615 out of range for long (must be between -9223372036854775808 and 9223372036854775807)"
  /\ validate_default (JNum (NFloat 1 0)) (SPrim PInt) = Some "expected int, got number"
  /\ validate_default (JObj []) (SArray (SPrim PInt) []) = Some "expected array, got object"
  /\ ref_free line = true.
Proof. vm_compute. repeat split. Qed.
