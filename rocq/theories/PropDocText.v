(** C63: what stands right before a declaration in the text is its documentation,
    and any other doc comment is reported with its line, column and place. *)
From Coq Require Import NArith Lia.
From Verif Require Import Compile SpecRewrite SpecPlaces SampleFile SampleWorld PropSource PropLayout.
From Verif Require Import FileProofs ReadProofs DenoteProofs PlaceProofs WhereProofs DocTextProofs SpecDocText.

Section C63.
  Context `{Unicode} `{Floats} `{LexerMessages}.
  Existing Instance text_parser.

  (** Types: the doc comment right before their first token *)
  Theorem C63_types f text file items ws s p fs : parse_idl f text = Ok (file, items, ws) -> In (DType s p fs) items -> documented f text p (schema_doc s).
  Proof. apply type_doc. Qed.

  (** [doc] is right before token [own] or else right before token [declaration] *)
  Definition documented_here (f text : string) (own declaration : nat) (doc : option string) : Prop :=
    exists p q d d', token_place f text own p /\ token_place f text declaration q /\ documented f text p d /\ documented f text q d'
      /\ doc = match d with Some _ => d | None => d' end.

  (** Fields: right before the variable or else before the whole declaration *)
  Theorem C63_fields f text file items ws n q doc fields er al ps p fs :
    parse_idl f text = Ok (file, items, ws) -> In (DType (SRecord n q doc fields er al ps) p fs) items ->
    exists r, statement f text (ItNamed (NRecord r) p)
      /\ Forall2 (fun dv fl => f_name fl = identifier_text (v_ident (snd dv))
           /\ documented_here f text (v_start (snd dv)) (fd_start (fst dv)) (f_doc fl)) (variables_of (r_fields r)) fields.
  Proof.
    intros Hp Hi. destruct (accepted_reads _ _ _ _ _ Hp) as (tokens & t & R). destruct (reads_items _ _ _ _ _ _ _ R) as (ns & F).
    destruct (Forall2_in_r _ _ _ _ F Hi) as (it & Hit & Hd). inversion Hd as [|d s0 p0 Hn E1 E2]; subst. apply handed_on_items in Hit.
    inversion Hn as [r n0 q0 doc0 al0 ps0 fs' Hh Hv Hnd E1 E2| |]; subst. exists r. split; [exists tokens, t, file, items, ws; auto|].
    assert (St : forall dv, In dv (variables_of (r_fields r)) -> In (v_start (snd dv)) (tree_starts t) /\ In (fd_start (fst dv)) (tree_starts t)).
    { intros [fd v] Hdv. unfold variables_of in Hdv. apply in_flat_map in Hdv as (fd' & Hfd & Hv'). apply in_map_iff in Hv' as (v' & E & Hv'). injection E as -> ->. cbn [fst snd].
      assert (G : forall i, In i (item_starts (ItNamed (NRecord r) p)) -> In i (tree_starts t)).
      { intros i Hx. destruct t; cbn; [right|]; apply in_flat_map; eauto. }
      split; apply G; cbn; right; apply in_flat_map; exists fd; (split; [exact Hfd|]); cbn; [right; now apply in_map|now left]. }
    clear - Hv St R. revert St. induction Hv as [|dv fl l l' Hd Hv IH]; intro St; constructor; [|apply IH; intros x Hx; apply St; now right].
    split; [exact (vd_name _ _ _ _ _ _ Hd)|]. destruct (St dv (or_introl eq_refl)) as [Ha Hb]. exact (variable_text _ _ _ _ _ _ _ _ _ _ R Ha Hb (vd_doc _ _ _ _ _ _ Hd)).
  Qed.

  (** Protocols and messages: right before their first token; parameters like fields *)
  Theorem C63_protocol f text tokens start l x its p items ws : reads f text tokens (TreeProtocol start l x its) (IProtocol p) items ws ->
    (exists q, token_place f text start q /\ documented f text q (p_doc p))
    /\ forall name msg, In (name, msg) (p_messages p) -> exists m q, last_message (TreeProtocol start l x its) name m
         /\ token_place f text (md_start m) q /\ documented f text q (m_doc msg)
         /\ Forall2 (fun pa fl => f_name fl = identifier_text (v_ident (pa_variable pa))
              /\ documented_here f text (v_start (pa_variable pa)) (pa_start pa) (f_doc fl)) (md_parameters m) (m_request msg).
  Proof.
    intro R. pose proof (reads_denotes _ _ _ _ _ _ _ R) as D. inversion D as [start0 l0 ident0 its0 p0 items0 t0 Hdec Hw Hdoc Hacc Hpr Hit Hnd Hm Hk Ha Hty E1 E2 E3| |]; subst. subst t0. split.
    - destruct (start_place _ _ _ _ _ _ _ start R (or_introl eq_refl)) as (q & Hq). exists q. split; [exact Hq|]. eapply doc_text; eauto.
    - intros name msg Hin. destruct (Hm name msg Hin) as (m & Hl & Hd). assert (Hmi : In (ItMessage m) its).
      { destruct Hl as (before & after & E & _). assert (X : In m (tree_messages (TreeProtocol start l x its))) by (rewrite E; apply in_or_app; right; now left). cbn in X. unfold tree_messages in X. cbn in X. apply in_flat_map in X as (it & Hit' & X). destruct it; cbn in X; try contradiction. destruct X as [->|[]]. exact Hit'. }
      assert (G : forall i, In i (item_starts (ItMessage m)) -> In i (tree_starts (TreeProtocol start l x its))) by (intros i Hx; cbn; right; apply in_flat_map; eauto).
      destruct (start_place _ _ _ _ _ _ _ (md_start m) R (G _ (or_introl eq_refl))) as (q & Hq). exists m, q. split; [exact Hl|]. split; [exact Hq|]. split; [eapply doc_text; [exact R|exact Hq|exact (me_doc _ _ _ _ Hd)]|].
      pose proof (me_request _ _ _ _ Hd) as Hv. assert (St : forall pa, In pa (md_parameters m) -> In (v_start (pa_variable pa)) (tree_starts (TreeProtocol start l x its)) /\ In (pa_start pa) (tree_starts (TreeProtocol start l x its))).
      { intros pa Hpa. split; apply G; cbn; right; apply in_flat_map; exists pa; (split; [exact Hpa|]); cbn; auto. }
      clear - Hv St R. revert St. induction Hv as [|dv fl l' l2 Hd Hv IH]; intro St; constructor; [|apply IH; intros y Hy; apply St; now right].
      split; [exact (vd_name _ _ _ _ _ _ Hd)|]. destruct (St dv (or_introl eq_refl)) as [Ha Hb]. exact (variable_text _ _ _ _ _ _ _ _ _ _ R Ha Hb (vd_doc _ _ _ _ _ _ Hd)).
  Qed.

  (** A doc comment, the [i]th token of the text, is reported unless it stands right
      before a declaration. *)
  Theorem C63_reported f text tokens t file items ws before c p i : reads f text tokens t file items ws -> comment_at f text c before p -> counted before i ->
    (In (OrphanedDoc i) ws <-> forall j q, In j (tree_starts t) -> token_place f text j q -> ~ right_before f text c p q).
  Proof. apply reported. Qed.

  (** What is reported is a doc comment; the message has its line and column, and
      the place shown is the comment, from its first to its last byte. *)
  Theorem C63_warning f text tokens t file items ws i : reads f text tokens t file items ws -> In (OrphanedDoc i) ws ->
    exists c before p, comment_at f text c before p /\ counted before i
    /\ exists line column, line_column (concat (map snd before)) line column
       /\ orphan_shown f text i = Some (mkShown (misplaced line column) p (N.of_nat (String.length c))).
  Proof. apply reported_comment. Qed.

  (** and the label says what it is. *)
  Theorem C63_label line column : label_of (misplaced line column) = "out-of-place doc comment".
  Proof. apply misplaced_label. Qed.
  (** Not so with the label of aliases: a text in the alias decides. *)
  Theorem C63_label_refuted : exists alias, forall p, label_of (walk_warning_text (NonStandardAlias alias p)) <> "non-standard alias name".
  Proof. exists "token recognition error". vm_compute. discriminate. Qed.
End C63.
Print Assumptions C63_types.
Print Assumptions C63_fields.
Print Assumptions C63_protocol.
Print Assumptions C63_reported.
Print Assumptions C63_warning.
Print Assumptions C63_label.
Print Assumptions C63_label_refuted.

(** ** Example *)
Section Example_.
  Existing Instance ascii_chars. Existing Instance few_floats. Existing Instance the_text_parser.
  (** Two lines; the second comment belongs to nothing. *)
  Definition two_comments : string := "protocol P {" ++ String "010" "  /** A */ /* no doc */ record /** B */ R { int /** C */ a; } }".
  Definition comments_read := match parse_idl "t" two_comments with Ok (_, [DType s p _], ws) => Some (schema_doc s, p, match s with SRecord _ _ _ fs _ _ _ => map f_doc fs | _ => [] end, ws) | _ => None end.
  Example C63_sample : comments_read = Some (Some "A", mkSpan "t" 37, [Some "C"], [OrphanedDoc 5]).
  Proof. vm_compute. reflexivity. Qed.
  Example C63_sample_shown : orphan_shown "t" two_comments 5
    = Some (mkShown (misplaced 2 32) (mkSpan "t" 44) 8) /\ String.substring 44 8 two_comments = "/** B */".
  Proof. vm_compute. split; reflexivity. Qed.
  Example C63_sample_message : misplaced 2 32 = ("Line 2, char 32: Ignoring out-of-place documentation comment." ++ String "010" "Did you mean to use a multiline comment ( /* ... */ ) instead?")%string.
  Proof. vm_compute. reflexivity. Qed.
  (** It is that comment. *)
  Example C63_sample_before : exists before, comment_at "t" two_comments "/** B */" before (mkSpan "t" 44) /\ counted before 5 /\ line_column (concat (map snd before)) 2 32.
  Proof.
    exists (firstn 14 (cut (chars (until_sub two_comments)))). split; [|split].
    - exists (chars "/** B */"), (skipn 15 (cut (chars (until_sub two_comments)))). split; [|split; vm_compute; reflexivity]. apply pieces_cut. vm_compute. reflexivity.
    - apply counted_length. vm_compute. reflexivity.
    - split; [vm_compute; reflexivity|]. exists (chars ("protocol P {" ++ String "010" "")), (chars "  /** A */ /* no doc */ record "). split; [vm_compute; reflexivity|]. split; [right; exists (chars "protocol P {"); vm_compute; reflexivity|]. split; vm_compute; reflexivity.
  Qed.
End Example_.
