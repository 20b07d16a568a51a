(** Model of the reference check of src/compiler.rs. *)
From Verif Require Export Suggest.

(** src/reader.rs:1932-1941 [IdlFile] *)
Inductive idl_file :=
| IdlProtocol (p : protocol)
| IdlSchema (s : schema)
| IdlNamed (ss : list schema).

(** What the user is shown: a diagnostic ([ParseDiagnostic], src/error.rs) or a
    plain [miette::bail!] message. Labels are not modelled. *)
Inductive diagnostic :=
| Diag (sp : span) (message : string) (help : option string) (related : list diagnostic)
| Plain (message : string).

Definition usize_max : N := 18446744073709551615.

(** The sort key of src/compiler.rs:1049-1052. *)
Definition span_key (s : option span) : string * N :=
  match s with Some s => (sp_file s, sp_offset s) | None => ("", usize_max) end.

(** [<=] of the derived tuple order: byte-wise on the file name, then offset *)
Definition key_leb (a b : string * N) : bool :=
  match String.compare (fst a) (fst b) with
  | Lt => true
  | Gt => false
  | Eq => (snd a <=? snd b)%N
  end.

Definition unresolved := list (string * option span).

(** [slice::sort_by_key] is stable, so it computes what insertion from the
    right computes. *)
Fixpoint insert_by_key (x : string * option span) (l : unresolved) : unresolved :=
  match l with
  | [] => [x]
  | y :: r => if key_leb (span_key (snd x)) (span_key (snd y)) then x :: l else y :: insert_by_key x r
  end.

Fixpoint sort_by_key (l : unresolved) : unresolved :=
  match l with [] => [] | x :: r => insert_by_key x (sort_by_key r) end.

(** src/compiler.rs:1042-1045: keep the first entry of each name *)
Fixpoint dedup_names (seen : list string) (l : unresolved) : unresolved :=
  match l with
  | [] => []
  | (n, s) :: r => if str_mem n seen then dedup_names seen r else (n, s) :: dedup_names (n :: seen) r
  end.

(** src/compiler.rs:1025-1035, one message *)
Definition message_unresolved (r : registry) (m : message) : unresolved :=
  validate_schema r (m_response m)
  ++ flat_map (fun f => validate_schema r (f_schema f)) (m_request m)
  ++ match m_errors m with
     | Some es => flat_map (validate_schema r) es
     | None => []
     end.

(** src/compiler.rs:1005-1037 *)
Definition collect_all (f : idl_file) (r : registry) : unresolved :=
  validate_references r
  ++ match f with
     | IdlSchema s => validate_schema r s
     | IdlNamed ss => flat_map (validate_schema r) ss
     | IdlProtocol p => flat_map (fun kv => message_unresolved r (snd kv)) (p_messages p)
     end.

(** [join(", ")] *)
Fixpoint join_comma (l : list string) : string :=
  match l with
  | [] => ""
  | [x] => x
  | x :: r => (x ++ ", " ++ join_comma r)%string
  end.

Definition undefined_msg (name : string) : string := ("Undefined name: " ++ name)%string.

(** The partition of src/compiler.rs:1060-1061 *)
Definition spanned (l : unresolved) : list (string * span) :=
  flat_map (fun ns => match snd ns with Some s => [(fst ns, s)] | None => [] end) l.
Definition spanless (l : unresolved) : list string :=
  flat_map (fun ns => match snd ns with Some _ => [] | None => [fst ns] end) l.

(** [find_map(|(_, s)| *s)] *)
Fixpoint first_span (l : list (string * option span)) : option span :=
  match l with
  | [] => None
  | (_, Some s) :: _ => Some s
  | (_, None) :: r => first_span r
  end.

(** src/compiler.rs:1133-1144: related diagnostics for spanless names use the
    span of the first import if it has one, otherwise offset 0 of the source. *)
Definition related_span (imports : list (string * option span)) (source_name : string) : span :=
  match imports with
  | (_, Some s) :: _ => s
  | _ => mkSpan source_name 0
  end.

(** src/compiler.rs:1054-1173: from the deduplicated, sorted list to the error *)
Definition build_report (r : registry) (source_name : string) (imports : list (string * option span))
  (l : unresolved) : option diagnostic :=
  match l with
  | [] => None
  | _ :: _ =>
      let names := spanless l in
      match spanned l with
      | [] =>
          let message := undefined_msg (join_comma names) in
          let help :=
            match imports with
            | [] => None
            | _ => Some ("the undefined type(s) may be referenced in imported file(s): "
                         ++ join_comma (map fst imports))%string
            end in
          match first_span imports with
          | Some s => Some (Diag s message help [])
          | None =>
              match help with
              | Some h => Some (Plain (message ++ String "010"%char ("  help: " ++ h))%string)
              | None => Some (Plain message)
              end
          end
      | (first_name, first_sp) :: rest =>
          let related :=
            map (fun ns => Diag (snd ns) (undefined_msg (fst ns)) (suggest_similar_name (fst ns) r) []) rest
            ++ map (fun name =>
                      Diag (related_span imports source_name) (undefined_msg name)
                        (match imports with
                         | [] => suggest_similar_name name r
                         | _ => Some ("the undefined type may be referenced in imported file(s): "
                                      ++ join_comma (map fst imports))%string
                         end) []) names in
          Some (Diag first_sp (undefined_msg first_name) (suggest_similar_name first_name r) related)
      end
  end.

(** src/compiler.rs:998-1173 [validate_all_references]; [None] is [Ok(())] *)
Definition validate_all_references (f : idl_file) (r : registry) (source_name : string)
  (imports : list (string * option span)) : option diagnostic :=
  build_report r source_name imports (sort_by_key (dedup_names [] (collect_all f r))).
