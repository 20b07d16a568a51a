(** Model of src/suggest.rs and of the two functions that make suggestions from
    it: [suggest_similar_name] (src/compiler.rs) and [suggest_keyword]
    (src/reader.rs). *)
From Verif Require Export Registry.

(** ** src/suggest.rs *)

(** src/suggest.rs:29-34, the inner loop of [levenshtein] from some index j on.
    [prev] is prev_row[j..], [curr] is curr_row[j+1..] before the loop, [left]
    is curr_row[j]; the result is curr_row[j+1..] after the loop.  Cells beyond
    the last character of [b] keep their old content.  The indexing cannot
    panic because the rows have b.len() + 1 cells and [b] has at most b.len()
    characters; the last case is that panic. *)
Fixpoint lev_inner (ca : N) (bs : list N) (prev curr : list nat) (left : nat) : list nat :=
  match bs with
  | [] => curr
  | cb :: bs' =>
      match prev, curr with
      | p0 :: ((p1 :: _) as prev'), _ :: curr' =>
          let cost := if (ca =? cb)%N then 0 else 1 in
          let c := Nat.min (Nat.min (p0 + cost) (p1 + 1)) (left + 1) in
          c :: lev_inner ca bs' prev' curr' c
      | _, _ => curr
      end
  end.

(** src/suggest.rs:27-36, the outer loop: rows are swapped after each
    character of [a]. *)
Fixpoint lev_outer (i : nat) (cas bs : list N) (prev curr : list nat) : list nat :=
  match cas with
  | [] => prev
  | ca :: cas' =>
      let curr' := (i + 1) :: lev_inner ca bs prev (tl curr) (i + 1) in
      lev_outer (i + 1) cas' bs curr' prev
  end.

(** src/suggest.rs:13-39 [levenshtein].  [a.len()] is the number of bytes,
    [a.chars()] the code points. *)
Definition levenshtein (a b : string) : nat :=
  let a_len := String.length a in
  let b_len := String.length b in
  if Nat.eqb a_len 0 then b_len
  else if Nat.eqb b_len 0 then a_len
  else nth b_len (lev_outer 0 (chars a) (chars b) (seq 0 (b_len + 1)) (repeat 0 (b_len + 1))) 0.

(** src/suggest.rs:45-47 [max_edit_distance] *)
Definition max_edit_distance (name_len : nat) : nat := if Nat.leb name_len 4 then 1 else 2.

(** ** Suggestions for undefined names (src/compiler.rs) *)

(** [rsplit('.').next()]: the part after the last dot *)
Definition after_last_dot (s : string) : string :=
  match rsplit_once_dot s with Some (_, b) => b | None => s end.

(** src/compiler.rs:892-904 [keyword_misuse_hint] *)
Definition keyword_misuse_hint (simple : string) : option string :=
  if String.eqb simple "void" then
    Some "`void` can only be used as a message return type, not as a field or schema type"
  else if String.eqb simple "decimal" then
    Some "`decimal` requires precision and scale parameters: use `decimal(precision, scale)` syntax"
  else None.

(** [u8::to_ascii_lowercase] *)
Definition lower_ascii (c : ascii) : ascii :=
  let n := N_of_ascii c in
  if ((65 <=? n) && (n <=? 90))%N then ascii_of_N (n + 32) else c.

Fixpoint to_ascii_lowercase (s : string) : string :=
  match s with EmptyString => EmptyString | String c r => String (lower_ascii c) (to_ascii_lowercase r) end.

Definition eq_ignore_ascii_case (a b : string) : bool :=
  String.eqb (to_ascii_lowercase a) (to_ascii_lowercase b).

(** (suggestion, distance, is_primitive) *)
Definition best_match := option (string * nat * bool).

(** src/compiler.rs:941, 953, 966-970: take the candidate when it is within
    its threshold and strictly better than the best so far. *)
Definition consider (best : best_match) (suggestion : string) (dist threshold : nat) (is_prim : bool)
  : best_match :=
  if (Nat.leb dist threshold)
     && match best with None => true | Some (_, d, _) => Nat.ltb dist d end
  then Some (suggestion, dist, is_prim)
  else best.

(** src/compiler.rs:938-944 *)
Definition consider_primitives (simple : string) (best : best_match) : best_match :=
  fold_left
    (fun best p => consider best p (levenshtein simple p)
                     (max_edit_distance (Nat.min (String.length simple) (String.length p))) true)
    primitive_type_names best.

(** src/compiler.rs:949-972 *)
Definition consider_registered (unresolved simple : string) (names : list string) (best : best_match)
  : best_match :=
  fold_left
    (fun best full =>
       let best := consider best full (levenshtein unresolved full)
                     (max_edit_distance (Nat.min (String.length unresolved) (String.length full))) false in
       let rs := after_last_dot full in
       consider best full (levenshtein simple rs)
         (max_edit_distance (Nat.min (String.length simple) (String.length rs))) false)
    names best.

Definition best_suggestion (unresolved : string) (r : registry) : best_match :=
  let simple := after_last_dot unresolved in
  consider_registered unresolved simple (reg_names r) (consider_primitives simple None).

(** src/compiler.rs:918-982 [suggest_similar_name] *)
Definition suggest_similar_name (unresolved : string) (r : registry) : option string :=
  let simple := after_last_dot unresolved in
  match keyword_misuse_hint simple with
  | Some hint => Some hint
  | None =>
      match best_suggestion unresolved r with
      | None => None
      | Some (suggestion, _, is_primitive) =>
          if is_primitive && eq_ignore_ascii_case simple suggestion then
            Some ("did you mean `" ++ suggestion ++ "`? (note: Avro primitives are lowercase)")%string
          else Some ("did you mean `" ++ suggestion ++ "`?")%string
      end
  end.

(** ** Keyword typos (src/reader.rs) *)

(** src/reader.rs:895-923 [AVRO_KEYWORDS] *)
Definition avro_keywords : list string :=
  ["protocol"; "record"; "error"; "enum"; "fixed"; "import"; "schema"; "namespace"; "boolean";
   "int"; "long"; "float"; "double"; "string"; "bytes"; "null"; "array"; "map"; "union"; "void";
   "oneway"; "throws"; "date"; "time_ms"; "timestamp_ms"; "local_timestamp_ms"; "uuid"].

(** src/reader.rs:938-952, the loop of [suggest_keyword]; [None] is the early
    [return None] *)
Fixpoint keyword_loop (lower : string) (kws : list string) (best : option (string * nat))
  : option (option (string * nat)) :=
  match kws with
  | [] => Some best
  | kw :: rest =>
      if Nat.ltb (String.length kw) 3 then keyword_loop lower rest best
      else
        let dist := levenshtein lower kw in
        if Nat.eqb dist 0 then None
        else if (Nat.leb dist (max_edit_distance (String.length kw)))
                && match best with None => true | Some (_, d) => Nat.ltb dist d end
             then keyword_loop lower rest (Some (kw, dist))
             else keyword_loop lower rest best
  end.

(** src/reader.rs:935-954 [suggest_keyword] *)
Definition suggest_keyword (ident : string) : option string :=
  match keyword_loop (to_ascii_lowercase ident) avro_keywords None with
  | Some (Some (kw, _)) => Some kw
  | _ => None
  end.
