(** Model of the default-value validation of src/model/schema.rs and of the
    check of logical types on [fixed]. *)
From Verif Require Export Registry.
From Coq Require Import DecimalString.

(** [format!("{}")] of an integer *)
Definition show_Z (z : Z) : string := NilZero.string_of_int (Z.to_int z).

(** [join(", ")] on a slice of strings *)
Fixpoint join_comma (l : list string) : string :=
  match l with
  | [] => ""
  | [x] => x
  | x :: r => (x ++ ", " ++ join_comma r)%string
  end.

(** src/model/schema.rs:679-688 [json_type_description] *)
Definition json_type_description (v : json) : string :=
  match v with
  | JNull => "null" | JBool _ => "boolean" | JNum _ => "number"
  | JStr _ => "string" | JArr _ => "array" | JObj _ => "object"
  end.

(** src/model/schema.rs:693-695 [is_json_integer] *)
Definition is_json_integer (n : jnum) : bool := num_is_i64 n || num_is_u64 n.

(** src/model/schema.rs:709-734, the primitive cases of [is_valid_default] *)
Definition is_valid_prim_default (v : json) (p : prim) : bool :=
  match p with
  | PNull => is_null v
  | PBoolean => match v with JBool _ => true | _ => false end
  | PInt =>
      match v with
      | JNum n =>
          num_is_i64 n
          && match num_as_i64 n with
             | Some z => ((i32_min <=? z) && (z <=? i32_max))%Z
             | None => false
             end
      | _ => false
      end
  | PLong => match v with JNum n => num_is_i64 n | _ => false end
  | PFloat | PDouble =>
      match v with
      | JNum _ => true
      | JStr s => String.eqb s "NaN" || String.eqb s "Infinity" || String.eqb s "-Infinity"
      | _ => false
      end
  | PString | PBytes => match v with JStr _ => true | _ => false end
  end.

(** src/model/schema.rs:705-816 [is_valid_default].  The early returns of the
    loop over record fields are [forallb]. *)
Fixpoint is_valid_default (v : json) (s : schema) {struct s} : bool :=
  match s with
  | SPrim p => is_valid_prim_default v p
  | SRecord _ _ _ fs _ _ _ =>
      match v with
      | JObj o =>
          forallb (fun f =>
            match jget (f_name f) o with
            | Some fv => is_valid_default fv (f_schema f)
            | None => match f_default f with Some _ => true | None => false end
            end) fs
      | _ => false
      end
  | SEnum _ _ _ _ _ _ _ => match v with JStr _ => true | _ => false end
  | SFixed _ _ _ _ _ _ => match v with JStr _ => true | _ => false end
  | SArray i _ =>
      match v with
      | JArr l => forallb (fun e => is_valid_default e i) l
      | _ => false
      end
  | SMap i _ =>
      match v with
      | JObj o => forallb (fun kv => is_valid_default (snd kv) i) o
      | _ => false
      end
  | SUnion ts _ =>
      match ts with
      | [] => false
      | _ => existsb (fun t => is_valid_default v t) ts
      end
  | SAnnot k _ => is_valid_prim_default v k
  | SLogical l _ => is_valid_prim_default v (expected_base_type l)
  | SRef _ _ _ _ => true
  end.

(** Display of a [Number] that is an integer *)
Definition show_jnum (n : jnum) : string :=
  match n with
  | NPos v => show_Z (Z.of_N v)
  | NNeg z => show_Z z
  | NFloat _ _ => ""            (* not reached: only integers are printed *)
  end.

(** src/model/schema.rs:830-852, the message for integers out of range *)
Definition range_message (v : json) (s : schema) : option string :=
  match v with
  | JNum n =>
      if is_json_integer n then
        match s with
        | SPrim PInt =>
            Some ("value " ++ show_jnum n ++ " out of range for int (must be between "
                  ++ show_Z i32_min ++ " and " ++ show_Z i32_max ++ ")")%string
        | SPrim PLong =>
            Some ("value " ++ show_jnum n ++ " out of range for long (must be between "
                  ++ show_Z i64_min ++ " and " ++ show_Z (Z.of_N i64_max) ++ ")")%string
        | _ => None
        end
      else None
  | _ => None
  end.

(** src/model/schema.rs:859-863, the required fields a default object lacks *)
Definition missing_required (fs : list field) (o : list (string * json)) : list string :=
  map f_name
    (filter (fun f => match f_default f with
                      | None => match jget (f_name f) o with None => true | Some _ => false end
                      | Some _ => false
                      end) fs).

(** src/model/schema.rs:820-887 [validate_default] *)
Fixpoint validate_default (v : json) (s : schema) {struct s} : option string :=
  if is_valid_default v s then None
  else
    let generic := ("expected " ++ type_description s ++ ", got " ++ json_type_description v)%string in
    match range_message v s with
    | Some m => Some m
    | None =>
        match s, v with
        | SRecord name _ _ fs _ _ _, JObj o =>
            match missing_required fs o with
            | [] =>
                match
                  (fix first (l : list field) : option string :=
                     match l with
                     | [] => None
                     | f :: r =>
                         match jget (f_name f) o with
                         | Some fv =>
                             match validate_default fv (f_schema f) with
                             | Some reason =>
                                 Some ("invalid value for field `" ++ f_name f ++ "`: " ++ reason)%string
                             | None => first r
                             end
                         | None => first r
                         end
                     end) fs
                with
                | Some m => Some m
                | None => Some generic
                end
            | miss =>
                Some ("missing required field" ++ (match miss with _ :: _ :: _ => "s" | _ => "" end)
                      ++ " in record `" ++ name ++ "`: " ++ join_comma miss)%string
            end
        | _, _ => Some generic
        end
    end.

(** Fold of a fallible, stateful step over a list, stopping at the first
    [None] of the code; the outer option is fuel. *)
Fixpoint map_visit {A B} (f : A -> list string -> option (option B * list string))
  (l : list A) (vis : list string) : option (option (list B) * list string) :=
  match l with
  | [] => Some (Some [], vis)
  | x :: r =>
      match f x vis with
      | None => None
      | Some (None, vis) => Some (None, vis)
      | Some (Some y, vis) =>
          match map_visit f r vis with
          | None => None
          | Some (None, vis) => Some (None, vis)
          | Some (Some ys, vis) => Some (Some (y :: ys), vis)
          end
      end
  end.

(** [HashSet::insert], [HashSet::remove] on [visited] *)
Definition vis_insert (n : string) (vis : list string) : list string :=
  if str_mem n vis then vis else n :: vis.
Definition vis_remove (n : string) (vis : list string) : list string :=
  filter (fun x => negb (String.eqb n x)) vis.

Definition with_schema (f : field) (s : schema) : field :=
  mkField (f_name f) s (f_doc f) (f_default f) (f_order f) (f_aliases f) (f_props f).

(** src/model/schema.rs:957-1060 [resolve_for_validation_inner].  The fuel
    counts nested calls: [None] is out of fuel, [Some (None, _)] the [None] of
    the code.  [visited] is threaded as the code mutates it, including the
    early return that leaves a record marked. *)
Fixpoint resolve_inner (fuel : nat) (resolver : string -> option schema)
  (s : schema) (vis : list string) {struct fuel} : option (option schema * list string) :=
  match fuel with
  | O => None
  | S fuel =>
      match s with
      | SRef n ns _ _ =>
          let full := make_full_name n ns in
          if str_mem full vis then Some (Some s, vis)
          else match resolver full with
               | Some t => resolve_inner fuel resolver t vis
               | None => Some (None, vis)
               end
      | SUnion ts b =>
          match map_visit (resolve_inner fuel resolver) ts vis with
          | None => None
          | Some (None, vis) => Some (None, vis)
          | Some (Some ts', vis) => Some (Some (SUnion ts' b), vis)
          end
      | SRecord n ns d fs e al ps =>
          let full := make_full_name n ns in
          match map_visit (fun f vis =>
                  match resolve_inner fuel resolver (f_schema f) vis with
                  | None => None
                  | Some (None, vis) => Some (None, vis)
                  | Some (Some t, vis) => Some (Some (with_schema f t), vis)
                  end) fs (vis_insert full vis) with
          | None => None
          | Some (None, vis) => Some (None, vis)
          | Some (Some fs', vis) => Some (Some (SRecord n ns d fs' e al ps), vis_remove full vis)
          end
      | SArray i ps =>
          match resolve_inner fuel resolver i vis with
          | None => None
          | Some (None, vis) => Some (None, vis)
          | Some (Some t, vis) => Some (Some (SArray t ps), vis)
          end
      | SMap i ps =>
          match resolve_inner fuel resolver i vis with
          | None => None
          | Some (None, vis) => Some (None, vis)
          | Some (Some t, vis) => Some (Some (SMap t ps), vis)
          end
      | other => Some (Some other, vis)
      end
  end.

(** src/model/schema.rs:943-950 [resolve_for_validation] *)
Definition resolve_for_validation (fuel : nat) (s : schema) (resolver : string -> option schema)
  : option (option schema) :=
  match resolve_inner fuel resolver s [] with
  | Some (r, _) => Some r
  | None => None
  end.

(** src/model/schema.rs:901-931 [validate_record_field_defaults] *)
Fixpoint field_default_errors (fuel : nat) (resolver : string -> option schema) (fs : list field)
  : option (list (string * string)) :=
  match fs with
  | [] => Some []
  | f :: r =>
      match
        match f_default f with
        | None => Some []
        | Some dv =>
            match resolve_for_validation fuel (f_schema f) resolver with
            | None => None
            | Some None => Some []
            | Some (Some t) =>
                match validate_default dv t with
                | Some reason => Some [(f_name f, reason)]
                | None => Some []
                end
            end
        end, field_default_errors fuel resolver r
      with
      | Some a, Some b => Some (a ++ b)
      | _, _ => None
      end
  end.

Definition validate_record_field_defaults (fuel : nat) (s : schema)
  (resolver : string -> option schema) : option (list (string * string)) :=
  match s with
  | SRecord _ _ _ fs _ _ _ => field_default_errors fuel resolver fs
  | _ => Some []
  end.

(** Fuel that always suffices (see [C21_resolution_terminates]): the height of
    the schema, and for every registry entry the height of the tallest one. *)
Fixpoint schema_height (s : schema) : nat :=
  match s with
  | SRecord _ _ _ fs _ _ _ => S (fold_right (fun f n => Nat.max (schema_height (f_schema f)) n) 0 fs)
  | SArray i _ | SMap i _ => S (schema_height i)
  | SUnion ts _ => S (fold_right (fun t n => Nat.max (schema_height t) n) 0 ts)
  | _ => 1
  end.
Definition resolve_fuel (r : registry) (s : schema) : nat :=
  S (schema_height s
     + length r * S (fold_right (fun kv n => Nat.max (schema_height (snd kv)) n) 0 r)).

(** ** Logical types on [fixed] *)

(** [std::f64::consts::LOG10_2]: the double nearest to log10 2, which is
    [log10_2_mantissa * 2^-54]. *)
Definition log10_2_mantissa : Z := 5422874305198591%Z.

(** IEEE 754 rounding of [m * 2^e] ([m >= 0]) to 53 significant bits, ties to
    even, as a new pair.  Overflow and underflow are outside the range used. *)
Definition round53 (m e : Z) : Z * Z :=
  let s := (Z.log2 m - 52)%Z in
  if (s <=? 0)%Z then (m, e)
  else
    let q := (m / 2 ^ s)%Z in
    let r := (m mod 2 ^ s)%Z in
    let half := (2 ^ (s - 1))%Z in
    let up := (half <? r)%Z || ((half =? r)%Z && Z.odd q) in
    ((if up then q + 1 else q)%Z, (e + s)%Z).

(** [f64::floor] followed by [as u32] on a non-negative [m * 2^e], [e <= 0]:
    the cast saturates. *)
Definition floor_u32 (m e : Z) : N :=
  N.min (Z.to_N (m / 2 ^ (- e))%Z) u32_max.

(** src/model/schema.rs:270-273: [((8.0 * size as f64 - 1.0) *
    LOG10_2).floor() as u32].  [8.0 * size - 1.0] is exact for a [u32] size; for
    size 0 the product is negative and the cast gives 0. *)
Definition max_fixed_precision (size : N) : N :=
  if (size =? 0)%N then 0%N
  else
    let (m, e) := round53 ((8 * Z.of_N size - 1) * log10_2_mantissa)%Z (-54)%Z in
    floor_u32 m e.

(** src/model/schema.rs:253-278 [validate_logical_type_on_fixed] *)
Definition validate_logical_type_on_fixed (lname : string) (size : N) (precision scale : option N)
  : bool :=
  if String.eqb lname "duration" then (size =? 12)%N
  else if String.eqb lname "decimal" then
    match precision with
    | None => false
    | Some p =>
        let sc := match scale with Some s => s | None => 0%N end in
        if ((p <? 1) || (p <? sc))%N then false
        else (p <=? max_fixed_precision size)%N
    end
  else false.
