(** Basic data used by every other file: strings, the two map types of the
    Rust code, and small list helpers.

    A Rust [String]/[&str] is modelled by Coq's [string], read as the UTF-8
    byte sequence; a Rust [char] is a code point of type [N]. *)
From Coq Require Export String Ascii List Bool Arith NArith ZArith Lia.
Export ListNotations.
Open Scope string_scope.
Open Scope list_scope.

(** ** Strings *)

Definition is_dot (c : ascii) : bool := Ascii.eqb c "."%char.

(** [str::is_empty] *)
Definition str_is_empty (s : string) : bool :=
  match s with EmptyString => true | _ => false end.

(** [str::rsplit_once('.')]: split at the last dot. *)
Fixpoint rsplit_once_dot (s : string) : option (string * string) :=
  match s with
  | EmptyString => None
  | String c r =>
      match rsplit_once_dot r with
      | Some (a, b) => Some (String c a, b)
      | None => if is_dot c then Some (EmptyString, r) else None
      end
  end.

(** [str::contains('.')] *)
Fixpoint contains_dot (s : string) : bool :=
  match s with
  | EmptyString => false
  | String c r => is_dot c || contains_dot r
  end.

(** [str::split('.')]: always at least one piece. *)
Fixpoint split_dot (s : string) : list string :=
  match s with
  | EmptyString => [EmptyString]
  | String c r =>
      if is_dot c then EmptyString :: split_dot r
      else match split_dot r with
           | [] => [String c EmptyString]
           | p :: ps => String c p :: ps
           end
  end.

(** Equality of [Option<&str>]. *)
Definition ostr_eqb (a b : option string) : bool :=
  match a, b with
  | Some x, Some y => String.eqb x y
  | None, None => true
  | _, _ => false
  end.

(** [Option::or] *)
Definition opt_or {A} (a b : option A) : option A :=
  match a with Some _ => a | None => b end.

(** [slice::contains] on strings. *)
Definition str_mem (s : string) (l : list string) : bool :=
  existsb (String.eqb s) l.

(** ** Characters *)

(** [str::chars]: UTF-8 decoding.  Rust strings are always valid UTF-8; on an
    ill-formed byte sequence (unreachable in Rust) every offending byte decodes
    to U+FFFD. *)
Definition is_cont (n : N) : bool := ((128 <=? n) && (n <? 192))%N.

Fixpoint utf8_decode_bytes (l : list N) : list N :=
  match l with
  | [] => []
  | b0 :: r0 =>
      if (b0 <? 128)%N then b0 :: utf8_decode_bytes r0
      else
        match r0 with
        | b1 :: r1 =>
            if ((194 <=? b0) && (b0 <? 224) && is_cont b1)%N then
              ((b0 - 192) * 64 + (b1 - 128))%N :: utf8_decode_bytes r1
            else
              match r1 with
              | b2 :: r2 =>
                  if ((224 <=? b0) && (b0 <? 240) && is_cont b1 && is_cont b2)%N then
                    ((b0 - 224) * 4096 + (b1 - 128) * 64 + (b2 - 128))%N
                      :: utf8_decode_bytes r2
                  else
                    match r2 with
                    | b3 :: r3 =>
                        if ((240 <=? b0) && (b0 <? 245) && is_cont b1 && is_cont b2
                            && is_cont b3)%N then
                          ((b0 - 240) * 262144 + (b1 - 128) * 4096 + (b2 - 128) * 64
                           + (b3 - 128))%N :: utf8_decode_bytes r3
                        else 65533%N :: utf8_decode_bytes r0
                    | [] => 65533%N :: utf8_decode_bytes r0
                    end
              | [] => 65533%N :: utf8_decode_bytes r0
              end
        | [] => 65533%N :: utf8_decode_bytes r0
        end
  end.

Definition bytes_of (s : string) : list N := map N_of_ascii (list_ascii_of_string s).
Definition chars (s : string) : list N := utf8_decode_bytes (bytes_of s).

(** UTF-8 encoding of one code point, as [String::push] does. *)
Definition utf8_encode_char (c : N) : list N :=
  if (c <? 128)%N then [c]
  else if (c <? 2048)%N then [192 + c / 64; 128 + c mod 64]%N
  else if (c <? 65536)%N then [224 + c / 4096; 128 + (c / 64) mod 64; 128 + c mod 64]%N
  else [240 + c / 262144; 128 + (c / 4096) mod 64; 128 + (c / 64) mod 64; 128 + c mod 64]%N.

Definition string_of_bytes (l : list N) : string := string_of_list_ascii (map ascii_of_N l).
Definition of_chars (l : list N) : string := string_of_bytes (flat_map utf8_encode_char l).

(** The Unicode tables behind [char::is_alphabetic] and [char::is_numeric].
    Only the answers for code points from 128 on are left open; for ASCII they
    are fixed below.  Theorems quantify over every instance. *)
Class Unicode := {
  uni_alphabetic : N -> bool;
  uni_numeric : N -> bool
}.

Definition ascii_letter (c : N) : bool :=
  ((65 <=? c) && (c <=? 90) || (97 <=? c) && (c <=? 122))%N.
Definition ascii_digit (c : N) : bool := ((48 <=? c) && (c <=? 57))%N.

(** [char::is_alphabetic], [char::is_alphanumeric] *)
Definition is_alphabetic `{Unicode} (c : N) : bool :=
  if (c <? 128)%N then ascii_letter c else uni_alphabetic c.
Definition is_alphanumeric `{Unicode} (c : N) : bool :=
  if (c <? 128)%N then ascii_letter c || ascii_digit c
  else uni_alphabetic c || uni_numeric c.

(** ** Maps *)

Section Maps.
  Context {A : Type}.

  (** First binding of a key. *)
  Fixpoint assoc (k : string) (l : list (string * A)) : option A :=
    match l with
    | [] => None
    | (k', v) :: r => if String.eqb k k' then Some v else assoc k r
    end.

  Definition keys (l : list (string * A)) : list string := map fst l.

  (** [HashMap::insert] / [IndexMap::insert].  A [HashMap] is modelled by an
      association list without repeated keys whose order is the iteration
      order of that particular run; results that depend on it are stated for
      every permutation. *)
  Fixpoint hm_insert (k : string) (v : A) (l : list (string * A)) : list (string * A) :=
    match l with
    | [] => [(k, v)]
    | (k', v') :: r =>
        if String.eqb k k' then (k', v) :: r else (k', v') :: hm_insert k v r
    end.

  (** [HashMap::extend] *)
  Definition hm_extend (m new : list (string * A)) : list (string * A) :=
    fold_left (fun acc kv => hm_insert (fst kv) (snd kv) acc) new m.

  (** [HashMap::remove] *)
  Definition hm_remove (k : string) (l : list (string * A)) : list (string * A) :=
    filter (fun kv => negb (String.eqb k (fst kv))) l.

  (** [serde_json::Map::insert] ([BTreeMap]; the crate does not enable
      serde_json's [preserve_order], see Cargo.toml): keys stay sorted by
      bytes, an existing key is overwritten. *)
  Fixpoint bt_insert (k : string) (v : A) (l : list (string * A)) : list (string * A) :=
    match l with
    | [] => [(k, v)]
    | (k', v') :: r =>
        match String.compare k k' with
        | Lt => (k, v) :: (k', v') :: r
        | Eq => (k, v) :: r
        | Gt => (k', v') :: bt_insert k v r
        end
    end.

  Definition bt_extend (m new : list (string * A)) : list (string * A) :=
    fold_left (fun acc kv => bt_insert (fst kv) (snd kv) acc) new m.
End Maps.

(** ** State-threading list traversal ([iter().map(..).collect()] with a
    [&mut] captured by the closure); [None] is out of fuel. *)
Definition map_st {A B S} (f : A -> S -> option (B * S)) : list A -> S -> option (list B * S) :=
  fix go (l : list A) (st : S) : option (list B * S) :=
    match l with
    | [] => Some ([], st)
    | x :: xs =>
        match f x st with
        | None => None
        | Some (y, st1) =>
            match go xs st1 with
            | None => None
            | Some (ys, st2) => Some (y :: ys, st2)
            end
        end
    end.

(** Collecting [Option]s: all present or nothing. *)
Definition map_opt {A B} (f : A -> option B) : list A -> option (list B) :=
  fix go (l : list A) : option (list B) :=
    match l with
    | [] => Some []
    | x :: xs =>
        match f x with
        | None => None
        | Some y => match go xs with None => None | Some ys => Some (y :: ys) end
        end
    end.

(** Results with an error value. *)
Inductive result (A E : Type) := Ok (a : A) | Err (e : E).
Arguments Ok {A E} a.
Arguments Err {A E} e.

(** [collect::<Result<Vec<_>, _>>()]: the first error wins. *)
Definition map_res {A B E} (f : A -> result B E) : list A -> result (list B) E :=
  fix go (l : list A) : result (list B) E :=
    match l with
    | [] => Ok []
    | x :: xs =>
        match f x with
        | Err e => Err e
        | Ok y => match go xs with Err e => Err e | Ok ys => Ok (y :: ys) end
        end
    end.
