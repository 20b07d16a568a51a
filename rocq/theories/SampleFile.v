(** A small IDL file, as its tokens and parse tree, for the examples beside the
    properties of the walker:

      /** Users */
      @namespace("org.demo") @version(3) protocol Service {
        /** lost */
        import idl "common.avdl";
        /** A user */
        @aliases(["Person"]) record User {
          string name, @order("ignore") nick;
          int? height = 5;
          @unit("m") date? born;
          union { null, Kind, array<other.Thing> } @custom(true) x = null;
          @logicalType("timestamp-micros") @tz("utc") long at;
        }
        enum Kind { A, B } = B;
        @namespace("crypto") fixed MD5(16);
        void ping(string who, int? n) oneway;
        User find(string who) throws NotFound;
      }
*)
From Verif Require Import SpecFile Reader.


Definition ascii_chars : Unicode := {| uni_alphabetic := fun _ => false; uni_numeric := fun _ => false |}.
(** Reads floating point literals of the form "<digit>.5" only. *)
Definition few_floats : Floats :=
  {| finite_float := fun s => if String.eqb s "2.5" then Some (FFinite 5 (-1)) else None |}.

(** Words whose places do not matter *)
Definition here (s : string) : located := mkLocated s no_place.
Coercion here : string >-> located.
Definition lit (s : string) : string := (String (Ascii.ascii_of_nat 34) s ++ String (Ascii.ascii_of_nat 34) "")%string.
Definition on (name : string) (v : json_tree) : annotation := mkAnnotation name v no_place.
Definition plain (p : plain_type) : full_type := FullType no_place [] p.
Definition prim_of (k : prim_keyword) : plain_type := PtNullable (BPrimitive k no_place) false.
Definition named (n : string) : plain_type := PtNullable (BReference n None) false.

Definition doc (s : string) : token := mkToken TDocComment s.
Definition ws : token := mkToken TWhitespace " ".
Definition word (s : string) : token := mkToken TOther s.

Definition sample_tokens : list token :=
  [doc "/** Users */"; ws; word "@"; word "protocol";            (* 0-3 *)
   doc "/** lost */"; ws; word "import";                         (* 4-6 *)
   doc "/** A user */"; ws; word "@"; word "record";             (* 7-10 *)
   word "string"; word "name"; word "@"; word "int"; word "height"; word "@"; word "born";   (* 11-17 *)
   word "union"; doc "/** x */"; word "@"; word "@"; word "at";   (* 18-22 *)
   word "enum"; word "@"; word "void"; word "string"; word "who"; word "int"; word "n";       (* 23-29 *)
   word "User"; word "string"; word "who"; doc "/** end */"].     (* 30-33 *)

Definition spot (n : N) : span := mkSpan "sample.avdl" n.
Definition sample_user : record_decl :=
  mkRecordDecl 9 [on "aliases" (JTArray [JTString (lit "Person")])] "User" false
    [mkFieldDecl 11 (plain (prim_of KString))
       [mkVariable 12 "name" [] None (spot 12); mkVariable 13 "nick" [on "order" (JTString (lit "Ignore"))] None (spot 13)];
     mkFieldDecl 14 (plain (PtNullable (BPrimitive KInt no_place) true)) [mkVariable 15 "height" [] (Some (JTInteger "5")) (spot 15)];
     mkFieldDecl 16 (FullType no_place [on "unit" (JTString (lit "m"))] (PtNullable (BPrimitive KDate no_place) true)) [mkVariable 17 "born" [] None (spot 17)];
     mkFieldDecl 18 (plain (PtUnion [plain (prim_of KNull); plain (named "Kind"); plain (PtArray (plain (named "other.Thing")))]))
       [mkVariable 20 "x" [on "custom" JTTrue] (Some JTNull) (spot 20)];
     mkFieldDecl 21 (FullType no_place [on "logicalType" (JTString (lit "timestamp-micros")); on "tz" (JTString (lit "utc"))] (prim_of KLong))
       [mkVariable 22 "at" [] None (spot 22)]].
Definition sample_kind : enum_decl := mkEnumDecl 23 [] "Kind" [here "A"; here "B"] (Some (here "B")).
Definition sample_md5 : fixed_decl := mkFixedDecl 24 [on "namespace" (JTString (lit "crypto"))] "MD5" "16".
Definition sample_ping : message_decl :=
  mkMessageDecl 25 (spot 25) [] None "ping"
    [mkParameter 26 (plain (prim_of KString)) (mkVariable 27 "who" [] None (spot 27));
     mkParameter 28 (plain (PtNullable (BPrimitive KInt no_place) true)) (mkVariable 29 "n" [] None (spot 29))] true [].
Definition sample_find : message_decl :=
  mkMessageDecl 30 (spot 30) [] (Some (named "User")) "find"
    [mkParameter 31 (plain (prim_of KString)) (mkVariable 32 "who" [] None (spot 32))] false [("NotFound", None)].

Definition sample_tree : idl_tree :=
  TreeProtocol 2 [on "namespace" (JTString (lit "org.demo")); on "version" (JTInteger "3")] "Service"
    [ItImport ImportIdl (lit "common.avdl") (spot 6); ItNamed (NRecord sample_user) (spot 9); ItNamed (NEnum sample_kind) (spot 23);
     ItNamed (NFixed sample_md5) (spot 24); ItMessage sample_ping; ItMessage sample_find].

Definition sample_parser : Parser := {| antlr_parse := fun _ _ => Some (mkParsed sample_tokens sample_tree []) |}.

(** What is read *)
Definition ns_demo := Some "org.demo".
Definition read_user : schema :=
  SRecord "User" ns_demo (Some "A user")
    [mkField "name" (SPrim PString) None None None [] [];
     mkField "nick" (SPrim PString) None None (Some Ignore) [] [];
     mkField "height" (SUnion [SPrim PInt; SPrim PNull] true) None (Some (JNum (NPos 5))) None [] [];
     mkField "born" (SUnion [SPrim PNull; SLogical LDate [("unit", JStr "m")]] true) None None None [] [];
     mkField "x" (SUnion [SPrim PNull; SRef "Kind" ns_demo [] None; SArray (SRef "Thing" (Some "other") [] None) []] false)
       (Some "x") (Some JNull) None [] [("custom", JBool true)];
     mkField "at" (SLogical LTimestampMicros [("tz", JStr "utc")]) None None None [] []]
    false ["Person"] [].
Definition read_kind : schema := SEnum "Kind" ns_demo None ["A"; "B"] (Some "B") [] [].
Definition read_md5 : schema := SFixed "MD5" (Some "crypto") None 16 [] [].
Definition read_ping : message :=
  mkMessage None [] [mkField "who" (SPrim PString) None None None [] [];
                     mkField "n" (SUnion [SPrim PNull; SPrim PInt] true) None None None [] []] (SPrim PNull) None true.
Definition read_find : message :=
  mkMessage None [] [mkField "who" (SPrim PString) None None None [] []] (SRef "User" ns_demo [] None)
    (Some [SRef "NotFound" ns_demo [] None]) false.
Definition read_protocol : protocol :=
  mkProtocol "Service" ns_demo (Some "Users") [("version", JNum (NPos 3))] [] [("ping", read_ping); ("find", read_find)].
Definition read_items : list decl_item :=
  [DImport ImportIdl "common.avdl" (spot 6);
   DType read_user (spot 9) [("name", spot 12); ("nick", spot 13); ("height", spot 15); ("born", spot 17); ("x", spot 20); ("at", spot 22)];
   DType read_kind (spot 23) []; DType read_md5 (spot 24) []].
Definition read_warnings : list warning := [OrphanedDoc 4; OrphanedDoc 33].

Lemma sample_reads : @reads ascii_chars few_floats sample_parser "" "" sample_tokens sample_tree (IProtocol read_protocol) read_items read_warnings.
Proof. exists "", []. split; [split; [constructor|now left]|]. split; [reflexivity|]. vm_compute. reflexivity. Qed.
