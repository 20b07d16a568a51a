(** A few files, for the examples beside the properties of the compiler:

      /p/main.avdl   protocol Main { import idl "a.avdl"; import schema "c.avsc";
                       record M { A a; C c; }  int size();  string hello(A a); }
      /p/a.avdl      protocol PA { import idl "main.avdl"; import idl "b.avdl";
                       record A { B b; }  long size();  string who(); }
      /p/b.avdl      protocol PB { import idl "a.avdl";  /** lost */
                       record B { int x; }  long who(); }
      /lib/c.avsc    an enum C
      /q/b.avdl      same as /p/b.avdl, without the import
      /q/bad.avdl    a syntax error
      /p/early.avdl  protocol P { record X { Y y = 1; } record Y { } }
      /p/late.avdl   protocol P { record Y { } record X { Y y = 1; } }
      /p/twice.avdl  protocol P { @namespace("a") record T { } @namespace("b") record T { } }
      /p/list.avdl   namespace org; import schema "c.avsc"; schema array<L?>;
                       record L { L? next; E e; }  enum E { X, Y }  record Unused { }
      /p/org.avdl    @namespace("org") protocol P { import schema "c.avsc"; record R { } }
      /r/x.avdl      a directory *)
From Verif Require Import Compile Cli SpecFile SampleFile.

Definition field1 (t : plain_type) (name : string) : field_decl := mkFieldDecl 0 (plain t) [mkVariable 0 name [] None (spot 0)].
Definition field_default (t : plain_type) (name : string) (v : json_tree) : field_decl := mkFieldDecl 0 (plain t) [mkVariable 0 name [] (Some v) (spot 0)].
Definition rec (name : string) (fs : list field_decl) : item := ItNamed (NRecord (mkRecordDecl 0 [] name false fs)) (spot 2).
Definition msg (result : plain_type) (name : string) (ps : list parameter) : item := ItMessage (mkMessageDecl 0 no_place [] (Some result) name ps false []).
Definition par (t : plain_type) (name : string) : parameter := mkParameter 0 (plain t) (mkVariable 0 name [] None (spot 0)).

Definition tree_main : idl_tree := TreeProtocol 0 [] "Main"
  [ItImport ImportIdl (lit "a.avdl") (spot 1); ItImport ImportSchema (lit "c.avsc") (spot 1); rec "M" [field1 (named "A") "a"; field1 (named "C") "c"];
   msg (prim_of KInt) "size" []; msg (prim_of KString) "hello" [par (named "A") "a"]].
Definition tree_a : idl_tree := TreeProtocol 0 [] "PA"
  [ItImport ImportIdl (lit "main.avdl") (spot 1); ItImport ImportIdl (lit "b.avdl") (spot 1); rec "A" [field1 (named "B") "b"];
   msg (prim_of KLong) "size" []; msg (prim_of KString) "who" []].
Definition tree_b (items : list item) : idl_tree := TreeProtocol 0 [] "PB"
  (items ++ [rec "B" [field1 (prim_of KInt) "x"]; msg (prim_of KLong) "who" []]).
Definition tree_early : idl_tree := TreeProtocol 0 [] "P" [rec "X" [field_default (named "Y") "y" (JTInteger "1")]; rec "Y" []].
Definition tree_late : idl_tree := TreeProtocol 0 [] "P" [rec "Y" []; rec "X" [field_default (named "Y") "y" (JTInteger "1")]].
(** late, without the default value, both ways *)
Definition tree_first : idl_tree := TreeProtocol 0 [] "P" [rec "X" [field1 (named "Y") "y"]; rec "Y" []; msg (named "X") "get" []].
Definition tree_second : idl_tree := TreeProtocol 0 [] "P" [rec "Y" []; msg (named "X") "get" []; rec "X" [field1 (named "Y") "y"]].
Definition tree_twice : idl_tree := TreeProtocol 0 [] "P"
  [ItNamed (NRecord (mkRecordDecl 0 [on "namespace" (JTString (lit "a"))] "T" false [])) (spot 3);
   ItNamed (NRecord (mkRecordDecl 0 [on "namespace" (JTString (lit "b"))] "T" false [])) (spot 3)].

Definition tree_list : idl_tree := TreeSchema (Some "org") (Some (plain (PtArray (plain (PtNullable (BReference "L" None) true)))))
  [ItImport ImportSchema (lit "c.avsc") (spot 1);
   rec "L" [field1 (PtNullable (BReference "L" None) true) "next"; field1 (named "E") "e"];
   ItNamed (NEnum (mkEnumDecl 0 [] "E" [here "X"; here "Y"] None)) (spot 4); rec "Unused" []].
Definition tree_org : idl_tree := TreeProtocol 0 [on "namespace" (JTString (lit "org"))] "P"
  [ItImport ImportSchema (lit "c.avsc") (spot 1); rec "R" []].

Definition some_parser : Parser :=
  {| antlr_parse := fun _ text =>
       let toks := [word "protocol"] in
       if String.eqb text "main" then Some (mkParsed toks tree_main [])
       else if String.eqb text "a" then Some (mkParsed toks tree_a [])
       else if String.eqb text "b" then Some (mkParsed (toks ++ [doc "/** lost */"]) (tree_b [ItImport ImportIdl (lit "a.avdl") (spot 1)]) [])
       else if String.eqb text "b alone" then Some (mkParsed (toks ++ [doc "/** lost */"]) (tree_b []) [])
       else if String.eqb text "early" then Some (mkParsed toks tree_early [])
       else if String.eqb text "late" then Some (mkParsed toks tree_late [])
       else if String.eqb text "first" then Some (mkParsed toks tree_first [])
       else if String.eqb text "second" then Some (mkParsed toks tree_second [])
       else if String.eqb text "twice" then Some (mkParsed toks tree_twice [])
       else if String.eqb text "list" then Some (mkParsed toks tree_list [])
       else if String.eqb text "org" then Some (mkParsed toks tree_org [])
       else None |}.
Definition some_json : JsonParser :=
  {| parse_json := fun text =>
       if String.eqb text "c" then Some (JObj [("name", JStr "C"); ("symbols", JArr [JStr "X"]); ("type", JStr "enum")]) else None |}.

Definition texts : list (string * string) :=
  [("/p/main.avdl", "main"); ("/p/a.avdl", "a"); ("/p/b.avdl", "b"); ("/lib/c.avsc", "c");
   ("/q/b.avdl", "b alone"); ("/q/bad.avdl", "bad"); ("/p/early.avdl", "early"); ("/p/late.avdl", "late"); ("/p/twice.avdl", "twice");
   ("/p/list.avdl", "list"); ("/p/org.avdl", "org")].
Definition canonical (p : string) : option string := if str_mem p (keys texts) then Some p else None.
Lemma canonical_finite : forall p c, canonical p = Some c -> In c (keys texts).
Proof.
  intros p c. unfold canonical. destruct (str_mem p (keys texts)) eqn:E; [|discriminate]. intro Ec. injection Ec as <-.
  unfold str_mem in E. apply existsb_exists in E. destruct E as (x & Hx & Ex). apply String.eqb_eq in Ex. now subst.
Qed.
(** the directories have names of one letter or are /lib *)
Definition parent (p : string) : string :=
  if String.prefix "/lib/" p then "/lib" else String.substring 0 2 p.
Definition base_name (p : string) : string :=
  if String.prefix "/lib/" p then String.substring 5 (String.length p) p else String.substring 3 (String.length p) p.
Definition some_files : FileSystem :=
  {| fs_join := fun d n => (d ++ "/" ++ n)%string;
     fs_exists := fun p => str_mem p (keys texts);
     fs_canonical := canonical; fs_files := keys texts; fs_finite := canonical_finite;
     fs_read := fun p => assoc p texts;
     fs_parent := parent; fs_file_name := fun p => Some (base_name p);
     fs_cwd := Some "/p";
     fs_is_dir := fun p => str_mem p ["/p"; "/lib"; "/q"; "/r"; "/r/x.avdl"];
     fs_content := fun p =>
       if String.eqb p "/q" then [FileEntry "notes.txt"; FileEntry "bad.avdl"; FileEntry "b.avdl"]
       else if String.eqb p "/r" then [DirEntry "x.avdl" []]
       else [] |}.

Definition the_compile := @compile ascii_chars few_floats some_parser some_files some_json.
Definition the_convert := @convert ascii_chars few_floats some_parser some_files some_json.
Definition the_extract := @extract ascii_chars few_floats some_parser some_files some_json.
Definition the_extract_file := @extract_file ascii_chars few_floats some_parser some_files some_json.
Definition compile_main := the_compile ["/lib"] "main" "/p/main.avdl" "/p" (Some "/p/main.avdl").

(** Stdin holds the text "first"; JSON is printed as its namespace. *)
Definition some_console : Console :=
  {| stdin_text := Some "first";
     pretty := fun j => match j with JObj l => match assoc "namespace" l with Some (JStr s) => s | _ => "{}" end | _ => "" end;
     can_write := fun p => negb (String.eqb p "/locked"); can_create := fun _ => true |}.
Definition the_main := @main ascii_chars few_floats some_parser some_files some_json some_console.
Definition the_schemata := @run_idl2schemata ascii_chars few_floats some_parser some_files some_json some_console.
