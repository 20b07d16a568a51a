(** Concrete values used to show that the hypotheses of the theorems can be
    met by something non-trivial. *)
From Verif Require Export SpecOrder Serialize.

Definition sample_field (n : string) (s : schema) (d : option json) (ps : props) : field :=
  mkField n s None d None [] ps.

(** record org.acme.Node { union{null, Node} next = null; other.Color color;
    map<MD5> sums; @logicalType date when; } — recursive, with references across namespaces and
    forwards. *)
Definition sample_node : schema :=
  SRecord "Node" (Some "org.acme") (Some "A node")
    [sample_field "next" (SUnion [SPrim PNull; SRef "Node" (Some "org.acme") [] None] true)
       (Some JNull) [];
     sample_field "color" (SRef "Color" (Some "other") [] None) None [("x", JBool true); ("a", JNull)];
     sample_field "sums" (SMap (SRef "MD5" (Some "org.acme") [] None) [("k", JNum (NPos 3))]) None [];
     sample_field "when" (SLogical LDate []) None [];
     sample_field "price" (SLogical (LDecimal 9 2) []) None []]
    false ["OldNode"; "legacy.Node"] [("custom", JStr "v")].
Definition sample_color : schema :=
  SEnum "Color" (Some "other") None ["RED"; "GREEN"] (Some "RED") [] [].
Definition sample_md5 : schema := SFixed "MD5" (Some "org.acme") None 16 [] [].
(** a type named like a schema keyword *)
Definition sample_oops : schema :=
  SRecord "string" (Some "org.acme") None
    [sample_field "node" (SArray (SRef "Node" (Some "org.acme") [] None) []) None []] true [] [].

Definition sample_types : list schema := [sample_node; sample_color; sample_md5; sample_oops].

Definition sample_message : message :=
  mkMessage (Some "doc") [("p", JNull)]
    [sample_field "n" (SRef "Node" (Some "org.acme") [] None) None []]
    (SUnion [SPrim PNull; SRef "Color" (Some "other") [] None] true)
    (Some [SRef "string" (Some "org.acme") [] None]) false.
Definition sample_ping : message := mkMessage None [] [] (SPrim PNull) None true.

Definition sample_protocol : protocol :=
  mkProtocol "P" (Some "org.acme") (Some "Doc") [("version", JNum (NPos 1)); ("author", JStr "me")]
    sample_types [("send", sample_message); ("ping", sample_ping)].

(** The same protocol with every hash map in another order. *)
Definition sample_protocol' : protocol :=
  mkProtocol "P" (Some "org.acme") (Some "Doc") [("author", JStr "me"); ("version", JNum (NPos 1))]
    sample_types [("ping", sample_ping); ("send", sample_message)].

(** A protocol whose messages define the same record inline, as happens when
    an imported .avpr does so. *)
Definition inline_rec : schema :=
  SRecord "R" (Some "n") None [sample_field "x" (SPrim PInt) None []] false [] [].
Definition inline_msg : message :=
  mkMessage None [] [sample_field "a" inline_rec None []] (SPrim PNull) None false.
Definition inline_p1 : protocol := mkProtocol "P" (Some "n") None [] [] [("a", inline_msg); ("b", inline_msg)].
Definition inline_p2 : protocol := mkProtocol "P" (Some "n") None [] [] [("b", inline_msg); ("a", inline_msg)].

(** A type outside any namespace inside a protocol that has one. *)
Definition bare_foo : schema := SFixed "Foo" None None 4 [] [].
Definition org_foo : schema := SFixed "Foo" (Some "org") None 8 [] [].
Definition capture_protocol : protocol := mkProtocol "P" (Some "org") None [] [bare_foo] [].
Definition capture_protocol2 : protocol := mkProtocol "P" (Some "org") None [] [org_foo; bare_foo] [].
