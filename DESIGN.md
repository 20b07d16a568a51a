# Formal model of avdl in Rocq: design

Subject: the Rust crate in `/repo` (`src/*.rs`, `src/model/*.rs`), read as text. Nothing of it is compiled or run.
The model is in `rocq/theories`. `properties.jsonl` lists the properties, `MANIFEST.json` the theorems for each,
`seeded/LOG.jsonl` the wrong programs the theorems were tested against. `tools/mkmanifest.py` writes the manifest.

## Trusted base

* The kernel of Coq 8.16.1 (`coqc`, and `coqchk` in the gate). `vm_compute` is used on closed terms only, in the
  examples and refutations; `coqchk` re-checks these by ordinary conversion.
* Axioms: none. `Print Assumptions` stands beneath every property theorem and prints
  `Closed under the global context` for each of them. The seven entries that `coqchk` lists for the whole
  context (`Coq.ssr.ssrunder.Under_rel.*`) belong to a sealed module of Coq's own standard library that is loaded
  with the ssreflect tactics; no theorem depends on them.
* That the model says what the code does: every definition cites the lines it was written from, and says where it
  simplifies. Nothing connects the two mechanically. As a check outside the proofs, the model was extracted once and run
  on the inputs found in the repository (274 snippets in its tests, 13 files in its test data) with the outputs expected there;
  all agreed.
* For C56–C59 and C68 also that `Lexer.v` and `IdlParser.v` say what the ANTLR tables do. The generated files hold the grammar as
  serialised transition networks; these were decoded by hand into token rules and one function for each grammar rule.
  That the ANTLR run-time takes the longest match, prefers the rule listed first, and predicts as ALL(*) does (the
  first alternative wherever the grammar is ambiguous: a primitive type or `void` and not a reference) is assumed. What it does after a
  syntax error is not modelled: the file is rejected then.
* For C60, C61 and C68 also that `f64::from_str` and the operations on `f64` round the exact result to the nearest number, and that
  `2.0.powi(e)` is exact where the result is a normal number (the law `power_exact`).
* That the specifications (`Spec*.v`) say what the English says. They do not use the functions of the model,
  except for its data types and plain list and string functions.

There are no functors, module types, plugins, `Admitted` or own axioms. Unknown outside parts are class arguments of
the theorems (`Unicode`, `Floats`, `Parser`, `FileSystem`, `JsonParser`, `Console`, `LexerMessages`, `Powers`, `JsonNumbers`), so every theorem holds for every
behaviour of these parts; the only laws assumed of any of them are that finitely many canonical paths exist
(`fs_finite`) and that powers of two are exact (`power_exact`, C60, C61 and C68 only). The examples give instances, so the laws are satisfiable.

## Layout

| model | of | not modelled there |
|---|---|---|
| `Base.v` | strings (UTF-8 bytes), `rsplit_once`, `split`, association lists, `BTreeMap` insertion, chars of a string | |
| `Json.v` | `serde_json::Value`, `Number` | texts, see `JsonFile.v` |
| `Schema.v` | `src/model/schema.rs` types, names, logical types, merging of properties; `src/model/protocol.rs` | |
| `Defaults.v` | default values in `src/model/schema.rs`, logical types on `fixed` in `src/reader.rs` | message texts |
| `Serialize.v` | `src/model/json.rs` | |
| `Registry.v` | `src/resolve.rs` | `merge`, `reserve`, `contains` (unused by the program) |
| `Refs.v` | `validate_all_references` of `src/compiler.rs`, undefined name collection of `src/resolve.rs` | texts |
| `Import.v` | `src/import.rs` from a JSON value on | texts of JSON files, see `JsonFile.v` |
| `Literals.v` | integer and string literals, identifiers in `src/reader.rs` | float texts (class `Floats`; `FloatText.v` gives those of the code) |
| `JsonFile.v` | texts of JSON files: `parse_json_with_comments` (`src/import.rs:40-44`) and the printing of documents (`src/main.rs:225, 283`), with the crates `json_comments` and `serde_json` as documented | reading in chunks, the messages for texts that are no JSON, the digits of floating point numbers (class `JsonNumbers`) |
| `Sizes.v` | reasons for refusing a size, precision or scale, `src/reader.rs:4160-4204` | the standard library's shortcut for texts too short to overflow |
| `Doc.v` | `src/doc_comments.rs`; orphan warnings of `src/reader.rs` | the regex engine (patterns are modelled by hand) |
| `Syntax.v` | the parse trees of `src/generated/idlparser.rs` that the walker sees | lexer and parser (class `Parser`; `IdlParser.v` gives the one of the code) |
| `LexerTables.v`, `Lexer.v` | the lexer tables of `src/generated/idllexer.rs`, ANTLR's matching, the token stream | texts of lexer errors (class `LexerMessages`) |
| `IdlParser.v` | the rule functions of `src/generated/idlparser.rs`, and from a text to the tree the walker sees | recovery from syntax errors |
| `FloatText.v` | floating point literals in `src/reader.rs`, `f64` arithmetic as rounding of exact results | the sign of zero; `powi` (class `Powers`) |
| `Reader.v` | the tree walker of `src/reader.rs`: annotations, types, declarations, messages, files, `parse_idl` | texts of errors |
| `Warnings.v` | warnings as they are shown, their labels, lines and columns, in `src/reader.rs` | lengths of the texts marked for unions and aliases |
| `Suggest.v` | `src/suggest.rs`, suggestions in `src/compiler.rs` and `src/reader.rs` | |
| `Diagnose.v` | rewriting of ANTLR messages in `src/reader.rs` | |
| `Refine.v` | explanations of syntax errors, unterminated strings and lexer warnings in `src/reader.rs` | the lexer and parser that find the errors; rendering |
| `Compile.v` | `src/compiler.rs`, `ImportContext` of `src/import.rs`, both builders | lengths of marked texts; changing files |
| `Cli.v` | `src/main.rs`; the argument lexer `lexopt` from its documentation | help texts, arguments that are not UTF-8 |

`Spec*.v` are the specifications, `*Proofs.v` lemmas, `Sample*.v` data for examples, `Prop*.v` the property theorems:
each with its statement, a short derivation, `Print Assumptions` and an `Example` that meets its hypotheses.

## Modelling conventions

* `Result`/`Option` stay data; panics would be explicit errors.
* `&mut` becomes a returned value. State that survives a failing call is returned by failing calls too.
* `HashMap` is an association list in *some* order; theorems quantify over the order (permutations).
* `BTreeMap` (`serde_json` objects) is a key-sorted association list built by sorted insertion.
* Recursion through a table (inlining, default resolution, imports) runs on explicit fuel. Out of fuel is an explicit
  value and C01, C12, C21 show that it does not occur for the fuel the model uses, and that more changes nothing.
* Strings are their UTF-8 bytes; where the code looks at characters, code points are decoded (`chars`).
* Unicode tables beyond ASCII are class arguments (`Unicode`); case mapping is modelled only for the comparison the
  code makes (`@order`).
* Specifications are written without the model's functions, except for data types and accessors. Where a specification
  does mention one, that function has a claim of its own whose specification does not: `is_valid_default` (C19, C39),
  `resolve_for_validation` (C21), `parse_integer_as_u32`, `parse_integer_literal` (C30), `get_string_from_literal`
  (C31), `parse_float_text` (C60), `clean_doc` (C35), `identifier_text` (C24), `json_to_schema` (C17, C18), `flatten`
  (C16), `suggest_keyword` (C33).

## How each property is proved

* C01, C12, C21: measures. "Table entries not yet emitted", "files not yet imported", "types not on the path".
* C02–C06: one simulation between the serialiser and an independent Avro reader with the name-scoping rules of the
  specification (`SpecAvro.v`), by induction on fuel and schema, generalised over what was emitted before.
* C07: invariance of sorted insertion under permutation, lifted through the serialiser.
* C08–C11, C33: invariants over registration sequences; exactness of the collector by induction on schemas.
* C13–C15, C36, C37, C44, C50: a log of loaded files in the model's context; induction over nested item lists, and over
  call histories of a builder.
* C16–C18: induction over schemas and JSON documents, against `SpecAvro.v`/`SpecImport.v`.
* C19, C20: inductive definition of valid defaults (`SpecDefaults.v`), both directions.
* C22–C29, C34, C42, C43, C48, C49: denotation of declarations as relations (`SpecReader.v`, `SpecFile.v`), and proof that
  the walker computes exactly it.
* C30, C31, C40, C41, C45: grammars with value functions and their uniqueness.
* C32: inductive edit scripts, minimality of the matrix algorithm.
* C35: line-based specification of comment decoration.
* C39: exact integer reasoning about the 53-bit rounding in the formula.
* C46: permutations of the declarations of a file without imports.
* C52: the theorems about reading, importing, registering, checking and writing composed: what the walker and the JSON
  importer produce meets the conditions of the serialiser theorems (`PipelineProofs.v`).
* C53–C55: a declarative reading of each explanation (`SpecRefine.v`: decompositions of the source, balanced text with
  literals, lines); each detector is total, sound and complete for it, so the report is determined by the source. Parser
  errors are assumed to lie at tokens (`parser_error`), lexer errors at a line and column.
* C56: token shapes as sets of texts (`SpecLexer.v`); the matching by derivatives finds the longest one, and the cut of a text
  is unique. C57: the grammar as relations between tokens and trees (`SpecGrammar.v`); each parsing function is sound and
  complete for its rule. C58: trees with places left out (`SpecLayout.v`); induction over derivations, and over cuts.
* C59: the parser of `IdlParser.v` is put in place of the class `Parser`. The walker commutes with leaving out places
  (`ForgetProofs.v`), and compilation, serialisation and the program preserve a relation between two runs (`RewriteProofs.v`).
* C60: nearest numbers are specified by comparison with all binary64 numbers (`SpecFloatText.v`), the code's arithmetic by
  rounding of exact results. Rounding is proved to give the nearest number, sums and products of short numbers to be exact.
* C61: JSON values are specified on tokens (`SpecJsonText.v`); token shapes (C56) are joined with the literals of C30, C31 and
  C60, then induction over the grammar of JSON values (C57) and the walker.
* C62: an inductive definition of what explains an error (`SpecPlaces.v`), in terms of the files involved, their statements and
  places. Induction over the nested item lists for the errors of imports and declarations; for undefined names every mention
  is traced back to a reference in a file or to a JSON file. What the text says at a place: offsets in the token stream
  are lengths of the text before.
* C63: doc comments are specified on the pieces of the text and their bytes (`SpecDocText.v`). The token stream is related to
  the pieces, the starts of the grammar's trees (C57) to tokens, and C34 to both; lines and columns by induction over the text.
* C64: an inductive definition of what can be wrong with a tree (`SpecDefects.v`), with the error it gives and its place. Every error of the
  walker is such a defect, and an accepted tree has none: induction over types, fields, parameters and items. Two
  denotations of one type have the same kind and take the same defaults, so that it does not matter which one a
  defect mentions. With C57 for texts.
* C65: `expands` replaces imports by what they import, `adds_up` says when the declarations that remain are in order, `uses`
  which names are used (`SpecExpand.v`). Successful runs are turned into expansions by induction on the run, and expansions into
  runs by induction on the expansion, for any fuel (it suffices by C12). For `C65_inlining` places are forgotten on both sides.
* C66: `blame` says at which words an error can be shown (`SpecBlame.v`). The places in a defect of C64 are those of tokens, by
  the derivation of the tree (C57); a token at an offset is what the text says there (C62). `C66_convert` adds the files imported.
* C67: `odd` says what is warned about, on trees (`SpecBlame.v`). The events of the walker are related to it construct by
  construct, in both directions; the lists of names are compared up to order, since the code iterates over a hash map.
* C68: tokens are put into standard forms (`Canon.v`), functions that keep what the walker makes of them. Grammar rules (`LayoutProofs.v`) and walker
  (`ForgetProofs.v`) are compatible with any such forms, which C58 and C59 use with forms that change nothing. For two given files the form of a literal
  is the first one in them that has its value (`SpellingProofs.v`), the rest is as for C59. What words are the same is in `SpecSpelling.v`, by what they denote (C24, C30, C31, C60).
* C69: `lost` takes one attribute of the wrong type out of a document (`SpecLenient.v`). Each reader of objects gives the same without it; the rest by
  mutual induction on where it is, after showing that fuel beyond the depth of a document makes no difference.
* C70: `acceptable` says what a document must have, without the code's readers (`SpecLenient.v`). Both directions by induction on the depth (`AcceptProofs.v`).
* C71: `known_after` says which files are known before a statement (`SpecStatements.v`). Either text expands exactly if the other does, to the same declarations; then as in C65.
* C72: an expansion is taken apart into the files it goes through, each with what it contributes (`expands_parts`); everything `needed` is gone through, and there is an
  expansion of the permuted statements by induction on the files not yet seen (`builds`), with the same parts. Declarations of distinct names add up in any order; fewer known types leave
  fewer defaults to check (`fit_less`). Messages are those of `last_declared`, which depends on the order only if two files have one of a name (`StatementProofs.v`).
* C73: `explains` (`SpecDefaultErrors.v`) says which reason a value and a type have, with ranges and words written out; the check gives that reason by induction on the type, and any reason is the one given by induction on `explains`.
* C74: `names_in` (`SpecWords.v`) finds the places of a document where a type is named; by induction on the writer (`KindWordProofs.v`).
* C75: C52 and C18 together, with C65 for the second file: the definitions of each document join those already known, of which the repeated ones are skipped (`ReimportProofs.v`); the messages of an imported protocol have no definitions inside because the list of types already has them all (`ReimportMessageProofs.v`). The two compilations may see different files. `portable` as in C18.
* C76: `Sizes.v` has the loop of `u32::from_str_radix` with its error kinds; it is shown equal to the test on the exact value that `Literals.v` uses (`C76_reader`), and then evaluated on the shapes of `SpecLiterals.v` (`SizeProofs.v`). Through C66, the word shown with the error is such an integer. The words `SpecBlame.v` allows for these errors are now given by the verdict and no longer by the model's own function.
* C77: `SpecJsonFile.v` says what a text without its comments is (a relation between texts), and is the grammar of RFC 8259 with the values as relations on texts, without a reader. `JsonStripProofs.v` and `JsonReadProofs.v` prove the state machine and the recursive descent sound and complete for it.
* C78: what is printed is derived in the same grammar by induction on the value (`JsonWriteProofs.v`); nothing in the grammar starts a comment outside a string, so C77 gives the round trip, and that a text of depth d has a value of depth d gives the converse.
* C79: schemas read from IDL or JSON hold only values that print and read the same (`tidy`), an invariant kept by reading, importing, flattening and registering (`TidyProofs.v`, `TidySourceProofs.v`); so C78 applies to every document that is made, and C75 to the texts of the saved files (`PropSaved.v`). The command line is covered by going through `main` (`C79_run`).
* C80: two runs of the JSON generation are compared, with two tables of types and two sets of names already written that agree on the names needed; by induction on the fuel and the schema they write the same and agree again (`LocalProofs.v`). The places in the source are erased first. `needs` is the closure of `mentions` under the table.
* C81: `SpecNaming.v` relates the parse trees of two texts, with the namespace that holds at each place; `NamingProofs.v` shows that the walker gives equal results for related trees. The rest (places, imports, registry, output) is the comparison of two runs made for C58 and C68.
* C82: `SpecAgree.v` says when a schema is the own document of a type among given definitions; `AgreeProofs.v` shows both outputs to read as the types of the same registry (C17, C52), so as each other.
* C83: `taking_part` (`SpecFrame.v`) says which files are looked at. Two runs in two worlds are compared step by step (`FrameProofs.v`); both are given the larger of the two bounds on the depth of imports, which changes nothing (C12). `C83_program` carries it to both subcommands, for a directory of input files by induction over them.
* C84: the name of the input only labels places, so C58 applies with the same text under two names; that the input counts as imported makes no difference if no import leads to it, by comparison of two runs whose sets of known files differ in it (`TypedProofs.v`).
* C85: `SpecUnder.v` relates the trees of two texts. The walk over annotations is shown to depend on `@namespace` only in the namespace it collects (`UnderProofs.v`); without documentation it does not depend on token numbers, and RewriteProofs carries equal readings to the outputs.
* C38, C47, C51: grammar of command lines, file map after the run.

Properties that cannot be expressed: none of the list. What is *not* covered by any property: exactly how messages are
worded and rendered (beyond C33, C45, C54 and C73), performance, behaviour when files change during a run.
In particular the part of `Diagnose.v` that explains stray annotations and imports without a kind is modelled, but no
theorem says what it returns: edits to it survive, as the log of seeded bugs says.

How to read `seeded/LOG.jsonl`: `theorems_failed` are the theorems that fail or rest on a lemma that fails. Most edits
were tried with a limit of 25 s per sentence of a proof, and earlier versions of the log counted a proof that ran out of
time as failed. The five lemmas and samples seen to do so without any edit or under load (`help_text`, `brace_report`,
`property_over`, `round_nearest`, `C54_samples`) have been left out of the lists, except `round_nearest` where it was
seen to fail with an error. Edits that then had no failure left were tried again without the short limit or carry the
note "not decided". Other entries were not tried again, so a list may still name a theorem whose proof was only slow.

## Findings

Places where the code does not do what a property says. Each is a theorem ending in `_refuted` (a concrete input,
evaluated in the kernel), beside the theorem with the condition that excludes it.

| theorem | finding |
|---|---|
| `C02_namespace_capture_refuted`, `C05_namespace_capture_refuted` | a type without namespace inside a namespaced protocol is written with its bare name and read back in the protocol's namespace; two types can become one |
| `C07_inline_messages_refuted` | with named types defined inline in message types (importable from `.avpr`), which message carries the definition depends on hash order |
| `C11_position_independent_of_order_refuted` | the position shown for an undefined name depends on hash order |
| `C17_dotted_name_refuted` | imported JSON: with a dotted name *and* a `namespace`, the `namespace` wins; the specification says the dotted name does |
| `C17_logical_base_refuted` | a logical type on a foreign base type is read as that logical type |
| `C17_message_types_refuted` | types defined inline in messages of an `.avpr` are not registered |
| `C18_not_portable_refuted` | consequence of the above for annotations imitating logical types |
| `C19_prose_refuted` | enum defaults need not be symbols, byte strings may contain any character, union defaults may match any branch |
| `C21_recursive_refuted`, `C21_nested_same_name_refuted` | defaults below a recursive reference are unchecked; a nested record of the same name hides it |
| `C22_primitive_named_type_refuted` | a reference to a type called like a primitive (backticks) is taken for that primitive in the duplicate check |
| `C29_decimal_annotation_refuted` | `@logicalType("decimal")` accepts precision 0 and scale > precision |
| `C30_least_refuted`, `C30_size_suffix_refuted` | -2^63 in hexadecimal or octal is rejected; sizes with suffix `L` are rejected |
| `C31_lone_surrogate_refuted` | an escape of a lone surrogate stays in the text as its source |
| `C32_non_ascii_refuted` | `levenshtein` mixes byte and character lengths |
| `C37_stale_refuted`, `C37_directory_refuted` | warnings of an earlier run remain after an unreadable file; warnings of the files before a failing one in a directory are lost |
| `C38_same_simple_name_refuted` | two types with the same simple name are written to the same file |
| `C39_decimal_refuted` | the floating-point bound is one digit too large for `fixed(122202250)` |
| `C40_leading_dot_refuted`, `C41_leading_dot_refuted` | `.Foo` splits into an empty namespace that is dropped when joined |
| `C42_logical_attributes_refuted` | `@logicalType`, `@precision`, `@scale` on a logical type overwrite its attributes |
| `C43_scale_lost_refuted` | an invalid `@scale` is silently replaced by 0 |
| `C44_directory_name_refuted` | a directory called `x.avdl` makes the extraction of its parent fail |
| `C45_large_list_refuted`, `C45_brace_never_expected` | lists of more than five tokens are cut at the first `}`, even a quoted one, so the hint about a missing `}` is never given |
| `C46_defaults_refuted` | whether a default value is rejected depends on the order of declarations |
| `C52_imported_schema_renamed_refuted` | the capture of C02/C05 from files: a schema without namespace imported into a namespaced protocol changes its name |
| `C54_fixed_word_refuted` | keywords are looked for as text: `prefixed MD5(abc)` is reported as a fixed type without a size |
| `C54_comma_in_enum_refuted` | a trailing comma in a union is reported as one in an enum, if any enum stands before |
| `C54_brace_in_comment_refuted` | a brace in a comment is reported as never closed |
| `C55_place_refuted` | columns count characters but are used as bytes: after non-ASCII text the place is wrong, or inside a character |
| `C56_empty_comment_is_blank_refuted` | `/**/` with a later `*/` starts a documentation comment: declarations in between are dropped without a warning |
| `C62_blame_refuted` | a name that is missing in the second imported JSON file is shown at the import of the first |
| `C63_label_refuted` | labels are chosen by searching the message, so an alias containing another message gets the wrong label |
| `C65_clash_refuted` | a type declared both in the file and in an imported JSON file is an error only if the import comes first; otherwise the imported one is dropped without a word |
| `C56_last_comment` | a line comment on the last line without a line end is a token recognition error (a warning) |
| `C56_names` | `NaN` and `Infinity` are number tokens, so they cannot be names |
| `C60_hexadecimal_long_refuted` | hexadecimal floating point literals of 53 bits or more can be rounded the wrong way (`0x1.800000000000081p0` is 1.5) |
| `C68_suffix_refuted`, `C68_least_refuted` | the same number is refused in another spelling: the size `6L`, and -2^63 in hexadecimal (as `C30_size_suffix_refuted`, `C30_least_refuted`, now for whole files) |
| `C60_hexadecimal_exponent_refuted` | `0x0p1024` is NaN, and `0x1p-1074` is zero (with the usual `powi`) |
| `C69_required_refuted` | an imported record without `fields` and an enum without `symbols` are accepted, as empty ones |
| `C70_protocol_file` | any JSON value that is no object (a string, a list of schemas) is accepted as an `.avpr` file, as an empty protocol |
| `C72_messages_refuted` | two imported files with a message of one name: the last import wins without a warning, so the order of imports decides what the protocol says |
| `C78_deep_refuted` | documents nested more than 127 brackets deep are written, but `serde_json` refuses to read them, so they cannot be imported |
| `C79_chain_refuted` | 43 records, each with a field of the next, compile to a document that the program itself refuses to import |
| `C80_shadow_refuted` | importing a type `B` without namespace into a protocol of namespace `org` that has its own `org.B`: fields of type `org.B` are written as the other `B` |
| `C82_renamed_refuted` | a type `C` without namespace imported into a protocol of namespace `org` is `org.C` in the protocol's document and `C` in the extracted schema |
| `C84_self_import_refuted` | a file that imports itself compiles, its text on standard input does not: the import declares its types once more |
| `C85_documented_refuted` | a doc comment between annotations and declaration is dropped with a warning, so it starts to count when the annotation before it moves into the name |
| `C55_any_text_refuted` | an unterminated literal whose text imitates an ANTLR message is not recognised |

Observed while modelling, not stated as a property: duplicate message names are accepted, the last wins; types with
invalid names in imported JSON are dropped without a message; `{"type": {...}}` and `{"type": "Foo"}` are rejected in
imported schemas; a doc comment that is blank is consumed but gives no doc; `--help=x` is accepted as help; resolving
a type for default validation copies it at every mention and can be exponential.
