{"id": "C01", "title": "JSON generation always terminates", "statement": "Converting a compiled protocol or schema to JSON terminates with a result for every set of named types, including self-recursive and mutually recursive ones, forward references, duplicate keys in the lookup table and undefined references.", "quantifier": "every lookup table, every schema, every set of already-emitted names, every enclosing namespace", "why_tests_cant": "Termination over an unbounded space of cyclic type graphs; a test only shows particular graphs terminate.", "anchors": ["src/model/json.rs:schema_to_json", "src/model/json.rs:build_lookup", "src/model/json.rs:protocol_to_json"]}
{"id": "C02", "title": "At most one definition per full name in a document", "statement": "In the protocol JSON returned by Idl.convert (types array and then messages), no named type (record, error, enum, fixed) is defined in full twice; second and later occurrences are bare name strings.", "quantifier": "every protocol, every order in which messages are visited", "why_tests_cant": "A duplicate definition makes the whole document unparseable and depends on the interplay of inlining order and the emitted-names set over arbitrary graphs.", "anchors": ["src/model/json.rs:named_type_preamble", "src/model/json.rs:schema_to_json", "src/model/json.rs:protocol_to_json"]}
{"id": "C03", "title": "Every registered type is emitted exactly once", "statement": "Every named type registered while compiling a protocol appears exactly once as a full definition somewhere inside the `types` array: none is lost by the filter that drops already-inlined types, and the top-level entries keep declaration order.", "quantifier": "every list of registered types with distinct full names and every lookup", "why_tests_cant": "Loss happens only for particular inlining orders; the claim is about all graphs and orders.", "anchors": ["src/model/json.rs:protocol_to_json", "src/model/json.rs:schema_to_json"]}
{"id": "C04", "title": "Names are defined before they are used", "statement": "Reading the output in document order (types array, then each message's request, response, errors), every bare type name is a primitive or the full name of a type whose definition started earlier in the document, provided every reference was resolvable.", "quantifier": "every protocol whose references are all resolvable", "why_tests_cant": "Quantifies over all recursive graphs and positions; tests sample a few layouts.", "anchors": ["src/model/json.rs:schema_to_json", "src/compiler.rs:validate_all_references"]}
{"id": "C05", "title": "The emitted JSON means what the IDL meant", "statement": "An Avro reader that applies the specification's name-scoping rules (namespace attribute, dotted names, inheritance of the enclosing namespace, primitive names reserved) to the emitted document recovers exactly the compiled types: same full names, kinds, field names, field types, symbols, sizes, defaults and references.", "quantifier": "every compiled set of types and every enclosing namespace, under an explicit well-formedness predicate", "why_tests_cant": "Name shortening is correct only if no enclosing-namespace combination changes the meaning of a short name; that is a claim over all nestings.", "anchors": ["src/model/json.rs:schema_ref_name", "src/model/json.rs:named_type_preamble", "src/model/json.rs:schema_to_json"]}
{"id": "C06", "title": "Every .avsc is self-contained", "statement": "Each schema returned by Idl2Schemata.extract can be parsed on its own by an Avro reader: every name occurring in it is a primitive or is defined earlier in that same schema.", "quantifier": "every registry whose references are all resolvable, every schema in it", "why_tests_cant": "Self-containedness depends on transitive closure of references through arbitrary graphs.", "anchors": ["src/compiler.rs:Idl2Schemata.extract_impl", "src/model/json.rs:schema_to_json"]}
{"id": "C07", "title": "Output does not depend on hash-map iteration order", "statement": "The JSON value produced is the same for every iteration order of every HashMap involved (custom properties, messages, lookup tables).", "quantifier": "every permutation of every hash-map's entries", "why_tests_cant": "Iteration order is randomised per process; a test run sees one order.", "anchors": ["src/model/json.rs:protocol_to_json", "src/model/json.rs:message_to_json", "src/model/json.rs:finish_named_type"]}
{"id": "C08", "title": "Registry keeps the first definition, in order, without duplicates", "statement": "After any sequence of registrations the registry holds each full name at most once, bound to the first successfully registered schema of that name, in order of first registration; a failing registration changes nothing and succeeds later only if its cause is gone.", "quantifier": "every sequence of register calls", "why_tests_cant": "Claim over all histories.", "anchors": ["src/resolve.rs:SchemaRegistry.register", "src/resolve.rs:SchemaRegistry.lookup"]}
{"id": "C09", "title": "Only valid Avro names are registered", "statement": "Every schema in the registry has a simple name and namespace segments that are valid names (letter or underscore, then letters, digits, underscores; no empty segment, no dots in the simple name).", "quantifier": "every sequence of register calls, every name", "why_tests_cant": "Claim over all strings and histories.", "anchors": ["src/resolve.rs:is_valid_avro_name", "src/resolve.rs:validate_schema_name", "src/resolve.rs:SchemaRegistry.register"]}
{"id": "C10", "title": "Undefined types are rejected, defined ones accepted", "statement": "A compilation passes the final reference check if and only if every type reference occurring anywhere inside a registered type, in the main schema, or in a message's request, response or errors is the full name of a registered type.", "quantifier": "every registry, every main declaration, every message table", "why_tests_cant": "Soundness and completeness of a traversal over all nested schemas.", "anchors": ["src/compiler.rs:validate_all_references", "src/resolve.rs:collect_unresolved_refs"]}
{"id": "C11", "title": "Each undefined name is reported once", "statement": "When the reference check fails, the set of reported names is exactly the set of undefined names, each reported exactly once, independently of the iteration order of messages.", "quantifier": "every failing compilation and every message order", "why_tests_cant": "Order-dependent; the test process sees one hash order.", "anchors": ["src/compiler.rs:validate_all_references"]}
{"id": "C12", "title": "Import resolution terminates", "statement": "Compiling a file terminates for every finite set of files importing each other in any way, including self-imports, mutual cycles and diamonds.", "quantifier": "every finite import graph", "why_tests_cant": "Unbounded family of graphs.", "anchors": ["src/compiler.rs:resolve_single_import", "src/compiler.rs:process_decl_items", "src/import.rs:ImportContext.mark_imported"]}
{"id": "C13", "title": "Each file is imported at most once", "statement": "During one compilation no canonical path is loaded twice, and the input file itself is never loaded again through an import.", "quantifier": "every import graph and import order", "why_tests_cant": "Over all graphs and schedules of imports.", "anchors": ["src/import.rs:ImportContext.mark_imported", "src/compiler.rs:resolve_single_import", "src/compiler.rs:parse_and_resolve"]}
{"id": "C14", "title": "Import search order", "statement": "An import path resolves to the importing file's directory if the file exists there, else to the first import directory, in the order given, that contains it, else it is an error.", "quantifier": "every list of import directories and every file system", "why_tests_cant": "Over all file systems.", "anchors": ["src/import.rs:ImportContext.resolve_import"]}
{"id": "C15", "title": "Own messages win over imported ones, later imports over earlier ones", "statement": "In the compiled protocol a message name is bound to the file's own message if it declares one, otherwise to the message of the last import (in processing order) that declares it; messages declared nowhere do not appear.", "quantifier": "every message table and import sequence", "why_tests_cant": "Over all histories of merges.", "anchors": ["src/compiler.rs:parse_and_resolve", "src/compiler.rs:resolve_single_import"]}
{"id": "C16", "title": "Flattening imported schemas loses nothing", "statement": "Flattening an imported schema leaves no named type defined inside another, lists every named type it contained exactly as often as it occurred with inner types before the types that contain them, and does not change what any reference points to.", "quantifier": "every schema", "why_tests_cant": "Structural claim over all nestings.", "anchors": ["src/import.rs:flatten_schema", "src/import.rs:flatten_schema_inner"]}
{"id": "C17", "title": "Imported JSON names follow Avro scoping", "statement": "For an imported .avsc/.avpr the full name of every definition and reference is the one the Avro specification assigns.", "quantifier": "every JSON schema document and default namespace", "why_tests_cant": "Over all nestings of namespaces.", "anchors": ["src/import.rs:json_to_schema", "src/import.rs:parse_record", "src/import.rs:string_to_schema"]}
{"id": "C18", "title": "Export then import is the identity", "statement": "Importing the JSON that the compiler emitted for a set of types registers the same types under the same full names.", "quantifier": "every well-formed set of types", "why_tests_cant": "Round trip over all schemas.", "anchors": ["src/import.rs:import_protocol", "src/model/json.rs:protocol_to_json"]}
{"id": "C19", "title": "Default values are checked exactly as the Avro specification demands", "statement": "A default value is accepted for a type if and only if it is a JSON encoding allowed by the specification for that type (int and long ranges, floats including NaN and infinities as strings, arrays, maps, records with every missing field having its own default, unions by some branch).", "quantifier": "every JSON value and every schema", "why_tests_cant": "Infinite domain of values times types.", "anchors": ["src/model/schema.rs:is_valid_default", "src/model/schema.rs:validate_default"]}
{"id": "C20", "title": "An error is reported exactly for invalid defaults", "statement": "validate_default returns no message exactly when the default is valid, and the record-level check reports a field exactly when its resolved type rejects its default.", "quantifier": "every record, every resolver", "why_tests_cant": "Agreement of two recursive functions on all inputs.", "anchors": ["src/model/schema.rs:validate_default", "src/model/schema.rs:validate_record_field_defaults"]}
{"id": "C21", "title": "Default checking through references terminates and sees the real type", "statement": "Resolving a field's type for default validation terminates for every registry, including recursive types, and the resolved type has no unresolved reference other than back-references to an enclosing record.", "quantifier": "every registry and schema", "why_tests_cant": "Cyclic graphs of unbounded size.", "anchors": ["src/model/schema.rs:resolve_for_validation", "src/model/schema.rs:resolve_for_validation_inner"]}
{"id": "C22", "title": "No accepted IDL contains an illegal union", "statement": "Every union in a schema produced from IDL source has no immediate union branch and no two branches of the same unnamed type or the same full name.", "quantifier": "every parse tree the reader accepts", "why_tests_cant": "Over all source texts.", "anchors": ["src/reader.rs:walk_union_type", "src/model/schema.rs:union_type_key"]}
{"id": "C23", "title": "Optional fields put the default's branch first", "statement": "For `T? f = d` the emitted union is [T, null] when d is not null and [null, T] when d is null or absent; no other union is reordered and no branch is lost.", "quantifier": "every field type and default", "why_tests_cant": "Over all types and defaults.", "anchors": ["src/reader.rs:fix_optional_schema", "src/reader.rs:walk_variable", "src/reader.rs:walk_nullable_type"]}
{"id": "C24", "title": "Namespace precedence in IDL", "statement": "A declared type's namespace is the part of its identifier before the last dot if there is one, else its @namespace annotation, else the enclosing namespace; references without a dot resolve in the enclosing namespace.", "quantifier": "every identifier, annotation and enclosing namespace", "why_tests_cant": "Over all strings.", "anchors": ["src/reader.rs:compute_namespace", "src/reader.rs:extract_name", "src/reader.rs:walk_nullable_type"]}
{"id": "C25", "title": "Annotations: reserved names rejected, custom ones preserved", "statement": "A declaration carrying a reserved annotation is rejected; otherwise every custom annotation reaches the declaration's properties with the value of its last occurrence and nothing else does.", "quantifier": "every list of annotations and every context", "why_tests_cant": "Over all annotation sequences.", "anchors": ["src/reader.rs:walk_schema_properties", "src/reader.rs:PropertyContext"]}
{"id": "C26", "title": "Enums from IDL are well formed", "statement": "Every enum the reader accepts has pairwise distinct symbols and, if it has a default, the default is one of the symbols.", "quantifier": "every enum declaration", "why_tests_cant": "Over all symbol lists.", "anchors": ["src/reader.rs:walk_enum"]}
{"id": "C27", "title": "Records and messages have distinct member names", "statement": "Every record accepted from IDL has pairwise distinct field names, in declaration order, and every accepted message has pairwise distinct parameter names.", "quantifier": "every declaration", "why_tests_cant": "Over all member lists.", "anchors": ["src/reader.rs:walk_record", "src/reader.rs:walk_message"]}
{"id": "C28", "title": "One-way messages return nothing", "statement": "Every message accepted as oneway has response null; and a message that is not declared oneway is never marked one-way.", "quantifier": "every message declaration", "why_tests_cant": "Over all declarations.", "anchors": ["src/reader.rs:walk_message"]}
{"id": "C29", "title": "Logical types are only attached to their base type and with legal parameters", "statement": "Every logical type produced from IDL sits on the base type the specification requires and decimal parameters satisfy 1 <= precision and scale <= precision.", "quantifier": "every annotation set and type", "why_tests_cant": "Over all annotation combinations.", "anchors": ["src/reader.rs:try_promote_logical_type", "src/reader.rs:walk_primitive_type", "src/model/schema.rs:LogicalType", "src/import.rs:parse_annotated_primitive"]}
{"id": "C30", "title": "Integer literals denote their value", "statement": "Decimal, hexadecimal and octal integer literals with underscores and sign parse to the integer they denote when it fits in 64 bits and are rejected otherwise; a size literal parses to its value when it fits in 32 bits.", "quantifier": "every literal of the grammar", "why_tests_cant": "Infinite set of literals and boundary values.", "anchors": ["src/reader.rs:parse_integer_literal", "src/reader.rs:parse_integer_as_u32"]}
{"id": "C31", "title": "String literals are decoded faithfully", "statement": "A literal without backslashes denotes itself; for every text there is an escaped literal that decodes back to it; surrogate pairs decode to the code point they encode.", "quantifier": "every sequence of code points", "why_tests_cant": "Infinite domain.", "anchors": ["src/reader.rs:unescape_java", "src/reader.rs:try_parse_low_surrogate"]}
{"id": "C32", "title": "The edit distance is the edit distance", "statement": "levenshtein(a,b) is the minimum number of single-character insertions, deletions and substitutions turning a into b.", "quantifier": "every pair of strings", "why_tests_cant": "A minimum over all edit scripts.", "anchors": ["src/suggest.rs:levenshtein"]}
{"id": "C33", "title": "Suggestions are close and closest", "statement": "When a suggestion is made for a misspelled keyword or type it is within the length-dependent distance bound and no other candidate is strictly closer; when some candidate is within the bound a suggestion is made.", "quantifier": "every misspelled name and candidate set", "why_tests_cant": "Optimality over all candidates.", "anchors": ["src/compiler.rs:suggest_similar_name", "src/reader.rs:suggest_keyword", "src/suggest.rs:max_edit_distance"]}
{"id": "C34", "title": "Doc comments are attached to the next declaration or reported", "statement": "A declaration gets the doc comment that immediately precedes it modulo whitespace and empty comments; every doc comment in the file is either attached to a declaration or reported as a warning, never both.", "quantifier": "every token stream and every set of declarations", "why_tests_cant": "Over all token streams.", "anchors": ["src/doc_comments.rs:extract_doc_comment", "src/reader.rs:collect_orphaned_doc_comment_warnings"]}
{"id": "C35", "title": "Doc comment stripping only removes indentation", "statement": "Removing decoration from a doc comment keeps the number of lines and removes from each line only a prefix made of blanks and at most two stars; when every line is star-prefixed, all prefixes are removed.", "quantifier": "every comment text", "why_tests_cant": "Over all texts.", "anchors": ["src/doc_comments.rs:strip_indents", "src/doc_comments.rs:try_strip_ws_indent", "src/doc_comments.rs:common_prefix"]}
{"id": "C36", "title": "A builder can be reused", "statement": "The result of a conversion depends only on the source, the import directories and the file system, not on conversions done earlier with the same builder.", "quantifier": "every history of calls on one builder", "why_tests_cant": "Over all call histories.", "anchors": ["src/compiler.rs:IdlCompiler.compile", "src/compiler.rs:Idl.convert_impl"]}
{"id": "C37", "title": "Warnings are delivered exactly once", "statement": "Every warning of a conversion is delivered exactly once: in the output on success, through drain_warnings on failure; no warning of an earlier conversion is delivered with a later one.", "quantifier": "every history of conversions and drains", "why_tests_cant": "Over all call histories.", "anchors": ["src/compiler.rs:IdlCompiler.compile", "src/compiler.rs:IdlCompiler.drain_warnings", "src/compiler.rs:compile_file"]}
{"id": "C38", "title": "idl2schemata writes one file per type", "statement": "After avdl idl2schemata succeeds, for every registered type the output directory holds a file <name>.avsc with that type's schema.", "quantifier": "every registry", "why_tests_cant": "Collisions depend on all pairs of names.", "anchors": ["src/main.rs:run_idl2schemata", "src/compiler.rs:Idl2Schemata.extract_impl"]}
{"id": "C39", "title": "Decimal precision bound on fixed types", "statement": "A decimal annotation on fixed(N) is considered valid exactly when 1 <= precision <= floor(log10(2^(8N-1)-1)) and scale <= precision; a duration exactly when N = 12.", "quantifier": "every size, precision and scale", "why_tests_cant": "Four-billion-value domain and a floating-point formula.", "anchors": ["src/model/schema.rs:validate_logical_type_on_fixed"]}
{"id": "C40", "title": "Full names split and join consistently", "statement": "Joining a dot-free name with a namespace and splitting the result gives back the name and namespace; splitting any string and joining gives back the string.", "quantifier": "every string", "why_tests_cant": "Infinite domain.", "anchors": ["src/model/schema.rs:make_full_name", "src/model/schema.rs:split_full_name"]}
{"id": "C41", "title": "Aliases keep their meaning", "statement": "An alias emitted for a type, read with the type's own namespace as context, denotes the full name the IDL author wrote.", "quantifier": "every alias and namespace", "why_tests_cant": "Infinite domain.", "anchors": ["src/model/json.rs:alias_ref_name", "src/model/json.rs:schema_ref_name"]}
{"id": "C42", "title": "Custom properties never change a schema's meaning", "statement": "For schemas read from IDL, custom properties appear in the output under their own key and never overwrite a structural key of the object they are attached to.", "quantifier": "every property map that passed the reserved-name check", "why_tests_cant": "Over all key sets in all contexts.", "anchors": ["src/model/json.rs:schema_to_json", "src/model/json.rs:field_to_json", "src/model/json.rs:message_to_json", "src/reader.rs:PropertyContext"]}
{"id": "C43", "title": "Annotating a type only adds properties", "statement": "Attaching annotations to a type keeps the type's name, structure and existing properties except those overridden by the same key, and on an optional type annotates the non-null branch only.", "quantifier": "every type and property map", "why_tests_cant": "Over all types.", "anchors": ["src/model/schema.rs:with_merged_properties", "src/reader.rs:apply_properties"]}
{"id": "C44", "title": "Directory extraction is per-file extraction concatenated", "statement": "Extracting a directory gives the concatenation, in sorted path order, of the results of extracting each .avdl file on its own, and fails exactly when one of them fails.", "quantifier": "every directory tree", "why_tests_cant": "Over all trees.", "anchors": ["src/compiler.rs:Idl2Schemata.extract_directory"]}
{"id": "C45", "title": "Token lists in syntax errors are split correctly", "statement": "The expected-token list of a syntax error is split exactly at the commas outside quotes and its closing brace is the first unquoted one; rejoining the tokens gives the list back.", "quantifier": "every token list", "why_tests_cant": "Over all strings.", "anchors": ["src/reader.rs:split_token_set", "src/reader.rs:find_closing_brace"]}
{"id": "C46", "title": "Type order in the source only affects order in the output", "statement": "A type may be used before it is declared: moving declarations of the same set of types around never turns an accepted set of references into a rejected one, and the set of emitted definitions is the same.", "quantifier": "every permutation of the declarations", "why_tests_cant": "Factorially many orders.", "anchors": ["src/compiler.rs:validate_all_references", "src/model/json.rs:protocol_to_json"]}
{"id": "C47", "title": "Command line: positionals and import directories", "statement": "The idl subcommands take the first positional as input and the second as output wherever they stand among the options, keep import directories in the given order, and reject unknown options.", "quantifier": "every argument vector", "why_tests_cant": "Over all argument vectors.", "anchors": ["src/main.rs:parse_idl_args", "src/main.rs:parse_idl2schemata_args"]}
{"id": "C48", "title": "A file means what its declarations say", "statement": "For every accepted file, imports and types are handed on once each in source order, the protocol has exactly the messages declared (of equal names the last), and every type, field, parameter, message and protocol has exactly the name, namespace, type, default, doc comment, aliases, order and custom properties its declaration denotes.", "quantifier": "every parse tree the reader accepts", "why_tests_cant": "Over all parse trees, of any depth.", "anchors": ["src/reader.rs:walk_idl_file", "src/reader.rs:walk_protocol", "src/reader.rs:walk_record"]}
{"id": "C49", "title": "JSON in IDL is read as what it denotes", "statement": "A default value or annotation value written as JSON in IDL is accepted exactly if it denotes a JSON value and is read as that value, objects with the last value of a repeated key and non-finite numbers as strings.", "quantifier": "every JSON parse tree", "why_tests_cant": "Over all JSON trees, of any depth.", "anchors": ["src/reader.rs:walk_json_value"]}
{"id": "C50", "title": "Exactly the declared types come out", "statement": "A successful compilation yields exactly the types declared in the input file and in the files it imports, directly or not: none is lost, none is invented, and the types of an IDL file appear in the order of their declarations.", "quantifier": "every input, import graph and file content", "why_tests_cant": "Over all import graphs and all contents of the files; a test fixes one of each.", "anchors": ["src/compiler.rs:process_decl_items", "src/import.rs", "src/resolve.rs:register"]}
{"id": "C51", "title": "avdl idl writes the document or nothing", "statement": "avdl idl compiles the file named by its first argument, or stdin if there is none or it is a dash, and on success writes exactly the resulting document, to the named file followed by a line end or to stdout; on any failure it writes nothing. In both cases it shows the warnings of the compilation.", "quantifier": "every input, output argument, file system and stdin", "why_tests_cant": "Over all contents and failures.", "anchors": ["src/main.rs:run_idl", "src/main.rs:write_output"]}
{"id": "C52", "title": "Documents say what the files declare", "statement": "After a successful conversion the JSON document, read back by the rules of the Avro specification, is the protocol or schema of the input file: same name, namespace, doc and properties; exactly the types declared in the input and in the files it imports, each with the meaning it has there; and the messages of the input together with those of imported files it does not declare itself. Each schema file extracted reads back as one declared type together with exactly the types it needs.", "quantifier": "every input text or file, import graph, file content and builder state", "why_tests_cant": "Composes reading, importing, registering, checking and writing over all files and import graphs; a test compares one pair of texts.", "anchors": ["src/compiler.rs:Idl::convert", "src/compiler.rs:IdlSchemata::extract", "src/reader.rs:parse_idl", "src/import.rs", "src/resolve.rs", "src/model/json.rs"]}
{"id": "C53", "title": "Reporting syntax errors never crashes and points into the source", "statement": "Whatever the source text and however the lexer and parser fail on it, explaining the failure does not panic (no slice of the source is taken outside a character boundary), and each place it shows starts at a character of the source and ends within it, or where the error it explains ends.", "quantifier": "every source text (any Unicode), every list of lexer errors and every list of parser errors located at tokens", "why_tests_cant": "The detectors slice the source at computed byte offsets; a crash needs the right mix of multi-byte characters and error positions, which is unbounded.", "anchors": ["src/reader.rs:refine_errors_with_source", "src/reader.rs:parse_idl"]}
{"id": "C54", "title": "Explanations of syntax errors are the ones the source calls for", "statement": "A rejected source is reported with exactly the first explanation that holds of it, in a fixed order: an empty union, a type parameter left out, a fixed size that is not a number, a missing name, a trailing comma in an enum, a misspelled keyword, a declaration inside an unclosed one, an end of file with an unclosed brace; otherwise with the errors of the parser. The brace reported as unclosed is the innermost one open outside string literals, and it is attributed to the construct it opens.", "quantifier": "every source text and every nonempty list of parser errors located at tokens", "why_tests_cant": "Relates a scan of arbitrary text with nested braces and literals to the text's structure; tests cover single examples of each explanation.", "anchors": ["src/reader.rs:refine_errors_with_source", "src/reader.rs:detect_unclosed_brace", "src/reader.rs:detect_trailing_comma_in_enum"]}
{"id": "C55", "title": "Lexer errors are warnings or the explanation, at the right place", "statement": "A source without parser errors is accepted and each lexer error becomes one warning, in order; a source with parser errors and a string literal that is not closed is reported as an unterminated string literal. Where the line up to the error is ASCII the place shown is exactly that of the error, and it is never outside the source.", "quantifier": "every source text and every list of lexer and parser errors", "why_tests_cant": "Line and column arithmetic over arbitrary line structures and error lists.", "anchors": ["src/reader.rs:find_unterminated_string_error", "src/reader.rs:line_col_to_byte_offset", "src/reader.rs:parse_idl"]}
{"id": "C56", "title": "How a source text is taken apart into tokens", "statement": "Every text is taken apart in exactly one way: at each place the longest text that has the shape of a token, of two kinds the first in the list, and a recognition error where there is none; no character is lost. A name is never a word of the language or a number. White space ends every token, so tokens written with white space between them are read as these tokens. A comment with nothing in it is like white space (refuted: a later end of a comment makes it swallow everything in between).", "quantifier": "every text", "why_tests_cant": "The shapes overlap (numbers, dots and dashes in names, comments in strings, strings in comments) in infinitely many ways.", "anchors": ["src/generated/idllexer.rs:33-855"]}
{"id": "C57", "title": "Exactly the files of the grammar are accepted, with one tree each", "statement": "A file is accepted if and only if its tokens, comments and white space aside, can be derived from the IDL grammar, and the parse tree is the one derivation in which primitive type names and void are not references. The tree records the names, values, order and places of the text.", "quantifier": "every text", "why_tests_cant": "Nested types, values, annotations and lists are unbounded; both directions must hold for all of them.", "anchors": ["src/generated/idlparser.rs:401-5470", "src/reader.rs:2001-2078"]}
{"id": "C58", "title": "Layout does not change what a file means", "statement": "Two texts with the same tokens are both rejected, or are read as trees that differ only in the places they record. White space between two tokens, more or different white space, and block or line comments between tokens change nothing.", "quantifier": "every text, every place between tokens, every white space character and comment", "why_tests_cant": "There are infinitely many texts and layouts, and the exceptions (empty comments, line ends after a carriage return, unfinished tokens) are rare.", "anchors": ["src/generated/idllexer.rs:234-236", "src/generated/idlparser.rs:401-5470", "src/reader.rs:2001-2078"]}
{"id": "C59", "title": "Layout does not change what the program does", "statement": "If some of the files of a project, or the text on standard input, are laid out anew (other white space, other comments that are not documentation, the same tokens), then every conversion, extraction and run of the program gives the same JSON, prints and writes the same, and fails exactly if it failed before, with the same error. Only warnings about characters that belong to no token and the places shown in messages may change.", "quantifier": "every set of files, every layout of each of them, every input file, directory or text, every command line", "why_tests_cant": "It relates two runs over arbitrarily many files that import each other; tests compare a few files.", "anchors": ["src/reader.rs:2011-2195", "src/compiler.rs:133-175", "src/compiler.rs:276-556", "src/compiler.rs:603-840", "src/main.rs:138-324"]}
{"id": "C60", "title": "Floating point literals denote the nearest binary64 number", "statement": "A decimal floating point literal in a source file, with or without point, exponent, sign and size letter, becomes the binary64 number nearest to the number it spells (the even one of two), or the string Infinity or -Infinity if that is too large. So does a hexadecimal one of less than 53 bits with an exponent between -1022 and 1023. NaN and Infinity become strings. A hexadecimal literal is refused only if its exponent does not fit 32 bits or its whole digits do not fit 64.", "quantifier": "every literal: all digits, any number of them, every exponent, sign and suffix", "why_tests_cant": "There are infinitely many literals, and rounding errors show only for few of them.", "anchors": ["src/reader.rs:4032-4048", "src/reader.rs:4056-4099", "src/reader.rs:4112-4157"]}
{"id": "C61", "title": "JSON values in source files become the JSON their tokens spell", "statement": "A JSON value written in a source file (a default, or the value of an annotation) becomes the JSON its tokens spell: strings without quotes and escapes, integers and floating point numbers with their value, arrays in order, objects with their members, the last one of equal keys. It is refused only if an integer is out of range. Every literal the lexer finds has one of the shapes the literal parsers know.", "quantifier": "every text, every JSON value in it of any depth and size", "why_tests_cant": "It must hold for all nestings and literals, and joins the lexer, the grammar and the literal parsers.", "anchors": ["src/reader.rs:3708-3795", "src/reader.rs:3936-4157", "src/generated/idllexer.rs:234-236"]}
{"id": "C62", "title": "Errors found after reading point at the statement that caused them", "statement": "When converting or extracting fails after a file was read, the error has its cause in the input or in a file it imports, directly or not: an import that cannot be found, read or understood is shown at that import statement; a type that cannot be declared at its declaration; a wrong default of a field at the default; an undefined name at a reference to it, or at the import of a JSON file. At these places the text of the file says so: it reads import, the first word of the declaration, the default or the name as it was written. A place belongs to one statement. An error about undefined names always shows a place.", "quantifier": "every text, every file system and chain of imports, every error", "why_tests_cant": "It must hold for every position in every text, for every way files import each other, and for every kind of error.", "anchors": ["src/compiler.rs:672-745", "src/compiler.rs:750-875", "src/compiler.rs:985-1080", "src/reader.rs:2319-2340"]}
{"id": "C63", "title": "Documentation is what stands right before a declaration, and every other doc comment is reported where it stands", "statement": "In terms of the text: a type, a protocol and a message have as documentation the doc comment that stands right before their first token, with only white space, other comments and unknown characters in between, and none if there is none. A field or parameter has the one right before its name, or else the one before its declaration. A doc comment that stands right before no declaration is reported, and only such a comment. The report has the line and the column of the comment, counted from 1, the place shown is the comment from its first to its last byte, and its label says that it is out of place.", "quantifier": "every text, every declaration and every doc comment in it", "why_tests_cant": "It must hold for every position of a comment between any tokens and any characters, also those of more than one byte.", "anchors": ["src/reader.rs:99-128", "src/reader.rs:229-247", "src/reader.rs:4490-4521", "src/doc_comments.rs:1-120"]}
{"id": "C64", "title": "A file is refused exactly for a reason that it gives, and the error is that reason", "statement": "Reading an IDL text fails with a syntax error exactly if the text does not follow the grammar. If it does, it is refused exactly if there is a defect somewhere in it, and the error reported is one of its defects, at the place where it stands: a number out of range in a JSON value; an annotation namespace, aliases or order whose value is of the wrong kind; an annotation that is reserved at this place; an annotation on a reference; a union directly within a union, or with two branches of one kind; null?; a decimal whose precision is not a positive int or whose scale is larger; a default value that does not match the type of its field or parameter; a type or protocol named like a primitive or logical type; two fields, enum symbols or parameters of one name; an enum default that is no symbol; a fixed size out of range; a oneway message that does not return null. A text without defects is accepted.", "quantifier": "every text", "why_tests_cant": "Both that nothing without a defect is refused and that no defect is missed, in any position of any nested type or declaration, quantify over all files.", "anchors": ["src/reader.rs:2634-3702", "src/reader.rs:1912-1924", "src/reader.rs:3248-3464", "src/model/schema.rs:705-887"]}
{"id": "C65", "title": "An import stands for what it imports, and a compilation succeeds exactly if nothing is wrong with the result", "statement": "Replace every import by the declarations of the file it names, and these likewise, each file once. Then convert, convert_str, extract and extract_str succeed exactly if all the files can be found and read, every declaration written in IDL has a proper name that was not declared before and default values that suit the types known so far, and every name used by a type, the main schema or a message of the protocol (its own, or the last imported one of that name) is declared; convert and convert_str also ask for a protocol or a schema. The declared types are then exactly those, in that order. Definitions of a JSON file whose name is already taken are left out. Two texts that differ only in what they write out and what they import either both fail or give the same JSON and the same schemas.", "quantifier": "every text, every set of files and import directories, every chain of imports", "why_tests_cant": "Both directions quantify over all import graphs, all orders of declarations and all defaults; that nothing else can make a compilation fail cannot be seen from examples.", "anchors": ["src/compiler.rs:603-746", "src/compiler.rs:750-840", "src/import.rs:286-369", "src/compiler.rs:133-175"]}
{"id": "C66", "title": "An error of the reader is shown at the word it is about", "statement": "If reading a text fails for one of the defects of C64, the place that is shown lies in the file that was read, and the text has a word there that can be at fault: a number is shown at its first digit or sign, and it is one that is out of range; the default value of a field at its first word, an annotation of the wrong kind, or where none may stand, at its @; a name that may not be used and the second of two equal field names or enum symbols at that name; a nested union, the second of two equal branches of a union and the second of two parameters of one name at the first word of the type (an @ if it is annotated); null? at null; a precision, a scale or a size at the number; a oneway message that returns something at its first word. The same holds for every file that convert and convert_str import.", "quantifier": "every text in UTF-8, every defect, every imported file", "why_tests_cant": "The place is a byte offset computed from tokens; that it is right for every position, after any characters of several bytes and in every nested construct, quantifies over all texts.", "anchors": ["src/reader.rs:1912-1924", "src/reader.rs:2510-3702", "src/error.rs:1-120", "src/compiler.rs:603-746"]}
{"id": "C67", "title": "The reader warns of exactly the aliases that are no names and the annotated unions", "statement": "Besides the warnings of C55 and C63 (characters the lexer does not know and doc comments out of place), an accepted file is warned about exactly for each string in an aliases annotation of a type, a field or a parameter that is not a sequence of Avro names with dots between them, and for each union with annotations, with the names of these annotations (each once, in no particular order). The warning is shown at the @ of the annotation, for a union at that of the first one. Nothing else is warned about.", "quantifier": "every accepted text in UTF-8, every declaration and every type in it, however deeply nested", "why_tests_cant": "Both that no such place is missed and that nothing else is reported quantify over all files.", "anchors": ["src/reader.rs:2547-2581", "src/reader.rs:3238-3280", "src/reader.rs:175-215"]}
{"id": "C68", "title": "How names, strings and numbers are written does not matter", "statement": "If in some of the files of a project, or in the text on standard input, names are put between backticks or taken out of them, strings are written with other escapes, integers in another base (decimal, octal, hexadecimal), or decimal floating point numbers with other digits, exponents and suffixes, each denoting what it denoted, then every conversion, extraction and run of the program gives the same JSON, prints and writes the same, and fails exactly if it failed before, with the same error. White space and comments may change as well. Two exceptions: sizes of fixed types may not have the suffix of a long, and the least 64-bit integer is read in decimal only.", "quantifier": "every set of files, every way to write each token of each of them, every input file, directory or text, every command line", "why_tests_cant": "It relates two runs over arbitrarily many files that import each other, for infinitely many spellings of each literal; tests compare a few.", "anchors": ["src/reader.rs:3802-3807", "src/reader.rs:3977-4048", "src/reader.rs:2011-2195", "src/compiler.rs:133-175", "src/main.rs:138-324"]}
{"id": "C69", "title": "Attributes of the wrong type are ignored on import", "statement": "Take out of an imported schema or protocol file, at any depth and any number of times, an optional attribute that is not of the type the Avro specification gives it (doc, namespace, default of an enum that are not strings; aliases, symbols, fields, request, errors, types that are not arrays; messages that is not an object; one-way that is not a boolean; an order other than the three of the specification), or an entry other than a string from aliases or symbols: the import registers the same types and adds the same messages, or fails with the same error. This includes attributes the specification requires (fields, symbols), whose absence is accepted.", "quantifier": "every JSON document, every place in it, every value of another type, every state of the registry", "why_tests_cant": "The documents nest without bound and the value may be any JSON of another type; tests try a handful.", "anchors": ["src/import.rs:386-460", "src/import.rs:479-626", "src/import.rs:748-875", "src/import.rs:303-369"]}
{"id": "C70", "title": "What an imported document must have", "statement": "A schema file is accepted if and only if every schema in it is a string, an array of acceptable schemas, or an object whose type is a string: a record or error with a name, whose fields, if they are an array, have a name and an acceptable type each; an enum with a name; a fixed with a name and a size that is an integer from 0 to 2^32-1; an array or map with acceptable items or values; or a primitive type that is not a decimal of precision 0. A protocol file is accepted if and only if its types and the types in its messages are. A schema file that is refused leaves nothing behind.", "quantifier": "every JSON document, of any depth, and every state of the registry", "why_tests_cant": "It is an equivalence over all documents: a test shows one document accepted or refused, never that nothing else is.", "anchors": ["src/import.rs:303-369", "src/import.rs:386-460", "src/import.rs:479-726", "src/import.rs:748-858"]}
{"id": "C71", "title": "An import said again changes nothing", "statement": "Put an import of a file that is already known where it stands (the input itself, or a file that the statements before it import, directly or not), with any kind, into a file, or take it out: both texts are rejected, or both are accepted with the same JSON and the same extracted schemas.", "quantifier": "every text, every place in it, every set of files and import directories, every chain of imports behind the file", "why_tests_cant": "The imports before it and the files they lead to may be any graph, cycles included; a test fixes one.", "anchors": ["src/compiler.rs:667-848", "src/import.rs:75-157"]}
{"id": "C72", "title": "The order of statements, imports included, does not matter", "statement": "Put the imports and the declarations of a file in another order. If no file is imported as two kinds of file, no name is declared twice, no two imported files have a message of one name, and the default values fit with all types known, then whenever the first text is accepted the second is too: every type gets the same schema file, a main schema is written as the same JSON, and a protocol as JSON that reads back as the same protocol up to the order of its types and messages. Without the condition on messages this is refuted: the last import wins.", "quantifier": "every text and every permutation of its statements, every graph of imported files, cycles included", "why_tests_cant": "The number of orders is factorial and the files behind each import are arbitrary; a different order visits the files in a different order and checks defaults against different sets of types.", "anchors": ["src/compiler.rs:603-848", "src/resolve.rs:109-150"]}
{"id": "C73", "title": "The reason for rejecting a default is right", "statement": "The reason given for a rejected default value is: an integer outside the range of int or long is named with that range; an object lacking required fields of a record names exactly those, in their order; otherwise the first field of the record whose value does not fit is named with the reason for it; and in all other cases the expected type and the kind of the value found are named. A reason is given exactly if the value does not fit, and there is only this one.", "quantifier": "every JSON value and every type, nested to any depth", "why_tests_cant": "Values and types nest without bound, and the order in which reasons are tried decides which one is shown.", "anchors": ["src/model/schema.rs:679-695", "src/model/schema.rs:820-887"]}
{"id": "C74", "title": "A type called like a word of Avro is named in full", "statement": "Where a generated document names a type by one of the words record, enum, array, map, union and fixed, that word is the full name of a declared type; a type in a namespace is never named by such a word, even inside its own namespace.", "quantifier": "every protocol and schema with any types, references at any depth, and messages", "why_tests_cant": "Whether the short name is used depends on where the reference stands and what was written before.", "anchors": ["src/model/json.rs:36-47", "src/model/json.rs:192-227", "src/model/json.rs:576-592"]}
{"id": "C75", "title": "Extracted schemas and converted protocols can be imported", "statement": "If the schemas extracted from a file are saved and another file imports some of them, in any order and from wherever they are found, that file is accepted as long as it mentions no other types, and the types it gets are exactly those the saved documents define, each meaning what it meant in the first file. If all of them are imported the types are the same. Likewise, a file that imports the converted protocol gets the same types and, where it has no message of that name itself, the same messages.", "quantifier": "every accepted file, every choice and order of the extracted schemas, even when their contents overlap, and every file made of such imports", "why_tests_cant": "The documents repeat one another's definitions in as many ways as the types refer to one another, and any order of imports must skip the repeated ones.", "anchors": ["src/compiler.rs:520-556", "src/import.rs:303-345", "src/import.rs:358-376", "src/resolve.rs:109-140"]}
{"id": "C76", "title": "A size, precision or scale is refused for the right reason", "statement": "Where a fixed type, a precision or a scale has an integer that cannot be used, the reason given is the right one: a negative number is called negative, a number above 4294967295 too large even if an L follows, and a number within range that is followed by an L not made of digits only. Any other decimal, hexadecimal or octal integer is accepted with its value, and the error is shown at that integer.", "quantifier": "every integer literal of the IDL, of any length and in any base, and every file refused for one", "why_tests_cant": "The digits are read one by one with overflow checks at each, so which check fails first depends on the length and value of the literal; there are infinitely many.", "anchors": ["src/reader.rs:4160-4181", "src/reader.rs:4185-4204"]}
{"id": "C77", "title": "Exactly the JSON texts with comments are read, each as its value", "statement": "An imported .avsc or .avpr text is taken as a JSON value if and only if, with // and /* */ comments outside strings replaced by blanks, it is an RFC 8259 JSON text of that value with at most 127 brackets inside one another. Escapes denote their characters, integers of 64 bits are kept exactly, and of members with the same key the last one counts. Everything else, such as trailing commas, open comments, stray slashes, lone surrogates and text after the value, is refused, and no text has two readings.", "quantifier": "every text of any length and nesting", "why_tests_cant": "Comments, strings and escapes can be mixed in unboundedly many ways, and a slash or quote means something else in each.", "anchors": ["src/import.rs:36-44", "src/import.rs:309", "src/import.rs:361"]}
{"id": "C78", "title": "A document that was written is read as the same value", "statement": "The text written for a document is a JSON text without comments, and reading it gives that document back, as long as it has no more than 127 brackets inside one another and floating point numbers are printed so that they read the same. Different documents are written differently. (Deeper documents are written, but cannot be read.)", "quantifier": "every document, with any strings, numbers, keys and nesting", "why_tests_cant": "Every character must be escaped so that it reads as itself, and nesting is unbounded.", "anchors": ["src/main.rs:225", "src/main.rs:283-289", "src/import.rs:36-44"]}
{"id": "C79", "title": "What is written can be imported again as text", "statement": "Every text that a run of the program writes, to a file or to standard output, is read by the JSON import as the document it was made from, exactly when that document has no more than 127 brackets inside one another. So files with extracted schemas, or with a converted protocol, that were written so can be imported, and give the types and messages they came from. (A chain of 43 records, each with a field of the next, is already too deep: it is written without complaint, but cannot be imported.)", "quantifier": "every command line, every world of files, every IDL text, every order of imports", "why_tests_cant": "It relates the text that one run writes to what another run reads, for all schemas, with any strings, numbers and properties, some of them taken from imported JSON files.", "anchors": ["src/main.rs:191-293", "src/main.rs:300-324", "src/import.rs:36-44", "src/compiler.rs:311-360", "src/compiler.rs:520-556"]}
{"id": "C80", "title": "A document depends only on the types it needs", "statement": "What is extracted for a type, or converted for a main schema, is the same from any two inputs in which it and the types it mentions, directly or through others, are declared the same (places in the source aside); other types, their order and where they come from do not matter. So declaring or importing more types leaves every extracted schema as it was, and types added at the end of a protocol appear at the end of its list of types and change nothing else in the document. (Unless a type without namespace is added to a protocol with one: it then takes the place of the protocol's type with the same simple name.)", "quantifier": "every pair of inputs, in any worlds of files", "why_tests_cant": "It compares the outputs for all pairs of inputs that agree on a part; that part is closed under references, of any depth, cycles included.", "anchors": ["src/model/json.rs:54-122", "src/model/json.rs:255-481", "src/compiler.rs:311-360", "src/compiler.rs:520-556"]}
{"id": "C81", "title": "Writing out a namespace changes nothing where it is the one meant", "statement": "In a name of a type, be it declared or used in a field, a message, a throws clause or the main schema, the namespace may be written out or left out as long as the same full name is meant there: the namespace of a record holds for its fields, that of the protocol or schema file for the rest. Writing names in any of the files in the other way changes neither the JSON nor the schemas nor what the program prints and writes, nor whether and why it fails; only the places shown move.", "quantifier": "every pair of IDL texts and every set of files that differ only so, and all command lines", "why_tests_cant": "It compares the outputs for all pairs of texts in which any subset of the names is written differently, in any nesting of namespaces and types and any graph of imports.", "anchors": ["src/reader.rs:3314-3333", "src/reader.rs:3629-3645", "src/reader.rs:4208-4229", "src/reader.rs:2824-2945", "src/reader.rs:2634-2781"]}
{"id": "C82", "title": "Converting and extracting agree", "statement": "For the same input and import directories, extracting fails only if converting does, and for the same reason; converting fails besides only where there is neither a protocol nor a schema; and both give the same warnings. The types that the document of a protocol defines are exactly those extracted, one schema for each, called by its simple name, and every extracted schema defines each type as that document does. The types that the document of a main schema defines are among those extracted, and are defined the same way in each. (A type without namespace that is imported into a protocol with one is named differently by the two.)", "quantifier": "every IDL text, every world of files, every order and graph of imports", "why_tests_cant": "It compares two outputs that inline definitions at different places, for all graphs of types, by what the documents mean under the Avro specification.", "anchors": ["src/compiler.rs:276-360", "src/compiler.rs:455-556", "src/model/json.rs:54-122", "src/model/json.rs:255-481"]}
{"id": "C83", "title": "Files and directories that do not take part do not matter", "statement": "The result of converting or extracting, be it a document, schemas or an error, and the warnings are the same in any two worlds of files and with any two lists of import directories in which the input is the same and every import that is found in the first world, in the input or in a file it imports, leads to the same file in the second; except where the first run fails because an import is not found. So import directories given after the others, or a second time, change nothing where all imports are found without them, and neither do files that are not read.", "quantifier": "every pair of file systems, every pair of lists of import directories, every graph of imports", "why_tests_cant": "It compares runs in all pairs of worlds that agree on what is looked at, which itself depends on what is found in the files.", "anchors": ["src/import.rs:74-118", "src/compiler.rs:603-664", "src/compiler.rs:667-840", "src/compiler.rs:94-124"]}
{"id": "C84", "title": "A text means the same in a file and on its own", "statement": "Converting or extracting a file that lies in the working directory gives the same as converting or extracting its text, under whatever name it is given: the same JSON and warnings, or the same error; only the places shown and the name in a syntax error differ. So avdl idl prints and writes the same for a file and for its text on standard input. (Unless the file is imported by itself or by a file it imports: as a text it is then read once more, and its types are declared twice.)", "quantifier": "every file and text, every world of files, all import directories, every graph of imports", "why_tests_cant": "It compares two entry points for all texts and all files they may import, directly or not.", "anchors": ["src/compiler.rs:94-124", "src/compiler.rs:276-303", "src/compiler.rs:455-493", "src/compiler.rs:603-664", "src/main.rs:191-239"]}
{"id": "C85", "title": "A namespace can stand in an annotation or in the name", "statement": "In a text without documentation comments, `@namespace(\"q\")` before a record, error, enum, fixed type or protocol N, if it is the only annotation of that name, can be replaced by declaring q.N, in any number of declarations and any of the files. This changes neither the JSON nor the schemas nor what the program prints and writes, nor whether and why it fails; only the places shown move.", "quantifier": "every pair of IDL texts without documentation and every set of files that differ only so, and all command lines", "why_tests_cant": "It compares the outputs for all pairs of texts in which any subset of the declarations is written the other way, with any other annotations around, and any graph of imports.", "anchors": ["src/reader.rs:2510-2622", "src/reader.rs:4208-4229", "src/reader.rs:2703-2945", "src/reader.rs:3079-3223"]}
