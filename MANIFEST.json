{
 "claims": [
  {
   "property": "C01",
   "status": "proved",
   "theorems": [
    "C01_protocol_terminates",
    "C01_schema_terminates",
    "C01_bound_irrelevant"
   ],
   "note": ""
  },
  {
   "property": "C02",
   "status": "proved",
   "theorems": [
    "C02_one_definition_per_name",
    "C02_namespace_capture_refuted"
   ],
   "note": "For protocols satisfying protocol_ok; the refutation shows why its namespace condition is needed."
  },
  {
   "property": "C03",
   "status": "proved",
   "theorems": [
    "C03_every_type_once"
   ],
   "note": ""
  },
  {
   "property": "C04",
   "status": "proved",
   "theorems": [
    "C04_defined_before_use"
   ],
   "note": ""
  },
  {
   "property": "C05",
   "status": "proved",
   "theorems": [
    "C05_protocol_means_what_was_compiled",
    "C05_namespace_capture_refuted"
   ],
   "note": ""
  },
  {
   "property": "C06",
   "status": "proved",
   "theorems": [
    "C06_avsc_self_contained"
   ],
   "note": ""
  },
  {
   "property": "C07",
   "status": "proved",
   "theorems": [
    "C07_order_independent",
    "C07_inline_messages_refuted"
   ],
   "note": ""
  },
  {
   "property": "C08",
   "status": "proved",
   "theorems": [
    "C08_first_definition_wins",
    "C08_no_duplicates_in_order",
    "C08_only_appends",
    "C08_register_succeeds_iff",
    "C08_failure_changes_nothing"
   ],
   "note": ""
  },
  {
   "property": "C09",
   "status": "proved",
   "theorems": [
    "C09_registered_names_valid",
    "C09_check_is_exact"
   ],
   "note": ""
  },
  {
   "property": "C10",
   "status": "proved",
   "theorems": [
    "C10_undefined_rejected_defined_accepted",
    "C10_compiled_references_resolve"
   ],
   "note": ""
  },
  {
   "property": "C11",
   "status": "proved",
   "theorems": [
    "C11_reported_once",
    "C11_names_independent_of_order",
    "C11_in_source_order",
    "C11_position_independent_of_order_refuted"
   ],
   "note": "The set of reported names is order independent; the reported source position is not (refutation)."
  },
  {
   "property": "C12",
   "status": "proved",
   "theorems": [
    "C12_compilation_ends",
    "C12_bound_irrelevant"
   ],
   "note": "for every finite set of files and every import graph"
  },
  {
   "property": "C13",
   "status": "proved",
   "theorems": [
    "C13_loaded_once",
    "C13_everything_imported_is_loaded"
   ],
   "note": ""
  },
  {
   "property": "C14",
   "status": "proved",
   "theorems": [
    "C14_first_directory_wins",
    "C14_not_found"
   ],
   "note": ""
  },
  {
   "property": "C15",
   "status": "proved",
   "theorems": [
    "C15_messages"
   ],
   "note": "processing order: a file imported by an imported IDL file comes after that file"
  },
  {
   "property": "C16",
   "status": "proved",
   "theorems": [
    "C16_flatten_loses_nothing"
   ],
   "note": "For every schema: collected types are its named types, inner first, with unchanged definitions; nothing inline is left; the denoted type is unchanged."
  },
  {
   "property": "C17",
   "status": "proved",
   "theorems": [
    "C17_import_means_what_the_document_says",
    "C17_schema_file",
    "C17_protocol_file",
    "C17_dotted_name_refuted",
    "C17_logical_base_refuted",
    "C17_message_types_refuted"
   ],
   "note": "Against the independent Avro reader, for every document that is 'clean' (SpecImport.v); refuted for a dotted name with an explicit namespace, for a logical type on a foreign base type and for types defined inside messages."
  },
  {
   "property": "C18",
   "status": "proved",
   "theorems": [
    "C18_protocol_round_trip",
    "C18_schema_round_trip",
    "C18_not_portable_refuted"
   ],
   "note": "Through both the .avpr and the .avsc form; refuted for annotations that imitate a known logical type on another base type."
  },
  {
   "property": "C19",
   "status": "proved",
   "theorems": [
    "C19_accepts_exactly",
    "C19_never_rejects_valid",
    "C19_prose_refuted"
   ],
   "note": "Exact for reference-free types against an inductive reading of the rules; strict-prose deviations (enum symbols, byte strings, first union branch) refuted."
  },
  {
   "property": "C20",
   "status": "proved",
   "theorems": [
    "C20_message_iff_invalid",
    "C20_record_check",
    "C20_no_false_alarm",
    "C20_missing_fields"
   ],
   "note": "Message exactly for invalid values; record check exact relative to the resolved type and without false alarms relative to the real type."
  },
  {
   "property": "C21",
   "status": "proved",
   "theorems": [
    "C21_resolution_terminates",
    "C21_check_terminates",
    "C21_fuel_irrelevant",
    "C21_only_back_references",
    "C21_gives_up_iff_missing",
    "C21_resolved_type_sound",
    "C21_resolved_type_exact",
    "C21_recursive_refuted",
    "C21_nested_same_name_refuted"
   ],
   "note": "Terminates for every flat registry; gives up iff a transitively mentioned name is missing. Findings: defaults below a back-reference are unchecked; a hand-made nested same-name record loops."
  },
  {
   "property": "C22",
   "status": "proved",
   "theorems": [
    "C22_unions_legal",
    "C22_legal_types_accepted",
    "C22_primitive_named_type_refuted"
   ],
   "note": "soundness for everything a file gives; completeness except for references called like a primitive type, which the code rejects beside that type (refuted)"
  },
  {
   "property": "C23",
   "status": "proved",
   "theorems": [
    "C23_fields",
    "C23_parameters"
   ],
   "note": ""
  },
  {
   "property": "C24",
   "status": "proved",
   "theorems": [
    "C24_declarations",
    "C24_protocol",
    "C24_references",
    "C24_identifiers"
   ],
   "note": ""
  },
  {
   "property": "C25",
   "status": "proved",
   "theorems": [
    "C25_types",
    "C25_fields",
    "C25_protocol",
    "C25_accepts_exactly",
    "C25_inner_types"
   ],
   "note": ""
  },
  {
   "property": "C26",
   "status": "proved",
   "theorems": [
    "C26_enums"
   ],
   "note": ""
  },
  {
   "property": "C27",
   "status": "proved",
   "theorems": [
    "C27_fields",
    "C27_parameters"
   ],
   "note": ""
  },
  {
   "property": "C28",
   "status": "proved",
   "theorems": [
    "C28_one_way"
   ],
   "note": ""
  },
  {
   "property": "C29",
   "status": "proved",
   "theorems": [
    "C29_base_type_kept",
    "C29_base_type_written",
    "C29_promotion",
    "C29_decimal_keyword",
    "C29_decimal_annotation_refuted"
   ],
   "note": "the decimal annotation (not the keyword) accepts precision 0 and scale > precision: refuted"
  },
  {
   "property": "C30",
   "status": "proved",
   "theorems": [
    "C30_value",
    "C30_least_decimal",
    "C30_out_of_range",
    "C30_underscores",
    "C30_size",
    "C30_size_negative",
    "C30_least_refuted",
    "C30_size_suffix_refuted"
   ],
   "note": "Exact for every literal of the lexer grammar except -2^63 in hexadecimal or octal, which is rejected (refutation); sizes exact for literals without the long suffix, with it they are rejected (refutation)."
  },
  {
   "property": "C31",
   "status": "proved",
   "theorems": [
    "C31_denotes",
    "C31_total",
    "C31_token",
    "C31_plain",
    "C31_round_trip",
    "C31_surrogate_pair",
    "C31_lone_surrogate_kept",
    "C31_lone_surrogate_refuted"
   ],
   "note": "Against an inductive definition of what a Java string body denotes; lone surrogate escapes are kept as source text (refutation)."
  },
  {
   "property": "C32",
   "status": "proved",
   "theorems": [
    "C32_levenshtein_is_edit_distance",
    "C32_zero_iff_equal",
    "C32_non_ascii_refuted"
   ],
   "note": "For ASCII strings; false for non-ASCII strings (refutation)."
  },
  {
   "property": "C33",
   "status": "proved",
   "theorems": [
    "C33_type_suggestions",
    "C33_type_suggestions_any_name",
    "C33_keyword_suggestions"
   ],
   "note": ""
  },
  {
   "property": "C34",
   "status": "proved",
   "theorems": [
    "C34_reported_iff_unattached",
    "C34_docs_of_types",
    "C34_docs_of_protocol",
    "C34_one_owner"
   ],
   "note": ""
  },
  {
   "property": "C35",
   "status": "proved",
   "theorems": [
    "C35_lines_kept",
    "C35_empty",
    "C35_two_stars",
    "C35_one_star",
    "C35_indentation",
    "C35_unchanged",
    "C35_star_pattern",
    "C35_indent_pattern"
   ],
   "note": "Doc comment text is the comment's text with at most the common decoration removed from each line; the two regular expressions are proved against a small declarative regex semantics."
  },
  {
   "property": "C36",
   "status": "proved",
   "theorems": [
    "C36_reuse"
   ],
   "note": ""
  },
  {
   "property": "C37",
   "status": "proved",
   "theorems": [
    "C37_success",
    "C37_failure",
    "C37_stale_refuted",
    "C37_directory_refuted"
   ],
   "note": "stale warnings after an unreadable file and lost warnings of a failing directory: refuted"
  },
  {
   "property": "C38",
   "status": "proved",
   "theorems": [
    "C38_one_schema_per_type",
    "C38_files",
    "C38_nothing_on_failure",
    "C38_same_simple_name_refuted"
   ],
   "note": "false for types with the same simple name in different namespaces, where the last file wins: refuted"
  },
  {
   "property": "C39",
   "status": "proved",
   "theorems": [
    "C39_duration",
    "C39_decimal_exact",
    "C39_decimal_refuted",
    "C39_decimal_all_sizes",
    "C39_others_invalid"
   ],
   "note": "Exact for sizes below 122202250; the f64 formula is refuted at 122202250 (one digit too many), never more than one digit off, never rejects a fitting precision."
  },
  {
   "property": "C40",
   "status": "proved",
   "theorems": [
    "C40_join_then_split",
    "C40_join_then_split_no_namespace",
    "C40_split_then_join",
    "C40_full_names_injective",
    "C40_leading_dot_refuted"
   ],
   "note": ""
  },
  {
   "property": "C41",
   "status": "proved",
   "theorems": [
    "C41_alias_denotes_what_was_written",
    "C41_leading_dot_refuted"
   ],
   "note": ""
  },
  {
   "property": "C42",
   "status": "proved",
   "theorems": [
    "C42_no_structural_key",
    "C42_types_written",
    "C42_fields_written",
    "C42_messages_written",
    "C42_protocols_written",
    "C42_logical_attributes_refuted"
   ],
   "note": "logicalType/precision/scale of a logical type can be overwritten: refuted"
  },
  {
   "property": "C43",
   "status": "proved",
   "theorems": [
    "C43_only_attributes_change",
    "C43_union_annotations_reported",
    "C43_references_not_annotated",
    "C43_scale_lost_refuted"
   ],
   "note": "a non-numeric @scale of a promoted decimal is lost: refuted"
  },
  {
   "property": "C44",
   "status": "proved",
   "theorems": [
    "C44_directory",
    "C44_directory_fails",
    "C44_files",
    "C44_listing_order",
    "C44_directory_name_refuted"
   ],
   "note": "a directory whose name ends in .avdl makes the extraction fail: refuted"
  },
  {
   "property": "C45",
   "status": "proved",
   "theorems": [
    "C45_split_at_commas",
    "C45_split_unique",
    "C45_closing_brace",
    "C45_no_closing_brace",
    "C45_rejoin",
    "C45_message",
    "C45_nothing_named",
    "C45_short_list",
    "C45_long_list",
    "C45_large_list_refuted",
    "C45_brace_never_expected",
    "C45_quoting_hint",
    "C45_no_quoting_hint",
    "C45_jargon"
   ],
   "note": "lists of more than five tokens are cut by other code, at the first brace even when quoted: refuted"
  },
  {
   "property": "C46",
   "status": "proved",
   "theorems": [
    "C46_order_of_types",
    "C46_schemas",
    "C46_protocols",
    "C46_defaults_refuted"
   ],
   "note": "for files without imports; whether a default value is rejected does depend on the order: refuted"
  },
  {
   "property": "C47",
   "status": "proved",
   "theorems": [
    "C47_arguments",
    "C47_help",
    "C47_rejected",
    "C47_idl",
    "C47_idl2schemata",
    "C47_order",
    "C47_help_only",
    "C47_other_commands"
   ],
   "note": ""
  },
  {
   "property": "C48",
   "status": "proved",
   "theorems": [
    "C48_file_meaning",
    "C48_accepted",
    "C48_after_end_ignored"
   ],
   "note": ""
  },
  {
   "property": "C49",
   "status": "proved",
   "theorems": [
    "C49_json_values",
    "C49_json_values_unique"
   ],
   "note": ""
  },
  {
   "property": "C50",
   "status": "proved",
   "theorems": [
    "C50_types",
    "C50_protocol"
   ],
   "note": ""
  },
  {
   "property": "C51",
   "status": "proved",
   "theorems": [
    "C51_success",
    "C51_failure"
   ],
   "note": ""
  },
  {
   "property": "C52",
   "status": "proved",
   "theorems": [
    "C52_protocol",
    "C52_schema",
    "C52_schemata",
    "C52_imported_schema_renamed_refuted"
   ],
   "note": "for types outside any namespace under the conditions of protocol_apart/apart, without which it is refuted; for imported .avpr files whose messages define types inline it is not claimed (see C17)"
  },
  {
   "property": "C53",
   "status": "proved",
   "theorems": [
    "C53_no_crash",
    "C53_spans"
   ],
   "note": "parser errors are assumed to carry the byte span of a token of the source, as the ANTLR runtime gives it"
  },
  {
   "property": "C54",
   "status": "proved",
   "theorems": [
    "C54_report",
    "C54_open_brace",
    "C54_fixed_word_refuted",
    "C54_comma_in_enum_refuted",
    "C54_brace_in_comment_refuted"
   ],
   "note": "the explanations are textual: words inside longer words, an enum anywhere before, and braces in comments mislead them: refuted"
  },
  {
   "property": "C55",
   "status": "proved",
   "theorems": [
    "C55_lexer_errors_are_warnings",
    "C55_unterminated_string",
    "C55_place_refuted",
    "C55_any_text_refuted"
   ],
   "note": "after characters outside ASCII the place is wrong, and a literal that imitates a message is not recognised: refuted"
  },
  {
   "property": "C56",
   "status": "proved",
   "theorems": [
    "C56_tokens",
    "C56_nothing_lost",
    "C56_names",
    "C56_white_space_ends",
    "C56_any_tokens",
    "C56_empty_comment",
    "C56_empty_comment_is_blank_refuted",
    "C56_last_comment"
   ],
   "note": "that an empty comment is like white space is refuted; the theorem says what it swallows"
  },
  {
   "property": "C57",
   "status": "proved",
   "theorems": [
    "C57_reading",
    "C57_accepted",
    "C57_one_reading"
   ],
   "note": ""
  },
  {
   "property": "C58",
   "status": "proved",
   "theorems": [
    "C58_same_tokens",
    "C58_white_space",
    "C58_comment"
   ],
   "note": ""
  },
  {
   "property": "C59",
   "status": "proved",
   "theorems": [
    "C59_reading",
    "C59_convert",
    "C59_convert_str",
    "C59_extract",
    "C59_extract_str",
    "C59_program",
    "C59_white_space"
   ],
   "note": "With the lexer and parser of the model in place of the open one. Warnings about characters that are no token, the places in reports and the order of undefined names may differ."
  },
  {
   "property": "C60",
   "status": "proved",
   "theorems": [
    "C60_decimal",
    "C60_hexadecimal",
    "C60_words",
    "C60_refused",
    "C60_one_nearest",
    "C60_hexadecimal_long_refuted",
    "C60_hexadecimal_exponent_refuted"
   ],
   "note": "Hexadecimal literals of 53 bits or more are rounded twice, and extreme exponents give NaN or zero: the bounds are needed, as the refuted theorems show. The sign of a zero is not modelled; powi is assumed exact where the power is a normal number."
  },
  {
   "property": "C61",
   "status": "proved",
   "theorems": [
    "C61_value",
    "C61_accepted",
    "C61_tokens",
    "C61_integer"
   ],
   "note": "For strings without escaped surrogates (see C31) and hexadecimal numbers within the bounds of C60."
  },
  {
   "property": "C62",
   "status": "proved",
   "theorems": [
    "C62_convert",
    "C62_convert_str",
    "C62_extract",
    "C62_extract_str",
    "C62_import",
    "C62_declaration",
    "C62_default",
    "C62_reference",
    "C62_one_statement",
    "C62_undefined",
    "C62_blame_refuted"
   ],
   "note": "The first four hold for every parser, the others for the lexer and parser of the model. Errors found while a file is read carry no place in the model. The length of the marked text is not modelled."
  },
  {
   "property": "C63",
   "status": "proved",
   "theorems": [
    "C63_types",
    "C63_fields",
    "C63_protocol",
    "C63_reported",
    "C63_warning",
    "C63_label",
    "C63_label_refuted"
   ],
   "note": "Places and pieces are those of the text (SpecDocText.v), with the modelled lexer and grammar. Refuted corner: the label of a warning is chosen by searching its message, so an alias that contains another message gets the wrong label."
  },
  {
   "property": "C64",
   "status": "proved",
   "theorems": [
    "C64_reason",
    "C64_refused",
    "C64_accepted",
    "C64_syntax"
   ],
   "note": "Defects are defined in SpecDefects.v on the trees of the grammar, with the modelled lexer and grammar (C56, C57). Which one of several defects is reported is left open, except that it is one of them. What a default must be like is C19's."
  },
  {
   "property": "C65",
   "status": "proved",
   "theorems": [
    "C65_compile",
    "C65_convert",
    "C65_convert_str",
    "C65_extract",
    "C65_extract_str",
    "C65_one_expansion",
    "C65_inlining",
    "C65_clash_refuted"
   ],
   "note": "Expansion is defined in SpecExpand.v on the statements a text is read as (C48, C57), and JSON definitions as C17/C18 read them; for every parser and file system. Whether a default suits is C19-C21's. Refuted corner: a type declared in IDL and in an imported JSON file is refused in one order only."
  },
  {
   "property": "C66",
   "status": "proved",
   "theorems": [
    "C66_word",
    "C66_compiling",
    "C66_convert",
    "C66_convert_str"
   ],
   "note": "The word is the one the text has at the byte offset of the place; the length of the highlighted range is not modelled. C64_reason says which defect it is, C66 what the text has at its place."
  },
  {
   "property": "C67",
   "status": "proved",
   "theorems": [
    "C67_reason",
    "C67_warned",
    "C67_place"
   ],
   "note": "The names listed for a union are compared up to their order (a hash map's). Warnings of imported files are those of reading them (C55, C63)."
  },
  {
   "property": "C68",
   "status": "proved",
   "theorems": [
    "C68_reading",
    "C68_convert",
    "C68_convert_str",
    "C68_extract",
    "C68_extract_str",
    "C68_program",
    "C68_suffix_refuted",
    "C68_least_refuted"
   ],
   "note": "The two refuted theorems show that the exceptions in the statement are needed. Keywords keep their token: `string` between backticks is a name, not the type."
  },
  {
   "property": "C69",
   "status": "proved",
   "theorems": [
    "C69_schema",
    "C69_schema_file",
    "C69_protocol_file",
    "C69_required_refuted"
   ],
   "note": "Stated on JSON values (serde_json reads the text). The refuted theorem: a record without fields and an enum without symbols, which the specification does not allow, are imported as empty ones."
  },
  {
   "property": "C70",
   "status": "proved",
   "theorems": [
    "C70_schema",
    "C70_schema_file",
    "C70_protocol_file",
    "C70_refused_schema"
   ],
   "note": "Anything but an object is accepted as a protocol, one without types and messages; of a protocol that is refused the types before the offending one stay registered, but the run fails."
  },
  {
   "property": "C71",
   "status": "proved",
   "theorems": [
    "C71_compile",
    "C71_again"
   ],
   "note": "C71_compile is for any input, file or text; C71_again for texts handed to convert_str and extract_str."
  },
  {
   "property": "C72",
   "status": "proved",
   "theorems": [
    "C72_compile",
    "C72_extract",
    "C72_convert",
    "C72_messages_refuted"
   ],
   "note": "For a protocol, under the side condition protocol_ok of C02. The refuted theorem shows that the condition on messages is needed; C65_clash_refuted shows it for the one on names and C46_defaults_refuted for the one on defaults."
  },
  {
   "property": "C73",
   "status": "proved",
   "theorems": [
    "C73_reason",
    "C73_avro",
    "C73_total"
   ],
   "note": "References left inside a type are not judged, as in C19; where there are none, C73_avro says it in terms of what Avro allows. Integers are shown in decimal by show_Z, the standard library's printer."
  },
  {
   "property": "C74",
   "status": "proved",
   "theorems": [
    "C74_schema",
    "C74_protocol"
   ],
   "note": "Under the side conditions registry_ok and protocol_ok of C06 and C02. A type outside any namespace has only its simple name."
  },
  {
   "property": "C75",
   "status": "proved",
   "theorems": [
    "C75_imported",
    "C75_all",
    "C75_protocol"
   ],
   "note": "Under the side conditions of C52 and portable of C18. The saved files are assumed to read as the JSON that was extracted; C78 says when they do."
  },
  {
   "property": "C76",
   "status": "proved",
   "theorems": [
    "C76_verdict",
    "C76_total",
    "C76_reader",
    "C76_reported",
    "C76_precision",
    "C76_scale"
   ],
   "note": "C76_reported, C76_precision and C76_scale are about the reader with the concrete lexer and parser."
  },
  {
   "property": "C77",
   "status": "proved",
   "theorems": [
    "C77_read",
    "C77_refused",
    "C77_one",
    "C77_comments"
   ],
   "note": "The crates serde_json and json_comments are modelled from their documentation. How floating point numbers are read is a parameter."
  },
  {
   "property": "C78",
   "status": "proved",
   "theorems": [
    "C78_written",
    "C78_text",
    "C78_again",
    "C78_distinct",
    "C78_deep_refuted"
   ],
   "note": "C78_deep_refuted: a document with 128 nested brackets is written but not read (finding). How floating point numbers are printed is a parameter; those that do not read as themselves are excluded by tidy."
  },
  {
   "property": "C79",
   "status": "proved",
   "theorems": [
    "C79_run",
    "C79_converted",
    "C79_extracted",
    "C79_imported",
    "C79_protocol",
    "C79_chain_refuted"
   ],
   "note": "C79_chain_refuted: a chain of 43 records gives a document that is written but not read (finding). How floating point numbers are printed and read is a parameter; floats_kept says that those read from IDL or JSON are printed so that they read the same. C79_imported and C79_protocol keep the conditions of C75 on the schemas."
  },
  {
   "property": "C80",
   "status": "proved",
   "theorems": [
    "C80_schema",
    "C80_more",
    "C80_main",
    "C80_protocol",
    "C80_shadow_refuted"
   ],
   "note": "C80_shadow_refuted: in a protocol with a namespace, importing a type that has none replaces the type of the protocol with the same simple name wherever that is written first (finding); C80_protocol therefore asks for a protocol without such types. It also asks that messages contain no inline definitions (which only imported protocols can have)."
  },
  {
   "property": "C81",
   "status": "proved",
   "theorems": [
    "C81_reading",
    "C81_convert",
    "C81_convert_str",
    "C81_extract",
    "C81_extract_str",
    "C81_program"
   ],
   "note": "For the lexer and parser of C56/C57. Aliases are not references and are not covered: they are written as they stand."
  },
  {
   "property": "C82",
   "status": "proved",
   "theorems": [
    "C82_agree",
    "C82_protocol",
    "C82_schema",
    "C82_renamed_refuted"
   ],
   "note": "The comparison of documents has the hypotheses of C52; C82_renamed_refuted shows the one on namespaces to be needed."
  },
  {
   "property": "C83",
   "status": "proved",
   "theorems": [
    "C83_convert",
    "C83_extract",
    "C83_more_directories",
    "C83_repeated_directory",
    "C83_program"
   ],
   "note": "The two worlds share the parser of IDL and of JSON. A missing import is excepted because its error lists the directories searched."
  },
  {
   "property": "C84",
   "status": "proved",
   "theorems": [
    "C84_convert",
    "C84_extract",
    "C84_program",
    "C84_self_import_refuted"
   ],
   "note": "For the lexer and parser of C56/C57. C84_self_import_refuted shows that files imported by themselves must be excepted."
  },
  {
   "property": "C85",
   "status": "proved",
   "theorems": [
    "C85_reading",
    "C85_convert",
    "C85_convert_str",
    "C85_extract",
    "C85_extract_str",
    "C85_program",
    "C85_documented_refuted"
   ],
   "note": "For the lexer and parser of C56/C57, and texts without documentation; C85_documented_refuted shows that documentation between annotations and declaration must be left out."
  }
 ]
}