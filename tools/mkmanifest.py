"""Writes MANIFEST.json.  Properties without an entry are listed as partial with no theorem yet."""
import json, os
here = os.path.dirname(os.path.dirname(os.path.abspath(__file__)))
C = {}
def claim(pid, status, theorems, note=""):
    C[pid] = {"property": pid, "status": status, "theorems": theorems, "note": note}

claim("C01", "proved", ["C01_protocol_terminates", "C01_schema_terminates", "C01_bound_irrelevant"])
claim("C02", "proved", ["C02_one_definition_per_name", "C02_namespace_capture_refuted"],
      "For protocols satisfying protocol_ok; the refutation shows why its namespace condition is needed.")
claim("C03", "proved", ["C03_every_type_once"])
claim("C04", "proved", ["C04_defined_before_use"])
claim("C05", "proved", ["C05_protocol_means_what_was_compiled", "C05_namespace_capture_refuted"])
claim("C06", "proved", ["C06_avsc_self_contained"])
claim("C07", "proved", ["C07_order_independent", "C07_inline_messages_refuted"])

claim("C08", "proved", ["C08_first_definition_wins", "C08_no_duplicates_in_order", "C08_only_appends",
      "C08_register_succeeds_iff", "C08_failure_changes_nothing"])
claim("C09", "proved", ["C09_registered_names_valid", "C09_check_is_exact"])
claim("C10", "proved", ["C10_undefined_rejected_defined_accepted", "C10_compiled_references_resolve"])
claim("C11", "proved", ["C11_reported_once", "C11_names_independent_of_order", "C11_in_source_order", "C11_position_independent_of_order_refuted"],
      "The set of reported names is order independent; the reported source position is not (refutation).")
claim("C32", "proved", ["C32_levenshtein_is_edit_distance", "C32_zero_iff_equal", "C32_non_ascii_refuted"],
      "For ASCII strings; false for non-ASCII strings (refutation).")
claim("C33", "proved", ["C33_type_suggestions", "C33_type_suggestions_any_name", "C33_keyword_suggestions"])
claim("C40", "proved", ["C40_join_then_split", "C40_join_then_split_no_namespace", "C40_split_then_join",
      "C40_full_names_injective", "C40_leading_dot_refuted"])
claim("C41", "proved", ["C41_alias_denotes_what_was_written", "C41_leading_dot_refuted"])

claim("C16","proved",["C16_flatten_loses_nothing"],"For every schema: collected types are its named types, inner first, with unchanged definitions; nothing inline is left; the denoted type is unchanged.")
claim("C17","proved",["C17_import_means_what_the_document_says","C17_schema_file","C17_protocol_file","C17_dotted_name_refuted","C17_logical_base_refuted","C17_message_types_refuted"],"Against the independent Avro reader, for every document that is 'clean' (SpecImport.v); refuted for a dotted name with an explicit namespace, for a logical type on a foreign base type and for types defined inside messages.")
claim("C18","proved",["C18_protocol_round_trip","C18_schema_round_trip","C18_not_portable_refuted"],"Through both the .avpr and the .avsc form; refuted for annotations that imitate a known logical type on another base type.")
claim("C19", "proved", ["C19_accepts_exactly", "C19_never_rejects_valid", "C19_prose_refuted"],
      "Exact for reference-free types against an inductive reading of the rules; strict-prose deviations (enum symbols, byte strings, first union branch) refuted.")
claim("C20", "proved", ["C20_message_iff_invalid", "C20_record_check", "C20_no_false_alarm", "C20_missing_fields"],
      "Message exactly for invalid values; record check exact relative to the resolved type and without false alarms relative to the real type.")
claim("C21", "proved", ["C21_resolution_terminates", "C21_check_terminates", "C21_fuel_irrelevant", "C21_only_back_references", "C21_gives_up_iff_missing", "C21_resolved_type_sound", "C21_resolved_type_exact", "C21_recursive_refuted", "C21_nested_same_name_refuted"],
      "Terminates for every flat registry; gives up iff a transitively mentioned name is missing. Findings: defaults below a back-reference are unchecked; a hand-made nested same-name record loops.")
claim("C39", "proved", ["C39_duration", "C39_decimal_exact", "C39_decimal_refuted", "C39_decimal_all_sizes", "C39_others_invalid"],
      "Exact for sizes below 122202250; the f64 formula is refuted at 122202250 (one digit too many), never more than one digit off, never rejects a fitting precision.")
claim("C30", "proved", ["C30_value", "C30_least_decimal", "C30_out_of_range", "C30_underscores", "C30_size", "C30_size_negative", "C30_least_refuted", "C30_size_suffix_refuted"],
      "Exact for every literal of the lexer grammar except -2^63 in hexadecimal or octal, which is rejected (refutation); sizes exact for literals without the long suffix, with it they are rejected (refutation).")
claim("C31", "proved", ["C31_denotes", "C31_total", "C31_token", "C31_plain", "C31_round_trip", "C31_surrogate_pair", "C31_lone_surrogate_kept", "C31_lone_surrogate_refuted"],
      "Against an inductive definition of what a Java string body denotes; lone surrogate escapes are kept as source text (refutation).")

claim("C35","proved",["C35_lines_kept","C35_empty","C35_two_stars","C35_one_star","C35_indentation","C35_unchanged","C35_star_pattern","C35_indent_pattern"],"Doc comment text is the comment's text with at most the common decoration removed from each line; the two regular expressions are proved against a small declarative regex semantics.")
claim("C22", "proved", ["C22_unions_legal", "C22_legal_types_accepted", "C22_primitive_named_type_refuted"], "soundness for everything a file gives; completeness except for references called like a primitive type, which the code rejects beside that type (refuted)")
claim("C23", "proved", ["C23_fields", "C23_parameters"])
claim("C24", "proved", ["C24_declarations", "C24_protocol", "C24_references", "C24_identifiers"])
claim("C25", "proved", ["C25_types", "C25_fields", "C25_protocol", "C25_accepts_exactly", "C25_inner_types"])
claim("C26", "proved", ["C26_enums"])
claim("C27", "proved", ["C27_fields", "C27_parameters"])
claim("C28", "proved", ["C28_one_way"])
claim("C29", "proved", ["C29_base_type_kept", "C29_base_type_written", "C29_promotion", "C29_decimal_keyword", "C29_decimal_annotation_refuted"], "the decimal annotation (not the keyword) accepts precision 0 and scale > precision: refuted")
claim("C34", "proved", ["C34_reported_iff_unattached", "C34_docs_of_types", "C34_docs_of_protocol", "C34_one_owner"])
claim("C42", "proved", ["C42_no_structural_key", "C42_types_written", "C42_fields_written", "C42_messages_written", "C42_protocols_written", "C42_logical_attributes_refuted"], "logicalType/precision/scale of a logical type can be overwritten: refuted")
claim("C43", "proved", ["C43_only_attributes_change", "C43_union_annotations_reported", "C43_references_not_annotated", "C43_scale_lost_refuted"], "a non-numeric @scale of a promoted decimal is lost: refuted")
claim("C48", "proved", ["C48_file_meaning", "C48_accepted", "C48_after_end_ignored"])
claim("C49", "proved", ["C49_json_values", "C49_json_values_unique"])
claim("C12", "proved", ["C12_compilation_ends", "C12_bound_irrelevant"], "for every finite set of files and every import graph")
claim("C13", "proved", ["C13_loaded_once", "C13_everything_imported_is_loaded"])
claim("C14", "proved", ["C14_first_directory_wins", "C14_not_found"])
claim("C15", "proved", ["C15_messages"], "processing order: a file imported by an imported IDL file comes after that file")
claim("C36", "proved", ["C36_reuse"])
claim("C37", "proved", ["C37_success", "C37_failure", "C37_stale_refuted", "C37_directory_refuted"], "stale warnings after an unreadable file and lost warnings of a failing directory: refuted")
claim("C44", "proved", ["C44_directory", "C44_directory_fails", "C44_files", "C44_listing_order", "C44_directory_name_refuted"], "a directory whose name ends in .avdl makes the extraction fail: refuted")
claim("C46", "proved", ["C46_order_of_types", "C46_schemas", "C46_protocols", "C46_defaults_refuted"], "for files without imports; whether a default value is rejected does depend on the order: refuted")
claim("C50", "proved", ["C50_types", "C50_protocol"])
claim("C38", "proved", ["C38_one_schema_per_type", "C38_files", "C38_nothing_on_failure", "C38_same_simple_name_refuted"], "false for types with the same simple name in different namespaces, where the last file wins: refuted")
claim("C47", "proved", ["C47_arguments", "C47_help", "C47_rejected", "C47_idl", "C47_idl2schemata", "C47_order", "C47_help_only", "C47_other_commands"])
claim("C51", "proved", ["C51_success", "C51_failure"])

claim("C45", "proved", ["C45_split_at_commas", "C45_split_unique", "C45_closing_brace", "C45_no_closing_brace", "C45_rejoin", "C45_message", "C45_nothing_named", "C45_short_list", "C45_long_list", "C45_large_list_refuted", "C45_brace_never_expected", "C45_quoting_hint", "C45_no_quoting_hint", "C45_jargon"], "lists of more than five tokens are cut by other code, at the first brace even when quoted: refuted")
claim("C52", "proved", ["C52_protocol", "C52_schema", "C52_schemata", "C52_imported_schema_renamed_refuted"], "for types outside any namespace under the conditions of protocol_apart/apart, without which it is refuted; for imported .avpr files whose messages define types inline it is not claimed (see C17)")
claim("C53", "proved", ["C53_no_crash", "C53_spans"], "parser errors are assumed to carry the byte span of a token of the source, as the ANTLR runtime gives it")
claim("C54", "proved", ["C54_report", "C54_open_brace", "C54_fixed_word_refuted", "C54_comma_in_enum_refuted", "C54_brace_in_comment_refuted"], "the explanations are textual: words inside longer words, an enum anywhere before, and braces in comments mislead them: refuted")
claim("C55", "proved", ["C55_lexer_errors_are_warnings", "C55_unterminated_string", "C55_place_refuted", "C55_any_text_refuted"], "after characters outside ASCII the place is wrong, and a literal that imitates a message is not recognised: refuted")

claim("C56", "proved", ["C56_tokens", "C56_nothing_lost", "C56_names", "C56_white_space_ends", "C56_any_tokens", "C56_empty_comment", "C56_empty_comment_is_blank_refuted", "C56_last_comment"], "that an empty comment is like white space is refuted; the theorem says what it swallows")
claim("C57", "proved", ["C57_reading", "C57_accepted", "C57_one_reading"], "")
claim("C58", "proved", ["C58_same_tokens", "C58_white_space", "C58_comment"], "")
claim("C59", "proved", ["C59_reading", "C59_convert", "C59_convert_str", "C59_extract", "C59_extract_str", "C59_program", "C59_white_space"],
      "With the lexer and parser of the model in place of the open one. Warnings about characters that are no token, the places in reports and the order of undefined names may differ.")
claim("C60", "proved", ["C60_decimal", "C60_hexadecimal", "C60_words", "C60_refused", "C60_one_nearest", "C60_hexadecimal_long_refuted", "C60_hexadecimal_exponent_refuted"],
      "Hexadecimal literals of 53 bits or more are rounded twice, and extreme exponents give NaN or zero: the bounds are needed, as the refuted theorems show. The sign of a zero is not modelled; powi is assumed exact where the power is a normal number.")
claim("C61", "proved", ["C61_value", "C61_accepted", "C61_tokens", "C61_integer"],
      "For strings without escaped surrogates (see C31) and hexadecimal numbers within the bounds of C60.")
claim("C62", "proved", ["C62_convert", "C62_convert_str", "C62_extract", "C62_extract_str", "C62_import", "C62_declaration", "C62_default", "C62_reference", "C62_one_statement", "C62_undefined","C62_blame_refuted"],
      "The first four hold for every parser, the others for the lexer and parser of the model. Errors found while a file is read carry no place in the model. The length of the marked text is not modelled.")
claim("C63","proved",["C63_types","C63_fields","C63_protocol","C63_reported","C63_warning","C63_label","C63_label_refuted"],"Places and pieces are those of the text (SpecDocText.v), with the modelled lexer and grammar. Refuted corner: the label of a warning is chosen by searching its message, so an alias that contains another message gets the wrong label.")
claim("C64","proved",["C64_reason","C64_refused","C64_accepted","C64_syntax"],"Defects are defined in SpecDefects.v on the trees of the grammar, with the modelled lexer and grammar (C56, C57). Which one of several defects is reported is left open, except that it is one of them. What a default must be like is C19's.")
claim("C65","proved",["C65_compile","C65_convert","C65_convert_str","C65_extract","C65_extract_str","C65_one_expansion","C65_inlining","C65_clash_refuted"],"Expansion is defined in SpecExpand.v on the statements a text is read as (C48, C57), and JSON definitions as C17/C18 read them; for every parser and file system. Whether a default suits is C19-C21's. Refuted corner: a type declared in IDL and in an imported JSON file is refused in one order only.")
claim("C66","proved",["C66_word","C66_compiling","C66_convert","C66_convert_str"],"The word is the one the text has at the byte offset of the place; the length of the highlighted range is not modelled. C64_reason says which defect it is, C66 what the text has at its place.")
claim("C67","proved",["C67_reason","C67_warned","C67_place"],"The names listed for a union are compared up to their order (a hash map's). Warnings of imported files are those of reading them (C55, C63).")
claim("C68","proved",["C68_reading","C68_convert","C68_convert_str","C68_extract","C68_extract_str","C68_program","C68_suffix_refuted","C68_least_refuted"],"The two refuted theorems show that the exceptions in the statement are needed. Keywords keep their token: `string` between backticks is a name, not the type.")
claim("C69","proved",["C69_schema","C69_schema_file","C69_protocol_file","C69_required_refuted"],"Stated on JSON values (serde_json reads the text). The refuted theorem: a record without fields and an enum without symbols, which the specification does not allow, are imported as empty ones.")
claim("C70","proved",["C70_schema","C70_schema_file","C70_protocol_file","C70_refused_schema"],"Anything but an object is accepted as a protocol, one without types and messages; of a protocol that is refused the types before the offending one stay registered, but the run fails.")
claim("C71","proved",["C71_compile","C71_again"],"C71_compile is for any input, file or text; C71_again for texts handed to convert_str and extract_str.")
claim("C72","proved",["C72_compile","C72_extract","C72_convert","C72_messages_refuted"],"For a protocol, under the side condition protocol_ok of C02. The refuted theorem shows that the condition on messages is needed; C65_clash_refuted shows it for the one on names and C46_defaults_refuted for the one on defaults.")
claim("C73","proved",["C73_reason","C73_avro","C73_total"],"References left inside a type are not judged, as in C19; where there are none, C73_avro says it in terms of what Avro allows. Integers are shown in decimal by show_Z, the standard library's printer.")
claim("C74","proved",["C74_schema","C74_protocol"],"Under the side conditions registry_ok and protocol_ok of C06 and C02. A type outside any namespace has only its simple name.")
claim("C75","proved",["C75_imported","C75_all","C75_protocol"],"Under the side conditions of C52 and portable of C18. The saved files are assumed to read as the JSON that was extracted; C78 says when they do.")
claim("C76","proved",["C76_verdict","C76_total","C76_reader","C76_reported","C76_precision","C76_scale"],"C76_reported, C76_precision and C76_scale are about the reader with the concrete lexer and parser.")
claim("C77","proved",["C77_read","C77_refused","C77_one","C77_comments"],"The crates serde_json and json_comments are modelled from their documentation. How floating point numbers are read is a parameter.")
claim("C78","proved",["C78_written","C78_text","C78_again","C78_distinct","C78_deep_refuted"],"C78_deep_refuted: a document with 128 nested brackets is written but not read (finding). How floating point numbers are printed is a parameter; those that do not read as themselves are excluded by tidy.")
claim("C79","proved",["C79_run","C79_converted","C79_extracted","C79_imported","C79_protocol","C79_chain_refuted"],"C79_chain_refuted: a chain of 43 records gives a document that is written but not read (finding). How floating point numbers are printed and read is a parameter; floats_kept says that those read from IDL or JSON are printed so that they read the same. C79_imported and C79_protocol keep the conditions of C75 on the schemas.")
claim("C80","proved",["C80_schema","C80_more","C80_main","C80_protocol","C80_shadow_refuted"],"C80_shadow_refuted: in a protocol with a namespace, importing a type that has none replaces the type of the protocol with the same simple name wherever that is written first (finding); C80_protocol therefore asks for a protocol without such types. It also asks that messages contain no inline definitions (which only imported protocols can have).")

claim("C81","proved",["C81_reading","C81_convert","C81_convert_str","C81_extract","C81_extract_str","C81_program"],"For the lexer and parser of C56/C57. Aliases are not references and are not covered: they are written as they stand.")
claim("C82","proved",["C82_agree","C82_protocol","C82_schema","C82_renamed_refuted"],"The comparison of documents has the hypotheses of C52; C82_renamed_refuted shows the one on namespaces to be needed.")
claim("C83","proved",["C83_convert","C83_extract","C83_more_directories","C83_repeated_directory","C83_program"],"The two worlds share the parser of IDL and of JSON. A missing import is excepted because its error lists the directories searched.")
claim("C84","proved",["C84_convert","C84_extract","C84_program","C84_self_import_refuted"],"For the lexer and parser of C56/C57. C84_self_import_refuted shows that files imported by themselves must be excepted.")
claim("C85","proved",["C85_reading","C85_convert","C85_convert_str","C85_extract","C85_extract_str","C85_program","C85_documented_refuted"],"For the lexer and parser of C56/C57, and texts without documentation; C85_documented_refuted shows that documentation between annotations and declaration must be left out.")
out = []
for line in open(os.path.join(here, "properties.jsonl")):
    pid = json.loads(line)["id"]
    out.append(C.get(pid, {"property": pid, "status": "partial", "theorems": [], "note": "not proved yet"}))
json.dump({"claims": out}, open(os.path.join(here, "MANIFEST.json"), "w"), indent=1)
