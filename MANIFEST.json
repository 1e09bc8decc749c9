{
 "claims": [
  {
   "property": "C01",
   "status": "partial",
   "theorems": [
    "C01_round_trip_partial",
    "C01_length_partial",
    "C01_round_trip_refuted",
    "C01_type_space_refuted",
    "C01_exact",
    "C01_twice_refuted"
   ],
   "note": "False as stated: C01_round_trip_refuted (space after a children block) and C01_type_space_refuted (space inside or after a node's type annotation) give texts whose print differs. C01_exact says exactly which accepted texts are printed back: those readable without these two kinds of space (grammar in Tight.v). C01_round_trip_partial is a criterion on the text alone; C01_length_partial bounds the rest; C01_twice_refuted shows that printing and reading again need not be stable."
  },
  {
   "property": "C02",
   "status": "proved",
   "theorems": [
    "C02_entry_round_trip"
   ],
   "note": ""
  },
  {
   "property": "C03",
   "status": "proved",
   "theorems": [
    "C03_ident_round_trip"
   ],
   "note": ""
  },
  {
   "property": "C04",
   "status": "partial",
   "theorems": [
    "C04_node_round_trip_partial",
    "C04_node_round_trip_refuted",
    "C04_exact"
   ],
   "note": "Same two losses as C01, for single nodes; C04_exact is the exact criterion."
  },
  {
   "property": "C05",
   "status": "proved",
   "theorems": [
    "C05_parse_total"
   ],
   "note": ""
  },
  {
   "property": "C06",
   "status": "proved",
   "theorems": [
    "C06_error_has_diagnostic",
    "C06_success_consumes_everything"
   ],
   "note": ""
  },
  {
   "property": "C07",
   "status": "proved",
   "theorems": [
    "C07_diagnostics_in_bounds"
   ],
   "note": ""
  },
  {
   "property": "C08",
   "status": "proved",
   "theorems": [
    "C08_document_spans",
    "C08_node_spans",
    "C08_entry_spans",
    "C08_ident_spans"
   ],
   "note": ""
  },
  {
   "property": "C09",
   "status": "partial",
   "theorems": [
    "C09_string_partial",
    "C09_exact",
    "C09_string_refuted"
   ],
   "note": "Exact: C09_exact characterises the strings that survive. The unrestricted claim is refuted (line breaks other than LF/CR.. and disallowed code points are printed raw)."
  },
  {
   "property": "C10",
   "status": "partial",
   "theorems": [
    "C10_exact",
    "C10_integer_partial",
    "C10_integer_refuted",
    "C10_no_other"
   ],
   "note": "Proved for every i128 except i128::MIN, whose printed text does not parse (C10_integer_refuted); C10_exact says that it is the only exception."
  },
  {
   "property": "C11",
   "status": "proved",
   "theorems": [
    "C11_float",
    "C11_injective",
    "C11_stays_float"
   ],
   "note": ""
  },
  {
   "property": "C12",
   "status": "proved",
   "theorems": [
    "C12_shown",
    "C12_keyword_value",
    "C12_keyword_meaning",
    "C12_bare_words",
    "C12_bare_words_alone"
   ],
   "note": ""
  },
  {
   "property": "C13",
   "status": "proved",
   "theorems": [
    "C13_numerals",
    "C13_integer_text",
    "C13_only_integer_texts",
    "C13_integer_value",
    "C13_integer_overflow",
    "C13_in_document",
    "C13_every_position"
   ],
   "note": ""
  },
  {
   "property": "C14",
   "status": "partial",
   "theorems": [
    "C14_bare_partial",
    "C14_exact",
    "C14_bare_refuted",
    "C14_quotes_needed"
   ],
   "note": "Exact: C14_exact says which of the words printed bare are read back, as a value and as a name (all but a sign, a dot and a digit); C14_bare_refuted shows +.5 printed bare and not parsed."
  },
  {
   "property": "C15",
   "status": "proved",
   "theorems": [
    "C15_built_documents",
    "C15_built_nodes",
    "C15_built_entries"
   ],
   "note": ""
  },
  {
   "property": "C16",
   "status": "partial",
   "theorems": [
    "C16_autoformat_partial",
    "C16_bom_partial",
    "C16_strings_refuted",
    "C16_slashdash_refuted",
    "C16_bom_refuted",
    "C16_keep_partial"
   ],
   "note": "Proved for documents whose trivia has no slashdash and whose strings survive printing; each exclusion has a _refuted witness. If formats of entries are kept (C16_keep_partial), values need not survive printing and slashdashed entries may stand before entries."
  },
  {
   "property": "C17",
   "status": "proved",
   "theorems": [
    "C17_autoformat_keeps_data",
    "C17_autoformat_keeps_node_data",
    "C17_autoformat_keeps_entry_data"
   ],
   "note": ""
  },
  {
   "property": "C18",
   "status": "partial",
   "theorems": [
    "C18_idempotent_partial",
    "C18_node_partial",
    "C18_parsed_partial",
    "C18_built_refuted",
    "C18_returns_refuted",
    "C18_keep_refuted"
   ],
   "note": "Idempotence proved for settled formats (all parsed documents without the listed oddities); C18_*_refuted show the exclusions are needed."
  },
  {
   "property": "C19",
   "status": "partial",
   "theorems": [
    "C19_canonical_partial",
    "C19_same_data_partial",
    "C19_untyped",
    "C19_spelling_refuted"
   ],
   "note": "Proved when entry type annotations are spelled alike, and unconditionally for untyped entries (C19_untyped); C19_spelling_refuted shows the need."
  },
  {
   "property": "C20",
   "status": "partial",
   "theorems": [
    "C20_clear_keeps_data",
    "C20_clear_canonical_refuted",
    "C20_clear_canonical_partial",
    "C20_clear_prints_refuted",
    "C20_clear_prints_partial",
    "C20_parsed_prints_refuted",
    "C20_cleared_text"
   ],
   "note": "Data is kept (proved). Text after clearing is canonical per data; printing siblings without format concatenates them (C20_*_refuted), so the parse-back claim is proved for at most one node per level."
  },
  {
   "property": "C21",
   "status": "proved",
   "theorems": [
    "C21_get_key_rightmost",
    "C21_get_key_none",
    "C21_get_value"
   ],
   "note": ""
  },
  {
   "property": "C22",
   "status": "proved",
   "theorems": [
    "C22_get_index",
    "C22_get_index_none"
   ],
   "note": ""
  },
  {
   "property": "C23",
   "status": "proved",
   "theorems": [
    "C23_insert_key",
    "C23_insert_key_panics"
   ],
   "note": ""
  },
  {
   "property": "C24",
   "status": "proved",
   "theorems": [
    "C24_insert_index",
    "C24_insert_index_panics"
   ],
   "note": ""
  },
  {
   "property": "C25",
   "status": "partial",
   "theorems": [
    "C25_remove_key_refuted",
    "C25_remove_duplicate_refuted",
    "C25_remove_key_partial",
    "C25_remove_unique_partial"
   ],
   "note": "remove(key) as implemented removes by an index into a filtered list; refuted in general, proved for the exact behaviour and for unique keys."
  },
  {
   "property": "C26",
   "status": "proved",
   "theorems": [
    "C26_remove_index",
    "C26_remove_index_panics"
   ],
   "note": ""
  },
  {
   "property": "C27",
   "status": "proved",
   "theorems": [
    "C27_entry_mut",
    "C27_get_mut",
    "C27_index",
    "C27_index_mut_str",
    "C27_index_mut_nth"
   ],
   "note": ""
  },
  {
   "property": "C28",
   "status": "proved",
   "theorems": [
    "C28_doc_get",
    "C28_doc_get_none",
    "C28_get_arg",
    "C28_iter_args",
    "C28_iter_dash_args",
    "C28_get_arg_mut"
   ],
   "note": ""
  },
  {
   "property": "C29",
   "status": "proved",
   "theorems": [
    "C29_equality_is_equivalence",
    "C29_equality_ignores_spans",
    "C29_node_equality_ignores_spans",
    "C29_equal_documents_agree"
   ],
   "note": ""
  },
  {
   "property": "C30",
   "status": "proved",
   "theorems": [
    "C30_equal_hash",
    "C30_equal_hash_node",
    "C30_equal_hash_entry",
    "C30_equal_hash_value",
    "C30_equal_hash_ident"
   ],
   "note": ""
  },
  {
   "property": "C31",
   "status": "partial",
   "theorems": [
    "C31_layout_partial",
    "C31_gaps_partial",
    "C31_comment_gap",
    "C31_gap_app",
    "C31_escline_gap",
    "C31_before_entry",
    "C31_document_partial"
   ],
   "note": "Proved for all concrete layouts of a document (Layout.v), and for every accepted text with no space after a closing brace and no slashdash after an unterminated last node: any stored space may be replaced, extended or removed (C31_document_partial). Spaces inside slashdashed parts, and space added directly behind a slashdashed entry before a children block, are covered by the layouts only."
  },
  {
   "property": "C32",
   "status": "partial",
   "theorems": [
    "C32_entry_partial",
    "C32_node_partial",
    "C32_children_partial",
    "C32_semicolon_refuted",
    "C32_printed_partial",
    "C32_document_partial",
    "C32_block_refuted"
   ],
   "note": "Proved for layouts, and for entries, children blocks and nodes of every accepted text with no space after a closing brace (C32_document_partial). A slashdashed node must not end with a semicolon (C32_semicolon_refuted) and a slashdashed block must not touch what precedes it (C32_block_refuted)."
  },
  {
   "property": "C33",
   "status": "proved",
   "theorems": [
    "C33_code_point",
    "C33_escapes",
    "C33_nothing_else",
    "C33_one_meaning",
    "C33_bad_code"
   ],
   "note": ""
  },
  {
   "property": "C34",
   "status": "partial",
   "theorems": [
    "C34_multi_line",
    "C34_raw_multi_line_partial",
    "C34_raw_exact",
    "C34_raw_multi_line_refuted",
    "C34_missing_prefix"
   ],
   "note": "Proved for multi-line and raw multi-line strings except the raw body that is a single double quote (refuted); C34_raw_exact says that this is the only exception."
  },
  {
   "property": "C35",
   "status": "partial",
   "theorems": [
    "C35_raw_partial",
    "C35_exact",
    "C35_raw_refuted",
    "C35_documented_refuted"
   ],
   "note": "Exact: C35_exact characterises the bodies that are read back; the body that is a single double quote is rejected although it fits (refuted)."
  },
  {
   "property": "C36",
   "status": "proved",
   "theorems": [
    "C36_no_disallowed",
    "C36_no_line_break"
   ],
   "note": ""
  },
  {
   "property": "C37",
   "status": "partial",
   "theorems": [
    "C37_set_value_visible_refuted",
    "C37_set_name_visible_refuted",
    "C37_set_value_visible_partial",
    "C37_set_value_visible_after_clear",
    "C37_set_name_visible_partial",
    "C37_value_exact",
    "C37_name_exact",
    "C37_parsed"
   ],
   "note": "Refuted for parsed values (the old representation wins); proved when there is no format or representation, and after clearing. C37_value_exact and C37_name_exact say that these are exactly the cases; C37_parsed that setting never shows in anything parsed."
  },
  {
   "property": "C38",
   "status": "partial",
   "theorems": [
    "C38_ensure_v2_keeps_data",
    "C38_text_refuted",
    "C38_invalid_refuted",
    "C38_formatted_partial",
    "C38_representation",
    "C38_text_partial",
    "C38_old_strings_partial",
    "C38_old_strings_refuted"
   ],
   "note": "Data preservation (C38_ensure_v2_keeps_data) is proved for all documents. The text claim is false (C38_text_refuted, C38_invalid_refuted); C38_text_partial proves it for every parsed text outside those cases: no space after a closing brace, no slashdash directly after a value, printable names, no string value that is empty or a signed fraction written as a word, no quoted string holding an escaped line break or a backslash followed by a slash."
  },
  {
   "property": "C39",
   "status": "partial",
   "theorems": [
    "C39_document_partial",
    "C39_text_partial",
    "C39_false_refuted",
    "C39_some_false_refuted",
    "C39_first_false_refuted",
    "C39_first_argument_refuted",
    "C39_map_refuted",
    "C39_some_empty_refuted",
    "C39_top_variant_refuted",
    "C39_top_level_refuted",
    "C39_variant_refuted",
    "C39_names_refuted",
    "C39_keys_refuted",
    "C39_of_the_type"
   ],
   "note": "Round trip proved for all types and values in fits_doc; every exclusion has a _refuted witness. Borrowed strings and bytes are not modelled."
  },
  {
   "property": "C40",
   "status": "partial",
   "theorems": [
    "C40_integer",
    "C40_integer_text",
    "C40_scalar_partial",
    "C40_content",
    "C40_wide_refuted",
    "C40_float_refuted"
   ],
   "note": "Integer targets of all widths proved with both directions; i128/u128 are not serialisable and integers from 2^64 on are rejected for float targets (refuted)."
  },
  {
   "property": "C41",
   "status": "proved",
   "theorems": [
    "C41_builder_last_wins",
    "C41_last_set_spec"
   ],
   "note": ""
  },
  {
   "property": "C42",
   "status": "partial",
   "theorems": [
    "C42_blank_line",
    "C42_blank_lines",
    "C42_concat",
    "C42_slashdash_refuted",
    "C42_layouts_partial",
    "C42_concat_refuted"
   ],
   "note": "As worded the claim is false: C42_concat_refuted (a text ending in an escaped line break glues to the next) and C42_slashdash_refuted (a slashdash after a children block at the end of a text swallows its terminator). Proved for all accepted texts outside those: C42_blank_line and C42_blank_lines (any number of texts joined by blank lines, no slashdash in the earlier ones) and C42_concat (first text ends with a line feed and has neither slashdash nor backslash); C42_layouts_partial covers generated layouts with slashdashes."
  },
  {
   "property": "C43",
   "status": "proved",
   "theorems": [
    "C43_node_entries",
    "C43_laid_out"
   ],
   "note": ""
  },
  {
   "property": "C44",
   "status": "proved",
   "theorems": [
    "C44_len_is_utf8_length",
    "C44_entry_len",
    "C44_ident_len",
    "C44_utf8",
    "C44_decodable"
   ],
   "note": ""
  },
  {
   "property": "C45",
   "status": "proved",
   "theorems": [
    "C45_document",
    "C45_node",
    "C45_entry",
    "C45_ident",
    "C45_rejects",
    "C45_decidable"
   ],
   "note": ""
  },
  {
   "property": "C46",
   "status": "proved",
   "theorems": [
    "C46_document",
    "C46_node",
    "C46_entry",
    "C46_string"
   ],
   "note": ""
  },
  {
   "property": "C47",
   "status": "proved",
   "theorems": [
    "C47_spellings"
   ],
   "note": ""
  },
  {
   "property": "C48",
   "status": "proved",
   "theorems": [
    "C48_space",
    "C48_newline",
    "C48_rejected",
    "C48_plain",
    "C48_quoted",
    "C48_quoted_rejected",
    "C48_raw",
    "C48_raw_rejected",
    "C48_block_comment",
    "C48_line_comment",
    "C48_delete_refuted",
    "C48_word"
   ],
   "note": "The character classes are pinned to explicit tables. C48_delete_refuted records that U+007F, which the documentation lists as disallowed, is accepted by the code."
  },
  {
   "property": "C49",
   "status": "proved",
   "theorems": [
    "C49_value",
    "C49_only",
    "C49_unique",
    "C49_wide_refuted"
   ],
   "note": "C49_wide_refuted records that the bound on the digit groups is needed: longer fractions are rejected by the parser."
  },
  {
   "property": "C50",
   "status": "proved",
   "theorems": [
    "C50_retain",
    "C50_push",
    "C50_clear",
    "C50_sort",
    "C50_sort_key",
    "C50_children"
   ],
   "note": ""
  },
  {
   "property": "C51",
   "status": "partial",
   "theorems": [
    "C51_exact",
    "C51_float_order",
    "C51_string_order",
    "C51_order_partial",
    "C51_kinds",
    "C51_nan_refuted",
    "C51_infinity_refuted",
    "C51_accessors",
    "C51_option"
   ],
   "note": "C51_order_partial covers values without NaN and infinities; C51_nan_refuted and C51_infinity_refuted show that the order disagrees with == for those; C51_exact lists exactly the pairs on which they disagree."
  },
  {
   "property": "C52",
   "status": "proved",
   "theorems": [
    "C52_edit",
    "C52_calls",
    "C52_unchanged",
    "C52_brace_refuted",
    "C52_apart_refuted",
    "C52_order_refuted",
    "C52_local"
   ],
   "note": "C52_edit and C52_calls prove the claim under its two conditions on the text and the condition on terminators; C52_local that nothing else in the text changes. C52_brace_refuted, C52_apart_refuted and C52_order_refuted show that each condition is needed."
  },
  {
   "property": "C53",
   "status": "proved",
   "theorems": [
    "C53_document",
    "C53_text",
    "C53_unique",
    "C53_typed",
    "C53_repeated",
    "C53_one_refuted",
    "C53_optional_refuted",
    "C53_duplicate_refuted",
    "C53_ignored_refuted",
    "C53_absent_refuted"
   ],
   "note": "C53_document and C53_text are equivalences with the declarative relation reads of DeSpec.v; C53_typed needs that no struct has two fields of one name. The refuted theorems show where the documented mapping fails."
  },
  {
   "property": "C54",
   "status": "proved",
   "theorems": [
    "C54_document",
    "C54_unique",
    "C54_error",
    "C54_text",
    "C54_read_back",
    "C54_struct",
    "C54_map_refuted",
    "C54_sequence",
    "C54_nested_refuted",
    "C54_no_way_back_refuted",
    "C54_flag"
   ],
   "note": "C54_document is an equivalence with the declarative relation written of SeSpec.v, C54_error its negative side, C54_text and C54_read_back the text and the composition with C53. The refuted theorems show where the documented mapping fails."
  },
  {
   "property": "C55",
   "status": "partial",
   "theorems": [
    "C55_built_text",
    "C55_formatted_rows",
    "C55_formatted_partial",
    "C55_indent_refuted"
   ],
   "note": "Exact text proved for built documents (C55_built_text), for the default configuration as rows (C55_formatted_rows), and for any configuration (C55_formatted_partial). The row form fails for other indentations: closing braces of blocks without formatting are always indented by four spaces per level (C55_indent_refuted)."
  },
  {
   "property": "C56",
   "status": "proved",
   "theorems": [
    "C56_same_answer"
   ],
   "note": ""
  },
  {
   "property": "C57",
   "status": "proved",
   "theorems": [
    "C57_says_something",
    "C57_pieces_refuted"
   ],
   "note": "Proved for documents; refuted for nodes, entries and identifiers (C57_pieces_refuted)."
  },
  {
   "property": "C58",
   "status": "proved",
   "theorems": [
    "C58_catalogue",
    "C58_dead_texts",
    "C58_pieces"
   ],
   "note": ""
  },
  {
   "property": "C59",
   "status": "proved",
   "theorems": [
    "C59_placed"
   ],
   "note": ""
  },
  {
   "property": "C60",
   "status": "partial",
   "theorems": [
    "C60_too_large_partial",
    "C60_too_large_refuted"
   ],
   "note": "C60_too_large_refuted gives the literals answered otherwise; the partial theorem bounds where the message appears."
  },
  {
   "property": "C61",
   "status": "proved",
   "theorems": [
    "C61_exact",
    "C61_text",
    "C61_total",
    "C61_ignored",
    "C61_faithful_refuted"
   ],
   "note": "Proved in full as stated; C61_faithful_refuted gives the documents that are not told apart."
  },
  {
   "property": "C62",
   "status": "proved",
   "theorems": [
    "C62_same",
    "C62_error",
    "C62_rejected",
    "C62_points",
    "C62_value",
    "C62_name",
    "C62_blamed",
    "C62_first",
    "C62_message",
    "C62_one_node",
    "C62_located_refuted"
   ],
   "note": "Proved in full as stated; C62_located_refuted gives the errors without a location that the statement mentions (missing fields, nodes of the wrong kind)."
  },
  {
   "property": "C63",
   "status": "proved",
   "theorems": [
    "C63_values",
    "C63_one",
    "C63_float",
    "C63_integer",
    "C63_text",
    "C63_literal_refuted"
   ],
   "note": "Proved in full as stated; C63_literal_refuted gives a literal that is rounded twice."
  },
  {
   "property": "C64",
   "status": "proved",
   "theorems": [
    "C64_same",
    "C64_error",
    "C64_exclusive",
    "C64_struct",
    "C64_catalogue",
    "C64_occur"
   ],
   "note": "Proved in full as stated. The two messages about serialize_value without serialize_key need a Serialize implementation that breaks serde's contract and are not modelled."
  },
  {
   "property": "C65",
   "status": "partial",
   "theorems": [
    "C65_counting_changes_nothing",
    "C65_count_is_right",
    "C65_block_parses_bounded",
    "C65_no_slashdash_linear",
    "C65_slashdashed_blocks_double",
    "C65_slashdashed_nodes_double",
    "C65_polynomial_time_refuted"
   ],
   "note": "The natural claim, that the work is polynomial in the length of the text, is false: C65_polynomial_time_refuted. Proved instead for every text: the bound b * 2^s, linear without slashdashes, and the exact count of two families that show that the exponential is reached. Only parses of the inside of children blocks are counted."
  },
  {
   "property": "C66",
   "status": "proved",
   "theorems": [
    "C66_v2_exact",
    "C66_v1_exact",
    "C66_keywords",
    "C66_lines",
    "C66_line_breaks",
    "C66_accepted_refuted"
   ],
   "note": "Proved in full as stated; C66_accepted_refuted gives an accepted text taken for KDL v1 and not for KDL v2."
  },
  {
   "property": "C67",
   "status": "proved",
   "theorems": [
    "C67_conservative",
    "C67_accepts",
    "C67_error",
    "C67_intent_refuted"
   ],
   "note": "Proved in full as stated; the documented claim about the intended version is refuted by C67_intent_refuted. The parser of KDL v1 is a parameter."
  },
  {
   "property": "C68",
   "status": "partial",
   "theorems": [
    "C68_data",
    "C68_trailing",
    "C68_comment_refuted",
    "C68_semicolon_refuted",
    "C68_key_refuted"
   ],
   "note": "The natural claim, that the converted text has the data of the document, is false: C68_comment_refuted, C68_semicolon_refuted, C68_key_refuted. Proved: the converted document has them (C68_data), and what is printed after a node (C68_trailing)."
  },
  {
   "property": "C69",
   "status": "partial",
   "theorems": [
    "C69_keeps_data",
    "C69_back",
    "C69_spelling",
    "C69_formats",
    "C69_last",
    "C69_terminator_refuted",
    "C69_key_refuted",
    "C69_multi_refuted",
    "C69_twice_refuted",
    "C69_wide_refuted"
   ],
   "note": "The natural claim, that the result is KDL v1 with the same data, is false: C69_terminator_refuted, C69_key_refuted, C69_multi_refuted, C69_wide_refuted. Proved: data are kept in memory, the spelling of every value with a format on one line, no format of a node changes, and that ensure_v2 undoes it on strings without a line break before the closing quotes. C69_last says what happens to the last node of any document."
  },
  {
   "property": "C70",
   "status": "partial",
   "theorems": [
    "C70_keeps_data",
    "C70_same",
    "C70_parsed",
    "C70_kept",
    "C70_verbatim_refuted",
    "C70_text_refuted",
    "C70_text_partial"
   ],
   "note": "That formatted text denotes the same data is false with kept formats: C70_text_refuted. Proved: data stay in memory, nothing changes without kept formats, with them what is printed is what formatting prints after ensure_v2, and it denotes the same data if strings are spelled such that ensure_v2 keeps them (C70_text_partial; trivia without slashdash, as in C16)."
  },
  {
   "property": "C71",
   "status": "partial",
   "theorems": [
    "C71_lines",
    "C71_position",
    "C71_rounds_down",
    "C71_order",
    "C71_protocol_partial",
    "C71_protocol_exact",
    "C71_protocol_refuted"
   ],
   "note": "Positions are exact with respect to the line breaks of ropey (C71_position). They are those of the protocol if none of the five other line breaks precede (C71_protocol_partial); C71_protocol_refuted shows the need, C71_protocol_exact gives the error."
  },
  {
   "property": "C72",
   "status": "partial",
   "theorems": [
    "C72_last_text",
    "C72_panic",
    "C72_changes_refuted",
    "C72_answers",
    "C72_silent",
    "C72_ranges"
   ],
   "note": "All proved, but for the claim that the last text of a change notification is kept, which is false (C72_changes_refuted). Concurrent handling of notifications is not modelled."
  },
  {
   "property": "C73",
   "status": "partial",
   "theorems": [
    "C73_stable_partial",
    "C73_fixed_exact",
    "C73_one_per_data",
    "C73_bare_partial",
    "C73_returns_refuted",
    "C73_slashdash_refuted",
    "C73_reads_refuted"
   ],
   "note": "False in general: C73_returns_refuted, C73_slashdash_refuted, C73_reads_refuted. Proved for data that C16 can print, without type annotations on entries: with comments dropped for every text (C73_stable_partial, C73_fixed_exact, C73_one_per_data), with comments kept for texts free of slashes and backslashes (C73_bare_partial). Missing: typed entries, texts with comments that are kept."
  },
  {
   "property": "C74",
   "status": "proved",
   "theorems": [
    "C74_document",
    "C74_node",
    "C74_order",
    "C74_once"
   ],
   "note": ""
  },
  {
   "property": "C75",
   "status": "partial",
   "theorems": [
    "C75_single",
    "C75_child",
    "C75_descendant",
    "C75_sibling",
    "C75_neighbor",
    "C75_child_chain",
    "C75_descendant_chain",
    "C75_grandchild_refuted",
    "C75_repeated_refuted",
    "C75_mixed_refuted",
    "C75_scope_child",
    "C75_scope_descendant",
    "C75_scope_inside",
    "C75_scope_refuted",
    "C75_runs",
    "C75_selectors"
   ],
   "note": "Exact for selectors of one or two segments (C75_single, C75_child, C75_descendant, C75_neighbor, C75_sibling). For longer ones the meaning is not the one of the query language: C75_grandchild_refuted, C75_repeated_refuted, C75_mixed_refuted; C75_child_chain and C75_descendant_chain say what it is. scope() >> b in a node selects nothing (C75_scope_inside, C75_scope_refuted). The code is not compiled at this commit."
  },
  {
   "property": "C76",
   "status": "partial",
   "theorems": [
    "C76_panics_exact",
    "C76_query_panics",
    "C76_unwrap_panics",
    "C76_accessors",
    "C76_values",
    "C76_missing",
    "C76_untyped",
    "C76_kinds_refuted",
    "C76_names",
    "C76_texts",
    "C76_ops",
    "C76_ge",
    "C76_combinators"
   ],
   "note": "Proved: when matchers panic, what comparisons mean for present, absent and differently typed values, the string operators on names, which operators are read. The natural claims that no matcher panics, that comparisons only match present values of the same kind and that >= and <= can be written are false: C76_panics_exact, C76_missing, C76_kinds_refuted, C76_ge. The code is not compiled at this commit."
  },
  {
   "property": "C77",
   "status": "partial",
   "theorems": [
    "C77_shape",
    "C77_runs",
    "C77_panics_refuted",
    "C77_ends",
    "C77_blank",
    "C77_written",
    "C77_comma",
    "C77_exact",
    "C77_writes",
    "C77_consumes"
   ],
   "note": "Proved for all parsers of identifiers and values: the shape of parsed queries (C77_shape), that the texts of a grammar with white space where it may be are read as what they say (C77_written) and not at all with a comma after them (C77_comma), that exactly the queries of that shape can be written (C77_exact; these three for parsers that read a quoted text for every name, C77_writes gives some), that the loops end (C77_ends), that leading white space changes nothing (C77_blank), and that a parsed query without string operators on arguments or properties runs on every document (C77_runs). That no parsed query panics is false: C77_panics_refuted. Texts with plain names or raw strings are outside the grammar. Diagnostics are not modelled. The code is not compiled at this commit."
  },
  {
   "property": "C78",
   "status": "partial",
   "theorems": [
    "C78_integers",
    "C78_min_refuted",
    "C78_written",
    "C78_large_refuted",
    "C78_floats",
    "C78_floats_written",
    "C78_fraction_refuted",
    "C78_quoted_exact",
    "C78_raw",
    "C78_strings",
    "C78_quoted",
    "C78_exact",
    "C78_writes",
    "C78_queries",
    "C78_consumes",
    "C78_arg"
   ],
   "note": "Proved: exactly the texts of an inductive grammar of values are read, as what they denote, before what may follow in a query (C78_exact; its parts C78_integers, C78_written, C78_floats, C78_floats_written, C78_strings, C78_quoted, C78_quoted_exact, C78_raw); the query parser with this value parser accepts exactly the queries of the shape of C77 (C78_writes, C78_queries); every argument index below 2^63 can be asked for (C78_arg). False parts: the smallest 64 bit integer cannot be written (C78_min_refuted), a hexadecimal number that does not fit is read as its leading zero (C78_large_refuted), floats with long fractions are refused (C78_fraction_refuted). The code is not compiled at this commit."
  }
 ]
}