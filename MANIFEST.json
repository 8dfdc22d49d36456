{
 "claims": [
  {
   "property": "C01",
   "status": "proved",
   "theorems": [
    "C01_bytes_accepts_exactly_json",
    "C01_str_accepts_exactly_json",
    "C01_bytes_accepts_config",
    "C01_str_accepts_config"
   ],
   "note": "Iff with the grammar of Spec.v and depth <= 128; the _config theorems are the same for every configuration."
  },
  {
   "property": "C02",
   "status": "proved",
   "theorems": [
    "C02_value_is_denoted_tree_bytes",
    "C02_value_is_denoted_tree_str",
    "C02_denoted_tree_is_returned"
   ],
   "note": "Both directions: the returned value's tree is the one the text denotes, and every denoted tree (within the configuration) is returned."
  },
  {
   "property": "C03",
   "status": "proved",
   "theorems": [
    "C03_entry_points_agree",
    "C03_default_entry_points_agree",
    "C03_any_delegate",
    "C03_tokenizers_agree"
   ],
   "note": "Equality of results for values, documents of any capacity, validators, any delegate, and tokenizer histories."
  },
  {
   "property": "C04",
   "status": "proved",
   "theorems": [
    "C04_C52_parsed_sources",
    "C04_C52_parsed_sources_str",
    "C04_C20_C21_tokens_are_spelled_in_input"
   ],
   "note": "str_unchecked faults in the model unless the bytes are UTF-8; no fault (C05) plus these theorems: every str handed out is a UTF-8 part of the input."
  },
  {
   "property": "C05",
   "status": "proved",
   "theorems": [
    "C05_parsing_returns",
    "C05_parsing_returns_str",
    "C05_any_delegate",
    "C05_any_delegate_str",
    "C05_tokenizer_never_panics"
   ],
   "note": "Faults are panics, undefined behaviour and running out of fuel; none occurs, for every delegate that does not itself panic."
  },
  {
   "property": "C06",
   "status": "proved",
   "theorems": [
    "C06_option_accepts_exactly",
    "C06_same_value_without_comma",
    "C06_option_only_adds",
    "C06_rejected_without_option",
    "C06_accepted_with_option",
    "C06_extra_commas_mean_nothing",
    "C06_accepted_with_option_object"
   ],
   "note": "accepts_exactly is the iff; the others say what a single extra comma does and that it never changes the value."
  },
  {
   "property": "C07",
   "status": "proved",
   "theorems": [
    "C07_limit_is_exact",
    "C07_no_limit_any_depth"
   ],
   "note": "Iff on the depth of the tree; without a limit every depth is accepted."
  },
  {
   "property": "C08",
   "status": "proved",
   "theorems": [
    "C08_root_restriction",
    "C08_scalar_root_error",
    "C08_strict_is_default_with_container_root"
   ],
   "note": "Iff on the root, and the offset and kind of the error for scalar roots."
  },
  {
   "property": "C09",
   "status": "proved",
   "theorems": [
    "C09_C10_validate_bytes",
    "C09_C10_validate_str",
    "C09_C12_document_bytes",
    "C09_C12_document_str"
   ],
   "note": "Documents and validators are functions of the value result, errors included."
  },
  {
   "property": "C10",
   "status": "proved",
   "theorems": [
    "C09_C10_validate_bytes",
    "C09_C10_validate_str"
   ],
   "note": "The validator's kind is the kind of the value, errors included."
  },
  {
   "property": "C11",
   "status": "proved",
   "theorems": [
    "C11_document_to_value_bytes",
    "C11_document_to_value_str",
    "C11_conversion_never_panics"
   ],
   "note": "Conversion gives back the very value, and never panics on a parsed document."
  },
  {
   "property": "C12",
   "status": "proved",
   "theorems": [
    "C09_C12_document_bytes",
    "C09_C12_document_str",
    "C12_document_shape"
   ],
   "note": "The node list is the preorder; document_shape states it on the list alone."
  },
  {
   "property": "C13",
   "status": "proved",
   "theorems": [
    "C13_skip_agrees_with_read",
    "C13_skip_follows_read",
    "C13_skip_total"
   ],
   "note": "From every position in the preorder of a value."
  },
  {
   "property": "C14",
   "status": "proved",
   "theorems": [
    "C14_bounded_capacity",
    "C14_bounded_errors"
   ],
   "note": "Iff on the number of nodes; bounded_errors says which errors remain."
  },
  {
   "property": "C15",
   "status": "proved",
   "theorems": [
    "C15_recording_is_transparent",
    "C15_callbacks_of_truthful_delegate",
    "C15_results_of_truthful_delegate",
    "C15_function_of_input",
    "C15_canonical_log_is_bracketed",
    "C15_canonical_log_of_accepted"
   ],
   "note": "Recording wrapper around any delegate; for truthful delegates the log is a function of the input alone."
  },
  {
   "property": "C16",
   "status": "proved",
   "theorems": [
    "C16_C50_parse_error_offsets",
    "C16_C50_parse_error_offsets_str",
    "C16_C50_any_delegate",
    "C16_C50_token_error_offsets"
   ],
   "note": "Also for arbitrary delegates and for every reachable tokenizer state."
  },
  {
   "property": "C17",
   "status": "proved",
   "theorems": [
    "C17_progress",
    "C17_never_back",
    "C17_iteration_ends"
   ],
   "note": "Offsets grow with every token or error and never fall; iteration ends after at most as many calls as bytes remain."
  },
  {
   "property": "C18",
   "status": "proved",
   "theorems": [
    "C18_peek_is_transparent",
    "C18_peek_predicts"
   ],
   "note": "In every reachable tokenizer state."
  },
  {
   "property": "C19",
   "status": "proved",
   "theorems": [
    "C19_next_or_eof_agrees"
   ],
   "note": "In every reachable tokenizer state."
  },
  {
   "property": "C20",
   "status": "proved",
   "theorems": [
    "C04_C20_C21_tokens_are_spelled_in_input",
    "C20_number_tokens_longest_match",
    "C20_numbers_are_tokenized"
   ],
   "note": "Soundness (tokens are numbers), maximality, and completeness (numbers become tokens)."
  },
  {
   "property": "C21",
   "status": "proved",
   "theorems": [
    "C04_C20_C21_tokens_are_spelled_in_input",
    "C21_string_tokens",
    "C21_strings_are_tokenized"
   ],
   "note": "Soundness and completeness with Spec.v's string grammar."
  },
  {
   "property": "C22",
   "status": "partial",
   "theorems": [
    "C22_decoded_exactly",
    "C22_decoded_is_denoted_partial",
    "C22_every_content_is_parsed",
    "C22_decoded_is_denoted_refuted"
   ],
   "note": "The full property is false of the code and refuted (C22_decoded_is_denoted_refuted): \\b decodes to U+0007, and surrogate pairs of even planes (U+20000.., merged with | instead of +) decode to another character. C22_decoded_exactly says what is decoded for every content; the _partial theorem is an iff: right exactly for contents without those items."
  },
  {
   "property": "C23",
   "status": "proved",
   "theorems": [
    "C23_decoding_never_panics",
    "C23_comparing_never_panics"
   ],
   "note": "For every string a program can have; comparisons included."
  },
  {
   "property": "C24",
   "status": "partial",
   "theorems": [
    "C24_parsed_decoded_len",
    "C24_built_decoded_len_exactly",
    "C24_decoded_len_partial",
    "C24_decoded_len_refuted"
   ],
   "note": "Proved for all parsed strings and for strings built from text in raw form; refuted for built strings kept in JSON form that contain U+0080..U+00FF (counted as one byte). C24_built_decoded_len_exactly gives the exact deficit."
  },
  {
   "property": "C25",
   "status": "proved",
   "theorems": [
    "C25_eq_str_is_text_equality"
   ],
   "note": "Iff, for every obtainable string and every UTF-8 text."
  },
  {
   "property": "C26",
   "status": "partial",
   "theorems": [
    "C26_eq_exactly",
    "C26_eq_is_text_equality_partial",
    "C26_parsed_strings",
    "C26_eq_is_text_equality_refuted"
   ],
   "note": "Refuted: a parsed string with a needless escape and a built raw string with the same text compare unequal, because encoded lengths are compared. C26_eq_exactly characterises == on all pairs; C26_parsed_strings is the full property for two parsed strings."
  },
  {
   "property": "C27",
   "status": "partial",
   "theorems": [
    "C27_eq_reflexive",
    "C27_eq_symmetric",
    "C27_eq_transitive_partial",
    "C27_eq_transitive_refuted",
    "C27_eq_transitive_exactly"
   ],
   "note": "Reflexive and symmetric proved for all; transitivity refuted (same cause as C26). C27_eq_transitive_exactly: given x==y and y==z, x==z holds exactly if x and z have the same form or the same len()."
  },
  {
   "property": "C28",
   "status": "proved",
   "theorems": [
    "C28_cmp_is_text_order",
    "C28_cmp_str_is_text_order",
    "C28_cmp_total_order"
   ],
   "note": "Strictly less iff the decoded text comes first in code point order; total order laws follow."
  },
  {
   "property": "C29",
   "status": "partial",
   "theorems": [
    "C29_cmp_str_consistent",
    "C29_cmp_consistent_partial",
    "C29_cmp_consistent_refuted",
    "C29_cmp_consistent_exactly"
   ],
   "note": "Consistency with str comparison proved; cmp == Equal without == refuted (same cause as C26). C29_cmp_consistent_exactly: cmp is Equal exactly for equal texts, and == then holds exactly if forms or lengths agree."
  },
  {
   "property": "C30",
   "status": "partial",
   "theorems": [
    "C30_hash_bytes_of_text_partial",
    "C30_equal_strings_hash_equally_partial",
    "C30_hash_like_str",
    "C30_equal_strings_hash_equally_refuted",
    "C30_hash_exactly",
    "C30_hashes_agree_exactly"
   ],
   "note": "Equal strings feed the same bytes to the hasher (proved), but in different chunks when one of them is stored with escapes; refuted for Hashers that are sensitive to chunking. C30_hash_exactly gives the exact chunks, C30_hashes_agree_exactly when exactly two strings feed the same chunks."
  },
  {
   "property": "C31",
   "status": "proved",
   "theorems": [
    "C31_from_keeps_text",
    "C31_from_string_is_from_str"
   ],
   "note": "From<&str> and From<String>; the text read back by decoded() is the argument."
  },
  {
   "property": "C32",
   "status": "partial",
   "theorems": [
    "C32_escaping_exactly",
    "C32_escaping_denotes_text_partial",
    "C32_crate_reads_back_exactly",
    "C32_escaping_denotes_text_refuted"
   ],
   "note": "Refuted for control characters other than NUL, TAB, LF, FF, CR: the \\u escapes are written least significant nibble first and with 'a'+nibble, and U+0007 is written as \\b. C32_escaping_exactly / C32_crate_reads_back_exactly are iffs over every text."
  },
  {
   "property": "C33",
   "status": "partial",
   "theorems": [
    "C33_len_exactly",
    "C33_len_partial",
    "C33_len_refuted",
    "C33_is_empty"
   ],
   "note": "is_empty proved in full; len refuted for raw strings with U+0080..U+00FF, exact deficit proved (C33_len_exactly)."
  },
  {
   "property": "C34",
   "status": "proved",
   "theorems": [
    "C34_as_str",
    "C34_decode_if_needed",
    "C34_as_json_str_and_escape"
   ],
   "note": "Each accessor is characterised by the decoded text and the stored form."
  },
  {
   "property": "C35",
   "status": "proved",
   "theorems": [
    "C35_parsed_admits",
    "C35_compact_round_trip"
   ],
   "note": "The written text parses back to the identical value (not only an equal one) under every configuration that admits it."
  },
  {
   "property": "C36",
   "status": "proved",
   "theorems": [
    "C36_C37_layout",
    "C36_compact_is_minified_source",
    "C36_compact_drops_trailing_commas"
   ],
   "note": "minify (SpecWrite.v) is a byte-level scanner independent of the writer; with trailing commas the lexemes are compared."
  },
  {
   "property": "C37",
   "status": "proved",
   "theorems": [
    "C36_C37_layout",
    "C37_pretty_round_trip",
    "C37_to_json_pretty_is_two_spaces_newline",
    "C37_pretty_minifies_to_compact"
   ],
   "note": "pretty_layout (SpecWrite.v) fixes every byte; round trip for whitespace indentation and line ends."
  },
  {
   "property": "C38",
   "status": "partial",
   "theorems": [
    "C38_serializes_iff",
    "C38_reparses_iff",
    "C38_same_texts_iff",
    "C38_round_trip_iff",
    "C38_built_round_trip_partial",
    "C38_built_round_trip_refuted"
   ],
   "note": "Refuted as stated (C38_built_round_trip_refuted): control characters are escaped wrongly (C32) and U+0080..U+00FF are miscounted (C26/C33). C38_serializes_iff, C38_reparses_iff, C38_same_texts_iff and C38_round_trip_iff characterise, for every constructible value and every serializer, exactly when the text is produced, is accepted, denotes the same texts and compares equal; the _partial theorem is the property without the affected characters."
  },
  {
   "property": "C39",
   "status": "proved",
   "theorems": [
    "C39_write_json_to",
    "C39_pretty_write_json_to",
    "C39_pretty_write_json_to_custom",
    "C39_display"
   ],
   "note": "replays: the writer sees the same calls in order, up to and including its first failure, whose error is returned."
  },
  {
   "property": "C40",
   "status": "proved",
   "theorems": [
    "C40_get",
    "C40_get_entry_mut",
    "C40_get_mut",
    "C40_value_lookup"
   ],
   "note": "first_entry names the entry by its decoded key; writing back changes only it."
  },
  {
   "property": "C41",
   "status": "proved",
   "theorems": [
    "C41_value_index"
   ],
   "note": "One theorem for all four accessors, both outcomes."
  },
  {
   "property": "C42",
   "status": "proved",
   "theorems": [
    "C42_integers_exact",
    "C42_integer_literal_value",
    "C42_ranges",
    "C42_values"
   ],
   "note": "Iff with integer_literal (SpecNum.v) and the ranges of all twelve types."
  },
  {
   "property": "C43",
   "status": "proved",
   "theorems": [
    "C43_floats_accept",
    "C43_floats_exact"
   ],
   "note": "The float parser of core is modelled up to the decimal number it reads (sign, digits, exponent with its cap at 65536); the rounding is C83."
  },
  {
   "property": "C44",
   "status": "partial",
   "theorems": [
    "C44_size_hint_lower",
    "C44_size_hint_upper_partial",
    "C44_size_hint_upper_refuted",
    "C44_size_hint_exactly",
    "C44_size_hint_upper_wrong_for_raw_ascii"
   ],
   "note": "Lower bound proved in every state; upper bound proved for strings in JSON form and refuted for raw strings. C44_size_hint_exactly gives hint and remaining chars in every state of a raw string; C44_size_hint_upper_wrong_for_raw_ascii: for ASCII text kept raw the upper bound is always wrong at the start."
  },
  {
   "property": "C45",
   "status": "proved",
   "theorems": [
    "C45_from_exactly",
    "C45_from_never_panics",
    "C45_from_sixth",
    "C45_from_plain",
    "C45_from_panics_on_huge_32bit_text",
    "C45_as_json_exactly",
    "C45_as_json_panics_on_huge_32bit_text"
   ],
   "note": "C45_from_exactly characterises the panic; parsing part: C05 theorems. The capacity hypothesis is necessary on 32-bit (C45_from_panics_on_huge_32bit_text); as_json() on a raw string needs twice the room (C45_as_json_exactly)."
  },
  {
   "property": "C46",
   "status": "proved",
   "theorems": [
    "C46_string_from_json",
    "C46_number_from_json",
    "C46_string_accepts_exactly",
    "C46_number_accepts_exactly",
    "C46_parse_gets_the_literal",
    "C46_other_values",
    "C46_never_panics"
   ],
   "note": "Acceptance iff ws string ws / ws number ws; C67 gives the offsets of the errors for other values."
  },
  {
   "property": "C47",
   "status": "proved",
   "theorems": [
    "C47_builders_set_one_field",
    "C47_builders_commute",
    "C47_last_wins",
    "C47_every_sequence",
    "C47_documented_values"
   ],
   "note": "every_sequence is the general statement; the others are its readable instances."
  },
  {
   "property": "C48",
   "status": "proved",
   "theorems": [
    "C48_whitespace_is_insignificant_in_grammar",
    "C48_whitespace_is_insignificant",
    "C48_documents_and_validation",
    "C48_bounded_documents",
    "C48_inserting_whitespace",
    "C48_accepted_texts_are_spaced"
   ],
   "note": "Any two spacings of the same lexemes give the same result from every entry point."
  },
  {
   "property": "C49",
   "status": "proved",
   "theorems": [
    "C49_truncated_rejected"
   ],
   "note": "Stated for every root that is not a number (a truncated number may be a number)."
  },
  {
   "property": "C50",
   "status": "proved",
   "theorems": [
    "C16_C50_parse_error_offsets",
    "C16_C50_parse_error_offsets_str",
    "C16_C50_any_delegate",
    "C16_C50_token_error_offsets"
   ],
   "note": "Second half of each theorem: offset equals the length for the four kinds."
  },
  {
   "property": "C51",
   "status": "proved",
   "theorems": [
    "C51_texts_are_unambiguous",
    "C51_trailing_commas_add_no_meaning",
    "C51_strings_are_unambiguous"
   ],
   "note": "About the grammar alone, by mutual induction; no bound on lengths."
  },
  {
   "property": "C52",
   "status": "proved",
   "theorems": [
    "C52_document_sources",
    "C52_every_document",
    "C04_C52_parsed_sources",
    "C04_C52_parsed_sources_str"
   ],
   "note": "Values and documents of any capacity: each string or number source is Borrowed and a part of the input."
  },
  {
   "property": "C53",
   "status": "proved",
   "theorems": [
    "C53_any_str_equality",
    "C53_any_str_order",
    "C53_any_str_order_exclusive",
    "C53_any_str_hash"
   ],
   "note": "text_before is the order of str (byte by byte)."
  },
  {
   "property": "C54",
   "status": "proved",
   "theorems": [
    "C54_value_equality",
    "C54_reflexive",
    "C54_symmetric",
    "C54_transitive_if_strings_are",
    "C54_parsed_values",
    "C54_parsed_transitive",
    "C54_never_panics"
   ],
   "note": "related (View.v) is the structural relation; transitivity needs string equality to be transitive, which parsed strings satisfy."
  },
  {
   "property": "C55",
   "status": "proved",
   "theorems": [
    "C55_lexical_errors_surface",
    "C55_accepted_input_tokenizes",
    "C55_lexical_errors_of_values",
    "C55_only_own_kinds_are_added",
    "C55_scalar_parsers_add_only_their_kind"
   ],
   "note": "Lexical errors are those of the tokenizer run; bounded documents and the scalar parsers add only their own kinds."
  },
  {
   "property": "C56",
   "status": "proved",
   "theorems": [
    "C56_error_is_the_described_one",
    "C56_error_is_the_described_one_str",
    "C56_documents_and_validators",
    "C56_accepted_or_wrong",
    "C56_not_both",
    "C56_one_error"
   ],
   "note": "text_error (SpecError.v) describes, independently of the parser, which error a text has; soundness, completeness, uniqueness."
  },
  {
   "property": "C57",
   "status": "proved",
   "theorems": [
    "C57_error_inside_is_final",
    "C57_same_error_for_every_continuation",
    "C57_every_prefix_of_an_accepted_text"
   ],
   "note": "Utf8 and ExpectedColon errors at a cut inside a character are the stated exceptions."
  },
  {
   "property": "C58",
   "status": "proved",
   "theorems": [
    "C58_text_before_the_error_is_viable",
    "C58_first_error"
   ],
   "note": "The part before the error (or before the ill-formed token) is a beginning of some JSON text."
  },
  {
   "property": "C59",
   "status": "proved",
   "theorems": [
    "C59_limit_changes_no_other_result",
    "C59_higher_limit",
    "C59_limit_error_place",
    "C59_no_limit_no_error"
   ],
   "note": "nesting counts open brackets outside strings up to the error."
  },
  {
   "property": "C60",
   "status": "partial",
   "theorems": [
    "C60_message_shape",
    "C60_unexpected_shows_a_number",
    "C60_messages_tell_errors_apart_partial",
    "C60_messages_tell_errors_apart_refuted",
    "C60_messages_show_the_character_refuted",
    "C60_messages_are_printable",
    "C60_display_to_any_writer"
   ],
   "note": "Refuted as stated (C60_messages_tell_errors_apart_refuted, C60_messages_show_the_character_refuted): ExpectedDigit and ExpectedDecimalDigit share a text, Unexpected prints the byte as a decimal number, UnclosedObject prints '}}'. The _partial theorem says exactly which errors share a text."
  },
  {
   "property": "C61",
   "status": "proved",
   "theorems": [
    "C61_info_round_trip",
    "C61_info_exactly",
    "C61_info_equality",
    "C61_debug_tells_apart"
   ],
   "note": "info_exactly covers every usize argument."
  },
  {
   "property": "C62",
   "status": "proved",
   "theorems": [
    "C62_exactly_one_accessor",
    "C62_kind_is_told_by_the_first_byte",
    "C62_scalars_show_their_text",
    "C62_as_str",
    "C62_mutable_accessors"
   ],
   "note": "The first byte decides the accessor; scalars show their source text."
  },
  {
   "property": "C63",
   "status": "proved",
   "theorems": [
    "C63_from_then_accessor",
    "C63_from_text",
    "C63_from_text_panics_like_json_string",
    "C63_from_bool_is_parsed",
    "C63_from_iter"
   ],
   "note": "From bool/object/vec/JsonString/str/String and FromIterator."
  },
  {
   "property": "C69",
   "status": "proved",
   "theorems": [
    "C69_push",
    "C69_insert_front",
    "C69_insert_remove",
    "C69_remove_uncovers",
    "C69_retain"
   ],
   "note": "Vec's methods are modelled from std's documentation."
  },
  {
   "property": "C64",
   "status": "proved",
   "theorems": [
    "C64_scalars",
    "C64_array",
    "C64_object",
    "C64_panics_iff_a_part_panics",
    "C64_compact_is_one_line",
    "C64_pretty_control_characters",
    "C64_pretty_array",
    "C64_pretty_object",
    "C64_pretty_scalars"
   ],
   "note": "Iff statements: the text of a container is composed of the texts of its parts, compact and pretty."
  },
  {
   "property": "C65",
   "status": "proved",
   "theorems": [
    "C65_next_walks_in_order",
    "C65_any_program",
    "C65_reading_an_object",
    "C65_reading_an_array"
   ],
   "note": "any_program: every sequence of next/next_value/skip calls on a document."
  },
  {
   "property": "C68",
   "status": "proved",
   "theorems": [
    "C68_node_count",
    "C68_capacity_that_suffices",
    "C68_node_count_is_tight",
    "C68_compact_not_longer",
    "C68_depth",
    "C68_limit_that_suffices"
   ],
   "note": "Numbers of nodes, depth and text lengths against the input length, with tight examples."
  },
  {
   "property": "C70",
   "status": "proved",
   "theorems": [
    "C70_array",
    "C70_object",
    "C70_limit_zero",
    "C70_scalar_any_limit",
    "C70_wrap"
   ],
   "note": "Iff in both directions, for arrays and objects."
  },
  {
   "property": "C66",
   "status": "proved",
   "theorems": [
    "C66_delegate_errors_are_located",
    "C66_offsets_are_determined",
    "C66_offset_of_delegate_error",
    "C66_described_callbacks_are_made"
   ],
   "note": "value_upto/value_calls (SpecCall.v) describe callbacks and offsets as a relation on texts; soundness for every delegate, uniqueness, and completeness (every described callback is made, shown with a delegate that fails at a given number)."
  },
  {
   "property": "C67",
   "status": "proved",
   "theorems": [
    "C67_too_large_is_located",
    "C67_too_large_is_exact",
    "C67_scalar_errors_are_located",
    "C67_scalar_error_offset"
   ],
   "note": "Iff-style location of the first node that does not fit or of the first event of the wrong kind."
  },
  {
   "property": "C71",
   "status": "proved",
   "theorems": [
    "C71_calls_bounded",
    "C71_bound_is_exact",
    "C71_document_readers",
    "C71_serializer",
    "C71_serializer_bound_is_exact"
   ],
   "note": "C71_calls_bounded says that the parser given room for that many nested calls computes the same result as the parser; C71_bound_is_exact that one call fewer runs out on an explicit family of inputs; C71_document_readers covers hydrate and skip; C71_serializer and C71_serializer_bound_is_exact cover write_json_value. Sizes of stack frames are outside the model."
  },
  {
   "property": "C72",
   "status": "proved",
   "theorems": [
    "C72_callbacks_follow_the_protocol",
    "C72_never_deeper_than_the_limit",
    "C72_balanced_on_success",
    "C72_invariants"
   ],
   "note": "The protocol is an explicit transition relation (callable/uses) written from the trait's documentation; no assumption on the delegate or the input. C72_invariants turns it into an induction principle for delegate authors."
  },
  {
   "property": "C73",
   "status": "proved",
   "theorems": [
    "C73_like_value_equality",
    "C73_document_equality",
    "C73_equal_documents"
   ],
   "note": "document_eq models the derived comparison (lengths, then nodes with short circuit)."
  },
  {
   "property": "C74",
   "status": "proved",
   "theorems": [
    "C74_decoded_one_by_one",
    "C74_as_json_one_by_one",
    "C74_none_is_final"
   ],
   "note": "pulls is a loop over next, independent of the collect loop of the model."
  },
  {
   "property": "C75",
   "status": "proved",
   "theorems": [
    "C75_decoding_does_not_grow",
    "C75_escaping_grows_at_most_sixfold"
   ],
   "note": "Exact counts; the bounds follow."
  },
  {
   "property": "C76",
   "status": "proved",
   "theorems": [
    "C76_same_text_same_value",
    "C76_same_value_iff_same_lexemes",
    "C76_serialization_is_stable",
    "C76_built_strings",
    "C76_built_and_parsed_may_collide"
   ],
   "note": "Values are compared with Coq equality (parsed strings borrow from the input, so the text they hold is all there is). C76_built_and_parsed_may_collide records that a string built from text may have the encoding of a different parsed string, because escapes are wrong (C32)."
  },
  {
   "property": "C77",
   "status": "proved",
   "theorems": [
    "C77_offset_is_state",
    "C77_next_exactly",
    "C77_descriptions_unique",
    "C77_peek_exactly"
   ],
   "note": "token_then/token_error (SpecError), gives_up/resumes/peeked describe the text only."
  },
  {
   "property": "C78",
   "status": "proved",
   "theorems": [
    "C78_callbacks_are_linear"
   ],
   "note": "An amortised (credit) argument. C78_bound_is_attained shows that the factor cannot be improved. Callbacks are the value-producing and error-returning methods; the two &self queries (kind_of, is_empty) are not counted."
  },
  {
   "property": "C79",
   "status": "proved",
   "theorems": [
    "C79_more_permissive",
    "C79_values_and_documents",
    "C79_builders",
    "C79_accepted_once"
   ],
   "note": "Runs in which the delegate panics under the stricter configuration are excluded."
  },
  {
   "property": "C80",
   "status": "proved",
   "theorems": [
    "C80_callbacks_are_causal",
    "C80_tokens_are_causal"
   ],
   "note": "A digit at the end is excluded because the number may go on (C80_after_a_digit); apply the theorem to the part before the number then."
  },
  {
   "property": "C81",
   "status": "proved",
   "theorems": [
    "C81_bounded_documents",
    "C81_string_observations",
    "C81_built_strings",
    "C81_escaping",
    "C81_values",
    "C81_documents",
    "C81_value_observations",
    "C81_serialization",
    "C81_every_delegate",
    "C81_validation"
   ],
   "note": "widen is the translation of the packed info word. The converse fails only where 32 bits run out (C45)."
  },
  {
   "property": "C82",
   "status": "proved",
   "theorems": [
    "C82_stores_the_value",
    "C82_stored_nodes",
    "C82_rejects_what_values_reject",
    "C82_documents_hold_the_value",
    "C82_never_panics",
    "C82_unbounded_collections",
    "C82_str_and_bytes_agree",
    "C82_crate_collections"
   ],
   "note": "CollectionModel.v is doc.rs with the collection abstract; DocModel.v is definitionally its instance at the crate's two collections (C82_crate_collections)."
  },
  {
   "property": "C83",
   "status": "proved",
   "theorems": [
    "C83_as_f64_is_nearest",
    "C83_as_f32_is_nearest",
    "C83_nearest_is_unique",
    "C83_equal_numbers",
    "C83_monotone",
    "C83_representable_is_exact",
    "C83_monotone_f32",
    "C83_representable_is_exact_f32",
    "C83_integers_are_exact",
    "C83_integers_are_exact_f32",
    "C83_long_exponents_refuted"
   ],
   "note": "std's contract (correctly rounded from_str) is modelled by an executable rounding of fractions, proved to meet the IEEE specification in SpecFloat.v (rationals); which decimal number std reads, including its cap on exponent digits, is transcribed. C83_long_exponents_refuted shows the proviso is needed."
  },
  {
   "property": "C84",
   "status": "proved",
   "theorems": [
    "C84_lexemes_tokenize",
    "C84_tokens_unique",
    "C84_parser_reads_the_tokens",
    "C84_without_trailing_commas",
    "C84_default_config"
   ],
   "note": "Iff between parser and token sequence."
  },
  {
   "property": "C85",
   "status": "proved",
   "theorems": [
    "C85_decoded_display",
    "C85_string_display",
    "C85_as_json_display",
    "C85_display_ends"
   ],
   "note": "as_json() of a raw string needs recount_fits (see C32/C45: the second count may overflow near isize::MAX)."
  },
  {
   "property": "C86",
   "status": "proved",
   "theorems": [
    "C86_chains",
    "C86_store_then_read",
    "C86_edits_repeat",
    "C86_elsewhere",
    "C86_text",
    "C86_edit_parsed"
   ],
   "note": "Paths of any length; replaced describes the edit independently of the accessors."
  },
  {
   "property": "C87",
   "status": "proved",
   "theorems": [
    "C87_conversions",
    "C87_decode_copies_only_changed_text",
    "C87_escape_copies_only_changed_text",
    "C87_borrowed_unless_changed"
   ],
   "note": "held is the AnyStr inside; Borrowed/Owned are tracked by the model."
  },
  {
   "property": "C88",
   "status": "proved",
   "theorems": [
    "C88_accepts_exactly_the_grammar",
    "C88_bytes_accepts_exactly_the_grammar",
    "C88_with_a_limit",
    "C88_accepted_is_rfc8259",
    "C88_rfc8259_is_accepted"
   ],
   "note": "The rules are transcribed in SpecAbnf.v, independently of Spec.v."
  },
  {
   "property": "C89",
   "status": "proved",
   "theorems": [
    "C89_parsing_is_linear",
    "C89_tokenizing_is_linear"
   ],
   "note": "LookModel.v instruments the model with a log of positions; LookFacts.v proves that erasing the log gives back the model. The delegate's own work and memory allocation are not counted (C78 bounds the callbacks)."
  },
  {
   "property": "C90",
   "status": "proved",
   "theorems": [
    "C90_nothing_else_is_looked_at",
    "C90_each_position_at_most_five_times",
    "C90_tokenizer_nothing_else_is_looked_at",
    "C90_one_byte_of_look_ahead"
   ],
   "note": "LookModel.v instruments the model with a log of positions; LookFacts.v proves that erasing the log gives back the model; C90_nothing_else_is_looked_at shows the log misses no access."
  },
  {
   "property": "C91",
   "status": "proved",
   "theorems": [
    "C91_runs_correspond",
    "C91_homomorphisms",
    "C91_tee_first",
    "C91_tee_second",
    "C91_stateless_delegates_fold"
   ],
   "note": "A relational parametricity theorem for the parser and its consequences."
  },
  {
   "property": "C92",
   "status": "proved",
   "theorems": [
    "C92_reading_escapes",
    "C92_decoding",
    "C92_escaping",
    "C92_serializing",
    "C92_serializing_parsed",
    "C92_node_lengths"
   ],
   "note": "ReleaseModel.v transcribes the wrapping arithmetic; equality with the checked model."
  },
  {
   "property": "C93",
   "status": "proved",
   "theorems": [
    "C93_calls_carry_text",
    "C93_pretty_calls_carry_text",
    "C93_custom_calls_carry_text",
    "C93_steady"
   ],
   "note": "hands_text: every call's argument is UTF-8 and not empty."
  },
  {
   "property": "C94",
   "status": "proved",
   "theorems": [
    "C94_input_before_an_error_is_text",
    "C94_str_errors_at_char_boundaries",
    "C94_all_entry_points_bytes",
    "C94_all_entry_points_str",
    "C94_tokenizer_until_first_error"
   ],
   "note": "Any delegate, truthful or not; the tokenizer until its first error."
  },
  {
   "property": "C95",
   "status": "proved",
   "theorems": [
    "C95_one_value_per_line",
    "C95_built_values"
   ],
   "note": "lines is str::lines; C95_built_values needs no restriction on the strings."
  },
  {
   "property": "C96",
   "status": "proved",
   "theorems": [
    "C96_token_equality",
    "C96_token_equality_is_equivalence",
    "C96_sign_tests",
    "C96_error_equality",
    "C96_error_equality_is_equality",
    "C96_plain_data",
    "C96_parse_results"
   ],
   "note": "Derived comparisons modelled in EqModel.v; string equality from C26."
  },
  {
   "property": "C97",
   "status": "proved",
   "theorems": [
    "C97_values_print_apart",
    "C97_same_print_equal",
    "C97_strings_print_apart",
    "C97_numbers_print_apart",
    "C97_tokens_print_apart",
    "C97_errors_print_apart",
    "C97_parse_errors_print_apart",
    "C97_configs_print_apart",
    "C97_kinds_print_apart",
    "C97_nodes_print_apart",
    "C97_documents_print_apart",
    "C97_info_print",
    "C97_print_is_utf8",
    "C97_one_line"
   ],
   "note": "Derived Debug modelled in DebugModel.v on std's builders (text, not single calls); std's Unicode tables and the text of PhantomData are parameters."
  },
  {
   "property": "C98",
   "status": "proved",
   "theorems": [
    "C98_parts_are_the_lexemes",
    "C98_parts_in_order",
    "C98_nodes_are_the_lexemes",
    "C98_total_size"
   ],
   "note": "From C84 (the tokens of the text are the tokens of the value) and C36 (the lexemes)."
  },
  {
   "property": "C99",
   "status": "proved",
   "theorems": [
    "C99_no_undefined_behaviour",
    "C99_only_these_panics",
    "C99_what_a_program_can_hold",
    "C99_panics_exactly",
    "C99_every_listed_panic_happens"
   ],
   "note": "By the invariant that everything held is `obtainable`/`constructible`/`document_for`/`reachable`, and, for the converse, a history that makes each of these. The panics are stated twice: as a bound in round figures, and exactly (`C99_panics_exactly`: iff; `C99_every_listed_panic_happens`: none of the listed kinds is idle). Calls are those of the model; the standard library's own panics (allocation failure) are outside it."
  },
  {
   "property": "C100",
   "status": "proved",
   "theorems": [
    "C100_delegates_are_told_the_tokens",
    "C100_told_the_same",
    "C100_parts_are_obtainable"
   ],
   "note": "A Hoare logic over the parser with the invariant that the log so far is the tokens read so far, or all but the last."
  },
  {
   "property": "C101",
   "status": "proved",
   "theorems": [
    "C101_only_json_is_accepted",
    "C101_errors_are_of_the_text",
    "C101_json_is_rejected_by_the_delegate_only",
    "C101_wrong_texts_are_rejected"
   ],
   "note": "The run under the configuration and the run under its tolerant version agree until an answer of the delegate stops it (tf_parse); under the tolerant version every delegate runs along with Value's (C91), whose result C01 and C56 describe."
  }
 ]
}