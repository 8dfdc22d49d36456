(** Generated by tools/manifest.py: what the theorems of MANIFEST.json rest on.
    Each command prints "Closed under the global context". *)
From Verif Require Import PropAbnf PropBorrow PropBoundary PropCall PropCanon PropCausal PropClient PropCollection PropData PropDebug PropDelegate PropDepth PropDisplay PropDocEq PropEntry PropEq PropErrors PropEsc PropExact PropFloat PropFused PropIter PropLines PropLook PropMessage PropNumber PropOrder PropParam PropParse PropPath PropPortable PropProgress PropProtocol PropRefuse PropRelease PropSpace PropStr PropStrExact PropText PropTime PropTok PropTokExact PropTokens PropTold PropTrail PropValue PropWork PropWrite PropWriteDepth.

Definition theorems_of_PropAbnf :=
  (@C88_accepts_exactly_the_grammar,
   @C88_bytes_accepts_exactly_the_grammar,
   @C88_with_a_limit,
   @C88_accepted_is_rfc8259,
   @C88_rfc8259_is_accepted).
Print Assumptions theorems_of_PropAbnf.

Definition theorems_of_PropBorrow :=
  (@C87_conversions,
   @C87_decode_copies_only_changed_text,
   @C87_escape_copies_only_changed_text,
   @C87_borrowed_unless_changed).
Print Assumptions theorems_of_PropBorrow.

Definition theorems_of_PropBoundary :=
  (@C94_input_before_an_error_is_text,
   @C94_str_errors_at_char_boundaries,
   @C94_all_entry_points_bytes,
   @C94_all_entry_points_str,
   @C94_tokenizer_until_first_error).
Print Assumptions theorems_of_PropBoundary.

Definition theorems_of_PropCall :=
  (@C66_delegate_errors_are_located,
   @C66_offsets_are_determined,
   @C66_offset_of_delegate_error,
   @C66_described_callbacks_are_made,
   @C67_too_large_is_located,
   @C67_too_large_is_exact,
   @C67_scalar_errors_are_located,
   @C67_scalar_error_offset).
Print Assumptions theorems_of_PropCall.

Definition theorems_of_PropCanon :=
  (@C76_same_text_same_value,
   @C76_same_value_iff_same_lexemes,
   @C76_serialization_is_stable,
   @C76_built_strings,
   @C76_built_and_parsed_may_collide).
Print Assumptions theorems_of_PropCanon.

Definition theorems_of_PropCausal :=
  (@C80_callbacks_are_causal,
   @C80_tokens_are_causal).
Print Assumptions theorems_of_PropCausal.

Definition theorems_of_PropClient :=
  (@C99_no_undefined_behaviour,
   @C99_only_these_panics,
   @C99_what_a_program_can_hold,
   @C99_panics_exactly,
   @C99_every_listed_panic_happens).
Print Assumptions theorems_of_PropClient.

Definition theorems_of_PropCollection :=
  (@C82_stores_the_value,
   @C82_stored_nodes,
   @C82_rejects_what_values_reject,
   @C82_documents_hold_the_value,
   @C82_never_panics,
   @C82_unbounded_collections,
   @C82_str_and_bytes_agree,
   @C82_crate_collections).
Print Assumptions theorems_of_PropCollection.

Definition theorems_of_PropData :=
  (@C61_info_round_trip,
   @C61_info_exactly,
   @C61_info_equality,
   @C62_exactly_one_accessor,
   @C62_kind_is_told_by_the_first_byte,
   @C62_scalars_show_their_text,
   @C62_as_str,
   @C62_mutable_accessors,
   @C63_from_then_accessor,
   @C63_from_text,
   @C63_from_text_panics_like_json_string,
   @C63_from_bool_is_parsed,
   @C63_from_iter,
   @C69_push,
   @C69_insert_front,
   @C69_insert_remove,
   @C69_remove_uncovers,
   @C69_retain).
Print Assumptions theorems_of_PropData.

Definition theorems_of_PropDebug :=
  (@C97_values_print_apart,
   @C97_same_print_equal,
   @C97_strings_print_apart,
   @C97_numbers_print_apart,
   @C97_tokens_print_apart,
   @C97_errors_print_apart,
   @C97_parse_errors_print_apart,
   @C97_configs_print_apart,
   @C97_kinds_print_apart,
   @C97_nodes_print_apart,
   @C97_documents_print_apart,
   @C97_info_print,
   @C97_print_is_utf8,
   @C97_one_line).
Print Assumptions theorems_of_PropDebug.

Definition theorems_of_PropDelegate :=
  (@C15_recording_is_transparent,
   @C15_callbacks_of_truthful_delegate,
   @C15_results_of_truthful_delegate,
   @C15_function_of_input,
   @C15_canonical_log_is_bracketed,
   @C15_canonical_log_of_accepted).
Print Assumptions theorems_of_PropDelegate.

Definition theorems_of_PropDepth :=
  (@C71_calls_bounded,
   @C71_bound_is_exact,
   @C71_document_readers).
Print Assumptions theorems_of_PropDepth.

Definition theorems_of_PropDisplay :=
  (@C85_decoded_display,
   @C85_string_display,
   @C85_as_json_display,
   @C85_display_ends,
   @C61_debug_tells_apart).
Print Assumptions theorems_of_PropDisplay.

Definition theorems_of_PropDocEq :=
  (@C73_like_value_equality,
   @C73_document_equality,
   @C73_equal_documents,
   @C52_document_sources,
   @C52_every_document).
Print Assumptions theorems_of_PropDocEq.

Definition theorems_of_PropEntry :=
  (@C03_entry_points_agree,
   @C03_default_entry_points_agree,
   @C03_any_delegate,
   @C09_C10_validate_bytes,
   @C09_C10_validate_str,
   @C09_C12_document_bytes,
   @C09_C12_document_str,
   @C12_document_shape,
   @C11_document_to_value_bytes,
   @C11_document_to_value_str,
   @C11_conversion_never_panics,
   @C13_skip_agrees_with_read,
   @C13_skip_follows_read,
   @C13_skip_total,
   @C14_bounded_capacity,
   @C14_bounded_errors,
   @C46_string_from_json,
   @C46_number_from_json,
   @C46_string_accepts_exactly,
   @C46_number_accepts_exactly,
   @C46_parse_gets_the_literal,
   @C46_other_values,
   @C46_never_panics).
Print Assumptions theorems_of_PropEntry.

Definition theorems_of_PropEq :=
  (@C96_token_equality,
   @C96_token_equality_is_equivalence,
   @C96_sign_tests,
   @C96_error_equality,
   @C96_error_equality_is_equality,
   @C96_plain_data,
   @C96_parse_results).
Print Assumptions theorems_of_PropEq.

Definition theorems_of_PropErrors :=
  (@C55_lexical_errors_surface,
   @C55_accepted_input_tokenizes,
   @C55_lexical_errors_of_values,
   @C55_only_own_kinds_are_added,
   @C55_scalar_parsers_add_only_their_kind).
Print Assumptions theorems_of_PropErrors.

Definition theorems_of_PropEsc :=
  (@C24_parsed_decoded_len,
   @C24_built_decoded_len_exactly,
   @C24_decoded_len_partial,
   @C24_decoded_len_refuted,
   @C33_len_exactly,
   @C33_len_partial,
   @C33_len_refuted,
   @C33_is_empty,
   @C34_as_str,
   @C34_decode_if_needed,
   @C34_as_json_str_and_escape,
   @C32_escaping_exactly,
   @C32_escaping_denotes_text_partial,
   @C32_crate_reads_back_exactly,
   @C32_escaping_denotes_text_refuted,
   @C44_size_hint_lower,
   @C44_size_hint_upper_partial,
   @C44_size_hint_upper_refuted,
   @C45_from_exactly,
   @C45_from_never_panics,
   @C45_from_sixth,
   @C45_from_plain,
   @C45_from_panics_on_huge_32bit_text,
   @C45_as_json_exactly,
   @C45_as_json_panics_on_huge_32bit_text).
Print Assumptions theorems_of_PropEsc.

Definition theorems_of_PropExact :=
  (@C56_error_is_the_described_one,
   @C56_error_is_the_described_one_str,
   @C56_documents_and_validators,
   @C56_accepted_or_wrong,
   @C56_not_both,
   @C56_one_error,
   @C57_error_inside_is_final,
   @C57_same_error_for_every_continuation,
   @C57_every_prefix_of_an_accepted_text,
   @C58_text_before_the_error_is_viable,
   @C58_first_error,
   @C59_limit_changes_no_other_result,
   @C59_higher_limit,
   @C59_limit_error_place,
   @C59_no_limit_no_error).
Print Assumptions theorems_of_PropExact.

Definition theorems_of_PropFloat :=
  (@C83_as_f64_is_nearest,
   @C83_as_f32_is_nearest,
   @C83_nearest_is_unique,
   @C83_equal_numbers,
   @C83_monotone,
   @C83_representable_is_exact,
   @C83_monotone_f32,
   @C83_representable_is_exact_f32,
   @C83_integers_are_exact,
   @C83_integers_are_exact_f32,
   @C83_long_exponents_refuted).
Print Assumptions theorems_of_PropFloat.

Definition theorems_of_PropFused :=
  (@C74_decoded_one_by_one,
   @C74_as_json_one_by_one,
   @C74_none_is_final,
   @C75_decoding_does_not_grow,
   @C75_escaping_grows_at_most_sixfold).
Print Assumptions theorems_of_PropFused.

Definition theorems_of_PropIter :=
  (@C65_next_walks_in_order,
   @C65_any_program,
   @C65_reading_an_object,
   @C65_reading_an_array,
   @C68_node_count,
   @C68_capacity_that_suffices,
   @C68_node_count_is_tight,
   @C68_compact_not_longer,
   @C68_depth,
   @C68_limit_that_suffices).
Print Assumptions theorems_of_PropIter.

Definition theorems_of_PropLines :=
  (@C95_one_value_per_line,
   @C95_built_values).
Print Assumptions theorems_of_PropLines.

Definition theorems_of_PropLook :=
  (@C90_nothing_else_is_looked_at,
   @C90_each_position_at_most_five_times,
   @C90_tokenizer_nothing_else_is_looked_at,
   @C90_one_byte_of_look_ahead).
Print Assumptions theorems_of_PropLook.

Definition theorems_of_PropMessage :=
  (@C60_message_shape,
   @C60_unexpected_shows_a_number,
   @C60_messages_tell_errors_apart_partial,
   @C60_messages_tell_errors_apart_refuted,
   @C60_messages_show_the_character_refuted,
   @C60_messages_are_printable,
   @C60_display_to_any_writer).
Print Assumptions theorems_of_PropMessage.

Definition theorems_of_PropNumber :=
  (@C42_integers_exact,
   @C42_integer_literal_value,
   @C42_ranges,
   @C42_values,
   @C43_floats_accept,
   @C43_floats_exact).
Print Assumptions theorems_of_PropNumber.

Definition theorems_of_PropOrder :=
  (@C98_parts_are_the_lexemes,
   @C98_parts_in_order,
   @C98_nodes_are_the_lexemes,
   @C98_total_size).
Print Assumptions theorems_of_PropOrder.

Definition theorems_of_PropParam :=
  (@C91_runs_correspond,
   @C91_homomorphisms,
   @C91_tee_first,
   @C91_tee_second,
   @C91_stateless_delegates_fold,
   @C81_bounded_documents).
Print Assumptions theorems_of_PropParam.

Definition theorems_of_PropParse :=
  (@C01_bytes_accepts_exactly_json,
   @C01_str_accepts_exactly_json,
   @C01_bytes_accepts_config,
   @C01_str_accepts_config,
   @C02_value_is_denoted_tree_bytes,
   @C02_value_is_denoted_tree_str,
   @C02_denoted_tree_is_returned,
   @C04_C52_parsed_sources,
   @C04_C52_parsed_sources_str,
   @C05_parsing_returns,
   @C05_parsing_returns_str,
   @C05_any_delegate,
   @C05_any_delegate_str,
   @C06_option_accepts_exactly,
   @C06_same_value_without_comma,
   @C06_option_only_adds,
   @C06_rejected_without_option,
   @C06_accepted_with_option,
   @C07_limit_is_exact,
   @C07_no_limit_any_depth,
   @C08_root_restriction,
   @C08_scalar_root_error,
   @C08_strict_is_default_with_container_root,
   @C16_C50_parse_error_offsets,
   @C16_C50_parse_error_offsets_str,
   @C16_C50_any_delegate,
   @C47_builders_set_one_field,
   @C47_builders_commute,
   @C47_last_wins,
   @C47_every_sequence,
   @C47_documented_values,
   @C49_truncated_rejected,
   @C51_texts_are_unambiguous,
   @C51_trailing_commas_add_no_meaning,
   @C51_strings_are_unambiguous).
Print Assumptions theorems_of_PropParse.

Definition theorems_of_PropPath :=
  (@C86_chains,
   @C86_store_then_read,
   @C86_edits_repeat,
   @C86_elsewhere,
   @C86_text,
   @C86_edit_parsed).
Print Assumptions theorems_of_PropPath.

Definition theorems_of_PropPortable :=
  (@C81_string_observations,
   @C81_built_strings,
   @C81_escaping,
   @C81_values,
   @C81_documents,
   @C81_value_observations,
   @C81_serialization,
   @C81_every_delegate,
   @C81_validation).
Print Assumptions theorems_of_PropPortable.

Definition theorems_of_PropProgress :=
  (@C93_calls_carry_text,
   @C93_pretty_calls_carry_text,
   @C93_custom_calls_carry_text,
   @C93_steady).
Print Assumptions theorems_of_PropProgress.

Definition theorems_of_PropProtocol :=
  (@C72_callbacks_follow_the_protocol,
   @C72_never_deeper_than_the_limit,
   @C72_balanced_on_success,
   @C72_invariants).
Print Assumptions theorems_of_PropProtocol.

Definition theorems_of_PropRefuse :=
  (@C101_only_json_is_accepted,
   @C101_errors_are_of_the_text,
   @C101_json_is_rejected_by_the_delegate_only,
   @C101_wrong_texts_are_rejected).
Print Assumptions theorems_of_PropRefuse.

Definition theorems_of_PropRelease :=
  (@C92_reading_escapes,
   @C92_decoding,
   @C92_escaping,
   @C92_serializing,
   @C92_serializing_parsed,
   @C92_node_lengths).
Print Assumptions theorems_of_PropRelease.

Definition theorems_of_PropSpace :=
  (@C48_whitespace_is_insignificant_in_grammar,
   @C48_whitespace_is_insignificant,
   @C48_documents_and_validation,
   @C48_bounded_documents,
   @C48_inserting_whitespace,
   @C48_accepted_texts_are_spaced).
Print Assumptions theorems_of_PropSpace.

Definition theorems_of_PropStr :=
  (@C22_decoded_exactly,
   @C22_decoded_is_denoted_partial,
   @C22_every_content_is_parsed,
   @C22_decoded_is_denoted_refuted,
   @C23_decoding_never_panics,
   @C23_comparing_never_panics,
   @C25_eq_str_is_text_equality,
   @C26_eq_exactly,
   @C26_eq_is_text_equality_partial,
   @C26_parsed_strings,
   @C26_eq_is_text_equality_refuted,
   @C27_eq_reflexive,
   @C27_eq_symmetric,
   @C27_eq_transitive_partial,
   @C27_eq_transitive_refuted,
   @C28_cmp_is_text_order,
   @C28_cmp_str_is_text_order,
   @C28_cmp_total_order,
   @C29_cmp_str_consistent,
   @C29_cmp_consistent_partial,
   @C29_cmp_consistent_refuted,
   @C30_hash_bytes_of_text_partial,
   @C30_equal_strings_hash_equally_partial,
   @C30_hash_like_str,
   @C30_equal_strings_hash_equally_refuted,
   @C31_from_keeps_text,
   @C31_from_string_is_from_str).
Print Assumptions theorems_of_PropStr.

Definition theorems_of_PropStrExact :=
  (@C27_eq_transitive_exactly,
   @C29_cmp_consistent_exactly,
   @C30_hash_exactly,
   @C30_hashes_agree_exactly,
   @C44_size_hint_exactly,
   @C44_size_hint_upper_wrong_for_raw_ascii).
Print Assumptions theorems_of_PropStrExact.

Definition theorems_of_PropText :=
  (@C64_scalars,
   @C64_array,
   @C64_object,
   @C64_panics_iff_a_part_panics,
   @C64_compact_is_one_line,
   @C64_pretty_control_characters,
   @C64_pretty_array,
   @C64_pretty_object,
   @C64_pretty_scalars,
   @C70_array,
   @C70_object,
   @C70_limit_zero,
   @C70_scalar_any_limit,
   @C70_wrap).
Print Assumptions theorems_of_PropText.

Definition theorems_of_PropTime :=
  (@C89_parsing_is_linear,
   @C89_tokenizing_is_linear).
Print Assumptions theorems_of_PropTime.

Definition theorems_of_PropTok :=
  (@C03_tokenizers_agree,
   @C16_C50_token_error_offsets,
   @C05_tokenizer_never_panics,
   @C04_C20_C21_tokens_are_spelled_in_input,
   @C17_progress,
   @C17_never_back,
   @C17_iteration_ends,
   @C18_peek_is_transparent,
   @C18_peek_predicts,
   @C19_next_or_eof_agrees,
   @C20_number_tokens_longest_match,
   @C20_numbers_are_tokenized,
   @C21_string_tokens,
   @C21_strings_are_tokenized).
Print Assumptions theorems_of_PropTok.

Definition theorems_of_PropTokExact :=
  (@C77_offset_is_state,
   @C77_next_exactly,
   @C77_descriptions_unique,
   @C77_peek_exactly).
Print Assumptions theorems_of_PropTokExact.

Definition theorems_of_PropTokens :=
  (@C84_lexemes_tokenize,
   @C84_tokens_unique,
   @C84_parser_reads_the_tokens,
   @C84_without_trailing_commas,
   @C84_default_config).
Print Assumptions theorems_of_PropTokens.

Definition theorems_of_PropTold :=
  (@C100_delegates_are_told_the_tokens,
   @C100_told_the_same,
   @C100_parts_are_obtainable).
Print Assumptions theorems_of_PropTold.

Definition theorems_of_PropTrail :=
  (@C06_extra_commas_mean_nothing,
   @C06_accepted_with_option_object).
Print Assumptions theorems_of_PropTrail.

Definition theorems_of_PropValue :=
  (@C53_any_str_equality,
   @C53_any_str_order,
   @C53_any_str_order_exclusive,
   @C53_any_str_hash,
   @C54_value_equality,
   @C54_reflexive,
   @C54_symmetric,
   @C54_transitive_if_strings_are,
   @C54_parsed_values,
   @C54_parsed_transitive,
   @C54_never_panics,
   @C40_get,
   @C40_get_entry_mut,
   @C40_get_mut,
   @C40_value_lookup,
   @C41_value_index).
Print Assumptions theorems_of_PropValue.

Definition theorems_of_PropWork :=
  (@C78_callbacks_are_linear,
   @C79_more_permissive,
   @C79_values_and_documents,
   @C79_builders,
   @C79_accepted_once).
Print Assumptions theorems_of_PropWork.

Definition theorems_of_PropWrite :=
  (@C39_write_json_to,
   @C39_pretty_write_json_to,
   @C39_pretty_write_json_to_custom,
   @C39_display,
   @C36_C37_layout,
   @C35_parsed_admits,
   @C35_compact_round_trip,
   @C36_compact_is_minified_source,
   @C36_compact_drops_trailing_commas,
   @C37_pretty_round_trip,
   @C37_to_json_pretty_is_two_spaces_newline,
   @C37_pretty_minifies_to_compact,
   @C38_serializes_iff,
   @C38_reparses_iff,
   @C38_same_texts_iff,
   @C38_round_trip_iff,
   @C38_built_round_trip_partial,
   @C38_built_round_trip_refuted).
Print Assumptions theorems_of_PropWrite.

Definition theorems_of_PropWriteDepth :=
  (@C71_serializer,
   @C71_serializer_bound_is_exact).
Print Assumptions theorems_of_PropWriteDepth.
