# Print Assumptions of every theorem of the manifest

Written by tools/assumptions.py. All the axioms below belong to the standard
library of Coq (Reals, Logic).

## Closed under the global context (no axiom)

* c01_decode_encode
* c01_stream
* c02_encoder_accepts
* c02_encoder_refuses
* c02_encoder_nul
* c02_one_error
* c03_lexing_terminates
* c03_each_call
* c03_tokens_bounded
* c04_no_push_back_overflow
* c05_no_exception_partial
* c05_exception_refuted
* c05_exception2_refuted
* c05_undefined_refuted
* c06_line_counting
* c06_overlong_refuted
* c07_push_back
* c08_integers
* c08_too_large_refuted
* c09_identifiers_partial
* c09_digit_space_refuted
* c09_newline_refuted
* c10_strings_partial
* c10_backslash_refuted
* c10_newline_refuted
* c11_direct_partial
* c11_quoted_partial
* c11_empty_refuted
* c11_space_refuted
* c12_operators_partial
* c12_long_operators
* c12_modulo_refuted
* c13_bounds
* c13_accepted
* c13_rebuild
* c13_negative_refuted
* c14_ranges_partial
* c14_beyond_refuted
* c15_coefficients
* c15_value
* c15_setters
* c16_accepted
* c16_only_partial
* c16_message
* c16_overflow_only
* c16_only_refuted
* c17_roundtrip_partial
* c17_roundtrip_refuted
* c18_counts
* c18_shown
* c18_error_always_shown
* c18_line
* c19_guard
* c19_stream_guard
* c19_counts
* c19_detector
* c20_zero_refuted
* c21_append
* c21_refused
* c21_insert_refuted
* c22_clone_same
* c22_independent
* c22_no_sharing
* c22_lowercase_refuted
* c23_insert
* c23_insert_end
* c23_insert_range
* c23_remove_at
* c23_remove_at_range
* c23_remove
* c23_remove_absent
* c23_replace
* c23_replace_absent
* c23_take_over
* c23_take_over_self_refuted
* c23_get
* c23_get_last
* c23_get_last_empty
* c23_position
* c23_flags
* c23_variables
* c24_set_dim1
* c24_set_dim2
* c24_slash_refuted
* c24_refused
* c25_terminates
* c25_consumes
* c26_no_token_lost
* c26_whole_document
* c27_eaten_balanced
* c27_unbalanced_reported
* c28_accepted
* c28_refused
* c28_idempotent
* c28_blank_last_segment_refuted
* c28_last_not_trimmed_refuted
* c29_names_partial
* c29_refused
* c29_hash
* c29_letter_case_refuted
* c29_hash_name_refuted
* c30_byte_survives
* c30_color_survives
* c30_word_survives
* c30_nan_refuted
* c31_read_back
* c32_product_partial
* c32_quotient_partial
* c32_unambiguous
* c32_modulo
* c32_modulo_units
* c32_order_refuted
* c33_integers_partial
* c33_decimals
* c33_units
* c33_percents
* c33_other_types
* c34_zero_partial
* c34_color_refuted
* c35_add
* c35_multiply
* c35_quotient
* c35_minus
* c35_overflow_refuted
* c35_power
* c35_power_refuted
* c36_relations
* c36_equality
* c36_swap
* c36_unique
* c36_nan_refuted
* c36_incomparable
* c37_match
* c37_parts
* c38_and_or
* c38_unique
* c38_no_truth
* c38_conditional_partial
* c38_unused_operand_refuted
* c39_item
* c39_out_of_range
* c39_map_value
* c39_map_out_of_range_partial
* c39_map_refuted
* c39_field
* c40_concatenation
* c40_no_difference
* c40_repetition
* c40_negative
* c40_no_quotient
* c40_shared_refuted
* c41_intersection
* c41_disjoint
* c41_null
* c42_scoping
* c43_if_chain_partial
* c43_lone_false_if_refuted
* c43_false_block_sets_refuted
* c44_first_directory
* c44_not_found
* c44_absolute
* c44_empty
* c44_readable
* c44_history_partial
* c44_default_stays_refuted
* c44_import_extension
* c44_import_exact
* c44_short_import_refuted
* c44_short_validation_refuted
* c44_validation_exact
* c44_validation_extension
* c44_one_extension
* c45_expansion
* c45_unique
* c45_exists_partial
* c45_hash_refuted
* c46_exact_partial
* c46_one_selector_partial
* c46_product_refuted
* c47_block
* c47_components
* c47_font_face_refuted
* c48_pieces
* c48_same_text
* c49_precedence_partial
* c49_no_conditional
* c49_every_sequence
* c49_result
* c49_meaning
* c49_power_chain_refuted
* c50_range
* c50_set
* c50_guard
* c51_prune
* c51_none_left_partial
* c51_nested_refuted
* c52_kept
* c52_dropped
* c52_cpp_kept
* c52_cpp_dropped
* c52_cpp_close_refuted
* c52_lost_character_refuted
* c53_stored
* c54_plain_css_unchanged
* c55_grammar
* c55_one_output
* c55_reported
* c55_rule
* c55_identifiers
* c55_total
* c55_name_anywhere_refuted
* c55_two_names_refuted
* c55_not_in_not_refuted
* c55_star_dropped_refuted
* c55_exceptions_refuted
* c56_strings
* c56_identifiers
* c56_six_digits_space_refuted
* c56_newline_refuted
* c56_replacement_refuted
* c57_arity
* c57_arity_min_max
* c57_user
* c57_type
* c57_rgb
* c57_hsl
* c57_rgb_refuted
* c58_abs_integer
* c58_abs_refuted
* c58_rounding_integer
* c58_unit
* c58_type_of
* c58_not
* c58_if
* c58_integer_same
* c58_integer_refuted
* c59_hsl_refuted
* c60_str_length
* c60_integer_text
* c60_text
* c60_back
* c60_sign_refuted
* c61_unique_id
* c61_counter
* c61_distinct
* c61_prefix_refuted
* c63_declaration
* c63_block
* c63_ex
* c63_nested_block_kept
* c64_message
* c64_text
* c64_sheet
* c64_charset
* c64_ex
* c65_keyframes
* c65_refused
* c65_empty_frame_refuted
* c65_ex
* c66_unchanged
* c66_injective
* c67_nested_at_refuted
* c67_array_refuted
* c67_nested_media_refuted
* c67_lone_field_refuted
* c67_comment_refuted
* c67_null_refuted
* c67_plain_partial
* c68_slash_refuted
* c68_flag_refuted
* c68_kept_partial
* c69_unique
* c69_layout
* c69_same
* c69_settled
* c69_one
* c70_unique
* c70_exact
* c70_layout
* c70_again
* c70_settled
* c71_kept
* c71_variables
* c71_plain
* c71_same
* c71_inline
* c71_settled
* c71_text_laid
* c71_unset
* c72_around_refuted
* c72_merged_refuted
* c72_empty_refuted
* c72_before_partial
* c72_order_partial
* c73_signed_refuted
* c73_group_refuted
* c73_glued_refuted
* c73_kept_partial
* c74_lexer
* c74_parser
* c74_selectors
* c74_functions
* c74_expressions
* c74_passes
* c74_assembler
* c74_lexer_first
* c74_whole
* c74_no_error
* c74_lexer_error
* c74_parser_error
* c74_variables_error
* c74_rules_error
* c74_ex
* c74_handed_over
* c74_reading
* c74_selector_heard
* c74_import
* c74_call_heard
* c74_text_heard
* c74_blank_text_heard
* c74_ex_parts
* c75_printed
* c75_code
* c75_zero
* c75_zero_when
* c75_stop_read
* c75_stop_compile
* c75_opened
* c75_quiet
* c75_style
* c75_style_unknown
* c75_precision
* c75_paths
* c75_files
* c75_stdin
* c75_missing_file_refuted
* c75_other_file_refuted
* c75_unwritable_refuted
* c75_truncated_refuted
* c75_silent_refuted
* c75_ex
* c75_dates
* c75_args
* c75_header
* c75_passes_start
* c75_styles
* c75_destination
* c75_settings
* c75_ex_options
* c75_names
* c75_quoted_name_refuted
* c76_bad_unit_refuted
* c76_inverse
* c77_variable
* c77_language
* c77_function
* c77_empty

## `ClassicalDedekindReals.sig_forall_dec`, `FunctionalExtensionality.functional_extensionality_dep`

* c58_abs_decimal
* c58_integer
* c76_bad_unit
* c77_back

## `ClassicalDedekindReals.sig_forall_dec`, `ClassicalDedekindReals.sig_not_dec`, `Classical_Prop.classic`, `FunctionalExtensionality.functional_extensionality_dep`

* c20_printed_partial
* c30_in_range
* c30_nearest
* c30_monotone
* c30_integers_clamped
* c33_decimals_rounded
* c36_real_numbers
* c58_rounding
* c58_sign_integer
* c58_sign
* c58_extreme
* c58_decimal_number
* c59_rgb
* c59_rgba
* c59_rgba_color
* c62_sqrt
* c62_not_square
* c62_negative
* c76_trig
* c76_log
* c76_log_refused
* c76_random
* c76_pi
* c77_percentage
