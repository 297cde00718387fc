{
 "claims": [
  {
   "property": "C01",
   "status": "proved",
   "theorems": [
    "c01_decode_encode",
    "c01_stream"
   ],
   "note": "All int32 characters; streams of any length. CR and FF are line terminators and are excluded from the stream theorem."
  },
  {
   "property": "C02",
   "status": "proved",
   "theorems": [
    "c02_encoder_accepts",
    "c02_encoder_refuses",
    "c02_encoder_nul",
    "c02_one_error"
   ],
   "note": "Exact set of accepted characters, shortest form by the independent definition of UTF-8, one error otherwise."
  },
  {
   "property": "C03",
   "status": "proved",
   "theorems": [
    "c03_lexing_terminates",
    "c03_each_call",
    "c03_tokens_bounded"
   ],
   "note": "Every byte string. EOF before the end of the input is possible but only with an error reported by the same call; exceptions are those of C05."
  },
  {
   "property": "C04",
   "status": "proved",
   "theorems": [
    "c04_no_push_back_overflow"
   ],
   "note": "At most three characters are pushed back between tokens; the 'ran out of space' exception is impossible."
  },
  {
   "property": "C05",
   "status": "partial",
   "theorems": [
    "c05_no_exception_partial",
    "c05_exception_refuted",
    "c05_exception2_refuted",
    "c05_undefined_refuted"
   ],
   "note": "False in general (two exceptions and a signed overflow, with witnesses); proved for well formed texts without NUL and U+FFFD, where the only abnormal outcome is the overflow that follows a reported error."
  },
  {
   "property": "C06",
   "status": "proved",
   "theorems": [
    "c06_line_counting",
    "c06_overlong_refuted"
   ],
   "note": "Well formed texts; on malformed bytes an over-long LF is counted (refuted with a witness)."
  },
  {
   "property": "C07",
   "status": "proved",
   "theorems": [
    "c07_push_back"
   ],
   "note": "Any characters 1..0x10FFFF except U+FFFD (which ungetc ignores by design), up to the capacity of 16."
  },
  {
   "property": "C08",
   "status": "proved",
   "theorems": [
    "c08_integers",
    "c08_too_large_refuted"
   ],
   "note": "All digit strings (leading zeroes included) up to 2^63-1, optional sign, optional unit; beyond that an error is reported (witness)."
  },
  {
   "property": "C09",
   "status": "partial",
   "theorems": [
    "c09_identifiers_partial",
    "c09_digit_space_refuted",
    "c09_newline_refuted"
   ],
   "note": "Proved for every identifier without line terminators that is well separated from the following text; refuted (witnesses) for a one digit identifier followed by white space and for line feeds."
  },
  {
   "property": "C10",
   "status": "partial",
   "theorems": [
    "c10_strings_partial",
    "c10_backslash_refuted",
    "c10_newline_refuted"
   ],
   "note": "Proved for every string without backslash and line terminators; refuted (witnesses) for these."
  },
  {
   "property": "C11",
   "status": "partial",
   "theorems": [
    "c11_direct_partial",
    "c11_quoted_partial",
    "c11_empty_refuted",
    "c11_space_refuted"
   ],
   "note": "Proved for both forms and both spacing modes; refuted for the empty URL and for unquoted URLs with a blank. Missing: those cases are bugs of the code."
  },
  {
   "property": "C12",
   "status": "partial",
   "theorems": [
    "c12_operators_partial",
    "c12_long_operators",
    "c12_modulo_refuted"
   ],
   "note": "All operators of one character and all longer ones; refuted for % (MODULO drops the next character)."
  },
  {
   "property": "C13",
   "status": "proved",
   "theorems": [
    "c13_bounds",
    "c13_accepted",
    "c13_rebuild",
    "c13_negative_refuted"
   ],
   "note": "All non negative 32 bit bounds and all packed values; negative bounds are accepted and mangled (witness)."
  },
  {
   "property": "C14",
   "status": "partial",
   "theorems": [
    "c14_ranges_partial",
    "c14_beyond_refuted"
   ],
   "note": "All ranges that end at U+10FFFF or before, all that start at 0, and U+100000-1FFFFF; refuted for other ranges that end beyond U+10FFFF."
  },
  {
   "property": "C15",
   "status": "proved",
   "theorems": [
    "c15_coefficients",
    "c15_value",
    "c15_setters"
   ],
   "note": "All 32 bit coefficients, all 64 bit values; a setter leaves the other coefficient unchanged."
  },
  {
   "property": "C16",
   "status": "partial",
   "theorems": [
    "c16_accepted",
    "c16_only_partial",
    "c16_message",
    "c16_overflow_only",
    "c16_only_refuted"
   ],
   "note": "Acceptance for every text of the grammar with 32 bit coefficients; only these texts are accepted, apart from texts with NUL or 0xFF bytes (refuted with a witness) and 32 bit truncation (witness); every refusal has a message; undefined behaviour only for a run of digits above 2^63-49."
  },
  {
   "property": "C17",
   "status": "partial",
   "theorems": [
    "c17_roundtrip_partial",
    "c17_roundtrip_refuted"
   ],
   "note": "All pairs except A <> 0 with B = 0, for which the round trip is refuted for every A."
  },
  {
   "property": "C18",
   "status": "proved",
   "theorems": [
    "c18_counts",
    "c18_shown",
    "c18_error_always_shown",
    "c18_line"
   ],
   "note": "Any sequence of messages and option changes; 32 bit counters; the lines written, their text and destination."
  },
  {
   "property": "C19",
   "status": "proved",
   "theorems": [
    "c19_guard",
    "c19_stream_guard",
    "c19_counts",
    "c19_detector"
   ],
   "note": "Any nesting of counter guards, stream guards and exceptions; the detector is exact below 2^32 errors."
  },
  {
   "property": "C20",
   "status": "partial",
   "theorems": [
    "c20_printed_partial",
    "c20_zero_refuted"
   ],
   "note": "All valid doubles up to 2^1000 in magnitude at precisions 0 to 3, and from 0.0001 at precisions 4 to 10: canonical form of the nearest value (error bound in the reals, powers of ten assumed exact in libm). Refuted at precisions 4 to 10 for zero."
  },
  {
   "property": "C21",
   "status": "proved",
   "theorems": [
    "c21_append",
    "c21_refused",
    "c21_insert_refuted"
   ],
   "note": "Any sequence of appended children, any heap. insert_child has no white space guard (witness)."
  },
  {
   "property": "C22",
   "status": "proved",
   "theorems": [
    "c22_clone_same",
    "c22_independent",
    "c22_no_sharing",
    "c22_lowercase_refuted"
   ],
   "note": "Any history of edits, any finite structure (shared nodes included); the lower case copy of the name, which nothing reads, is not copied (witness). Printing itself is a function of what is seen."
  },
  {
   "property": "C23",
   "status": "proved",
   "theorems": [
    "c23_insert",
    "c23_insert_end",
    "c23_insert_range",
    "c23_remove_at",
    "c23_remove_at_range",
    "c23_remove",
    "c23_remove_absent",
    "c23_replace",
    "c23_replace_absent",
    "c23_take_over",
    "c23_take_over_self_refuted",
    "c23_get",
    "c23_get_last",
    "c23_get_last_empty",
    "c23_position",
    "c23_flags",
    "c23_variables"
   ],
   "note": "All list edits and their exceptions; a node taking over its own children loses them (witness)."
  },
  {
   "property": "C24",
   "status": "proved",
   "theorems": [
    "c24_set_dim1",
    "c24_set_dim2",
    "c24_slash_refuted",
    "c24_refused"
   ],
   "note": "All dimensions without a slash (witness for a slash)."
  },
  {
   "property": "C25",
   "status": "proved",
   "theorems": [
    "c25_terminates",
    "c25_consumes"
   ],
   "note": "Every token list, all six public entry points: always a tree, no exception, and the result does not depend on the fuel once it is linear in the number of tokens."
  },
  {
   "property": "C26",
   "status": "proved",
   "theorems": [
    "c26_no_token_lost",
    "c26_whole_document"
   ],
   "note": "Every token list without error; whole documents for stylesheet, rule_list, declaration_list; component_value (single value) excluded."
  },
  {
   "property": "C27",
   "status": "proved",
   "theorems": [
    "c27_eaten_balanced",
    "c27_unbalanced_reported"
   ],
   "note": "Tokens eaten without error are balanced; an unbalanced document always gets an error."
  },
  {
   "property": "C28",
   "status": "partial",
   "theorems": [
    "c28_accepted",
    "c28_refused",
    "c28_idempotent",
    "c28_blank_last_segment_refuted",
    "c28_last_not_trimmed_refuted"
   ],
   "note": "Exact characterisation of what is accepted and of the result. The full property is refuted on the last segment: it may be blank, and it is not trimmed at its end."
  },
  {
   "property": "C29",
   "status": "partial",
   "theorems": [
    "c29_names_partial",
    "c29_refused",
    "c29_hash",
    "c29_letter_case_refuted",
    "c29_hash_name_refuted"
   ],
   "note": "Exactly the CSS names and #RGB/#RRGGBB are accepted, with the right value. Refuted by c29_letter_case_refuted: the lookup is case sensitive (Red is not a colour), and by c29_hash_name_refuted: #red is accepted."
  },
  {
   "property": "C30",
   "status": "proved",
   "theorems": [
    "c30_byte_survives",
    "c30_color_survives",
    "c30_word_survives",
    "c30_in_range",
    "c30_nearest",
    "c30_monotone",
    "c30_integers_clamped",
    "c30_nan_refuted"
   ],
   "note": "Also: rounding to nearest, monotonicity, clamping of integers. c30_nan_refuted shows the only exception, NaN, which is outside of the quantifier."
  },
  {
   "property": "C31",
   "status": "proved",
   "theorems": [
    "c31_read_back"
   ],
   "note": "Every colour whose alpha byte is 255; the printed text is read by the lexer as one token which stands for the same colour."
  },
  {
   "property": "C32",
   "status": "partial",
   "theorems": [
    "c32_product_partial",
    "c32_quotient_partial",
    "c32_unambiguous",
    "c32_modulo",
    "c32_modulo_units",
    "c32_order_refuted"
   ],
   "note": "Exponents of the product and of the quotient are the sum and difference, the result is reduced, malformed units aside; refuted: the text of the unit depends on the order of the operands, so 2px*3em cannot be added to 3em*2px; partial: integers that do not overflow."
  },
  {
   "property": "C33",
   "status": "partial",
   "theorems": [
    "c33_integers_partial",
    "c33_decimals",
    "c33_decimals_rounded",
    "c33_units",
    "c33_percents",
    "c33_other_types"
   ],
   "note": "Integers: exact when the result fits in 64 bits (undefined otherwise, see C35); decimals are rounded to nearest; different units and types are always refused."
  },
  {
   "property": "C34",
   "status": "partial",
   "theorems": [
    "c34_zero_partial",
    "c34_color_refuted"
   ],
   "note": "Every left operand except colours: division and modulo by zero fail. Refuted for colours: red / 0 is accepted."
  },
  {
   "property": "C35",
   "status": "partial",
   "theorems": [
    "c35_add",
    "c35_multiply",
    "c35_quotient",
    "c35_minus",
    "c35_overflow_refuted",
    "c35_power",
    "c35_power_refuted"
   ],
   "note": "Refuted: each integer operator is undefined exactly when the mathematical result does not fit (theorems with iff)."
  },
  {
   "property": "C36",
   "status": "proved",
   "theorems": [
    "c36_relations",
    "c36_equality",
    "c36_swap",
    "c36_unique",
    "c36_real_numbers",
    "c36_nan_refuted",
    "c36_incomparable"
   ],
   "note": "Integers, decimals that are numbers, percentages, strings and booleans; not a number breaks it (c36_nan_refuted)."
  },
  {
   "property": "C37",
   "status": "proved",
   "theorems": [
    "c37_match",
    "c37_parts"
   ],
   "note": "All pairs of strings."
  },
  {
   "property": "C38",
   "status": "partial",
   "theorems": [
    "c38_and_or",
    "c38_unique",
    "c38_no_truth",
    "c38_conditional_partial",
    "c38_unused_operand_refuted"
   ],
   "note": "Truth values and the and, or operators in full; c38_conditional_partial: ?: chooses by the truth value, when the three operands are expressions of plain integers and booleans; for other operands see c49_precedence_partial. Refuted when the operand that is not chosen fails (c38_unused_operand_refuted)."
  },
  {
   "property": "C39",
   "status": "partial",
   "theorems": [
    "c39_item",
    "c39_out_of_range",
    "c39_map_value",
    "c39_map_out_of_range_partial",
    "c39_map_refuted",
    "c39_field"
   ],
   "note": "Arrays, lists, fields by name: complete. Maps by index: refuted beyond 2^62 (the doubled index overflows)."
  },
  {
   "property": "C40",
   "status": "proved",
   "theorems": [
    "c40_concatenation",
    "c40_no_difference",
    "c40_repetition",
    "c40_negative",
    "c40_no_quotient",
    "c40_shared_refuted"
   ],
   "note": "All strings and counts; note that the repeated string node is changed in place (c40_shared_refuted)."
  },
  {
   "property": "C41",
   "status": "proved",
   "theorems": [
    "c41_intersection",
    "c41_disjoint",
    "c41_null"
   ],
   "note": "All pairs of valid ranges, and null as the empty set."
  },
  {
   "property": "C42",
   "status": "proved",
   "theorems": [
    "c42_scoping"
   ],
   "note": "every history of block entries, exits, assignments with flags and reads; the reference semantics is in ScopeSpec"
  },
  {
   "property": "C43",
   "status": "partial",
   "theorems": [
    "c43_if_chain_partial",
    "c43_lone_false_if_refuted",
    "c43_false_block_sets_refuted"
   ],
   "note": "whole chains of any length in a settled list of statements, for conditions which evaluate to a truth value; a lone false @if followed by a rule throws, and a block that is not kept is still processed (two refutations)"
  },
  {
   "property": "C44",
   "status": "proved",
   "theorems": [
    "c44_first_directory",
    "c44_not_found",
    "c44_absolute",
    "c44_empty",
    "c44_readable",
    "c44_history_partial",
    "c44_default_stays_refuted",
    "c44_import_extension",
    "c44_import_exact",
    "c44_short_import_refuted",
    "c44_short_validation_refuted",
    "c44_validation_exact",
    "c44_validation_extension",
    "c44_one_extension"
   ],
   "note": "find_file: first directory, absolute names, not found, only readable files. Refuted (theorems): the default directory sticks once it was used; @import names of 5 bytes or less never try .scss; short validation script names throw out_of_range."
  },
  {
   "property": "C45",
   "status": "partial",
   "theorems": [
    "c45_expansion",
    "c45_unique",
    "c45_exists_partial",
    "c45_hash_refuted"
   ],
   "note": "The comment becomes exactly its expansion (relational spec), unique; existence proved when no value is empty or ends with '#'. Refuted otherwise: the '#' at the end of a substituted value is eaten by a following {$b}."
  },
  {
   "property": "C46",
   "status": "partial",
   "theorems": [
    "c46_exact_partial",
    "c46_one_selector_partial",
    "c46_product_refuted"
   ],
   "note": "One nested selector with any number of outer selectors is proved; with several nested selectors the code appends all of them to the same copy (c46_exact_partial gives what it makes, c46_product_refuted the counter-example). The pairing step is proved on prepend_selectors; moving the rule is in the model but not covered by a general theorem."
  },
  {
   "property": "C47",
   "status": "proved",
   "theorems": [
    "c47_block",
    "c47_components",
    "c47_font_face_refuted"
   ],
   "note": "One block per declaration, blocks made of declarations; the name -csspp-null adds no prefix. Outside a rule (e.g. in @font-face) the emptied outer declaration stays: c47_font_face_refuted."
  },
  {
   "property": "C48",
   "status": "proved",
   "theorems": [
    "c48_pieces",
    "c48_same_text"
   ],
   "note": "Over the model of the whole assembler (Assembler.v): in the four modes the output of any tree ends or fails in the same way, with the same messages, and the four texts spell the same list of pieces (white space round operators, the final semicolon before a closing bracket and the indentation aside)."
  },
  {
   "property": "C49",
   "status": "partial",
   "theorems": [
    "c49_precedence_partial",
    "c49_no_conditional",
    "c49_every_sequence",
    "c49_result",
    "c49_meaning",
    "c49_power_chain_refuted"
   ],
   "note": "Every sequence of operands, signs, binary operators, ?: and groups (bounded by nothing) is evaluated as its proper tree says (c49_precedence_partial; c49_no_conditional also proves termination; c49_every_sequence: a proper tree exists for every sequence; c49_result: the value replaces the tokens; c49_meaning: integers and booleans get their usual value). Missing: function calls, indexing, lists and assignments inside groups. Refuted for chains of ** (c49_power_chain_refuted)."
  },
  {
   "property": "C50",
   "status": "proved",
   "theorems": [
    "c50_range",
    "c50_set",
    "c50_guard"
   ],
   "note": "Every program made of settings, nested guards and exceptions."
  },
  {
   "property": "C51",
   "status": "partial",
   "theorems": [
    "c51_prune",
    "c51_none_left_partial",
    "c51_nested_refuted"
   ],
   "note": "The pass removes exactly the nodes with an empty block (found top-down in one pass) and keeps everything else in order; that no empty rule remains is proved when no block consists only of empty rules, and refuted in general by a { b {} } (the outer rule becomes empty and stays)."
  },
  {
   "property": "C52",
   "status": "partial",
   "theorems": [
    "c52_kept",
    "c52_dropped",
    "c52_cpp_kept",
    "c52_cpp_dropped",
    "c52_cpp_close_refuted",
    "c52_lost_character_refuted"
   ],
   "note": "Proved for every comment text without NUL and U+FFFD: a /* */ comment is kept exactly when it has @preserve, its text is kept and it is output as a single comment; the same for // comments (following // lines are merged, one warning) when their text has no closing mark. Refuted: '// @preserve a */ b' is output as a comment which ends early (c52_cpp_close_refuted), and U+FFFD or NUL after '*' is lost so that '*' and '/' end the output comment (c52_lost_character_refuted)."
  },
  {
   "property": "C53",
   "status": "proved",
   "theorems": [
    "c53_stored"
   ],
   "note": "NaN payloads are not modelled (one NaN)."
  },
  {
   "property": "C54",
   "status": "proved",
   "theorems": [
    "c54_plain_css_unchanged"
   ],
   "note": "whole trees, any depth"
  },
  {
   "property": "C55",
   "status": "partial",
   "theorems": [
    "c55_grammar",
    "c55_one_output",
    "c55_reported",
    "c55_rule",
    "c55_identifiers",
    "c55_total",
    "c55_name_anywhere_refuted",
    "c55_two_names_refuted",
    "c55_not_in_not_refuted",
    "c55_star_dropped_refuted",
    "c55_exceptions_refuted"
   ],
   "note": "The code is proved equivalent to a grammar with outputs (c55_grammar, c55_rule), the grammar is unambiguous, refusals are reported, no exception on non-empty brackets. Partial because the claim 'no exception' is refuted for '[]' and ':not()' and the grammar itself lets through selectors which are not CSS (witnesses). The validation scripts and node::to_string are parameters."
  },
  {
   "property": "C56",
   "status": "partial",
   "theorems": [
    "c56_strings",
    "c56_identifiers",
    "c56_six_digits_space_refuted",
    "c56_newline_refuted",
    "c56_replacement_refuted"
   ],
   "note": "Proved for every well written sequence of pieces (c56_strings, c56_identifiers). Refuted beyond: a white space after a six digit escape is kept, an escaped newline in a string is kept, an escaped U+FFFD is dropped."
  },
  {
   "property": "C57",
   "status": "partial",
   "theorems": [
    "c57_arity",
    "c57_arity_min_max",
    "c57_user",
    "c57_type",
    "c57_rgb",
    "c57_hsl",
    "c57_rgb_refuted"
   ],
   "note": "Arity, type checks and user functions proved for all functions; refuted in part: rgb(colour, anything) accepts and ignores further parameters (c57_rgb_refuted)."
  },
  {
   "property": "C58",
   "status": "partial",
   "theorems": [
    "c58_abs_integer",
    "c58_abs_decimal",
    "c58_abs_refuted",
    "c58_rounding_integer",
    "c58_rounding",
    "c58_sign_integer",
    "c58_sign",
    "c58_extreme",
    "c58_unit",
    "c58_type_of",
    "c58_not",
    "c58_if",
    "c58_integer",
    "c58_integer_same",
    "c58_integer_refuted",
    "c58_decimal_number"
   ],
   "note": "Proved except where refuted: abs() of the smallest integer and integer() of a number outside 64 bits are undefined behaviour."
  },
  {
   "property": "C59",
   "status": "partial",
   "theorems": [
    "c59_rgb",
    "c59_rgba",
    "c59_rgba_color",
    "c59_hsl_refuted"
   ],
   "note": "rgb/rgba/frgb/frgba proved; hsl refuted for negative hues (black)."
  },
  {
   "property": "C60",
   "status": "partial",
   "theorems": [
    "c60_str_length",
    "c60_integer_text",
    "c60_text",
    "c60_back",
    "c60_sign_refuted"
   ],
   "note": "Proved for integers; the sign of a decimal number is refuted (string(-1.5) starts with +)."
  },
  {
   "property": "C61",
   "status": "partial",
   "theorems": [
    "c61_unique_id",
    "c61_counter",
    "c61_distinct",
    "c61_prefix_refuted"
   ],
   "note": "Uniqueness proved for calls with the same prefix, over every history; refuted across prefixes (x1 + 2 = x + 12)."
  },
  {
   "property": "C62",
   "status": "proved",
   "theorems": [
    "c62_sqrt",
    "c62_not_square",
    "c62_negative"
   ],
   "note": "Root, units, refusals proved for every finite double."
  },
  {
   "property": "C63",
   "status": "proved",
   "theorems": [
    "c63_declaration",
    "c63_block",
    "c63_ex",
    "c63_nested_block_kept"
   ],
   "note": "c63_declaration, c63_block: any number of declarations whose values are numbers, strings, words, colours or expressions on integers and booleans (filter and -filter fields excepted, they have their own grammar); the values are those of the independent meaning of expressions (PrecSpec)."
  },
  {
   "property": "C64",
   "status": "proved",
   "theorems": [
    "c64_message",
    "c64_text",
    "c64_sheet",
    "c64_charset",
    "c64_ex"
   ],
   "note": "c64_message, c64_sheet (any number of rules), c64_text, c64_charset (both directions)."
  },
  {
   "property": "C65",
   "status": "partial",
   "theorems": [
    "c65_keyframes",
    "c65_refused",
    "c65_empty_frame_refuted",
    "c65_ex"
   ],
   "note": "c65_keyframes and c65_refused for all frames; c65_empty_frame_refuted: a frame without declarations, valid in CSS, is refused (and so are several moments for one frame)."
  },
  {
   "property": "C66",
   "status": "proved",
   "theorems": [
    "c66_unchanged",
    "c66_injective"
   ],
   "note": "translate on the class of WholeSpec.v, whole program; nothing missing for that class. The class leaves out decimals, colours, strings, attribute selectors and pseudo-classes."
  },
  {
   "property": "C67",
   "status": "partial",
   "theorems": [
    "c67_nested_at_refuted",
    "c67_array_refuted",
    "c67_nested_media_refuted",
    "c67_lone_field_refuted",
    "c67_comment_refuted",
    "c67_null_refuted",
    "c67_plain_partial"
   ],
   "note": "refuted in general (three witnesses, all environments); proved of all layouts of plain sheets"
  },
  {
   "property": "C68",
   "status": "partial",
   "theorems": [
    "c68_slash_refuted",
    "c68_flag_refuted",
    "c68_kept_partial"
   ],
   "note": "refuted for '/' in border-radius and for unknown flags; proved for ',' and !important"
  },
  {
   "property": "C69",
   "status": "proved",
   "theorems": [
    "c69_unique",
    "c69_layout",
    "c69_same",
    "c69_settled",
    "c69_one"
   ],
   "note": "translate on every layout (LaySpec.v) of the sheets of WholeSpec.v, whole program; c69_unique: a text is a layout of one such sheet. Comments in the white space are left out."
  },
  {
   "property": "C70",
   "status": "proved",
   "theorems": [
    "c70_unique",
    "c70_exact",
    "c70_layout",
    "c70_again",
    "c70_settled"
   ],
   "note": "translate in the four styles on every layout of the sheets of WholeSpec.v, whole program."
  },
  {
   "property": "C71",
   "status": "proved",
   "theorems": [
    "c71_kept",
    "c71_variables",
    "c71_plain",
    "c71_same",
    "c71_inline",
    "c71_settled",
    "c71_text_laid",
    "c71_unset"
   ],
   "note": "for every script of VarSpec.v, every layout and every style, including the scripts where a variable is not set (c71_unset: never a text, always the message; that such a run ends with enough fuel is shown on cases only)"
  },
  {
   "property": "C72",
   "status": "partial",
   "theorems": [
    "c72_around_refuted",
    "c72_merged_refuted",
    "c72_empty_refuted",
    "c72_before_partial",
    "c72_order_partial"
   ],
   "note": "Refuted (translate, all environments): declarations around a nested rule are run together, and a rule with only nested rules is left empty. Proved of two declarations of a plain rule in all layouts and styles (c72_order_partial); declarations before a nested rule are shown kept in two cases."
  },
  {
   "property": "C73",
   "status": "partial",
   "theorems": [
    "c73_signed_refuted",
    "c73_group_refuted",
    "c73_glued_refuted",
    "c73_kept_partial"
   ],
   "note": "Refuted (translate, all environments): signed numbers side by side, all but the first value in parentheses, a value before a parenthesis. Proved in full for plain style sheets (c73_kept_partial): translate is injective on them up to the layout and the style."
  },
  {
   "property": "C74",
   "status": "proved",
   "theorems": [
    "c74_lexer",
    "c74_parser",
    "c74_selectors",
    "c74_functions",
    "c74_expressions",
    "c74_passes",
    "c74_assembler",
    "c74_lexer_first",
    "c74_whole",
    "c74_no_error",
    "c74_lexer_error",
    "c74_parser_error",
    "c74_variables_error",
    "c74_rules_error",
    "c74_ex",
    "c74_handed_over",
    "c74_reading",
    "c74_selector_heard",
    "c74_import",
    "c74_call_heard",
    "c74_text_heard",
    "c74_blank_text_heard",
    "c74_ex_parts"
   ],
   "note": "all the parts, the hand-overs between them and the whole program; every outcome"
  },
  {
   "property": "C75",
   "status": "partial",
   "theorems": [
    "c75_printed",
    "c75_code",
    "c75_zero",
    "c75_zero_when",
    "c75_stop_read",
    "c75_stop_compile",
    "c75_opened",
    "c75_quiet",
    "c75_style",
    "c75_style_unknown",
    "c75_precision",
    "c75_paths",
    "c75_files",
    "c75_stdin",
    "c75_missing_file_refuted",
    "c75_other_file_refuted",
    "c75_unwritable_refuted",
    "c75_truncated_refuted",
    "c75_silent_refuted",
    "c75_ex",
    "c75_dates",
    "c75_args",
    "c75_header",
    "c75_passes_start",
    "c75_styles",
    "c75_destination",
    "c75_settings",
    "c75_ex_options",
    "c75_names",
    "c75_quoted_name_refuted"
   ],
   "note": "Proved: the code is 0 or 1; it is 0 exactly when reading, compiling and writing went without errors (warnings with --Werror), then the output is the whole text of the style asked for; errors of a step stop before the output is opened; --quiet/--debug change nothing but what is printed; styles, precision, search paths, file names (read back from the text of the imports by the lexer when free of quotes and backslashes), stdin, the variables of the date and of --args, header and footer. Refuted: a missing file is left as an @import with the code 0; a file name with a backslash names another file, one with a quote two files; an output that cannot be created ends with 0; an exception of the assembler leaves an emptied output; failures which are only warnings are silent with --quiet."
  },
  {
   "property": "C76",
   "status": "partial",
   "theorems": [
    "c76_trig",
    "c76_bad_unit",
    "c76_bad_unit_refuted",
    "c76_inverse",
    "c76_log",
    "c76_log_refused",
    "c76_random",
    "c76_pi"
   ],
   "note": "Proved for operands up to 2^1000 and the units deg, grad, rad, turn and none. Refuted part (c76_bad_unit for every number and unit, c76_bad_unit_refuted for an instance): another unit is reported as an error but a number comes out all the same. The functions of libm and rand() are parameters."
  },
  {
   "property": "C77",
   "status": "proved",
   "theorems": [
    "c77_variable",
    "c77_language",
    "c77_function",
    "c77_empty",
    "c77_percentage",
    "c77_back"
   ],
   "note": "What the lookup of a name gives is a hypothesis; it is the compiler's lookup of variables."
  }
 ]
}