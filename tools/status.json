{
"C01": [
"proved",
"All int32 characters; streams of any length. CR and FF are line terminators and are excluded from the stream theorem."
],
"C02": [
"proved",
"Exact set of accepted characters, shortest form by the independent definition of UTF-8, one error otherwise."
],
"C03": [
"proved",
"Every byte string. EOF before the end of the input is possible but only with an error reported by the same call; exceptions are those of C05."
],
"C04": [
"proved",
"At most three characters are pushed back between tokens; the 'ran out of space' exception is impossible."
],
"C05": [
"partial",
"False in general (two exceptions and a signed overflow, with witnesses); proved for well formed texts without NUL and U+FFFD, where the only abnormal outcome is the overflow that follows a reported error."
],
"C06": [
"proved",
"Well formed texts; on malformed bytes an over-long LF is counted (refuted with a witness)."
],
"C07": [
"proved",
"Any characters 1..0x10FFFF except U+FFFD (which ungetc ignores by design), up to the capacity of 16."
],
"C08": [
"proved",
"All digit strings (leading zeroes included) up to 2^63-1, optional sign, optional unit; beyond that an error is reported (witness)."
],
"C09": [
"partial",
"Proved for every identifier without line terminators that is well separated from the following text; refuted (witnesses) for a one digit identifier followed by white space and for line feeds."
],
"C10": [
"partial",
"Proved for every string without backslash and line terminators; refuted (witnesses) for these."
],
"C11": [
"partial",
"Proved for both forms and both spacing modes; refuted for the empty URL and for unquoted URLs with a blank. Missing: those cases are bugs of the code."
],
"C12": [
"partial",
"All operators of one character and all longer ones; refuted for % (MODULO drops the next character)."
],
"C13": [
"proved",
"All non negative 32 bit bounds and all packed values; negative bounds are accepted and mangled (witness)."
],
"C14": [
"partial",
"All ranges that end at U+10FFFF or before, all that start at 0, and U+100000-1FFFFF; refuted for other ranges that end beyond U+10FFFF."
],
"C15": [
"proved",
"All 32 bit coefficients, all 64 bit values; a setter leaves the other coefficient unchanged."
],
"C16": [
"partial",
"Acceptance for every text of the grammar with 32 bit coefficients; only these texts are accepted, apart from texts with NUL or 0xFF bytes (refuted with a witness) and 32 bit truncation (witness); every refusal has a message; undefined behaviour only for a run of digits above 2^63-49."
],
"C17": [
"partial",
"All pairs except A <> 0 with B = 0, for which the round trip is refuted for every A."
],
"C18": [
"proved",
"Any sequence of messages and option changes; 32 bit counters; the lines written, their text and destination."
],
"C19": [
"proved",
"Any nesting of counter guards, stream guards and exceptions; the detector is exact below 2^32 errors."
],
"C20": [
"partial",
"All valid doubles up to 2^1000 in magnitude at precisions 0 to 3, and from 0.0001 at precisions 4 to 10: canonical form of the nearest value (error bound in the reals, powers of ten assumed exact in libm). Refuted at precisions 4 to 10 for zero."
],
"C50": [
"proved",
"Every program made of settings, nested guards and exceptions."
],
"C21": [
"proved",
"Any sequence of appended children, any heap. insert_child has no white space guard (witness)."
],
"C22": [
"proved",
"Any history of edits, any finite structure (shared nodes included); the lower case copy of the name, which nothing reads, is not copied (witness). Printing itself is a function of what is seen."
],
"C23": [
"proved",
"All list edits and their exceptions; a node taking over its own children loses them (witness)."
],
"C24": [
"proved",
"All dimensions without a slash (witness for a slash)."
],
"C25": [
"proved",
"Every token list, all six public entry points: always a tree, no exception, and the result does not depend on the fuel once it is linear in the number of tokens."
],
"C26": [
"proved",
"Every token list without error; whole documents for stylesheet, rule_list, declaration_list; component_value (single value) excluded."
],
"C27": [
"proved",
"Tokens eaten without error are balanced; an unbalanced document always gets an error."
],
"C28": [
"partial",
"Exact characterisation of what is accepted and of the result. The full property is refuted on the last segment: it may be blank, and it is not trimmed at its end."
],
"C29": [
"partial",
"Exactly the CSS names and #RGB/#RRGGBB are accepted, with the right value. Refuted by c29_letter_case_refuted: the lookup is case sensitive (Red is not a colour), and by c29_hash_name_refuted: #red is accepted."
],
"C30": [
"proved",
"Also: rounding to nearest, monotonicity, clamping of integers. c30_nan_refuted shows the only exception, NaN, which is outside of the quantifier."
],
"C31": [
"proved",
"Every colour whose alpha byte is 255; the printed text is read by the lexer as one token which stands for the same colour."
],
"C53": [
"proved",
"NaN payloads are not modelled (one NaN)."
],
"C32": [
"partial",
"Exponents of the product and of the quotient are the sum and difference, the result is reduced, malformed units aside; refuted: the text of the unit depends on the order of the operands, so 2px*3em cannot be added to 3em*2px; partial: integers that do not overflow."
],
"C33": [
"partial",
"Integers: exact when the result fits in 64 bits (undefined otherwise, see C35); decimals are rounded to nearest; different units and types are always refused."
],
"C34": [
"partial",
"Every left operand except colours: division and modulo by zero fail. Refuted for colours: red / 0 is accepted."
],
"C35": [
"partial",
"Refuted: each integer operator is undefined exactly when the mathematical result does not fit (theorems with iff)."
],
"C36": [
"proved",
"Integers, decimals that are numbers, percentages, strings and booleans; not a number breaks it (c36_nan_refuted)."
],
"C37": [
"proved",
"All pairs of strings."
],
"C38": [
"partial",
"Truth values and the and, or operators in full; c38_conditional_partial: ?: chooses by the truth value, when the three operands are expressions of plain integers and booleans; for other operands see c49_precedence_partial. Refuted when the operand that is not chosen fails (c38_unused_operand_refuted)."
],
"C39": [
"partial",
"Arrays, lists, fields by name: complete. Maps by index: refuted beyond 2^62 (the doubled index overflows)."
],
"C40": [
"proved",
"All strings and counts; note that the repeated string node is changed in place (c40_shared_refuted)."
],
"C41": [
"proved",
"All pairs of valid ranges, and null as the empty set."
],
"C42": [
"proved",
"every history of block entries, exits, assignments with flags and reads; the reference semantics is in ScopeSpec"
],
"C43": [
"partial",
"whole chains of any length in a settled list of statements, for conditions which evaluate to a truth value; a lone false @if followed by a rule throws, and a block that is not kept is still processed (two refutations)"
],
"C54": [
"proved",
"whole trees, any depth"
],
"C49": [
"partial",
"Every sequence of operands, signs, binary operators, ?: and groups (bounded by nothing) is evaluated as its proper tree says (c49_precedence_partial; c49_no_conditional also proves termination; c49_every_sequence: a proper tree exists for every sequence; c49_result: the value replaces the tokens; c49_meaning: integers and booleans get their usual value). Missing: function calls, indexing, lists and assignments inside groups. Refuted for chains of ** (c49_power_chain_refuted)."
],
"C44": [
"proved",
"find_file: first directory, absolute names, not found, only readable files. Refuted (theorems): the default directory sticks once it was used; @import names of 5 bytes or less never try .scss; short validation script names throw out_of_range."
],
"C45": [
"partial",
"The comment becomes exactly its expansion (relational spec), unique; existence proved when no value is empty or ends with '#'. Refuted otherwise: the '#' at the end of a substituted value is eaten by a following {$b}."
],
"C51": [
"partial",
"The pass removes exactly the nodes with an empty block (found top-down in one pass) and keeps everything else in order; that no empty rule remains is proved when no block consists only of empty rules, and refuted in general by a { b {} } (the outer rule becomes empty and stays)."
],
"C47": [
"proved",
"One block per declaration, blocks made of declarations; the name -csspp-null adds no prefix. Outside a rule (e.g. in @font-face) the emptied outer declaration stays: c47_font_face_refuted."
],
"C46": [
"partial",
"One nested selector with any number of outer selectors is proved; with several nested selectors the code appends all of them to the same copy (c46_exact_partial gives what it makes, c46_product_refuted the counter-example). The pairing step is proved on prepend_selectors; moving the rule is in the model but not covered by a general theorem."
],
"C48": [
"proved",
"Over the model of the whole assembler (Assembler.v): in the four modes the output of any tree ends or fails in the same way, with the same messages, and the four texts spell the same list of pieces (white space round operators, the final semicolon before a closing bracket and the indentation aside)."
],
"C52": [
"partial",
"Proved for every comment text without NUL and U+FFFD: a /* */ comment is kept exactly when it has @preserve, its text is kept and it is output as a single comment; the same for // comments (following // lines are merged, one warning) when their text has no closing mark. Refuted: '// @preserve a */ b' is output as a comment which ends early (c52_cpp_close_refuted), and U+FFFD or NUL after '*' is lost so that '*' and '/' end the output comment (c52_lost_character_refuted)."
],
"C55": [
"partial",
"The code is proved equivalent to a grammar with outputs (c55_grammar, c55_rule), the grammar is unambiguous, refusals are reported, no exception on non-empty brackets. Partial because the claim 'no exception' is refuted for '[]' and ':not()' and the grammar itself lets through selectors which are not CSS (witnesses). The validation scripts and node::to_string are parameters."
],
"C56": [
"partial",
"Proved for every well written sequence of pieces (c56_strings, c56_identifiers). Refuted beyond: a white space after a six digit escape is kept, an escaped newline in a string is kept, an escaped U+FFFD is dropped."
],
"C57": [
"partial",
"Arity, type checks and user functions proved for all functions; refuted in part: rgb(colour, anything) accepts and ignores further parameters (c57_rgb_refuted)."
],
"C58": [
"partial",
"Proved except where refuted: abs() of the smallest integer and integer() of a number outside 64 bits are undefined behaviour."
],
"C59": [
"partial",
"rgb/rgba/frgb/frgba proved; hsl refuted for negative hues (black)."
],
"C60": [
"partial",
"Proved for integers; the sign of a decimal number is refuted (string(-1.5) starts with +)."
],
"C61": [
"partial",
"Uniqueness proved for calls with the same prefix, over every history; refuted across prefixes (x1 + 2 = x + 12)."
],
"C62": [
"proved",
"Root, units, refusals proved for every finite double."
],
"C63": [
"proved",
"c63_declaration, c63_block: any number of declarations whose values are numbers, strings, words, colours or expressions on integers and booleans (filter and -filter fields excepted, they have their own grammar); the values are those of the independent meaning of expressions (PrecSpec)."
],
"C64": [
"proved",
"c64_message, c64_sheet (any number of rules), c64_text, c64_charset (both directions)."
],
"C65": [
"partial",
"c65_keyframes and c65_refused for all frames; c65_empty_frame_refuted: a frame without declarations, valid in CSS, is refused (and so are several moments for one frame)."
],
"C66": [
"proved",
"translate on the class of WholeSpec.v, whole program; nothing missing for that class. The class leaves out decimals, colours, strings, attribute selectors and pseudo-classes."
],
"C67": [
"partial",
"refuted in general (three witnesses, all environments); proved of all layouts of plain sheets"
],
"C68": [
"partial",
"refuted for '/' in border-radius and for unknown flags; proved for ',' and !important"
],
"C69": [
"proved",
"translate on every layout (LaySpec.v) of the sheets of WholeSpec.v, whole program; c69_unique: a text is a layout of one such sheet. Comments in the white space are left out."
],
"C70": [
"proved",
"translate in the four styles on every layout of the sheets of WholeSpec.v, whole program."
],
"C71": [
"proved",
"for every script of VarSpec.v, every layout and every style, including the scripts where a variable is not set (c71_unset: never a text, always the message; that such a run ends with enough fuel is shown on cases only)"
],
"C72": [
"partial",
"Refuted (translate, all environments): declarations around a nested rule are run together, and a rule with only nested rules is left empty. Proved of two declarations of a plain rule in all layouts and styles (c72_order_partial); declarations before a nested rule are shown kept in two cases."
],
"C73": [
"partial",
"Refuted (translate, all environments): signed numbers side by side, all but the first value in parentheses, a value before a parenthesis. Proved in full for plain style sheets (c73_kept_partial): translate is injective on them up to the layout and the style."
],
"C74": [
"proved",
"all the parts, the hand-overs between them and the whole program; every outcome"
],
"C75": [
"partial",
"Proved: the code is 0 or 1; it is 0 exactly when reading, compiling and writing went without errors (warnings with --Werror), then the output is the whole text of the style asked for; errors of a step stop before the output is opened; --quiet/--debug change nothing but what is printed; styles, precision, search paths, file names (read back from the text of the imports by the lexer when free of quotes and backslashes), stdin, the variables of the date and of --args, header and footer. Refuted: a missing file is left as an @import with the code 0; a file name with a backslash names another file, one with a quote two files; an output that cannot be created ends with 0; an exception of the assembler leaves an emptied output; failures which are only warnings are silent with --quiet."
],
"C76": [
"partial",
"Proved for operands up to 2^1000 and the units deg, grad, rad, turn and none. Refuted part (c76_bad_unit for every number and unit, c76_bad_unit_refuted for an instance): another unit is reported as an error but a number comes out all the same. The functions of libm and rand() are parameters."
],
"C77": [
"proved",
"What the lookup of a name gives is a hypothesis; it is the compiler's lookup of variables."
]
}