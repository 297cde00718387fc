{"id": "C01", "title": "UTF-8 encode/decode round trip", "statement": "Encoding any character that the encoder accepts and giving the resulting bytes to the decoder (directly, or as an input stream read character by character) returns the same character without emitting any error.", "quantifier": "every 32 bit wide character and every continuation of the input stream", "why_tests_cant": "there are over a million code points times arbitrary following bytes", "anchors": ["csspp/lexer.cpp: lexer::wctomb, lexer::mbtowc, lexer::getc"]}
{"id": "C02", "title": "UTF-8 encoder accepts exactly the valid characters", "statement": "The encoder produces a non-empty, standard (shortest form) UTF-8 sequence for exactly the characters 1..0x10FFFF which are neither surrogates nor end in FFFE/FFFF; for every other character it emits one error and produces nothing.", "quantifier": "every 32 bit wide character", "why_tests_cant": "the statement is about the whole 32 bit domain", "anchors": ["csspp/lexer.cpp: lexer::wctomb"]}
{"id": "C03", "title": "Lexing always terminates", "statement": "On every byte string, repeatedly asking the lexer for the next token reaches the EOF token after at most one call per input byte, or stops on an exception; it never loops for ever and every token other than EOF consumes at least one byte.", "quantifier": "every byte string used as input", "why_tests_cant": "non-termination cannot be observed by a finite test and the inputs are unbounded", "anchors": ["csspp/lexer.cpp: lexer::next_token and all functions it calls"]}
{"id": "C04", "title": "Push-back buffer of the lexer never overflows", "statement": "Whatever the input, the lexer never needs more push-back space than it has, so the internal exception 'ran out of space' is never thrown.", "quantifier": "every byte string and every number of tokens read", "why_tests_cant": "depth depends on arbitrary token sequences", "anchors": ["csspp/lexer.cpp: lexer::ungetc, lexer::next_token"]}
{"id": "C05", "title": "The lexer does not throw on user input", "statement": "Reading tokens from any input reports problems through the error log and never raises an internal logic exception.", "quantifier": "every byte string", "why_tests_cant": "needs all the inputs, malformed UTF-8 included", "anchors": ["csspp/lexer.cpp: lexer::ungetc, lexer::identifier, lexer::next_token"]}
{"id": "C06", "title": "Line counting", "statement": "The line number maintained by the lexer is the starting line plus the number of line terminators (LF, CR, CR LF counted once) consumed from the input; form feeds count pages and restart lines at one.", "quantifier": "every byte string, every prefix consumed", "why_tests_cant": "arbitrary mixes of terminators", "anchors": ["csspp/lexer.cpp: lexer::getc", "csspp/position.cpp: position::next_line, next_page"]}
{"id": "C07", "title": "Peeked characters are given back unchanged", "statement": "Pushing back characters and reading again returns them in last-in first-out order without touching the rest of the input.", "quantifier": "every character pushed back and every lexer state", "why_tests_cant": "quantifies over all lexer states", "anchors": ["csspp/lexer.cpp: lexer::getc, lexer::ungetc"]}
{"id": "C08", "title": "Integers are read exactly", "statement": "The decimal notation of every integer from 0 to 2^63-1, optionally signed, followed by anything that cannot extend a number, is read as one INTEGER token with that value and no error.", "quantifier": "every integer in the 64 bit range and every continuation", "why_tests_cant": "2^64 values times arbitrary continuations", "anchors": ["csspp/lexer.cpp: lexer::number"]}
{"id": "C09", "title": "Identifier output can be read back", "statement": "Writing an identifier with the escaping used by the assembler and lexing the result gives the same identifier.", "quantifier": "every identifier string", "why_tests_cant": "all strings over Unicode", "anchors": ["csspp/assembler.cpp: escape_id", "csspp/lexer.cpp: lexer::identifier, lexer::escape"]}
{"id": "C10", "title": "String output can be read back", "statement": "Writing a string with the quoting used by the assembler and lexing the result gives the same string.", "quantifier": "every string contents", "why_tests_cant": "all strings over Unicode", "anchors": ["csspp/assembler.cpp: output_string", "csspp/lexer.cpp: lexer::string"]}
{"id": "C11", "title": "URL output can be read back", "statement": "Writing a URL the way the assembler does and lexing the result gives the same URL.", "quantifier": "every URL string", "why_tests_cant": "all strings over Unicode", "anchors": ["csspp/assembler.cpp: output_url", "csspp/lexer.cpp: lexer::identifier"]}
{"id": "C12", "title": "No input character is silently dropped after an operator", "statement": "Reading a one character operator token consumes that character only: what follows is still available to the next token.", "quantifier": "every operator character and every continuation", "why_tests_cant": "arbitrary continuations", "anchors": ["csspp/lexer.cpp: lexer::next_token"]}
{"id": "C13", "title": "Unicode ranges store their bounds faithfully", "statement": "A unicode range built from two bounds returns the same bounds, whenever the bounds are accepted, and re-building it from its packed value gives an equal range; bounds that are out of range or reversed are refused with an overflow exception.", "quantifier": "every pair of 32 bit bounds and every packed 64 bit value", "why_tests_cant": "2^64 pairs", "anchors": ["csspp/unicode_range.cpp"]}
{"id": "C14", "title": "Unicode range output can be read back", "statement": "Lexing 'U+' followed by the textual form of a unicode range gives a range that covers the same valid Unicode characters.", "quantifier": "every valid range", "why_tests_cant": "about 10^12 ranges", "anchors": ["csspp/unicode_range.cpp: unicode_range_t::to_string", "csspp/lexer.cpp: lexer::unicode_range"]}
{"id": "C15", "title": "nth-child values store their coefficients faithfully", "statement": "An An+B value packed in 64 bits gives back A and B and re-packing gives the same 64 bit value.", "quantifier": "every pair of 32 bit coefficients and every packed value", "why_tests_cant": "2^64 values", "anchors": ["csspp/nth_child.cpp", "csspp/nth_child.h"]}
{"id": "C16", "title": "nth-child parsing accepts exactly its grammar", "statement": "Parsing succeeds exactly on 'odd', 'even', an integer, or an integer immediately followed by n, a sign and an integer, with optional spaces, and returns the coefficients written; everything else is refused with an error message.", "quantifier": "every byte string", "why_tests_cant": "all strings", "anchors": ["csspp/nth_child.cpp: nth_child::parse"]}
{"id": "C17", "title": "nth-child output can be parsed back", "statement": "Parsing the textual form of an An+B value gives the same value.", "quantifier": "every pair of 32 bit coefficients", "why_tests_cant": "2^64 values", "anchors": ["csspp/nth_child.cpp: nth_child::to_string, parse"]}
{"id": "C18", "title": "Error and warning accounting", "statement": "After any sequence of messages the error count is the number of errors and fatal errors (plus warnings when warnings are errors), the warning count is the number of warnings that were not hidden or turned into errors, and every error message is printed whatever the hiding options.", "quantifier": "every sequence of messages and option changes", "why_tests_cant": "arbitrary histories", "anchors": ["csspp/error.cpp: error::operator <<", "csspp/error.h"]}
{"id": "C19", "title": "Error suppression restores the counters", "statement": "Anything executed under the counter guard leaves the error and warning counts as they were before, including when guards are nested; the error detector reports true exactly when the counts changed.", "quantifier": "every sequence of messages inside nested guards", "why_tests_cant": "arbitrary nesting", "anchors": ["csspp/error.cpp: safe_error_t, error_happened_t, safe_error_stream_t"]}
{"id": "C20", "title": "Decimal numbers are printed in canonical form", "statement": "The printed form of a decimal number at precision p is the value rounded to p digits with no superfluous zeroes: no trailing fractional zero, no trailing period, never '-0'.", "quantifier": "every finite number and every precision 0 to 10", "why_tests_cant": "2^64 doubles times 11 precisions", "anchors": ["csspp/csspp.cpp: decimal_number_to_string, set_precision"]}
{"id": "C21", "title": "Child lists never hold EOF nor repeated white space", "statement": "A node built by appending children contains no EOF child and never two WHITESPACE children in a row, and holds all other children in order.", "quantifier": "every sequence of appended nodes", "why_tests_cant": "arbitrary sequences", "anchors": ["csspp/node.cpp: node::add_child"]}
{"id": "C22", "title": "Clones are deep copies", "statement": "A clone prints and evaluates as the original and later changes to either never change the other.", "quantifier": "every tree and every sequence of later updates", "why_tests_cant": "aliasing must be excluded for all heaps and update histories", "anchors": ["csspp/node.cpp: node::clone"]}
{"id": "C23", "title": "Child list edits", "statement": "Inserting, removing, replacing and taking over children have the list semantics: other children keep their order, out of range positions raise an exception and change nothing.", "quantifier": "every child list and every index", "why_tests_cant": "arbitrary list/index", "anchors": ["csspp/node.cpp: insert_child, remove_child, replace_child, take_over_children_of"]}
{"id": "C24", "title": "First and second dimensions are independent", "statement": "Setting the first (second) dimension of a font metric is what the getter returns and does not change the second (first) one.", "quantifier": "every dimension string without a slash and every prior state", "why_tests_cant": "all strings, all histories of setter calls", "anchors": ["csspp/node.cpp: get_dim1, set_dim1, get_dim2, set_dim2"]}
{"id": "C25", "title": "Parsing always terminates", "statement": "On every token sequence the parser returns (a tree or an exception) after consuming tokens; nested input of any depth terminates.", "quantifier": "every token sequence", "why_tests_cant": "unbounded token streams, unbounded nesting", "anchors": ["csspp/parser.cpp"]}
{"id": "C26", "title": "Parsing loses no token", "statement": "When parsing a style sheet reports no error, the leaves of the tree are exactly the input tokens in order, apart from the white space, semicolons, CDO/CDC and the brackets represented by the tree structure itself.", "quantifier": "every token sequence accepted without error", "why_tests_cant": "all token sequences", "anchors": ["csspp/parser.cpp: stylesheet, qualified_rule, component_value, block"]}
{"id": "C27", "title": "Unbalanced brackets are always reported", "statement": "If the brackets of the token sequence are not balanced then parsing reports at least one error.", "quantifier": "every token sequence", "why_tests_cant": "all token sequences", "anchors": ["csspp/parser.cpp: component_value_list, block, component_value"]}
{"id": "C28", "title": "Argument splitting", "statement": "Splitting a list on commas gives exactly the comma separated segments, trimmed of white space, and is refused with an error exactly when a segment is empty.", "quantifier": "every list of tokens", "why_tests_cant": "arbitrary lists", "anchors": ["csspp/parser.cpp: parser::argify"]}
{"id": "C29", "title": "Named colours", "statement": "Looking up a colour name finds exactly the names of the CSS colour table, whatever their letter case, with the tabulated value, and any other word is refused.", "quantifier": "every string", "why_tests_cant": "all strings", "anchors": ["csspp/color.cpp: color::set_color"]}
{"id": "C30", "title": "Colour components survive storage", "statement": "A byte component stored as a fraction and converted back to a byte is unchanged, and any component conversion yields a value in 0..255.", "quantifier": "every byte; every finite component value", "why_tests_cant": "component values are arbitrary floats", "anchors": ["csspp/color.cpp: set_color, get_color, color_component_to_byte"]}
{"id": "C31", "title": "Solid colour output can be read back", "statement": "The text printed for a solid colour (a name, #RGB or #RRGGBB) denotes the same colour when parsed again.", "quantifier": "every 24 bit colour", "why_tests_cant": "16 million colours", "anchors": ["csspp/color.cpp: color::to_string, color::set_color"]}
{"id": "C32", "title": "Dimension algebra", "statement": "The unit of a product (quotient) is the product (quotient) of the units: common units of numerator and denominator cancel, none is lost, none is invented, and the order of operands does not matter.", "quantifier": "every pair of well formed units", "why_tests_cant": "units are arbitrary expressions", "anchors": ["csspp/expr_multiplicative.cpp: dimensions_to_vectors, multiplicative_dimension, rebuild_dimension"]}
{"id": "C33", "title": "Addition requires equal units", "statement": "Adding or subtracting numbers succeeds only when their units are equal and then gives the exact sum (difference) with that unit; numbers with different units always give an error and no value.", "quantifier": "every pair of operands", "why_tests_cant": "arbitrary operands", "anchors": ["csspp/expr_additive.cpp: add"]}
{"id": "C34", "title": "Division and modulo by zero are refused", "statement": "Dividing (modulo) by an integer or decimal zero always reports an error and never evaluates the division.", "quantifier": "every left operand", "why_tests_cant": "arbitrary operands", "anchors": ["csspp/expr_multiplicative.cpp: multiply"]}
{"id": "C35", "title": "Integer arithmetic has no undefined behaviour", "statement": "Evaluating integer operators on any operands gives a result or an error, never an arithmetic overflow.", "quantifier": "every pair of 64 bit integers", "why_tests_cant": "2^128 pairs", "anchors": ["csspp/expr_additive.cpp: add", "csspp/expr_multiplicative.cpp: multiply"]}
{"id": "C36", "title": "Comparisons are coherent", "statement": "For two comparable values exactly one of <, =, > holds, <= and >= are their unions, equality is symmetric, and != is its negation.", "quantifier": "every pair of comparable integers, strings, decimals that are not NaN", "why_tests_cant": "arbitrary operands", "anchors": ["csspp/expr_relational.cpp", "csspp/expr_equality.cpp"]}
{"id": "C37", "title": "Match operators", "statement": "^=, $=, *=, ~= and |= tell whether the left string is respectively a prefix, a suffix, a substring, a space separated part and a dash separated part of the right one.", "quantifier": "every pair of strings", "why_tests_cant": "all pairs of strings", "anchors": ["csspp/expr_equality.cpp: match"]}
{"id": "C38", "title": "Logical operators and truth values", "statement": "&& and || (and, or) and the condition of ?: follow the truth value of their operands for every type of value that has one; the other values are refused with an error.", "quantifier": "every pair of operands", "why_tests_cant": "arbitrary operands", "anchors": ["csspp/expr_logical_and.cpp", "csspp/expr_logical_or.cpp", "csspp/expr_conditional.cpp", "csspp/node.cpp: to_boolean"]}
{"id": "C39", "title": "Indexing of arrays and maps", "statement": "In an array of n items, index i (1..n) gives the i-th item, -i gives the i-th from the end and any other index is refused with an error; the same for the values of a map; map.name gives the value of the first pair with that name, or an error.", "quantifier": "every array and every 64 bit index", "why_tests_cant": "unbounded arrays, 2^64 indexes", "anchors": ["csspp/expr_unary.cpp", "csspp/expr_list.cpp"]}
{"id": "C40", "title": "String repetition and concatenation", "statement": "Adding two strings concatenates them; multiplying a string by n >= 0 repeats it n times; a negative count is refused.", "quantifier": "every string and every count", "why_tests_cant": "unbounded", "anchors": ["csspp/expr_additive.cpp", "csspp/expr_multiplicative.cpp"]}
{"id": "C41", "title": "Unicode range intersection", "statement": "Multiplying two unicode ranges gives the range of the characters that are in both, or null when there is none.", "quantifier": "every pair of valid ranges", "why_tests_cant": "10^24 pairs", "anchors": ["csspp/expr_multiplicative.cpp: multiply"]}
{"id": "C42", "title": "Variable scoping", "statement": "A variable set inside a block is visible in that block and the blocks it contains, shadows outer definitions and leaves them unchanged; a !global set is visible everywhere; a !default set never changes an existing value.", "quantifier": "every sequence of block entries, exits, sets and reads", "why_tests_cant": "arbitrary histories", "anchors": ["csspp/compiler.cpp: compiler_state_t::set_variable, get_variable, compiler::set_variable"]}
{"id": "C43", "title": "Exactly one branch of an @if chain is kept", "statement": "In a chain @if, @else if, ..., @else the statements of the first true condition (or of the final @else when none is true) replace the chain and nothing else remains.", "quantifier": "every chain length and every combination of conditions", "why_tests_cant": "unbounded chains", "anchors": ["csspp/compiler.cpp: replace_if, replace_else"]}
{"id": "C44", "title": "Import file lookup", "statement": "A relative file name resolves to the first directory of the search path which holds the file, an absolute name only to itself, and nothing is returned when no file exists.", "quantifier": "every file system state, path list and file name", "why_tests_cant": "arbitrary environments", "anchors": ["csspp/compiler.cpp: compiler_state_t::find_file"]}
{"id": "C45", "title": "Variables in comments", "statement": "Replacing ${...}-style variable references in a comment changes only the references and substitutes each with its value; replaced text is not scanned again.", "quantifier": "every comment text and every variable environment", "why_tests_cant": "all strings", "anchors": ["csspp/compiler.cpp: replace_variables_in_comment"]}
{"id": "C46", "title": "Nested rules combine every pair of selectors", "statement": "A rule nested inside another one is output with every combination of an outer selector and an inner selector.", "quantifier": "every pair of selector lists", "why_tests_cant": "arbitrary lists", "anchors": ["csspp/compiler.cpp: expand_nested_rules"]}
{"id": "C47", "title": "Nested declarations are prefixed", "statement": "A declaration nested in a declaration block named n is output under the name n-name, at any depth, in the original order.", "quantifier": "every nesting of declaration blocks", "why_tests_cant": "unbounded nesting", "anchors": ["csspp/compiler.cpp: expand_nested_declarations"]}
{"id": "C48", "title": "Output modes are equivalent", "statement": "The compressed, tidy, compact and expanded outputs of the same tree differ by white space and optional semicolons only.", "quantifier": "every tree and every pair of modes", "why_tests_cant": "arbitrary trees", "anchors": ["csspp/assembler.cpp"]}
{"id": "C49", "title": "Operator precedence", "statement": "An expression is evaluated with the documented precedence and left associativity.", "quantifier": "every sequence of operators and operands", "why_tests_cant": "unbounded expressions", "anchors": ["csspp/expression.cpp", "csspp/expr_*.cpp"]}
{"id": "C50", "title": "Precision guard", "statement": "The precision is always between 0 and 10: other values are refused with an exception and leave it unchanged; the guard restores it on exit.", "quantifier": "every history of calls", "why_tests_cant": "arbitrary histories", "anchors": ["csspp/csspp.cpp: set_precision", "csspp/csspp.h.in: safe_precision_t"]}
{"id": "C51", "title": "Empty rules are removed from the output", "statement": "After the removal pass, no rule with an empty block remains.", "quantifier": "every tree", "why_tests_cant": "arbitrary trees", "anchors": ["csspp/compiler.cpp: remove_empty_rules"]}
{"id": "C52", "title": "Preserved comments are emitted as valid comments", "statement": "A comment is kept exactly when it contains @preserve, and the emitted comment is a single CSS comment.", "quantifier": "every comment text", "why_tests_cant": "all strings", "anchors": ["csspp/lexer.cpp: lexer::comment", "csspp/assembler.cpp"]}
{"id": "C53", "title": "A colour stored in a node is read back unchanged", "statement": "Setting the colour of a node and getting it back yields the same four floating point components, whatever they are (infinities and NaN included), although the node keeps them in an integer field and a double field.", "quantifier": "every four 32 bit floating point components", "why_tests_cant": "2^128 combinations of components", "anchors": ["csspp/node.cpp: node::set_color, node::get_color"]}
{"id": "C54", "title": "Plain CSS is not touched by the preprocessor", "statement": "Replacing the variables in a tree that has no variable, no preprocessor at-keyword, no reference in a comment and no empty list always ends, changes no node and reports nothing, in any environment.", "quantifier": "every such tree, every context and every file system", "why_tests_cant": "trees of any depth and width", "anchors": ["csspp/compiler.cpp: replace_variables, replace_variables_in_comment"]}
{"id": "C55", "title": "Selectors are checked against one grammar", "statement": "The selectors of a rule are accepted exactly when each comma separated part derives from one fixed, unambiguous grammar (names with optional name spaces, classes, identifiers, attribute tests, pseudo classes, nth functions, lang(), :not() of one simple term, a final pseudo element, '&' only at the start, combinators between terms); the accepted selector is rewritten only as the grammar says (white space round combinators and inside attribute tests removed, a useless '*' dropped, '!=' turned into :not(), An+B compiled). A refusal always reports an error, an acceptance none except for an identifier used twice; no exception is thrown unless a '[]' or a ':not()' is empty.", "quantifier": "every list of tokens, every set of valid names", "why_tests_cant": "lists of any length over 60 token types; absence of ambiguity and of exceptions is a statement over all of them", "anchors": ["csspp/compiler.cpp: parse_selector, selector_list, selector_term, selector_simple_term, selector_attribute_check", "csspp/parser.cpp: argify"]}
{"id": "C56", "title": "Escape sequences stand for their character", "statement": "In a string or an identifier, a backslash followed by one to six hexadecimal digits (and one optional white space) stands for the character of that number, a backslash followed by any other character stands for that character, and all other characters stand for themselves: the token holds exactly the characters written, the next token starts right after, and nothing is reported.", "quantifier": "every sequence of plain characters and escape sequences of any length, both kinds of quotes, every text which follows", "why_tests_cant": "unbounded combinations of digits counts, following characters and positions", "anchors": ["csspp/lexer.cpp: lexer::escape, lexer::string, lexer::identifier"]}
{"id": "C57", "title": "Functions check their parameters", "statement": "Calling one of the built-in functions of expressions with a number of parameters outside its documented range, or with a parameter whose type it does not accept, reports exactly one error, gives no value and modifies nothing; a name that is not built in is handed to the user-defined functions.", "quantifier": "every built-in function, every argument list, every state and every environment (libm, variables, user functions)", "why_tests_cant": "the number of functions times argument counts times types of values is unbounded; tests try a few calls per function", "anchors": ["csspp/internal_functions.cpp: expression::excecute_function, internal_function__get_*"]}
{"id": "C58", "title": "Numeric, conditional and type functions compute what their names say", "statement": "abs, ceil, floor, round, sign, min, max, integer, decimal_number, unit, type_of, not and if give the mathematical result of their names (as real numbers for doubles), keep or drop the unit as documented, and modify at most the node of the parameter.", "quantifier": "every integer in range, every finite double, every unit, every list of arguments for min and max", "why_tests_cant": "infinitely many values; rounding behaviour at halves, negative numbers and large values cannot be enumerated", "anchors": ["csspp/internal_functions.cpp: internal_function__abs, __ceil, __floor, __round, __sign, __min, __max, __integer, __decimal_number, __unit, __type_of, __not, __if"]}
{"id": "C59", "title": "Colour functions build the colour of their parameters", "statement": "rgb, rgba, frgb, frgba and hsl build the colour whose components are the given numbers (scaled), a colour given with an alpha keeps its red, green and blue, and hsl agrees with the definition of the hue for every angle.", "quantifier": "every component, every colour, every hue", "why_tests_cant": "three or four real parameters; the wrap around of the hue concerns every multiple of a turn", "anchors": ["csspp/internal_functions.cpp: internal_function__rgb, __rgba, __hsl", "csspp/color.cpp: color::set_hsl"]}
{"id": "C60", "title": "Texts and numbers convert into each other", "statement": "str_length() is the number of Unicode characters; integer() of a text made of an optional sign, digits and an optional unit is that number; string() and identifier() of an integer write it so that integer() reads the same number back; the text of a number has the sign of the number.", "quantifier": "every text, every 64 bit integer, every unit", "why_tests_cant": "unbounded texts and all integers", "anchors": ["csspp/internal_functions.cpp: internal_function__str_length, __integer, __string, __identifier", "csspp/node.cpp: node::to_string"]}
{"id": "C61", "title": "unique_id() is unique", "statement": "In one compilation, however the calls of functions follow each other, two calls of unique_id() never give the same identifier; the identifier is the requested prefix followed by a number, and no other function changes the numbering.", "quantifier": "every sequence of function calls on every state", "why_tests_cant": "the histories of calls are unbounded", "anchors": ["csspp/internal_functions.cpp: internal_function__unique_id, g_unique_id_counter"]}
{"id": "C62", "title": "sqrt() takes the root of the number and of its unit", "statement": "sqrt() of a non-negative number gives the double nearest to the real square root; its unit is accepted only when every name appears an even number of times on each side of the division and the result has half of them; a negative number or another unit is reported and gives no value.", "quantifier": "every finite double, every integer and every unit expression", "why_tests_cant": "all doubles and unbounded unit expressions", "anchors": ["csspp/internal_functions.cpp: internal_function__sqrt", "csspp/expr_multiplicative.cpp: multiplicative_dimension"]}
{"id": "C63", "title": "compile() keeps the name, the values and the flags of declarations", "statement": "When a block of declarations is compiled, each 'name: values' becomes a declaration of the same name at the same place; its values are in the same order and in the same groups, each one being the value of the expression that was written; the flags (!important) written after a value are on the declaration; no message is written, no declaration is added nor lost and no other node changes.", "quantifier": "every number of declarations, every name other than filter and -filter, every number of groups and of values per group, every expression on integers and booleans and every number, string, word or colour value", "why_tests_cant": "unbounded blocks, groups and expressions", "anchors": ["csspp/compiler.cpp: compile, compile_component_value, compile_declaration, compile_declaration_values, compile_args", "csspp/expression.cpp: compile_list, compile_args", "csspp/node.cpp: replace_child, take_over_children_of"]}
{"id": "C64", "title": "@error, @warning, @info, @message, @debug and @charset do what they say, once, and are taken out", "statement": "Each @error, @warning, @info, @message or @debug rule writes exactly one message of its level, at its position, with the text of the string that follows it (a default text without one), in the order of the source; the rule is taken out of the sheet and nothing else changes. @charset is always taken out; it is accepted in silence exactly when it is followed by one string which is utf-8 in any case, possibly between white space, and reported once otherwise.", "quantifier": "every sheet of such rules, every text and every string after @charset", "why_tests_cant": "unbounded sheets and all strings", "anchors": ["csspp/compiler.cpp: compile, compile_at_keyword", "csspp/node.cpp: remove_child, to_string"]}
{"id": "C65", "title": "@keyframes keeps its name, its frames and their declarations", "statement": "When an @keyframes rule is compiled it keeps its identifier and gets one frame per 'moment { declarations }', in the same order, from/to being 0% and 100%, with the declarations of C63; a frame that is malformed or out of 0% to 100% is reported once at the position of the rule, which is left as it was.", "quantifier": "every number of frames, every percentage, every number of declarations in each frame", "why_tests_cant": "unbounded frames and declarations, all doubles", "anchors": ["csspp/compiler.cpp: compile_at_keyword (keyframes), compile"]}
{"id": "C66", "title": "Compressed plain CSS goes through csspp unchanged", "statement": "A style sheet of plain compressed CSS (rules with element, class and identifier selectors combined with ' ', '>' and '~' and separated by ',', declarations of words and whole numbers with units in groups separated by ',', with or without !important) given to csspp with the compressed style comes out byte for byte the same and nothing is written on the error output; two different such sheets never give the same output.", "quantifier": "every number of rules, selectors, compounds, declarations, groups and values, every name, number and unit of the class, every fuel large enough", "why_tests_cant": "unbounded style sheets through the whole of the program: lexer, parser, selector parser, all the passes of the compiler and the assembler", "anchors": ["tools/csspp.cpp: pp::compile", "csspp/lexer.cpp", "csspp/parser.cpp: parser::stylesheet", "csspp/compiler.cpp: compiler::compile", "csspp/assembler.cpp: assembler::output"]}
{"id": "C67", "title": "Every text is translated or refused with a message", "statement": "Whatever text is given to csspp it ends with an output or with an error message; it does not end with an uncaught exception. Refuted: a declaration made of '*name' alone, a preserved comment among declarations and a variable starting with null end with an exception thrown by the node class (csspp_exception_overflow or csspp_exception_logic). Proved of the compressed style sheets of C66.", "quantifier": "every input text", "why_tests_cant": "every text, through the whole program", "anchors": ["tools/csspp.cpp: pp::compile", "csspp/node.cpp: node::get_child, node::insert_child"]}
{"id": "C68", "title": "The separators and the flags of a declaration are kept", "statement": "The separators between the values of a declaration and its flags are those of the source, or a message says otherwise. Refuted: the '/' of 'border-radius: 1em / 5em' becomes ',' and an unknown flag as in 'color: red !ie' disappears, silently. Proved for ',' and !important.", "quantifier": "every declaration", "why_tests_cant": "every number of values and groups, all names and numbers", "anchors": ["csspp/compiler.cpp: compile_declaration_values, compile_list", "csspp/assembler.cpp: assembler_impl::output"]}
{"id": "C69", "title": "The layout of a style sheet does not matter", "statement": "White space may be written in any amount (spaces, tabulations, line feeds, carriage returns, form feeds) around the braces, ':', ';', ',', '!', '>' and '~', between values and before, between and after rules, and the last declaration of a rule may or may not be followed by ';': csspp with the compressed style then produces the same text for all layouts of one plain style sheet, without a message, and translating that text again changes nothing.", "quantifier": "every plain style sheet (C66) and every layout of it, of every length", "why_tests_cant": "unbounded sheets and unbounded choices of white space through the whole of the program", "anchors": ["tools/csspp.cpp: pp::compile", "csspp/lexer.cpp: lexer::next_token", "csspp/parser.cpp: parser::component_value, parser::declaration_list", "csspp/node.cpp: node::add_child", "csspp/compiler.cpp: compiler::compile", "csspp/assembler.cpp: assembler::output"]}
{"id": "C70", "title": "The four styles of output differ by the layout only", "statement": "For a plain style sheet, however it is laid out, the compact, compressed, expanded and tidy styles each give one exact text; these texts are layouts of the same style sheet, so giving the output of one style to csspp again, with the same or with another style, produces exactly what the source would have produced.", "quantifier": "every plain style sheet, every layout of it and every pair of styles", "why_tests_cant": "unbounded sheets and layouts through the whole of the program, twice", "anchors": ["csspp/assembler.cpp: assembler::output, assembler_compact, assembler_expanded, assembler_tidy, assembler_compressed", "tools/csspp.cpp: pp::compile"]}
{"id": "C71", "title": "Scripts with variables are translated to their rules with the values of the variables", "statement": "For a script made of statements setting variables and of plain rules using them in their values, however it is laid out, the output in each style is the exact text of the rules where each variable is replaced by the values of the last statement above which sets it ('-' and '_' being the same in a name), without messages; so writing a variable or its values is the same, and the output given to csspp again comes out as it was. A variable not set is an error and nothing is written.", "quantifier": "every such script, every layout of it, every style of output", "why_tests_cant": "unbounded scripts, environments and layouts through the whole of the program", "anchors": ["csspp/compiler.cpp: compiler::replace_variables, compiler::replace_variable, compiler::set_variable, compiler_state_t::get_variable", "csspp/lexer.cpp: lexer::variable", "csspp/parser.cpp: parser::component_value", "tools/csspp.cpp: pp::compile"]}
{"id": "C72", "title": "Declarations of a rule stay separate and in their order", "statement": "The declarations of a rule come out as separate declarations in the order of the source: declarations before and after a nested rule are not run together, a rule which had only nested rules does not come out as an empty rule, and two declarations written in the other order do not give the same text unless they are the same declaration.", "quantifier": "every rule with any declarations and nested rules, every layout, every style of output", "why_tests_cant": "unbounded rules; the separators are written by the assembler from the shape of the tree the nesting pass leaves", "anchors": ["csspp/compiler.cpp: compiler::expand_nested_components, compiler::expand_nested_rules, compiler::remove_empty_rules", "csspp/assembler.cpp: assembler::output"]}
{"id": "C73", "title": "No value of a declaration is lost or run together with another", "statement": "Values separated in the source are separated in the output and none is dropped without a message: two translations which give the same text come from declarations with the same groups of the same values, in whatever layouts they were written and styles they are output.", "quantifier": "every declaration and every pair of style sheets, layouts and styles", "why_tests_cant": "it compares every two inputs; the loss happens in the interplay of the lexer, the white space rules of the node list and the expression parser", "anchors": ["csspp/expr_list.cpp: expression::expression_list", "csspp/expr_unary.cpp: expression::unary", "csspp/lexer.cpp: lexer::number", "csspp/assembler.cpp: assembler::output", "csspp/compiler.cpp: compiler::compile_declaration"]}
{"id": "C74", "title": "No message is ever taken back and an error is always fatal", "statement": "A warning or an error, once reported by the lexer, the parser, a pass of the compiler, an expression, a function or the assembler, is still among the messages of the run when it ends, in the order of the reports, whether the run ends with a text, without, with an exception or with undefined behaviour; and when any error was reported by the lexer, the parser or a pass of the compiler, no text is written in any style.", "quantifier": "every input, every world of files and functions, every style of output, every amount of work", "why_tests_cant": "it ranges over every path of every part of the program; a single path which forgets a report turns an error into a wrong style sheet", "anchors": ["csspp/error.cpp: error, error::operator<<", "tools/csspp.cpp: pp::compile", "csspp/compiler.cpp: compiler::compile", "csspp/parser.cpp: parser", "csspp/lexer.cpp: lexer::next_token"]}
{"id": "C75", "title": "The command line tool tells how it went with its exit code and writes a result only when nothing went wrong", "statement": "The csspp command ends with the code 0 exactly when the text was read, compiled and written without an error (without a warning with --Werror); otherwise it ends with 1, says why, and leaves the output file as it was. With the code 0 the files named were read and the output holds the whole text in the style asked for. --quiet and --debug decide what is printed and nothing else; -I adds directories and '-I -' forgets those before it; --args and the date are given to the script; the distribution's header and footer surround what was read.", "quantifier": "every command line (already parsed), every set of files, every text, every mathematical library and selector script", "why_tests_cant": "the tool has no unit test: every combination of options, files and failures matters, and a failure must be seen whatever step it happens in", "anchors": ["tools/csspp.cpp:pp::pp", "tools/csspp.cpp:pp::compile", "tools/csspp.cpp:main", "csspp/compiler.cpp:compiler::compile(bool)", "csspp/compiler.cpp:compiler::add_header_and_footer", "csspp/compiler.cpp:compiler::set_date_time_variables"]}
{"id": "C76", "title": "The trigonometric functions work in radians, log() on positive numbers, random() below one", "statement": "cos(), sin() and tan() give, without unit, the library's function of the operand's angle in radians: degrees (also when no unit is given), gradians and turns are converted with two correctly rounded operations on a pi within half a unit of its last place of the number; radians are taken as they are. acos(), asin() and atan() give an angle in radians. log() is refused for a unit and for what is not above zero. random() is the generator's value over 2^31: at least 0 and less than 1. (Refuted part: an unknown unit is reported, but a number comes out all the same.)", "quantifier": "every integer or decimal number up to 2^1000, every unit of angle, every mathematical library and generator, every state of the compiler", "why_tests_cant": "the conversion is a statement about every double and its rounding; the mathematical library and the generator are whatever the system has", "anchors": ["csspp/internal_functions.cpp:dimension_to_radians", "csspp/internal_functions.cpp:expression::internal_function__cos", "csspp/internal_functions.cpp:expression::internal_function__sin", "csspp/internal_functions.cpp:expression::internal_function__tan", "csspp/internal_functions.cpp:expression::internal_function__acos", "csspp/internal_functions.cpp:expression::internal_function__asin", "csspp/internal_functions.cpp:expression::internal_function__atan", "csspp/internal_functions.cpp:expression::internal_function__log", "csspp/internal_functions.cpp:expression::internal_function__random"]}
{"id": "C77", "title": "The existence functions answer by what the compiler finds; percentages keep their value", "statement": "variable_exists(), global_variable_exists() and function_exists() answer true when what is found under the name is a definition of a variable (of a function), false for anything else or nothing, and change no node; every function of the language exists whatever the script defines; an empty name is an error. percentage() gives the nearest percentage of the same value without the unit, and decimal_number() and integer() of a percentage give its value (its integer part) back.", "quantifier": "every name given as a text or an identifier, every state of the compiler and every result of the lookup, every integer of 64 bits, decimal number or percentage", "why_tests_cant": "the answer depends on what is defined, of whatever form; the value on every double", "anchors": ["csspp/internal_functions.cpp:expression::internal_function__variable_exists", "csspp/internal_functions.cpp:expression::internal_function__global_variable_exists", "csspp/internal_functions.cpp:expression::internal_function__function_exists", "csspp/internal_functions.cpp:expression::internal_function__percentage", "csspp/internal_functions.cpp:expression::internal_function__decimal_number", "csspp/internal_functions.cpp:expression::internal_function__integer", "csspp/internal_functions.cpp:expression::excecute_function"]}
