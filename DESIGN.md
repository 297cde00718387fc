# Formal model of csspp: design

The model lives in `rocq/theories`. The C++ in `/repo` is never built; it is read
as text and transcribed function by function. Each definition cites the file
and lines it models.

## Conventions

* a wide character (`int32_t`) is a `Z`; a byte string is a `list Z`; `EOF` is `-1`;
* mutation is threaded state; the error log is part of the state;
* C++ exceptions and undefined behaviour are distinct outcomes of a computation;
* loops take fuel; the theorems show the fuel given by the model is never exhausted;
* `double`/`float` values are `SpecFloat` values (axiom free, standard library);
  functions of libm are parameters.

## Plan per property

* **C01** UTF-8 encode/decode round trip. Utf8.v models wctomb/mbtowc/getc on byte lists; round trip by bit arithmetic (lia with div/mod).
* **C02** UTF-8 encoder accepts exactly the valid characters. Same model; specification of well formed UTF-8 is stated on its own (Utf8Spec).
* **C03** Lexing always terminates. Lexer.v: complete state-monad model of next_token with explicit fuel; the theorem shows that fuel computed from the input length is never exhausted and that the input measure strictly decreases.
* **C04** Push-back buffer of the lexer never overflows. Invariant on the depth of the push-back list, carried through all the lexer functions.
* **C05** The lexer does not throw on user input. Exceptions are an outcome of the model. Expected to be false in general: refuted with witnesses, and proved for inputs without malformed or out-of-range UTF-8 and NUL.
* **C06** Line counting. Position is part of the lexer state; a separate counting function on bytes is the specification.
* **C07** Peeked characters are given back unchanged. Direct from the getc/ungetc model.
* **C08** Integers are read exactly. Lexer number() model; induction over the digit list.
* **C09** Identifier output can be read back. escape_id model plus identifier() model; induction on the character list. Refuted for control characters, proved on the rest.
* **C10** String output can be read back. output_string + string(); induction. Refuted in general (backslash, newline).
* **C11** URL output can be read back. output_url + identifier().
* **C12** No input character is silently dropped after an operator. next_token model; refuted for '%'; proved for the others.
* **C13** Unicode ranges store their bounds faithfully. Packing model over Z with bit operations.
* **C14** Unicode range output can be read back. to_string model + lexer unicode_range model.
* **C15** nth-child values store their coefficients faithfully. Packing model over Z.
* **C16** nth-child parsing accepts exactly its grammar. nth_child::parse model on byte lists against an independent grammar (inductive relation).
* **C17** nth-child output can be parsed back. Refuted (2n, etc.) and partial theorem.
* **C18** Error and warning accounting. ErrorLog.v: state machine; induction over histories.
* **C19** Error suppression restores the counters. Same; nested guards are a tree of histories.
* **C20** Decimal numbers are printed in canonical form. DecFmt.v: formatting on exact rationals/decimal strings produced by std::to_string-like rendering.
* **C21** Child lists never hold EOF nor repeated white space. NodeHeap.v: add_child on child lists; induction.
* **C22** Clones are deep copies. NodeHeap.v: heap of cells; a clone is fresh, so any history of edits on one side leaves what is seen from the other unchanged.
* **C23** Child list edits. List model.
* **C24** First and second dimensions are independent. String model of get/set dim.
* **C25** Parsing always terminates. Parser.v: complete model over token lists with fuel shown sufficient.
* **C26** Parsing loses no token. flatten function as specification; induction over the parser.
* **C27** Unbalanced brackets are always reported. Bracket matching specification as an independent stack machine.
* **C28** Argument splitting. argify model; split specification.
* **C29** Named colours. The 148-entry table and the binary search; a decision over the table lifted to every string.
* **C30** Colour components survive storage. SpecFloat (binary32) model for the byte round trip, rational bound for clamping.
* **C31** Solid colour output can be read back. to_string/set_color model; round trip by byte-wise case analysis.
* **C32** Dimension algebra. Dim.v: vectors of unit names; multiset equality.
* **C33** Addition requires equal units. Expr.v add model.
* **C34** Division and modulo by zero are refused. Expr.v multiply model.
* **C35** Integer arithmetic has no undefined behaviour. Overflow is a distinct outcome; refuted with witnesses, exact condition proved.
* **C36** Comparisons are coherent. Compare model.
* **C37** Match operators mean what CSS says. match model; prefix/suffix/substring specified with existential splits.
* **C38** Logical operators and truth values. to_boolean table and logical models.
* **C39** Indexing of arrays. index model.
* **C40** String repetition and concatenation. string models.
* **C41** Unicode range intersection. interval intersection over Z.
* **C42** Variable scoping. Compiler.v set_variable/get_variable on the heap; the reference semantics is a stack of maps (ScopeSpec.v); refinement over histories.
* **C43** Exactly one branch of an @if chain is kept. Compiler.v replace_if/replace_else; induction on the chain (IfSpec.v, IfProofs.v).
* **C44** Import file lookup. find_file with an abstract file-exists predicate.
* **C45** Variables in comments. text scanner model.
* **C46** Nested rules combine every pair of selectors. expected to be refuted: the code appends all inner selectors to one clone.
* **C47** Nested declarations are prefixed. expansion model over nested declaration trees.
* **C48** Output modes are equivalent. Assembler.v over trees, comparing token skeletons.
* **C49** Operator precedence. Expression parser over token lists vs. an independent precedence grammar.
* **C50** Precision guard. Precision state machine.
* **C51** Empty rules are removed from the output. Tree model; expected to be refuted for rules that become empty.
* **C52** Preserved comments are emitted as valid comments. comment() + assembler comment model; refuted for C++ comments that contain '*/'.
* **C53** A colour stored in a node is read back unchanged. FloatBits.v: the unions of node.cpp as bit patterns; all quadruples of floats.
* **C54** Plain CSS is not touched by the preprocessor. Compiler.v replace_variables over settled trees of any depth; induction on the depth.
* **C55** Selectors are checked against one grammar. Selector.v; an inductive grammar with outputs (SelectorSpec.v), shown equivalent to the code and unambiguous.
* **C56** Escape sequences. Lexer.v escape(); pieces of text as the specification (EscapeSpec.v), induction over the list of pieces.
* **C57** Functions check their parameters. Functions.v: the table of excecute_function and every function; the arities and types are restated as tables in FunctionSpec.v.
* **C58** Numeric, conditional and type functions. Results stated over the reals (f64_R) for doubles; induction over the arguments of min and max.
* **C59** Colour functions. Functions.v and Hsl.v; components are read back with red(), green(), blue(), alpha(). hsl refuted for negative hues.
* **C60** Texts and numbers. str_length counts characters (Utf8Spec); string() and integer() composed through the model of the lexer.
* **C61** unique_id(). Histories of calls on arbitrary states; the counter is threaded.
* **C62** sqrt(). Real square root, multiset of unit names.
* **C63** Declarations through compile(). Compile.v; the groups (SplitSpec), the lists of values (ListSpec) and the declarations (ValuesSpec) are described on their own, the values by the meaning of expressions (PrecSpec); induction on the values, the groups and the block.
* **C64** Message rules and @charset. Compile.v at the level of compile(); AtSpec.v says which rule has which level and what utf-8 looks like; induction on the sheet, trimming as a split.
* **C65** @keyframes. Compile.v; FramesSpec.v describes the nodes of the frames before and after; induction on the frames on top of C63.
* **C66** Compressed plain CSS unchanged. WholeSpec.v describes the style sheets and their text on its own; Pipeline.translate is the whole program. WholeLex/WholeParse (tokens and tree of the parser), WholeTree (planting in the heap, mark_selectors, replace_variables), WholeDecl/WholeSelect/WholeRule (compile), WholeAfter (remove_empty_rules, expand_nested_components), WholeOut (assembler), composed in WholeMain; induction at each level.
* **C67** Translated or refused with a message. Refuted by three texts run through Pipeline.translate for every environment; proved of the texts of C69.
* **C68** Separators and flags kept. Refuted by two texts; ',' and !important through C69.
* **C69** Layout does not matter. LaySpec.v describes the layouts as languages of texts, on its own. WholePieces cuts a layout into pieces (words, numbers, signs, white space), each read as one token by the lexer (normalization of CR, CR LF and FF included); WholeShape gives the languages of tokens and of parsed trees; WholeParse, WholeDecl, WholeSelect and WholeRule show that the parser and the compiler drop the white space left; C66 is the special case without white space.
* **C70** Styles differ by layout only. StyleSpec.v gives the text of each style on its own; WholeOut proves what the assembler writes for each style, WholeMain that each of the four texts is one of the layouts of C69, so the theorem composes with itself.
* **C71** Scripts with variables, text to text. VarSpec.v describes scripts (statements setting variables, rules using them), their layouts and their rules with the values, on its own; WholeVars/WholeScript/WholeSet/WholeRoot follow `replace_variables` through any such tree (an invariant says what the root keeps for each variable, nodes kept are disjoint from nodes in use), WholeEnv relates that to VarSpec's environments, WholeVarMain joins it to the passes of C66-C70. Where the resolution fails (a variable is not set), WholeUnset.v follows the same pass up to the first such variable, where the message is said, and C74 says it stays.
* **C72** Declarations of a rule. Counter-examples by evaluating `translate` for every file system, mathematical library and selector script; what holds follows for plain rules from the injectivity below.
* **C73** Values of a declaration. Counter-examples likewise. For plain style sheets: the compiled nodes determine the sheet (WholeOne.v: `done_sheet` is injective, and a heap has one tree under an address), the program is a function and each output is a layout of its source (C70), so two sheets with one output are one sheet.
* **C74** Messages. Every definition of the model that can report is shown to only add at the end of the list of messages (one lemma per definition, Messages*.v: lexer, parser, selectors, expressions, functions, compiler, passes, assembler), by the induction each definition is made by, for every outcome (exceptions and undefined behaviour too); then composed along `translate`. The messages dropped on purpose (the operand of `?:` which is not used, evaluated with a quiet flag) are never reported in the first place. That nothing is lost on the way from one part to the next is said by equations (`said`: the messages a part ends with are those with which the other goes on) for expressions, parentheses, calls, user functions, files, selectors, imports and the texts of conversions, and checked on whole runs (c74_ex_parts).
* **C75** The command line tool. Tool.v adds what tools/csspp.cpp and compile(false) do around the passes: options, the text of the imports, the search paths, the variables of the date and of --args, the header and the footer, the reporter of ErrorLog.v with its options, the style, the destination, exceptions and the exit code. The code 0 is characterised in both directions by the three steps (read, compile, write); the errors of a step stop before the output is opened; --quiet and --debug are shown to change nothing but the lines printed; the variables and the imports are followed by symbolic execution for any heap (ToolRun.v). c75_passes_start puts these together: what the passes get is the script as it was read between the two imports, with these variables and no other change. The names of the files are read back from the text of the imports by the lexer (on top of C10), unless they hold a quote or a backslash. Where the property fails (a missing file, an output that cannot be created, an exception of the assembler after the output was emptied, failures that are only warnings), by evaluation for every mathematical library and selector script.
* **C76** Trigonometry, log(), random(). On top of the symbolic execution of FunctionRun.v and of FloatFacts.v/FloatMath.v (Flocq): the angle given to the library's function is the one in radians after two rounded operations; PiFacts.v bounds the distance of M_PI to the number pi by Machin's series. libm and rand() are parameters. The unknown unit, by evaluation.
* **C77** The existence functions and percentages. Symbolic execution as for C58; what the lookup of a name gives is a hypothesis (`finds`), its classification (`defined`, `other`) is by the nodes only and is exclusive (defined_or_other).

## What is modelled

Each definition of these files cites the file and the lines it transcribes.

| file | code | remarks |
|---|---|---|
| Utf8.v, Lexer.v | lexer.cpp, all of it | input is the whole byte string; `pow()` is a parameter |
| UnicodeRange.v | unicode_range.cpp | |
| NthChild.v | nth_child.cpp | |
| Tool.v | tools/csspp.cpp:396-664; compiler.cpp:434-531, 580-616 (compile(false)) | the options already parsed; --Werror without effect on compiler.cpp:1761 |
| ErrorLog.v | error.cpp | insertion of floating point values in a message not modelled |
| OutText.v, DecText.v, DecFmt.v | output of strings, URLs, identifiers, numbers (assembler.cpp, csspp.cpp) | `pow()`, `floor()`-free arithmetic on SpecFloat |
| NodeHeap.v | node.cpp: construction, accessors, children, clone | `node::to_string` is in NodeText.v, `display` not modelled |
| Parser.v | parser.cpp | tokens are given as a list, nodes are trees; `argify` included |
| Color.v, Hsl.v, FloatBits.v | color.cpp, the unions of node.cpp | one NaN only |
| Dim.v | dimensions of expr_multiplicative.cpp | |
| Expr.v | expression.cpp, expr_*.cpp | what a FUNCTION node evaluates to is an arbitrary parameter |
| Functions.v | internal_functions.cpp | libm, rand(), node::to_string of an argument, the text of a double in a std::stringstream, variables and user functions are parameters (`fenv`); the numbers in the arity message are left out |
| Compiler.v | compiler.cpp 47-411, 528-578 (order of the passes), 1629-2964, 3724-3800 (search), 3861-4172 | files are a parameter (`world`); import and recursion take fuel |
| Selector.v | compiler.cpp 2966-3722 | the validation scripts (which names are valid and what they report) and node::to_string are parameters; the tree left behind by a refused selector is not modelled; node type names are left out of messages |
| Assembler.v | assembler.cpp | the tree is a heap that is only read |
| NodeText.v | node.cpp: node::to_string | |
| Compile.v | compiler.cpp 618-1625 (compile() of component values, declarations, at-rules) | the running of the validation scripts is a parameter (`rules`): which fields have slashes or fonts, whether a selector is accepted |
| Pipeline.v | parser, then compiler::compile(bare), then the assembler; user functions (compiler.cpp 217-361) | ties all the models together (`translate`); no header and footer |

Not modelled: the parsing of the command line (advgetopt), the
global counter of unique_id() between the calls of one run (Functions.v returns
the new counter, `translate` starts each call with 0), the
running of the validation scripts (a set of names stands for each), the debug
output of nodes (node.cpp operator <<, display), threads (there are none), and
memory exhaustion.

## How the model says what goes wrong

A computation is an `outcome`: `Ret` (a value and a state), `Throw` (a C++
exception, with its class), `Undef` (undefined behaviour: signed overflow,
dangling access, `labs(INT64_MIN)`, a double converted out of range), `NoFuel`
(the loop bound of the model was reached). Theorems about totality exclude
`NoFuel`; where fuel is a parameter of a statement it is quantified or shown to
be irrelevant (C25).

## Statements

The vocabulary of each group of theorems is in a small file of its own which
does not depend on the proofs (Utf8Spec, LexSpec, TextSpec, EscapeSpec, NthSpec,
ErrorSpec, DecSpec, NodeSpec, ParseSpec, ArgSpec, ColorSpec, DimSpec, ExprSpec,
CmpSpec, FunctionSpec, ScopeSpec, IfSpec, PrecSpec, CommentSpec, DeclSpec,
ModeSpec, PreserveSpec, SelectorSpec, ListSpec,
SplitSpec, ValuesSpec, AtSpec, FramesSpec). Theorems are named `cNN_...` after their
property; `_partial` means that part of the property is missing (the note in
MANIFEST.json says what), `_refuted` that the theorem is a counter-example to
the property (a bug of the code). `cNN_ex` shows that the hypotheses are met by
a concrete case. A property is "partial" in MANIFEST.json whenever a `_refuted`
or `_partial` theorem restricts it.

## Trusted base

* the kernel of Coq 8.16.1, including its virtual machine (`vm_compute`);
* the transcription of the C++ into Gallina, as described above, and the
  reading of the C++ standard where the behaviour is undefined;
* `SpecFloat` of the standard library as the meaning of IEEE 754 arithmetic
  with rounding to nearest even (x86-64: no excess precision);
* the axioms printed by `Print Assumptions`, listed theorem by theorem in
  ASSUMPTIONS.md (tools/assumptions.py): most theorems have none; those which
  speak of real numbers use the axioms of the standard library's reals
  (`ClassicalDedekindReals.sig_forall_dec`, `ClassicalDedekindReals.sig_not_dec`,
  `FunctionalExtensionality.functional_extensionality_dep`) and
  `Classical_Prop.classic` (through Flocq's proofs). Flocq is used only inside
  proofs, not in statements.

No axiom, parameter, functor or module type is declared in the development; section
variables are all discharged.

## Testing the theorems

seeded/LOG.jsonl records the mutations of the model that were tried, the
theorems that failed on each and those which were tightened because of them.

## Conformance with the tests of the repository

tools/conformance.py runs the model (`translate`, by vm_compute, with a concrete
libm for integer powers, the files of scripts/system and the names of
scripts/validation) on every test of /repo/tests whose input is a literal, and
compares the text (in each of the four styles where the test looks at them) and
the levels of the messages with what the test expects. This proves nothing; it
is how faithful the transcription is. Of 594 runs of catch_assembler,
catch_internal_functions, catch_expr_* and catch_compiler the model differs on
the following only: unique_id() (the counter is not threaded, 6 runs), powers
which are not integers (4 runs, libm), the header variables `$_csspp_version`,
`$_csspp_no_logo` (5 runs, no header in the model), tests which only look at the
tree where the assembler refuses the dimension (3 runs), which go on after errors
of the parser, or whose input is built in a loop (5 runs), @debug (hidden unless
verbose), and one style sheet which needs more memory than the limit (4 runs;
its parts agree). The tool found one error of the model, corrected since:
what an internal function reports was undefined, for the model gave it an
expression object without a current token.
