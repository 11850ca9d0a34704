{"id": "C01", "title": "Tokenize is total and ends in exactly one sentinel", "statement": "For every constraint source, Tokenize terminates with a nonempty token list in which the last token is END_OF_INPUT or UNEXPECTED_CHAR and no earlier token is either; END_OF_INPUT is produced exactly when the whole source was consumed.", "quantifier": "every byte string (including NUL bytes and invalid UTF-8) and every start location", "why_tests_cant": "inputs are unbounded byte strings; the regex has many interacting alternatives", "anchors": ["p4_constraints/frontend/lexer.cc:Tokenize"]}
{"id": "C02", "title": "Tokens and skipped text tile the source in order", "statement": "The source text is exactly the concatenation, in order, of the lexemes of the tokens and of whitespace, line breaks and comments (plus the unconsumed remainder behind UNEXPECTED_CHAR); nothing is dropped, duplicated or reordered, and each token's text and kind are those the token grammar assigns to its lexeme.", "quantifier": "every byte string", "why_tests_cant": "needs induction over the whole input", "anchors": ["p4_constraints/frontend/lexer.cc:Tokenize", "p4_constraints/frontend/lexer.cc:kTokenPattern", "p4_constraints/frontend/lexer.cc:SwallowMultiLineComment"]}
{"id": "C03", "title": "Token locations follow the documented line/column rule", "statement": "Every token's half-open interval [start,end) is the line/column position (a line break is \\n|\\r\\n?, greedily; columns count bytes from the last line break) of its first byte and of the byte after its last byte, relative to the constraint's start location. The code breaks this for quoted strings that contain a line break; the rule is proved for all other sources.", "quantifier": "every byte string and start location", "why_tests_cant": "positions depend on arbitrarily long prefixes of the input", "anchors": ["p4_constraints/frontend/lexer.cc:Tokenize", "p4_constraints/ast.proto:SourceLocation"]}
{"id": "C04", "title": "Rendering tokens with separators and re-lexing gives the tokens back", "statement": "For every sequence of well-formed tokens, the text obtained by writing each token's spelling followed by a blank is tokenized to exactly that sequence of kinds and texts followed by END_OF_INPUT.", "quantifier": "every finite list of tokens of every kind, identifiers and numerals of any length", "why_tests_cant": "longest-match/first-alternative interactions between adjacent tokens cannot be enumerated", "anchors": ["p4_constraints/frontend/lexer.cc:Tokenize", "p4_constraints/frontend/lexer.cc:kTokenPattern"]}
{"id": "C05", "title": "Blanks, line breaks and comments never change the meaning", "statement": "Inserting any whitespace, line breaks or terminated comments in front of a source, or between two sources of which the first lexes completely and does not end in a comment, does not change the sequence of token kinds and texts.", "quantifier": "every pair of sources and every insertion", "why_tests_cant": "quantifies over all sources and all insertions", "anchors": ["p4_constraints/frontend/lexer.cc:Tokenize", "p4_constraints/frontend/lexer.cc:SwallowMultiLineComment"]}
{"id": "C06", "title": "Identifiers lex as identifiers", "statement": "Every word matching the documented identifier grammar [_a-zA-Z][_a-zA-Z0-9]* other than `true`/`false` is one ID token. False as documented for words that merely begin with true or false (`trueish` becomes `true` `ish`); proved for all other words.", "quantifier": "every word of the identifier grammar", "why_tests_cant": "infinitely many identifiers", "anchors": ["p4_constraints/frontend/lexer.cc:kTokenPattern", "docs/language-specification.md"]}
{"id": "C07", "title": "Keyword table is a bijection", "statement": "KindToKeyword and KeywordToKind are inverse to each other on keyword kinds; every keyword the lexer recognises is known to KeywordToKind, and bracketed names of non-keyword kinds round trip too.", "quantifier": "every token kind and every string", "why_tests_cant": "the converse direction ranges over all strings", "anchors": ["p4_constraints/frontend/token.cc:KindToKeyword", "p4_constraints/frontend/token.cc:KeywordToKind"]}
{"id": "C08", "title": "Parser recognises exactly the documented grammar with the documented precedences", "statement": "ParseConstraint accepts a token sequence, with a given tree, if and only if the documented unambiguous grammar (`::` > unary > comparison > && > || > -> > ;, comparison and -> non-associative, others left-associative, optional trailing `;`) derives that tree for it.", "quantifier": "every token sequence and every expression tree", "why_tests_cant": "infinitely many inputs; needs induction over derivations", "anchors": ["p4_constraints/frontend/parser.cc:ParseConstraintAbove", "p4_constraints/frontend/parser.cc:ParseConstraint", "p4_constraints/frontend/parser.cc:TokenPrecedence", "p4_constraints/frontend/parser.cc:TokenAssociativity"]}
{"id": "C09", "title": "Parsing always terminates and consumes input", "statement": "ParseConstraint terminates on every token sequence, and its result never depends on what follows the sentinel token.", "quantifier": "every token sequence, valid or not", "why_tests_cant": "nontermination cannot be excluded by tests", "anchors": ["p4_constraints/frontend/parser.cc:ParseConstraintAbove", "p4_constraints/frontend/parser.cc:TokenStream"]}
{"id": "C10", "title": "Printing then parsing is the identity", "statement": "For every constraint expression, its fully parenthesised textual form lexes and parses back to the same expression (up to source locations).", "quantifier": "every expression tree of any depth, of either constraint kind", "why_tests_cant": "unbounded depth", "anchors": ["p4_constraints/frontend/parser.cc:ParseConstraint", "p4_constraints/frontend/lexer.cc:Tokenize", "p4_constraints/frontend/ast_constructors.cc"]}
{"id": "C11", "title": "Non-associative operators never chain", "statement": "A constraint in which two comparison operators (or two ->) are applied in sequence without parentheses is always rejected.", "quantifier": "every operand expression and operator pair", "why_tests_cant": "ranges over all operands", "anchors": ["p4_constraints/frontend/parser.cc:TokenAssociativity", "p4_constraints/frontend/parser.cc:ParseConstraintAbove"]}
{"id": "C12", "title": "Every parsed expression carries its exact source interval", "statement": "In every parsed tree each node's [start,end) runs from the start of its first token to the end of its last token, where parentheses around an operand are not part of it; children lie inside their parent, in order, and all nodes share the constraint's source.", "quantifier": "every token sequence that parses", "why_tests_cant": "invariant over trees of any shape", "anchors": ["p4_constraints/frontend/parser.cc:ParseConstraintAbove", "p4_constraints/frontend/ast_constructors.cc"]}
{"id": "C13", "title": "Parse failures are InvalidArgument errors", "statement": "Whenever the parser rejects a constraint it reports InvalidArgument and never crashes. Holds whenever the offending tokens can be quoted; the quoting step itself can turn the error into an Internal error or an exception (e.g. for sources with bare \\r line breaks), which is shown.", "quantifier": "every token sequence", "why_tests_cant": "error paths are numerous and depend on locations", "anchors": ["p4_constraints/frontend/parser.cc:ParseError", "p4_constraints/frontend/parser.cc:Unexpected", "p4_constraints/quote.cc:Quote"]}
{"id": "C14", "title": "Numerals denote their mathematical value in every base", "statement": "A binary, octal, decimal or hexadecimal numeral of any length becomes the integer constant whose decimal digits denote exactly the numeral's value, in canonical form.", "quantifier": "every numeral of every base and length", "why_tests_cant": "arbitrary precision", "anchors": ["p4_constraints/frontend/ast_constructors.cc:ConvertNumeral"]}
{"id": "C15", "title": "Network address literals denote their big-endian value", "statement": "ipv4('a.b.c.d') and mac('..') are accepted exactly for the documented formats and denote the big-endian integer of their bytes; ipv6 denotes the big-endian integer of the bytes inet_pton returns.", "quantifier": "every string", "why_tests_cant": "quantifies over all strings and all byte values", "anchors": ["p4_constraints/frontend/ast_constructors.cc:Ipv4", "p4_constraints/frontend/ast_constructors.cc:Mac", "p4_constraints/frontend/ast_constructors.cc:Ipv6", "p4_constraints/frontend/ast_constructors.cc:AnyByteStringToBitset"]}
{"id": "C16", "title": "Key names are preserved and distinct table keys stay distinct", "statement": "A dotted key path in a table constraint denotes the key named by joining its identifiers with dots, and two different paths denote different keys. For action parameters the dots are dropped, so different paths can denote the same parameter; that is shown.", "quantifier": "every sequence of identifiers", "why_tests_cant": "infinitely many names", "anchors": ["p4_constraints/frontend/ast_constructors.cc:MakeVariable", "p4_constraints/frontend/parser.cc:ParseConstraintAbove"]}
{"id": "C17", "title": "Castability is a strict partial order with least upper bounds", "statement": "The legal implicit conversions (int below bit<W>, bit<W> below the match types of the same width, and transitively) form a strict partial order, and the common type computed for two operand types is their least upper bound, existing exactly when some common upper bound exists.", "quantifier": "all pairs/triples of types of all widths", "why_tests_cant": "infinitely many widths", "anchors": ["p4_constraints/backend/type_checker.cc:StrictlyAbove", "p4_constraints/backend/type_checker.cc:LeastUpperBound"]}
{"id": "C18", "title": "The type checker accepts exactly the well-typed constraints", "statement": "InferAndCheckTypes succeeds on an expression if and only if the declarative typing rules of the language give it a type in the context of the table/action, and the annotated tree carries exactly that type.", "quantifier": "every expression tree and every table/action definition", "why_tests_cant": "unbounded trees and schemas", "anchors": ["p4_constraints/backend/type_checker.cc:InferAndCheckTypes"]}
{"id": "C19", "title": "Type checking only adds types and legal casts", "statement": "The annotated tree, with casts erased and types forgotten, is the input tree with unchanged locations; every node has a known type and every inserted cast is one of the legal single-step conversions.", "quantifier": "every expression and context", "why_tests_cant": "unbounded trees", "anchors": ["p4_constraints/backend/type_checker.cc:InferAndCheckTypes", "p4_constraints/backend/type_checker.cc:CastTransitivelyTo", "p4_constraints/backend/type_checker.cc:WrapWithCast"]}
{"id": "C20", "title": "Expressions that already contain casts are rejected", "statement": "Type checking fails on every expression that contains a type cast anywhere.", "quantifier": "every expression containing a cast at any depth", "why_tests_cant": "unbounded depth", "anchors": ["p4_constraints/backend/type_checker.cc:InferAndCheckTypes"]}
{"id": "C21", "title": "Well-typed constraints never fail at run time", "statement": "Checking an entry that is consistent with its table (or an action consistent with its definition) against a type-checked boolean constraint always yields a truth value. False for ordered comparisons of exact keys and for ::priority in action constraints, both shown; proved for all other constraints.", "quantifier": "every type-checked constraint and every consistent entry", "why_tests_cant": "type soundness is a statement about all programs and inputs", "anchors": ["p4_constraints/backend/interpreter.cc:Eval", "p4_constraints/backend/interpreter.cc:EvalBinaryExpression", "p4_constraints/backend/interpreter.cc:DynamicTypeCheck", "p4_constraints/ast.cc:TypeHasOrdering"]}
{"id": "C22", "title": "Integer byte strings are read big-endian, leading zeros ignored", "statement": "The integer read from a P4Runtime byte string is its unsigned big-endian value; leading zero bytes never change it, and two byte strings denote the same integer iff they agree after removing leading zeros.", "quantifier": "every byte string of any length", "why_tests_cant": "unbounded length", "anchors": ["p4_constraints/backend/interpreter.cc:ParseP4RTInteger"]}
{"id": "C23", "title": "An entry is checked against the complete key assignment, omitted keys meaning don't-care", "statement": "When an entry is accepted for checking, every key of the table has a value: the one in the entry if present, otherwise the wildcard of its match type (ternary/optional 0&&&0, lpm 0/0, range [0,2^W-1]); exact keys must be present and range bounds come from the declared width.", "quantifier": "every entry and every table", "why_tests_cant": "all combinations of keys, kinds, widths", "anchors": ["p4_constraints/backend/interpreter.cc:ParseTableEntry", "p4_constraints/backend/interpreter.cc:ParseKey"]}
{"id": "C24", "title": "Inconsistent entries are rejected", "statement": "If the table has a constraint and the entry names an undeclared field, repeats a field, uses a match kind other than the declared one, or omits an exact-match key, the check returns an error and never a verdict.", "quantifier": "every entry and table", "why_tests_cant": "combinatorially many malformed entries", "anchors": ["p4_constraints/backend/interpreter.cc:ParseKey", "p4_constraints/backend/interpreter.cc:ParseTableEntry"]}
{"id": "C25", "title": "The verdict does not depend on the order of match fields", "statement": "Permuting the match fields of an entry, or the hash-map iteration order of the table's keys, never changes whether checking succeeds nor the verdict and explanation it returns.", "quantifier": "every entry, permutation and iteration order", "why_tests_cant": "factorially many orders; hash order is nondeterministic", "anchors": ["p4_constraints/backend/interpreter.cc:ParseTableEntry", "p4_constraints/backend/interpreter.cc:ReasonEntryViolatesConstraint"]}
{"id": "C26", "title": "The verdict is the constraint's meaning (end to end)", "statement": "For every table whose annotation parses and type-checks, ReasonEntryViolatesConstraint returns the empty string iff the surface constraint, read with the documented meaning of each operator, key, field, literal and implicit conversion, is true of the entry.", "quantifier": "every constraint, table and consistent entry", "why_tests_cant": "agreement of two semantics over all programs and inputs", "anchors": ["p4_constraints/backend/interpreter.cc:ReasonEntryViolatesConstraint", "p4_constraints/backend/interpreter.cc:Eval", "docs/language-specification.md"]}
{"id": "C27", "title": "Literals are reduced modulo 2^W when compared with W-bit values", "statement": "Comparing a W-bit value or match with an arbitrary integer n behaves as comparing with n mod 2^W (so -1 is all-ones); conversions to exact/ternary/lpm/range/optional denote exactly the point match of that value.", "quantifier": "every integer (negative and huge), every W >= 0", "why_tests_cant": "unbounded integers and widths", "anchors": ["p4_constraints/backend/interpreter.cc:EvalAndCastTo"]}
{"id": "C28", "title": "Boolean connectives short-circuit as documented and ; means &&", "statement": "&&, || and -> evaluate the right operand only if the left one does not decide the result; `a;b` is the same constraint as `a && b` apart from precedence.", "quantifier": "all operand expressions, including ones whose evaluation fails", "why_tests_cant": "includes failing operands", "anchors": ["p4_constraints/backend/interpreter.cc:EvalBinaryExpression", "p4_constraints/frontend/ast_constructors.cc:ConvertBinaryOperator"]}
{"id": "C29", "title": "Caching never changes an answer", "statement": "Evaluating with an evaluation cache gives the same result as without one, in every reachable cache state, and the cache only ever holds correct results; the same holds for the size cache.", "quantifier": "every expression, entry and every sequence of evaluations sharing a cache", "why_tests_cant": "histories of cache states", "anchors": ["p4_constraints/backend/interpreter.cc:EvalToBool", "p4_constraints/ast.cc:Size"]}
{"id": "C30", "title": "Unmentioned keys do not matter", "statement": "Two entries that agree on the keys and attributes mentioned in a constraint get the same verdict.", "quantifier": "all constraints, all pairs of entries", "why_tests_cant": "relational property over all pairs of inputs", "anchors": ["p4_constraints/ast.cc:GetVariables", "p4_constraints/backend/interpreter.cc:Eval"]}
{"id": "C31", "title": "The explanation names a sufficient reason", "statement": "The subexpression blamed in a violation report is a subexpression of the constraint, has the reported truth value for the entry, and every entry that gives it the same truth value gets the same verdict from the whole constraint.", "quantifier": "all constraints, all pairs of entries", "why_tests_cant": "relational; all constraints", "anchors": ["p4_constraints/backend/interpreter.cc:MinimalSubexpressionLeadingToEvalResult", "p4_constraints/backend/interpreter.h"]}
{"id": "C32", "title": "The explanation is minimal", "statement": "The blamed subexpression is the smallest subexpression that forces the verdict. False as documented (`false || x == 1`), shown; proved: it is never larger than any other candidate reachable through the deciding operands, ties going left.", "quantifier": "all constraints and entries", "why_tests_cant": "minimality quantifies over all subexpressions and all entries", "anchors": ["p4_constraints/backend/interpreter.cc:MinimalSubexpressionLeadingToEvalResult", "p4_constraints/ast.cc:Size"]}
{"id": "C33", "title": "Violations always come with a nonempty explanation", "statement": "Whenever the constraint is false of the entry, a nonempty explanation naming the constraint's table/action and the values of the mentioned keys is returned. False for action constraints in which both operands of && fail (size computation rejects action parameters) and for constraints whose multi-line text cannot be quoted, both shown; proved otherwise.", "quantifier": "all constraints and entries", "why_tests_cant": "explanation path depends on constraint layout and truth values", "anchors": ["p4_constraints/backend/interpreter.cc:ExplainConstraintViolation", "p4_constraints/ast.cc:Size", "p4_constraints/quote.cc:QuoteSubConstraint"]}
{"id": "C34", "title": "An entry is accepted iff its table constraint and all its action constraints hold", "statement": "The overall verdict is empty iff the table constraint holds and the constraint of the action (or of every action of an action set) holds; otherwise the first violated one in order is explained.", "quantifier": "every entry, including action sets of any size", "why_tests_cant": "action sets of unbounded size", "anchors": ["p4_constraints/backend/interpreter.cc:ReasonEntryViolatesConstraint"]}
{"id": "C35", "title": "Unknown tables and actions are rejected with InvalidArgument; unconstrained ones accept", "statement": "An entry whose table or action is not in the constraint info gets InvalidArgument; a table without constraint imposes nothing on the match fields.", "quantifier": "every entry and constraint info", "why_tests_cant": "all ids", "anchors": ["p4_constraints/backend/interpreter.cc:ReasonEntryViolatesConstraint", "p4_constraints/backend/constraint_info.cc:GetTableInfoOrNull", "p4_constraints/backend/constraint_info.cc:GetActionInfoOrNull"]}
{"id": "C36", "title": "Bad entries are reported as InvalidArgument", "statement": "Every error for an entry inconsistent with its table is InvalidArgument as documented. False: match-kind mismatches and missing action parameters are Internal errors, shown; the exact set of InvalidArgument conditions is proved.", "quantifier": "every inconsistent entry", "why_tests_cant": "many error paths", "anchors": ["p4_constraints/backend/interpreter.h", "p4_constraints/backend/interpreter.cc:ParseKey", "p4_constraints/backend/interpreter.cc:ParseAction"]}
{"id": "C37", "title": "P4ToConstraintInfo is all-or-nothing and exact", "statement": "It succeeds iff every table and action parses and no id repeats; then each id maps to the info of exactly the table/action declared with it (all keys/params by id and by name), and no other id is mapped.", "quantifier": "every P4Info", "why_tests_cant": "any number of tables, actions, keys", "anchors": ["p4_constraints/backend/constraint_info.cc:P4ToConstraintInfo", "p4_constraints/backend/constraint_info.cc:ParseTableInfo", "p4_constraints/backend/constraint_info.cc:ParseActionInfo"]}
{"id": "C38", "title": "Declaration order is irrelevant", "statement": "Permuting the tables and actions of a P4Info does not change success nor the resulting mapping. Listing the match fields of tables and the parameters of actions in another order does not change success either, nor what is known about a table or action; entries get the same answer in full (verdict, explanation, status code, message), except that of several missing keys another one may be named, and constraint solvers answer the same in every conversation.", "quantifier": "every P4Info and every reordering of its tables, actions, match fields and parameters; every entry and solver conversation", "why_tests_cant": "factorially many orders", "anchors": ["p4_constraints/backend/constraint_info.cc:P4ToConstraintInfo", "p4_constraints/backend/interpreter.cc: ReasonEntryViolatesConstraint", "p4_constraints/backend/symbolic_interpreter.cc: ConstraintSolver::Create"]}
{"id": "C39", "title": "The constraint is the concatenation of the annotation's string parts", "statement": "For @entry_restriction(\"s1\" \"s2\" ...) the checked constraint text is s1..sn joined by line breaks, with @line/@file annotations setting the reported position, the first restriction annotation winning; malformed annotations are InvalidArgument.", "quantifier": "every annotation list", "why_tests_cant": "arbitrary annotation texts", "anchors": ["p4_constraints/backend/constraint_info.cc:ExtractConstraint"]}
{"id": "C40", "title": "Every stored constraint is type-checked against its own table or action", "statement": "Each constraint in a successfully built constraint info is well-typed for its table/action. It need not be boolean (shown); non-boolean ones make every check fail with InvalidArgument.", "quantifier": "every P4Info", "why_tests_cant": "all programs", "anchors": ["p4_constraints/backend/constraint_info.cc:ParseTableInfo", "p4_constraints/backend/constraint_info.cc:ParseActionInfo", "p4_constraints/backend/interpreter.cc:ReasonEntryViolatesConstraint"]}
{"id": "C41", "title": "Symbolic and concrete semantics agree", "statement": "For every type-checked table constraint and every well-formed entry, the symbolic encoding is true under the entry's assignment iff the concrete checker accepts it. False for ordered comparisons of fixed-width values with the top bit set (signed vs unsigned), shown; proved for all other constraints.", "quantifier": "every constraint, every well-formed entry", "why_tests_cant": "agreement of two interpreters over all programs and inputs", "anchors": ["p4_constraints/backend/symbolic_interpreter.cc:EvalSymbolically", "p4_constraints/backend/symbolic_interpreter.cc:EvalBinaryExpression", "p4_constraints/backend/symbolic_interpreter.cc:EvalTypeCast", "p4_constraints/backend/interpreter.cc:Eval"]}
{"id": "C42", "title": "Well-formedness assertions characterise exactly the well-formed entries", "statement": "An assignment satisfies the constraints added for a key iff it is the image of a canonical P4Runtime match of that kind and width (masked ternaries, prefix-canonical LPMs, 0/all-ones optionals), and likewise for priority; keys of other kinds (ranges) and of width 0 are refused with an error.", "quantifier": "every kind, every width >= 1, every assignment", "why_tests_cant": "all widths and values", "anchors": ["p4_constraints/backend/symbolic_interpreter.cc:AddSymbolicKey", "p4_constraints/backend/symbolic_interpreter.cc:AddSymbolicPriority"]}
{"id": "C43", "title": "Concretized entries are well-formed", "statement": "Every entry produced by ConcretizeEntry uses declared field ids with the declared match kind, canonical byte strings fitting the width, no don't-care matches, and passes the concrete parser without error. Its fields stand in the byte order of the names of their keys, whatever order the P4Info or a hash map has.", "quantifier": "every table, every solver model", "why_tests_cant": "all models", "anchors": ["p4_constraints/backend/symbolic_interpreter.cc:ConcretizeEntry", "p4_constraints/backend/symbolic_interpreter.cc:ConcretizeKey"]}
{"id": "C44", "title": "Concretized entries satisfy the table's constraint and all added constraints", "statement": "If the solver's models satisfy its assertions, every entry ConcretizeEntry returns is accepted by ReasonEntryViolatesConstraint. Inherits the ordered-comparison exception of symbolic/concrete agreement.", "quantifier": "every table, every history of AddConstraint calls, every sound solver", "why_tests_cant": "unbounded histories and an external oracle", "anchors": ["p4_constraints/backend/symbolic_interpreter.cc:ConcretizeEntry", "p4_constraints/backend/symbolic_interpreter.cc:AddConstraint", "p4_constraints/backend/symbolic_interpreter.cc:Create"]}
{"id": "C45", "title": "AddConstraint is transactional and keeps the solver satisfiable", "statement": "Whenever AddConstraint returns false or an error, the state is as before; when it returns true the new constraint is added; the asserted set is satisfiable after every history.", "quantifier": "every history of AddConstraint calls with any strings", "why_tests_cant": "unbounded histories", "anchors": ["p4_constraints/backend/symbolic_interpreter.cc:AddConstraint", "p4_constraints/backend/symbolic_interpreter.cc:Create"]}
{"id": "C46", "title": "Nothing satisfiable is rejected", "statement": "If some well-formed entry (with a priority) satisfies the constraint, a complete solver finds the encoding satisfiable. False when solver variable names collide (key `x_mask` next to ternary `x`), shown; proved for collision-free key names and no ordered fixed-width comparisons.", "quantifier": "every table and entry", "why_tests_cant": "completeness over all entries", "anchors": ["p4_constraints/backend/symbolic_interpreter.cc:AddSymbolicKey", "p4_constraints/backend/symbolic_interpreter.cc:Create"]}
{"id": "C47", "title": "Canonical byte strings round trip", "statement": "Encoding any nonnegative value through the solver's #x/#b text form gives its shortest nonempty big-endian byte string, and reading it back gives the value.", "quantifier": "every width and value", "why_tests_cant": "unbounded widths", "anchors": ["p4_constraints/backend/symbolic_interpreter.cc:BitstringToP4RuntimeBytestring", "p4_constraints/backend/symbolic_interpreter.cc:HexstringToP4RuntimeBytestring", "p4_constraints/backend/symbolic_interpreter.cc:Z3BitvectorValueToP4RuntimeBytestring", "p4_constraints/backend/interpreter.cc:ParseP4RTInteger"]}
{"id": "C48", "title": "Skipped keys never appear and constraints on them are rejected", "statement": "Keys excluded by skip_key_named never occur in produced entries; constraints mentioning them produce an error and leave the state unchanged.", "quantifier": "every table and skip predicate", "why_tests_cant": "all predicates", "anchors": ["p4_constraints/backend/symbolic_interpreter.cc:Create", "p4_constraints/backend/symbolic_interpreter.cc:GetFieldAccess"]}
{"id": "C49", "title": "Error quoting shows the right source lines", "statement": "Quoting an interval inside one line prints that line with its 1-based number and a marker under exactly the columns of the interval, under a heading that names the file, table or action and the interval.", "quantifier": "every source text and interval", "why_tests_cant": "all layouts", "anchors": ["p4_constraints/quote.cc:Quote", "p4_constraints/quote.cc:Explain", "p4_constraints/quote.cc:QuoteSubConstraint"]}
{"id": "C50", "title": "Quoting never crashes", "statement": "Quoting never throws. False for intervals spanning several lines whose first line is short (marker length underflows), shown; proved for single-line intervals and characterised exactly for the others.", "quantifier": "every source text and interval", "why_tests_cant": "depends on layout arithmetic", "anchors": ["p4_constraints/quote.cc:Quote"]}
{"id": "C51", "title": "Size counts boolean structure only", "statement": "Size of a valid table constraint is positive, strictly larger than that of each operand, independent of casts and locations, and never fails; for trees containing action parameters under comparisons it fails (shown).", "quantifier": "every expression", "why_tests_cant": "unbounded trees", "anchors": ["p4_constraints/ast.cc:Size"]}
{"id": "C52", "title": "Location equality and type names identify their arguments", "statement": "Two source locations are equal iff they denote the same place, and types with equal printed names are equal. Both false (operator== ignores the action name; lpm<W> prints as bit<W>), shown; proved for the remaining cases.", "quantifier": "all pairs of locations / types", "why_tests_cant": "all widths and names", "anchors": ["p4_constraints/ast.cc:operator==", "p4_constraints/ast.cc:TypeName"]}
{"id": "C53", "title": "p4check reports one verdict per entry file in order", "statement": "p4check prints, in argument order, for each readable entry either that it satisfies the constraints or the violation, or the error, independently of the other entries; the table-id coercion is idempotent and identity on real table ids.", "quantifier": "every list of entries", "why_tests_cant": "any number of entries", "anchors": ["p4_constraints/cli/p4check.cc:main", "p4_constraints/cli/p4check.cc:CoerceToTableId"]}
{"id": "C54", "title": "The lexer's debug assertion on comments holds", "statement": "In a debug build the assertion behind the comment-skipping loop (input exhausted or comment closed) never fails. False for text that is not valid UTF-8; proved for all valid UTF-8.", "quantifier": "every text following a comment opener", "why_tests_cant": "inputs are unbounded byte strings", "anchors": ["p4_constraints/frontend/lexer.cc:SwallowMultiLineComment"]}
{"id": "C55", "title": "Only a constraint's tokens matter", "statement": "If two P4Infos declare the same tables and actions and their constraints consist of the same tokens, then one loads iff the other does, and every entry is accepted under one iff it is accepted under the other. White space, comments, line breaks, splitting into annotation strings, @file/@line annotations, other annotations and the names of tables and actions never matter. Nor do they to constraint solvers made for a table in the two P4Infos, with any decision procedure and the same keys skipped: both are made or neither is, they decide alike about all texts they are given, also those that cannot be read, and then produce the same entry or fail with the same error.", "quantifier": "every pair of P4Infos related in this way and every entry, with any kind of action; every table, skipping callback, decision procedure and list of texts given to the solver", "why_tests_cant": "unboundedly many layouts of unboundedly many constraints", "anchors": ["p4_constraints/backend/constraint_info.cc:P4ToConstraintInfo", "p4_constraints/backend/interpreter.cc:ReasonEntryViolatesConstraint", "p4_constraints/frontend/lexer.cc:Tokenize"]}
{"id": "C56", "title": "Constraints compose textually", "statement": "If a and b are constraints then ( a ) op ( b ), for op one of && ; || ->, and ! ( a ) are constraints, well typed iff their parts are boolean, and their verdict on every entry is the truth-table combination of the verdicts on the parts.", "quantifier": "every pair of constraint texts not ending in a comment, every table, every entry", "why_tests_cant": "unboundedly many texts", "anchors": ["p4_constraints/frontend/parser.cc:ParseConstraint", "p4_constraints/backend/interpreter.cc:ReasonEntryViolatesConstraint"]}
{"id": "C57", "title": "Logical rewriting preserves verdicts", "statement": "Rewriting a table constraint by the laws of boolean logic (double negation, De Morgan, contraposition, currying, commutativity, associativity, distributivity, absorption, units) and of comparisons (symmetry, negation, <= as < or ==, > as swapped <), anywhere and any number of times, never changes the verdict on an entry.", "quantifier": "every sequence of rewriting steps, every constraint, every entry", "why_tests_cant": "unboundedly many expressions and rewriting sequences", "anchors": ["p4_constraints/backend/interpreter.cc:EvalToBool"]}
{"id": "C58", "title": "The checker's verdicts, exactly", "statement": "ReasonEntryViolatesConstraint returns OK with the empty string exactly when the entry's table is declared, the table's constraint (if it has one) reads true for the values the entry gives the keys and the priority, the entry's action is given by value, and the same holds for the constraint of every action the entry names. A non-empty explanation is only returned when the table's constraint reads false, or when it allows the entry and the first action that is not allowed has a constraint reading false. Reading is the documented meaning, except that an ordered comparison of exact-match values has no answer.", "quantifier": "every p4info the library accepts, every entry, every inet_pton implementation that is well behaved", "why_tests_cant": "it is an equivalence between the whole pipeline (parse, infer, parse entry, evaluate) and a declarative meaning, for all programs and entries", "anchors": ["p4_constraints/backend/interpreter.cc: ReasonEntryViolatesConstraint, EvalToBool, ParseTableEntry, ParseAction", "p4_constraints/backend/constraint_info.cc: P4ToConstraintInfo"]}
{"id": "C59", "title": "What the symbolic solver decides, exactly", "statement": "For a table no two of whose solver variables have the same name (C88 removes this condition), and a constraint that is well typed and uses only keys that are not skipped (and the priority only where entries have one), AddConstraint and AddConstraintString answer true exactly when some well-formed entry satisfies it together with the table's constraint and all constraints added before, Create succeeds exactly when the table's own constraint has such an entry, and every concretized entry is one of them. Satisfaction is the documented meaning with ordered comparisons of fixed-width numbers taken in two's complement, which coincides with the documented meaning unless some ordered comparison has exactly one operand in the upper half of its type.", "quantifier": "every table whose keys have 32-bit widths and distinct variable names, every skip function, every history of calls, every sound solver; the 'if' directions unless Z3 misses a model of one of the (at most two) sets of formulas that the call asks about", "why_tests_cant": "it ranges over all tables, constraints, call histories and solver behaviours; absence of a solution cannot be tested", "anchors": ["p4_constraints/backend/symbolic_interpreter.cc: ConstraintSolver::Create, AddConstraint, ConcretizeEntry, EvaluateConstraintSymbolically"]}
{"id": "C60", "title": "Verdicts are local to the named declarations", "statement": "ReasonEntryViolatesConstraint's outcome for an entry (answer, text, or error) depends only on the declarations of the entry's table and of the actions the entry names. Adding, removing or changing other tables and actions in the P4Info does not change it, as long as the P4Info still loads. Likewise, everything a ConstraintSolver for a table replies (to constraints added as trees or texts, and to requests for entries) depends only on the declaration of that table. The declarations of two P4Infos load together exactly if each loads alone and they share no table number and no action number; entries and solvers of either are then answered as by that P4Info alone.", "quantifier": "all pairs of P4Infos that load and agree on the entry's table and actions; all entries; all solvers, skip functions and sequences of requests", "why_tests_cant": "Non-interference ranges over pairs of arbitrary programs; tests compare a few.", "anchors": ["p4_constraints/backend/constraint_info.cc: P4ToConstraintInfo", "p4_constraints/backend/interpreter.cc: ReasonEntryViolatesConstraint", "p4_constraints/backend/symbolic_interpreter.cc: ConstraintSolver"]}
{"id": "C61", "title": "Encodings of an entry do not matter", "statement": "Two entries that are the same up to the order of match fields and action parameters, leading zero bytes in values, and writing out match-all fields (ternary, LPM, range) instead of omitting them get the same answer with the same text.", "quantifier": "all loaded P4Infos, all entries of declared tables, all combinations of the three changes", "why_tests_cant": "The equivalence is closed under composition; every encoding of every entry is meant.", "anchors": ["p4_constraints/backend/interpreter.cc: ParseP4RTInteger, MaxValueForBitwidth, ParseKey, ParseTableEntry, ParseAction", "p4_constraints/backend/interpreter.cc: ReasonEntryViolatesConstraint"]}
{"id": "C62", "title": "Renaming keys and parameters does not change what is accepted, nor what the solver decides", "statement": "If the keys of tables and the parameters of actions are renamed consistently, in declarations and in constraints (names may be swapped), then the new P4Info loads if the new names are distinct, and exactly the same entries are accepted. Two tables whose keys differ in their names only, with constraints that differ in these names only, have the same solutions; constraint solvers for them that skip the same keys are both made or both refused, give the same answers to constraints that differ in names only, and any entry that one of them produces can be produced by the other (in another order of match fields), as long as no two solver variables of a table share a name (C88) and Z3 overlooks no model.", "quantifier": "all P4Infos, all renamings, all entries; all histories of two solvers, sound Z3 behaviours and constraint texts", "why_tests_cant": "Needs every name and every constraint; lookups are keyed by name, so a clash between a name and an internal key would show for some names only.", "anchors": ["p4_constraints/backend/constraint_info.cc: ParseTableInfo, ParseActionInfo", "p4_constraints/backend/interpreter.cc: ReasonEntryViolatesConstraint", "p4_constraints/backend/type_checker.cc: InferAndCheckTypes", "p4_constraints/backend/symbolic_interpreter.cc: ConstraintSolver::Create, AddConstraint, ConcretizeEntry"]}
{"id": "C63", "title": "Only the tree of a constraint matters", "statement": "If two P4Infos differ only in how constraints are written (parentheses, layout, trailing semicolon, base and leading zeros of numerals), so that they read as the same trees up to source positions, one loads iff the other does and they accept the same entries. Rewriting numerals in another base keeps the tree. Constraint solvers made for a table in the two P4Infos, with any decision procedure and the same keys skipped, are both made or both not; given texts that read as the same trees (or that cannot be read) they decide alike, and then produce the same entry or fail with the same error.", "quantifier": "all P4Infos, all pairs of texts with the same trees, all entries; every table, skipping callback, decision procedure and list of pairs of texts given to the solvers", "why_tests_cant": "All spellings of all constraints.", "anchors": ["p4_constraints/frontend/parser.cc: ParseConstraint", "p4_constraints/frontend/ast_constructors.cc: ConvertNumeral, MakeIntegerConstant", "p4_constraints/backend/interpreter.cc: ReasonEntryViolatesConstraint"]}
{"id": "C64", "title": "Constraints written in one line never crash the process", "statement": "If every constraint a P4Info declares is written in one line and no declared width is negative, then loading the P4Info, checking any entry against it, and running the command line tool on it never crash, whatever the annotations and entries contain. In general they crash only if some interval of a declared constraint spans lines and starts too close to the end of its first line.", "quantifier": "all P4Infos (arbitrary annotations, tables, actions), all entries, all lists of entry files", "why_tests_cant": "Crashes hide in error paths: each message quotes an interval of the source that depends on the whole constraint. Only a proof over all constraints, type errors and entries excludes them.", "anchors": ["p4_constraints/quote.cc: Quote", "p4_constraints/backend/type_checker.cc: InferAndCheckTypes", "p4_constraints/backend/interpreter.cc: ReasonEntryViolatesConstraint", "p4_constraints/backend/constraint_info.cc: P4ToConstraintInfo", "p4_constraints/cli/p4check.cc: main"]}
{"id": "C65", "title": "The constraint solver's calls never throw", "statement": "For a table loaded from a P4Info whose widths fit in 32 bits, a total skip function that skips no zero-width key, and any earlier calls: ConstraintSolver::Create, AddConstraint with a type-checked constraint, AddConstraint with a constraint written in one line (well-formed or not), and ConcretizeEntry with a sound solver return a value or an error status; none throws an exception. Text with line breaks can make AddConstraint throw only if some interval of it spans lines and the table's own constraint has too short a line there, and such text exists.", "quantifier": "every P4Info, table, skip function, solver behaviour, history of calls, and constraint text", "why_tests_cant": "Z3 throws on ill-sorted terms, and quoting throws on intervals it cannot mark; which calls get there depends on the types of all keys, the constraint and all earlier calls.", "anchors": ["p4_constraints/backend/symbolic_interpreter.cc: ConstraintSolver::Create, AddConstraint, ConcretizeEntry, EvalSymbolically, EvalTypeCast, AddSymbolicKey", "p4_constraints/quote.cc: Quote"]}
{"id": "C66", "title": "Type errors blame the part that violates a typing rule", "statement": "When a constraint is ill-typed, the error quotes exactly the first part, reading left to right and operands before operators, that violates a typing rule, and its text names the violated rule: an unknown or unusable name or attribute, an operand of the wrong type, two operands without a common type, an ordered comparison of an unordered type, or a missing field. A constraint either has a type or exactly one such part. For a declared table or action constraint whose parts can be displayed the error is InvalidArgument, and loading any P4Info with that declaration shows it.", "quantifier": "all expressions, tables, actions and P4Infos; all constraint texts", "why_tests_cant": "Which part is blamed depends on the whole tree and on all rules at once; tests compare a few messages.", "anchors": ["p4_constraints/backend/type_checker.cc: InferAndCheckTypes, Unify, StaticTypeError", "p4_constraints/quote.cc: QuoteSubConstraint", "p4_constraints/backend/constraint_info.cc: ParseTableInfo, ParseActionInfo"]}
{"id": "C67", "title": "A failed load reports every erroneous declaration", "statement": "Loading fails with InvalidArgument exactly if some table or action does not load by itself or repeats the id of an earlier one that did; the message then lists, in order, the error of each such declaration, and nothing else.", "quantifier": "all P4Infos", "why_tests_cant": "The claim concerns arbitrary combinations of erroneous declarations in any order.", "anchors": ["p4_constraints/backend/constraint_info.cc: P4ToConstraintInfo"]}
{"id": "C68", "title": "Errors for ill-typed constraint text given to the solver", "statement": "If AddConstraint is given text with a type error, it returns InvalidArgument with a message that shows the part at fault of that text and says why, and the solver's state does not change.", "quantifier": "every table, history of calls, and text", "why_tests_cant": "The message depends on the interplay of the text's locations and the table's own constraint source.", "anchors": ["p4_constraints/backend/symbolic_interpreter.cc: ConstraintSolver::AddConstraint(absl::string_view)", "p4_constraints/backend/type_checker.cc: InferAndCheckTypes, StaticTypeError", "p4_constraints/quote.cc: QuoteSubConstraint"]}
{"id": "C69", "title": "A syntax error blames the first token that cannot come where it stands", "statement": "Every text either parses, or has exactly one place at fault: the first token such that the tokens before it begin some constraint but cannot be continued with it (and all address literals before it are addresses), or, before any such token, an address literal whose string is not an address of its kind. In the second case the error quotes and names exactly that token; in the third case the error is InvalidArgument. The three cases exclude each other.", "quantifier": "all constraint texts, both kinds of constraints, all source locations, all behaviours of inet_pton that write 16 bytes", "why_tests_cant": "whether an earlier token could have been blamed is a statement about all constraints that begin with the same tokens", "anchors": ["p4_constraints/frontend/parser.cc:ParseConstraintAbove", "p4_constraints/frontend/parser.cc:Unexpected", "p4_constraints/frontend/parser.cc:ExpectTokenKind", "p4_constraints/frontend/parser.h:ParseConstraint"]}
{"id": "C70", "title": "The tokens a syntax error says it expected are those that may come next", "statement": "When a syntax error lists expected tokens, the list consists of exactly the tokens with which a constraint can continue at that place.", "quantifier": "all constraint texts that do not parse", "why_tests_cant": "that a token may (or may not) come next quantifies over all continuations", "anchors": ["p4_constraints/frontend/parser.cc:Unexpected", "p4_constraints/frontend/parser.cc:ParseConstraintAbove"]}
{"id": "C71", "title": "The outcome of checking an entry, exactly", "statement": "For a loaded P4Info whose widths are nonnegative and whose constraints can be quoted, ReasonEntryViolatesConstraint never crashes, and its result is determined by the declarations and the entry alone: the empty string if the entry is accepted; the exact explanation text if it is rejected (the shortest deciding part, quoted, followed by the sorted keys or parameters it mentions and their values); and otherwise an error whose status code is fixed: InvalidArgument for unknown tables or actions, non-boolean constraints, indirect actions, unknown or repeated fields, missing exact fields, unacceptable arguments and explanations of incomparable size; Internal for match fields of another kind than their key and for constraints or operands without a truth value.", "quantifier": "every loaded P4Info, every inet_pton, every entry with any table id, match fields, priority and action (none, direct, set, indirect)", "why_tests_cant": "The claim covers every constraint, every declaration and every malformed entry at once, including the order in which faults are noticed; tests sample single combinations.", "anchors": ["p4_constraints/backend/interpreter.cc: ReasonEntryViolatesConstraint", "p4_constraints/backend/interpreter.cc: ParseTableEntry", "p4_constraints/backend/interpreter.cc: ParseAction", "p4_constraints/backend/interpreter.cc: ExplainConstraintViolation", "p4_constraints/backend/interpreter.cc: MinimalSubexpressionLeadingToEvalResult"]}
{"id": "C72", "title": "The solver's answers depend on the set of constraints, not on how they are added", "statement": "Adding constraints one after the other is answered with true every time exactly if there is a well-formed entry (that needs no solver variable to be two numbers, see C88) of which all of them and the earlier ones hold (as the solver reads them). Hence texts that are accepted in one order are accepted in every order, with repetitions, and if some are left out; adding `( a ) && ( b )` or `( a ) ; ( b )` is accepted exactly if adding a and then b is, and all later constraints are then treated alike; adding `( a ) || ( b )` is accepted exactly if adding a or adding b would be. The only exception is a step at which Z3 finds no model although the formulas it is asked about have one.", "quantifier": "all sound Z3 answers, tables, skipped keys, histories of the solver, numbers and orders of texts", "why_tests_cant": "Tests add one or two fixed constraints in one order; the claim is about all sequences, permutations and combinations.", "anchors": ["p4_constraints/backend/symbolic_interpreter.cc: ConstraintSolver::AddConstraint", "p4_constraints/backend/symbolic_interpreter.h: ConstraintSolver"]}
{"id": "C73", "title": "Refusing the negation of a constraint means that the constraint follows", "statement": "Adding `! ( a )` is answered with false, and leaves the solver unchanged, exactly if a holds (as the solver reads it) of every well-formed entry (that needs no solver variable to be two numbers, see C88) of which all constraints so far hold; again unless Z3 finds no model for satisfiable formulas.", "quantifier": "all sound Z3 answers, tables, skipped keys, histories and constraint texts", "why_tests_cant": "That something follows is a statement about all entries.", "anchors": ["p4_constraints/backend/symbolic_interpreter.cc: ConstraintSolver::AddConstraint"]}
{"id": "C74", "title": "Errors keep their code and message on the way up", "statement": "Extending an error status by any number of texts and returning it keeps the code, and the message is the old one, then `; `, then the texts in order (only the texts if there was no message); OK statuses stay OK and unchanged, and RETURN_IF_ERROR and ASSIGN_OR_RETURN return exactly for errors. Converting a builder as an lvalue leaves it as it is; converting it as an rvalue resets it to Unknown with no text. A failed RET_CHECK is an Internal error with file, line, condition and texts. Two documented expectations fail: text streamed into a copy of a builder overwrites the text so far instead of continuing it, and payloads of the status are lost when a text is added.", "quantifier": "all statuses, texts, numbers of texts and sequences of streaming, copying and conversion", "why_tests_cant": "The tests of the repository never inspect builders; the claim is about all chains of texts and copies.", "anchors": ["gutils/status_builder.cc: Annotate, StatusBuilder::StatusBuilder, StatusBuilder::CreateStatus, JoinMessageToStatus", "gutils/status_builder.h: operator<<", "gutils/status_macros.h: RETURN_IF_ERROR, ASSIGN_OR_RETURN", "gutils/ret_check.cc: RetCheckFailSlowPath", "gutils/status.cc: StableStatusToString"]}
{"id": "C75", "title": "Locations, sizes and recursion depth are bounded by the length of the constraint", "statement": "Every location in tokens, parsed trees and checked trees is at most as many lines and columns past the start of the constraint as the constraint has bytes; there is at most one token per byte plus the end marker, at most one tree node per byte, and type checking adds at most two casts per operand, so trees (and with them all recursive passes) are at most three times as deep as the text is long; the size compared when searching for an explanation is between 1 and the length. Reading a program places its constraints at column 0 of a line that a 32-bit counter holds; hence for constraints of a program that end before line 2^31 - 1 the 32-bit line, column and size counters and the line numbers in messages do not overflow. For others, which an @line annotation can produce, they do.", "quantifier": "all constraint texts, start locations, declarations in scope and tree nodes", "why_tests_cant": "The bound is over all texts of all lengths; overflow would need texts of gigabytes.", "anchors": ["p4_constraints/frontend/lexer.cc: Tokenize", "p4_constraints/frontend/parser.cc: ParseConstraint", "p4_constraints/backend/type_checker.cc: CastTransitivelyTo", "p4_constraints/ast.cc: Size", "p4_constraints/ast.proto: SourceLocation", "p4_constraints/backend/constraint_info.cc: ExtractConstraint"]}
{"id": "C76", "title": "Debug builds behave like release builds", "statement": "With every debug assertion (DCHECK) of the lexer, parser, type checker and interpreter enabled, the program starts, and loading a P4Info and checking an entry give exactly the result of a release build. The only exceptions are a declared bit width of -1, and a constraint in which bytes that are no UTF-8 characters cut a block comment short; the latter aborts a debug build whenever the declaration is otherwise read.", "quantifier": "every P4Info, every entry, every token list and every text", "why_tests_cant": "assertions can depend on any combination of text, precedence context, types and widths", "anchors": ["p4_constraints/frontend/lexer.cc:Tokenize", "p4_constraints/frontend/lexer.cc:SwallowMultiLineComment", "p4_constraints/frontend/parser.cc:ParseConstraintAbove", "p4_constraints/frontend/token.cc:kind_keyword_map", "p4_constraints/backend/type_checker.cc:CastTransitivelyTo", "p4_constraints/backend/interpreter.cc:EvalAndCastTo"]}
{"id": "C77", "title": "Checking an entry takes linear work", "statement": "However an entry is filled in, checking it examines the table's constraint at most once and the constraint of each given action at most once; within one such examination no part of the constraint is evaluated more than once (counting evaluation, the search for an explanation and the report together), no part's size is computed more than once and the search visits no part twice. So the work is linear in the length of the constraint text. Conversely, when a check gives an answer, the parts worked on are exactly these: to evaluate a part its operands are evaluated, the second operand of a connective only if the first does not decide; only if the constraint is false is a reason searched for, descending from a connective into the operands that decide, both operands being evaluated; sizes are computed only of the reasons found where both operands decide; and actions are checked in order until one is violated.", "quantifier": "every loaded P4Info, every constraint, every entry, satisfied, violated or failing", "why_tests_cant": "A test observes results, not how often parts were evaluated; repeated work shows only on nested constraints and particular truth values.", "anchors": ["p4_constraints/backend/interpreter.cc: EvalToBool, Eval, MinimalSubexpressionLeadingToEvalResult, ExplainConstraintViolation, ReasonEntryViolatesConstraint", "p4_constraints/ast.cc: Size"]}
{"id": "C78", "title": "Verdicts depend only on the packets an entry matches", "statement": "Two entries of a table that are canonical in the sense of the language specification (values fit the width, masked-off bits are zero, prefixes are at most as long as the key, ranges are not empty), have the same priority and actions, and match the same packets get the same answer from ReasonEntryViolatesConstraint, including its text. The entries that the constraint solver returns are canonical. Canonicity is assumed, not enforced: the specification's example 10 &&& 10 and 11 &&& 10 match the same packets but can get different answers.", "quantifier": "every P4Info, table and pair of entries", "why_tests_cant": "ranges over all packets and all pairs of entries that match them", "anchors": ["docs/language-specification.md", "p4_constraints/backend/interpreter.cc:ParseTableEntry", "p4_constraints/backend/interpreter.cc:ReasonEntryViolatesConstraint", "p4_constraints/backend/symbolic_interpreter.cc:ConcretizeEntry"]}
{"id": "C79", "title": "Documented constraints demand what the documentation says of packets", "statement": "For a canonical entry, a constraint built with the boolean connectives from the documented forms is satisfied exactly if the entry matches packets as documented: k == c demands that the packet's field is c modulo 2^W and nothing else; k == k' that both fields are matched alike; k::mask == 0 that the field does not matter; k::mask == -1 that one single value is matched; k::prefix_length <= n that only the n most significant bits matter; k::low >= n and k::high <= n that nothing below or above n is matched; k::value op n on exact keys and ::priority op n the usual comparison. Other canonical entries are reported as violations. Optional keys always satisfy k::mask == 0 || k::mask == -1.", "quantifier": "all loaded P4Infos, all constraints of the documented forms nested in any way with any spelling, all canonical entries and all packets", "why_tests_cant": "constraints nest without bound, and each claim speaks of every packet an entry may match", "anchors": ["docs/language-specification.md", "p4_constraints/backend/interpreter.cc: Eval_, EvalFieldAccess, EvalAndCastTo, ParseTableEntry", "p4_constraints/frontend/parser.cc"]}
{"id": "C80", "title": "Rewriting a constraint does not change what the solver does", "statement": "If one constraint can be rewritten into another by the laws of logic and of comparisons (double negation, De Morgan, contraposition, distribution, a != b as !(a == b), a >= b as b <= a or !(a < b), a <= b as a < b || a == b, ...), anywhere and any number of times, then both have the same solutions together with any other constraints, and AddConstraint answers both alike, in any session, unless Z3 fails to find a model that exists. This holds although the solver orders fixed-width numbers as two's complement numbers.", "quantifier": "every table, choice of skipped keys, history of the solver, pair of constraints and way of rewriting one into the other, match fields, priority and sound solver", "why_tests_cant": "There are infinitely many constraints and rewritings, and the solver's order differs from the checker's, so laws that hold for the checker need not hold for the solver.", "anchors": ["p4_constraints/backend/symbolic_interpreter.cc: ConstraintSolver::AddConstraint, EvalSymbolically, EvalBinaryExpression"]}
{"id": "C81", "title": "Only the IPv6 addresses written in constraints depend on the system", "statement": "Parsing a constraint, loading a program, running the command-line tool and adding a constraint to a solver give the same result (value, error text or crash) with any two implementations of inet_pton that read the addresses s of the occurrences of ipv6('s') in the constraints in the same way. In particular a constraint whose text does not contain \"ipv6\" gives the same result on every system.", "quantifier": "every pair of inet_pton implementations, constraint text, program, list of entries, solver state", "why_tests_cant": "Tests run on one system with one inet_pton; independence quantifies over all implementations and all inputs.", "anchors": ["p4_constraints/frontend/ast_constructors.cc: MakeNetworkAddressIntegerConstant, Ipv6StringToByteString", "p4_constraints/frontend/parser.cc: ParseConstraintAbove"]}
{"id": "C82", "title": "A quoted source interval identifies one part of the constraint", "statement": "In a parsed constraint no two different parts have the same source interval. Hence the quotations that error messages and explanations show for two different parts differ, and differ in such a way that no text appended to them can make them equal: a reader of the message can tell which part of the constraint is meant.", "quantifier": "every constraint text of either kind that parses, every pair of its parts, every text that may follow the quotations", "why_tests_cant": "It is a statement about all pairs of parts of all constraints, with any placement of parentheses, line breaks and comments.", "anchors": ["p4_constraints/frontend/parser.cc: ParseConstraint", "p4_constraints/frontend/ast_constructors.cc: LocatedExpression", "p4_constraints/quote.cc: QuoteSubConstraint"]}
{"id": "C83", "title": "A rejection message determines what it reports", "statement": "If two entries of the same table are rejected by the table's constraint with the same text, they have the same priority, the same part of the constraint explains both rejections with the same truth value, and both entries have the same value for every key this part mentions. The same holds for the parameters of two uses of the same action that are rejected with the same text. So the explanation loses nothing of the values it is about: values of different kinds, numbers and names are never printed alike.", "quantifier": "every program that loads, every pair of entries with the same table (or the same action), every text", "why_tests_cant": "It is injectivity of the message format over all values, names and constraint sources, including sources that contain text looking like parts of a message.", "anchors": ["p4_constraints/backend/interpreter.cc: ReasonEntryViolatesConstraint, ExplainConstraintViolation, EvalResultToString", "p4_constraints/quote.cc: QuoteSubConstraint"]}
{"id": "C84", "title": "Constraints of tables and actions can be rewritten anywhere in a program", "statement": "Let a program be changed by rewriting constraints of tables and of actions with the laws of logic and of comparisons (C57), any number of times and in any place; names and other annotations of tables and actions may change, too. Then the changed program loads iff the original does. If neither program orders exact keys or uses attributes in action constraints, and widths are not negative, an entry whose actions get all their arguments is accepted under one program iff under the other. With a missing argument this fails, because operands are evaluated in order.", "quantifier": "all pairs of programs (any number of tables and actions, each constraint rewritten by any number of steps), all entries with any actions and any inet_pton", "why_tests_cant": "the rewriting relation generates infinitely many pairs of constraints, and each must agree on every entry", "anchors": ["p4_constraints/backend/constraint_info.cc: P4ToConstraintInfo", "p4_constraints/backend/interpreter.cc: ReasonEntryViolatesConstraint, EvalBinaryExpression", "p4_constraints/backend/type_checker.cc: InferAndCheckTypes"]}
{"id": "C85", "title": "The reported part of a constraint is the smallest that forces the verdict", "statement": "A rejection quotes a part of the constraint and says whether it holds. With that truth value the part forces the constraint to be false, whatever the truth values of all operands beside it. Any other part whose truth value for the entry forces this, too, is larger, or is of the same size and further right. (Here literals count as operands that could have been anything, which is what the minimality of C32 is missing: `false || k == 1` is not forced by `k == 1`.) A part that forces a truth value is sufficient for it under every entry.", "quantifier": "all loaded programs, all rejected entries, all parts of the constraint at fault", "why_tests_cant": "it compares the reported part with every other part under all possible truth values of the rest", "anchors": ["p4_constraints/backend/interpreter.cc: MinimalSubexpressionLeadingToEvalResult, ReasonEntryViolatesConstraint"]}
{"id": "C86", "title": "What the solver does with a constraint tree that no type checker has seen", "statement": "ConstraintSolver::AddConstraint(expression, source) does not type check its argument. Whatever tree it is given, in any state reachable by API calls in which the solver still finds the stored constraints satisfiable: it answers true or false exactly if the tree is labelled boolean and the sorts of its parts fit together; otherwise the tree has exactly one first flaw (operands before operators, left before right), the flaw decides what the caller sees (a Z3 exception, NotFound, Unimplemented, InvalidArgument, or a runtime type error quoting a match used as an expression), and the solver is left as it was. Trees made by the type checker from parsed constraints never make Z3 throw. The documented claim that constraints that are not properly type checked yield an InvalidArgumentError or InternalError is refuted.", "quantifier": "all tables, all sequences of API calls, all constraint trees (well typed or not), all sources, all solvers", "why_tests_cant": "Tests give the solver a few trees that the type checker made; the claim is about every tree a caller can build or deserialise, of any depth.", "anchors": ["p4_constraints/backend/symbolic_interpreter.h: AddConstraint, EvaluateConstraintSymbolically", "p4_constraints/backend/symbolic_interpreter.cc: EvalSymbolically, EvalTypeCast, EvalBinaryExpression, AddConstraint"]}
{"id": "C87", "title": "What evaluation does with a constraint tree that no type checker has seen", "statement": "Eval and the entry check take any expression tree together with values for its names. A tree evaluates to a value exactly when every part that evaluation reaches (left to right, stopping once a connective is decided) has a value fitting its type label; it has at most one value. Otherwise the caller gets an Internal error, an InvalidArgument error if the tree has an unset part, or a crash, the latter only if a part is converted to a negative width or cannot be quoted. An entry is accepted under a hand-made Boolean constraint exactly when the constraint evaluates to true; a rejection means that it evaluates to false.", "quantifier": "all expression trees, well typed or not, all contexts of keys or parameters, all tables with hand-made constraints, all entries", "why_tests_cant": "Tests evaluate a few malformed trees; trees, labels and contexts are unbounded, and which parts are reached depends on all values to the left.", "anchors": ["p4_constraints/backend/interpreter.h: Eval, EvaluationContext", "p4_constraints/backend/interpreter.cc: Eval, EvalToBool, EvalToInt, DynamicTypeCheck, ReasonEntryViolatesConstraint"]}
{"id": "C88", "title": "What the symbolic solver decides when key names share solver variables", "statement": "Without any assumption on key names: AddConstraint and AddConstraintString answer true exactly when some well-formed entry satisfies the new and all earlier constraints (as the solver reads them) and does not need one solver variable to be two numbers; Create succeeds exactly when the table's own constraint has such an entry; every concretized entry is of this kind, and every entry of this kind is what some sound solver makes ConcretizeEntry return. Two parts of an entry use the same variable exactly when their variable names agree up to the first NUL character and their sorts agree; for names without NUL characters that happens exactly when some key is named like a ternary or optional key of the same width followed by `_mask`, and then the two are equal in every concretized entry. Where no variable is shared, nothing is lost.", "quantifier": "all tables, skip functions, key names, histories of calls, constraint texts and trees, sound Z3 behaviours, entries", "why_tests_cant": "a test fixes key names and constraints; the claim covers all tables, all names and all satisfiable and unsatisfiable sets of constraints, in both directions", "anchors": ["p4_constraints/backend/symbolic_interpreter.cc: AddSymbolicKey, AddSymbolicPriority, ConstraintSolver::Create, ConstraintSolver::AddConstraint, ConstraintSolver::ConcretizeEntry"]}
{"id": "C89", "title": "All entries that satisfy the constraints can be enumerated with the solver's own interface", "statement": "Concretizing an entry, adding a constraint text that says that the entry is not this one, and repeating this until the text is refused, is an enumeration of the solutions: for every entry the solver gives there is such a text (if the names of the keys are identifiers), the text can be added and rules out this entry and no other; the entries of such a loop are pairwise different solutions of the constraints the loop started with; the loop ends after finitely many rounds; and when the text is refused, every solution has been given, unless Z3 missed a model of satisfiable formulas in the last round.", "quantifier": "all tables, constraints, sessions with the solver before the loop, sound SMT solvers and choices of models, and all ways of writing the excluding text", "why_tests_cant": "A test enumerates one table with one Z3 version. That nothing is left out and nothing is repeated for every table and every behaviour of the solver, and that the loop cannot go on for ever, needs a proof.", "anchors": ["p4_constraints/backend/symbolic_interpreter.cc: ConstraintSolver::ConcretizeEntry", "p4_constraints/backend/symbolic_interpreter.cc: ConstraintSolver::AddConstraint", "p4_constraints/backend/symbolic_interpreter.h: ConstraintSolver"]}
{"id": "C90", "title": "Every finite set of entries can be allowed, or forbidden, by a constraint", "statement": "For every finite list of entries of a table (match fields and priority) whose key names are identifiers there is a constraint text, built from equations for the fields of the keys and the priority, which can be written into the table's annotation; a P4Info with it loads, and the checker accepts exactly the entries that fit the table and agree with one of the list on the values of all keys, given or omitted, and on the priority. With the negated text it accepts exactly the others.", "quantifier": "all tables with identifier names, all finite lists of entries whose numbers fit the widths, and all entries to be checked", "why_tests_cant": "It relates the printed text, the parser, the type checker, the entry parser and the evaluator for arbitrarily long constraints and arbitrary entries.", "anchors": ["p4_constraints/backend/interpreter.cc: ReasonEntryViolatesConstraint", "p4_constraints/frontend/parser.cc: ParseConstraint", "p4_constraints/backend/constraint_info.cc: P4ToConstraintInfo", "docs/language-specification.md"]}
{"id": "C91", "title": "New match fields and parameters do not disturb existing entries", "statement": "If a table gets new match fields that entries may omit (ternary, LPM, optional, or range with a non-negative width), or an action gets new parameters, with ids and names of their own and without a change of the constraints, then the P4Info still loads, and every answer of ReasonEntryViolatesConstraint about an entry, acceptance or explanation, stays the same, to the letter. Conversely, an answer about an entry that uses the new fields or parameters is the answer that the old P4Info gives about the rest of the entry.", "quantifier": "all P4Infos that load, all additions of match fields and parameters at any positions, all entries", "why_tests_cant": "There are infinitely many P4Infos, additions and entries; tests compare a few versions of a few programs.", "anchors": ["p4_constraints/backend/constraint_info.cc: P4ToConstraintInfo", "p4_constraints/backend/interpreter.cc: ReasonEntryViolatesConstraint, ParseTableEntry, ParseAction", "p4_constraints/backend/type_checker.cc: InferAndCheckTypes"]}
{"id": "C92", "title": "What the solver asks of Z3, and how little its answers depend on Z3", "statement": "Adding a constraint to a ConstraintSolver asks Z3 at most two questions, namely whether what was accepted so far is satisfiable and whether it still is together with the new constraint, and uses only whether the answer is sat. So Create and every sequence of additions, as trees or as text, give the same answers, errors and states with any two decision procedures that answer sat to the same formulas, in particular with any two correct ones, whatever models they produce. ConcretizeEntry asks one question, and the entry depends only on the values the model gives to the symbols of the keys that are not skipped and to the priority. The formula for a constraint has at most three times as many nodes as the constraint; all formulas held by a solver together have at most 21 nodes per key, 6 for the priority, and three per node of the accepted constraints.", "quantifier": "all solvers (oracles), tables, skip functions, sequences of requests, reachable solver states, constraints and models", "why_tests_cant": "Tests run one version of Z3 with one configuration; they cannot show that no answer depends on the models it happens to produce, nor bound the formulas for all constraints.", "anchors": ["p4_constraints/backend/symbolic_interpreter.cc: ConstraintSolver::AddConstraint", "p4_constraints/backend/symbolic_interpreter.cc: ConstraintSolver::Create", "p4_constraints/backend/symbolic_interpreter.cc: ConstraintSolver::ConcretizeEntry", "p4_constraints/backend/symbolic_interpreter.cc: EvalSymbolically"]}
{"id": "C93", "title": "A type check only writes types and casts, and a failed one leaves an expression that is usable exactly if no cast was written", "statement": "Calling InferAndCheckTypes on an expression changes nothing of it but the types of its nodes and legal casts around operands of comparisons, whether the call succeeds or fails. When it fails, everything before the place of the error (operands first, left to right) is fully annotated, and the nodes above that place and everything after it are as they were. The types already present on the expression are not read. After any call, a later call with the same or another table or action accepts what is left exactly if no cast is left in it and it would have accepted the expression as it was before, and then yields the same tree. So a check that failed fails again with the same declaration; a check that succeeded can be repeated exactly if it inserted no cast; and a caller that tries several declarations on one expression has to copy it, since the failed attempts are felt otherwise.", "quantifier": "all expressions (parsed or not), all table and action declarations of the first and the second call", "why_tests_cant": "The effect on the argument after a failure depends on how far the traversal came in an arbitrary tree; the tests discard the argument of failing calls.", "anchors": ["p4_constraints/backend/type_checker.cc: InferAndCheckTypes, Unify, CastTransitivelyTo", "p4_constraints/backend/type_checker.h: InferAndCheckTypes"]}
{"id": "C94", "title": "Match fields can be given a more general kind of match without changing verdicts", "statement": "If match fields of a P4Info are changed to a more general kind of match (exact to ternary, optional, lpm or range; optional or lpm to ternary) and both P4Infos can be loaded with the same annotations, then an entry of the old P4Info, which gives every exact field, is accepted iff its translation to the new kinds (same numbers with full mask, full prefix or equal bounds; the mask of the same prefix; omitted fields omitted) is accepted; and the table's constraint says the same of both.", "quantifier": "all P4Infos, all choices of fields to generalise, all constraints, all entries and their translations", "why_tests_cant": "The statement ranges over all constraints, all widths and all field values; tests check a few casts and fields of fixed widths.", "anchors": ["p4_constraints/backend/interpreter.cc: ParseKey, ParseTableEntry, EvalAndCastTo, EvalFieldAccess, EvalBinaryExpression", "p4_constraints/backend/type_checker.cc: InferAndCheckTypes, FieldTypeOfCompositeType, LeastUpperBound", "p4_constraints/backend/constraint_info.cc: ParseKeyType"]}
{"id": "C95", "title": "Verdicts do not depend on the widths of exact keys, range keys and parameters", "statement": "If the bit widths of exact match fields, range match fields and action parameters of a P4Info are changed (both widths at least N, both P4Infos load), and every integer that a constraint compares with something other than an integer is a literal below 2^N, then an entry that gives the changed range fields is accepted iff it was accepted before; and the constraint of every table and action says the same of the entry and the action.", "quantifier": "all P4Infos, all choices of fields and parameters and of new widths, all constraints with literals below 2^N, all entries", "why_tests_cant": "The statement ranges over all widths, constraints and entries; tests fix a few widths.", "anchors": ["p4_constraints/backend/interpreter.cc: ParseKey, ParseTableEntry, ParseAction, EvalAndCastTo, EvalBinaryExpression", "p4_constraints/backend/type_checker.cc: InferAndCheckTypes, LeastUpperBound, CastTransitivelyTo", "p4_constraints/backend/constraint_info.cc: ParseKeyType, ParseParamType"]}
{"id": "C96", "title": "Constraints on different keys do not interact", "statement": "A constraint that has no key in common with the table's own constraint and the constraints added before (and does not share the priority with them) is accepted by AddConstraint exactly if some well-formed entry satisfies it by itself; so two solvers for the same table answer alike whatever constraints on other keys they hold. Several constraints, each on keys of its own, are accepted one after the other exactly if each would be accepted alone. Entries that satisfy such groups of constraints can be recombined: the match fields of the one group's keys from one entry and the others from another entry satisfy all constraints.", "quantifier": "every table whose solver variables have different names, every skip function, every history of calls, all constraints on different keys, every sound solver that answers the questions asked", "why_tests_cant": "A test shows it for some keys and constraints; an unexpected coupling of keys (shared variables, leaked assertions, state of the solver) shows only for particular combinations of keys and histories.", "anchors": ["p4_constraints/backend/symbolic_interpreter.cc: ConstraintSolver::AddConstraint, ConstraintSolver::Create, AddSymbolicKey"]}
{"id": "C97", "title": "Loosening a constraint never rejects what was accepted", "statement": "Replace parts of the constraints of a program by looser conditions: add alternatives, drop conditions, make conditions conditional, turn == or < into <=, move a literal bound outwards, replace a part by any condition that it implies, or, where a part stands under a negation or on the left of ->, tighten it; or drop constraints altogether. Then the program still loads, and every entry that was accepted is still accepted, provided that the checker can evaluate the new constraints and actions get all their arguments. Read backwards, tightening never makes an entry acceptable. Likewise for the symbolic solver: a session accepted with the tight texts is accepted with the loosened ones, and if the looser text is refused then so is the tight one, unless Z3 overlooks a model. Moving a bound outwards counts only as long as it fits the width of the key: beyond that it wraps around and may reject entries accepted before.", "quantifier": "all programs, all loosenings of any parts of any of their constraints at any depth, all entries, all solvers, histories and texts", "why_tests_cant": "Any pair of constraints, any entry and any number of loosened parts under any nesting of negations: tests show single pairs.", "anchors": ["p4_constraints/backend/interpreter.cc: ReasonEntryViolatesConstraint, EvalBinaryExpression, Eval_", "p4_constraints/backend/type_checker.cc: InferAndCheckTypes", "p4_constraints/backend/constraint_info.cc: P4ToConstraintInfo", "p4_constraints/backend/symbolic_interpreter.cc: AddConstraint"]}
{"id": "C98", "title": "What it costs to read a constraint", "statement": "Parsing a constraint takes each token of the text at most once and looks ahead at most three times per token, whatever the text. A successful parse copies each node of the resulting expression once for every expression around it, so the amount copied is the sum of the nodes' depths: never more than about half the square of the number of tokens, but reaching that order already for a plain conjunction, so no linear bound holds. Type checking visits the expressions from left to right, each once, stopping at the first error.", "quantifier": "every constraint text, accepted or not; every tree and every table or action it is checked against; every number of conjunctions", "why_tests_cant": "A bound on work for every text, and the absence of any linear bound, are statements about all lengths; a test measures single inputs and sees only the result.", "anchors": ["p4_constraints/frontend/parser.cc: ParseConstraintAbove, TokenStream::Peek, TokenStream::Next, ExpectTokenKind", "p4_constraints/frontend/ast_constructors.h: MakeBinaryExpression, MakeBooleanNegation, MakeFieldAccess (parameters by value)", "gutils/status_macros.h: ASSIGN_OR_RETURN", "p4_constraints/backend/type_checker.cc: InferAndCheckTypes, WrapWithCast"]}
{"id": "C99", "title": "Skipping keys is the same as solving for the table without them", "statement": "Creating a solver for a table with some keys skipped, and creating one for the same table declared without those keys, succeed together, and fail with the same error. After that the two cannot be told apart: for every sequence of constraint texts they answer accepted, refused or error alike, a text that mentions a skipped key being an error for both, and the entry asked for at the end is the same, error included. A program from which the match fields are removed loads whenever the table's constraint does not mention them. The one exception is priority: skipping the last ternary or optional key still leaves the solver demanding a priority, so the claim is about skips that keep one such key, or tables that have none.", "quantifier": "every program, table, constraint, skip function that answers for every key, SMT solver (sound or not), address resolver and sequence of constraint texts", "why_tests_cant": "A test compares two tables on a few constraints; the claim is that no sequence of additions can tell them apart.", "anchors": ["p4_constraints/backend/symbolic_interpreter.cc: ConstraintSolver::Create, AddConstraint, ConcretizeEntry", "p4_constraints/backend/symbolic_interpreter.h: skip_key", "p4_constraints/backend/constraint_info.cc: ParseTableInfo"]}
{"id": "C100", "title": "The solver's questions are decidable, and a Z3 that overlooks nothing answers them like an exhaustive search", "statement": "Every question that a ConstraintSolver can put to Z3, after any sequence of calls of the API, is decided by trying finitely many values: all values of the bit vectors, prefix lengths up to the key's width, priorities up to 2^31-1. A solver that uses this search instead of Z3 is created exactly for tables that have an entry, accepts a constraint exactly if it leaves an entry, always has an entry, and enumerates all entries, each once. As long as Z3 is sound and overlooks no model of the questions it is asked, Create and AddConstraint give the same answers, and leave the solver in the same state, as with this search; only the entry returned by ConcretizeEntry may differ.", "quantifier": "all tables, skip predicates, sequences of added constraints, sound decision procedures", "why_tests_cant": "The clause 'unless Z3 fails to answer' in other properties can only be known to be satisfiable, and the answers only known to be determined, by a proof that covers every formula the encoder can produce; tests see single formulas and one version of Z3.", "anchors": ["p4_constraints/backend/symbolic_interpreter.cc:ConstraintSolver::Create", "p4_constraints/backend/symbolic_interpreter.cc:ConstraintSolver::AddConstraint", "p4_constraints/backend/symbolic_interpreter.cc:ConstraintSolver::ConcretizeEntry", "p4_constraints/backend/symbolic_interpreter.cc:EvaluateConstraintSymbolically"]}
{"id": "C101", "title": "Putting known values into a constraint does not change its verdict", "statement": "If parts of a constraint are replaced by what they are for an entry (conditions by true or false, the priority, prefix lengths and other numbers by literals, keys, fields and arguments of fixed width by literals in comparisons whose other side fits the width), then an entry that was accepted stays accepted, and one that violates a constraint stays unaccepted. In a solver, once earlier constraints settle the values that are put in, the constraint and its variant have the same solutions and are answered alike unless Z3 overlooks a model; there values of fixed width may be put into comparisons for equality only, because the solver orders them as signed numbers.", "quantifier": "all programs, entries, constraints, all ways of replacing parts, all solver sessions", "why_tests_cant": "A test specialises one constraint for one entry.", "anchors": ["p4_constraints/backend/interpreter.cc: ReasonEntryViolatesConstraint", "p4_constraints/backend/interpreter.cc: EvalBinaryExpression", "p4_constraints/backend/type_checker.cc: InferAndCheckTypes", "p4_constraints/backend/symbolic_interpreter.cc: ConstraintSolver::AddConstraint"]}
{"id": "C102", "title": "Snake case is converted to camel case word by word", "statement": "SnakeCaseToCamelCase drops all underscores and capitalizes the first letter of each word between them; nothing else changes, except that the very first character is in lower case if lower_first is set. The result contains no underscore, and converting it again does not change it.", "quantifier": "all byte strings, both values of lower_first", "why_tests_cant": "The unit tests try ten strings.", "anchors": ["gutils/testing.cc: SnakeCaseToCamelCase"]}
{"id": "C103", "title": "A reported part can be cut out of the constraint and tried on its own", "statement": "Every part of a constraint that is read is written in its text as a constraint of its own: there is a piece of the text, made of consecutive tokens, that is read as just this part, with the same locations, and has the part's source interval up to parentheses and a semicolon around it. The bare source interval, which is what error messages and explanations mark, is read as the part if its parentheses are balanced, and is not a constraint at all otherwise (the interval of `(a) == 1` starts after the parenthesis). So a rejection can be reproduced with less: if an entry is rejected because the entry must satisfy, or must not satisfy, a quoted part, then a table with the same match fields whose whole constraint is that piece of text rejects, or accepts, the same match fields and priority. The same holds for action parameters.", "quantifier": "all constraint texts, parts of them and locations; all P4Info messages that are loaded and whose constraints can be quoted, all rejected entries, all other programs that use the piece as a constraint", "why_tests_cant": "The claim ranges over all texts, all parts in them and all positions of parentheses and comments, and over all entries of all programs; a test shows single quotations.", "anchors": ["p4_constraints/frontend/lexer.cc:Tokenize", "p4_constraints/frontend/parser.cc:ParseConstraint", "p4_constraints/frontend/ast_constructors.cc", "p4_constraints/backend/interpreter.cc:ExplainConstraintViolation", "p4_constraints/quote.cc:QuoteSubConstraint"]}
{"id": "C104", "title": "Skip functions that change their mind", "statement": "The function that says which keys to leave out may have a memory. Creating a solver asks it for the keys of the table in byte order of their names, for each at most once, and stops at the first error; producing an entry asks again in the same way, and adding constraints asks nothing. The result of each operation is the one a function without memory would give that gives the answers given during that operation, so a function that keeps to its answers behaves as one without memory. If it leaves out further keys when an entry is produced, the entry is the one it would have been without the fields of those keys, and may then violate the constraint of the table. If it no longer leaves out a key, no entry is produced, and the error names the first such key.", "quantifier": "all stateful skip functions, tables, solvers, sequences of added constraints and points of time at which an entry is produced", "why_tests_cant": "ranges over all functions with memory and all histories of calls", "anchors": ["p4_constraints/backend/symbolic_interpreter.cc: ConstraintSolver::Create, ConstraintSolver::ConcretizeEntry", "p4_constraints/backend/symbolic_interpreter.h: skip_key_named_"]}
{"id": "C105", "title": "A further requirement that is met leaves the explanation as it is", "statement": "If ReasonEntryViolatesConstraint explains that an entry violates the constraint of its table, and the entry meets a second constraint over the same keys, then after the second one is added to the table's annotation as a further string \"; ( ... )\", that is, on a new line, ReasonEntryViolatesConstraint gives exactly the same text for the entry: the same part is quoted with the same line, columns and marker, and the same fields are listed. The same holds for the constraints of actions. Adding a table's own constraint a second time in this way also leaves the text as it is; for actions it makes the check fail if the explanation mentions a parameter.", "quantifier": "all P4 programs whose constraints can be quoted, all tables and actions, all first constraints that end neither in a semicolon nor in a comment, all second constraints that do not end in a comment, and all entries", "why_tests_cant": "Tests fix the texts of a few explanations; that no added requirement can shift a location, change which part is blamed, or disturb the quotation holds over all texts, layouts and entries.", "anchors": ["p4_constraints/backend/interpreter.cc: ReasonEntryViolatesConstraint, MinimalSubexpressionLeadingToEvalResult, ExplainConstraintViolation", "p4_constraints/backend/constraint_info.cc: ExtractConstraint", "p4_constraints/frontend/lexer.cc: Tokenize", "p4_constraints/frontend/parser.cc: ParseConstraint", "p4_constraints/quote.cc: QuoteSubConstraint"]}
{"id": "C106", "title": "A rejected entry stays rejected until a value that the explanation shows is changed", "statement": "If a table's constraint rejects an entry and accepts another entry of the same table, then the accepted entry has another value for a key that the quoted part of the constraint mentions and that the explanation of the rejection lists with its value, or it has another priority and the quoted part mentions the priority. If an entry is rejected because of an action, then every accepted entry, of any table, that uses this action lacks one of the arguments that the explanation lists. So whoever wants to get an entry accepted has to change one of the listed values; changing anything else is in vain.", "quantifier": "every program that loads (with widths that are not negative and constraints that can be quoted), every rejected entry, every accepted entry of the same table or with the same action", "why_tests_cant": "It relates every rejected entry to all entries that would be accepted, for all constraints.", "anchors": ["p4_constraints/backend/interpreter.cc: ReasonEntryViolatesConstraint, ExplainConstraintViolation, MinimalSubexpressionLeadingToEvalResult"]}
{"id": "C107", "title": "Of several violated requirements the one with the shortest explanation is reported", "statement": "Let a constraint consist of several requirements, joined by && or ; in any grouping. If it rejects an entry, the explanation is the explanation of exactly one of the violated requirements; requirements that are met and other violated ones do not take part. Among all violated requirements it is one whose explanation is smallest, and the leftmost of those. The same holds for constraints of actions; but a comparison with a parameter of the action is reported only if its requirement is the only one that is violated.", "quantifier": "every program that loads (with widths that are not negative and constraints that can be quoted), every rejected entry, every division of the constraint into requirements", "why_tests_cant": "It ranges over all numbers and groupings of requirements and all combinations of violated ones.", "anchors": ["p4_constraints/backend/interpreter.cc: MinimalSubexpressionLeadingToEvalResult, ExplainConstraintViolation", "p4_constraints/ast.cc: Size"]}
{"id": "C108", "title": "Answers do not depend on how hash maps are traversed, except for the choice among several missing keys", "statement": "The constraints of a loaded program are kept in hash maps whose traversal order is unspecified and differs between runs. Checking the same table entry under any two traversal orders gives the same outcome in full: verdict, explanation, status code, error message, or crash. The only exception is an entry whose well-formed match fields lack two or more keys that have no default (exact keys, or keys of unsupported match kinds) in a table with a constraint: then the error is about one of those missing keys, each of them is the one named under some order, and the status code too can differ if a key of an unsupported match kind is among them. With keys of the standard match kinds only, the status code is always the same. Checking actions never depends on the order, and neither does anything a constraint solver answers: its creation, any sequence of added constraints and the entries it produces.", "quantifier": "all P4Info messages that load, all pairs of traversal orders of the key and parameter maps of every table and action, all table entries and actions, all solver sessions", "why_tests_cant": "A test run sees one traversal order of each hash map, and Abseil leaves it unspecified; agreement over all orders and all entries needs a proof.", "anchors": ["p4_constraints/backend/interpreter.cc: ParseTableEntry, ParseKey, ParseAction, ReasonEntryViolatesConstraint", "p4_constraints/backend/constraint_info.h: TableInfo, ActionInfo", "p4_constraints/backend/symbolic_interpreter.cc: Create, AddConstraint, ConcretizeEntry"]}
{"id": "C109", "title": "Every declaration that does not load has one reason, and the error message states it", "statement": "A table or action declaration loads, or exactly one of these reasons applies, looking first at the keys (parameters) in order and then at the constraint: a match field of no valid match type; a key or parameter that repeats the id or the name of a preceding one; a restriction annotation that is not enclosed in (\" and \"); one with stray quotation marks; a token that cannot come where it stands; an address literal that is no address; a part with a type error. The load then fails with InvalidArgument and the message of that reason: which kind of declaration it is, its name, and what is wrong, or the quoted part with what is wrong about it. A load of a whole P4Info reports these messages in the order of the declarations.", "quantifier": "for all table and action declarations (any number of keys, any annotations, any constraint text) and all P4Infos", "why_tests_cant": "A declaration can have any number of mistakes of several kinds at once; tests try single mistakes.", "anchors": ["p4_constraints/backend/constraint_info.cc: P4ToConstraintInfo, ParseTableInfo, ParseActionInfo, ExtractConstraint, ParseKeyType", "p4_constraints/frontend/parser.cc: ParseConstraint", "p4_constraints/backend/type_checker.cc: InferAndCheckTypes"]}
{"id": "C110", "title": "An entry that does not fit the program is answered with its first mistake", "statement": "ReasonEntryViolatesConstraint answers an entry that does not fit the loaded program with the status code and the exact message of its first mistake: an unknown table, a constraint that is not boolean, the first match field that is for an unknown key, of the wrong kind, of an unsupported kind or for a key matched before, then a missing key; and, if the entry would be accepted without actions, the first action not accepted by itself: given by reference or not at all, unknown, with a constraint that is not boolean, or with an argument that is unknown or given twice. Ids are shown in decimal and in eight hexadecimal digits, preceded by their lower 24 bits if the upper 8 are not zero. Errors other than these occur only for entries (or actions) that do fit, where the constraint itself could not be evaluated.", "quantifier": "every program that loads, every entry and action whose ids fit 32 bits, any number of match fields, actions and arguments in any order with any number of mistakes", "why_tests_cant": "An entry can have any number of mistakes in any order; tests check some messages for entries with a single one.", "anchors": ["p4_constraints/backend/interpreter.cc: P4IDToString", "p4_constraints/backend/interpreter.cc: ParseKey", "p4_constraints/backend/interpreter.cc: ParseTableEntry", "p4_constraints/backend/interpreter.cc: ParseAction", "p4_constraints/backend/interpreter.cc: ReasonEntryViolatesConstraint"]}
{"id": "C111", "title": "What is answered when a constraint cannot be evaluated or its violation not explained", "statement": "For an entry that fits its table, if evaluating the table's constraint comes to an argument that was not given, to the priority where there is no entry, or to the ordering of an exact match, the answer is an Internal error. It quotes exactly that part of the constraint and says which of these it is. Parts that short-circuiting skips do not count. If the constraint is violated but the search for a reason fails, because the reason needs a part that evaluation skipped, because the sizes of two candidate reasons are not known, or because the reason cannot be quoted, the answer is the corresponding error. There is no other way to get an error for an entry that fits. The same holds for the first action that is not accepted by itself.", "quantifier": "all P4Infos that load with non-negative widths, all declarations with boolean constraints, all entries and actions that fit them, all ways evaluation or explanation can fail", "why_tests_cant": "The tests check a few literal constraints; which subexpression is reached first, and which message is given, ranges over all trees and all entries.", "anchors": ["p4_constraints/backend/interpreter.cc: EvalToInt, EvalToBool, EvalBinaryExpression, Eval_, RuntimeTypeError, MinimalSubexpressionLeadingToEvalResult, ReasonEntryViolatesConstraint", "p4_constraints/ast.cc: Size", "p4_constraints/quote.cc: QuoteSubConstraint"]}
{"id": "C112", "title": "Which error the solver reports for what it cannot represent", "statement": "Creating a solver for a table of a loaded P4Info fails because of a key exactly if the caller's choice of skipped keys fails for it, or if it is not skipped and its type has no width, width 0, or is a range; the error is that of the first such key in the byte order of their names, with the documented code and text. Without such a key, creation succeeds if the table has no constraint. Otherwise it fails with an Internal error if the solver already has no solution, with InvalidArgument if the constraint is not boolean, and with NotFound or Unimplemented if the constraint mentions a skipped key, a missing priority, or compares something with a range on its right; which of these is decided by what comes first from the left. Otherwise it succeeds, or reports the constraint as unsatisfiable, with its text. Constraints added later as text get exactly the same answers, and leave the solver as it was. Asking for an entry gives an error exactly if the solver has no solution.", "quantifier": "all P4Infos that load with 32-bit widths, all tables, all choices of skipped keys, all histories of a solver, all well-typed constraint texts, all solvers in the sense of an oracle", "why_tests_cant": "The tests look at the error code of a few literal tables; which key or which part of a constraint is complained about ranges over all tables, trees and histories.", "anchors": ["p4_constraints/backend/symbolic_interpreter.cc: ConstraintSolver::Create, ConstraintSolver::AddConstraint, ConstraintSolver::ConcretizeEntry, AddSymbolicKey, EvalSymbolically, EvaluateConstraintSymbolically", "p4_constraints/ast.cc: TypeBitwidthOrStatus", "gutils/collections.h: FindPtrOrStatus"]}
{"id": "C113", "title": "What p4check prints is the truth about its files", "statement": "For a P4Info file that loads, the report p4check prints for a file starts with 'not found' exactly if the file cannot be opened, with 'unable to parse' exactly if it is not a table entry, and with 'Constraint satisfied' exactly if the entry in it is permitted by the P4Info as given: its table, identified by the lower 24 bits of the ids, has no constraint or one that the entry satisfies as its text is documented to read, it does not refer to an action profile member or group, and each of its actions has no constraint or one that its arguments satisfy. A report starting with 'All ' is printed only if the table's constraint, or after it that of an action, does not hold; one starting with 'Error: ' only if the entry is not permitted. There are no other reports, and no entry is both permitted and forbidden. The exit code is 1 exactly if the flag is missing, or the P4Info file cannot be opened, parsed or loaded, and then exactly the documented complaint is written to standard error and nothing to standard output.", "quantifier": "all contents of the P4Info file and all lists of entry files", "why_tests_cant": "The command line tests compare the output for a fixed list of files; that the printed verdict is right ranges over all P4Infos and entries.", "anchors": ["p4_constraints/cli/p4check.cc: main, CoerceToTableId, ToString", "p4_constraints/backend/interpreter.cc: ReasonEntryViolatesConstraint", "p4_constraints/backend/constraint_info.cc: P4ToConstraintInfo"]}
{"id": "C114", "title": "The words and the shape of error messages", "statement": "Error messages call a type unknown, bool, int, bit<W>, exact<W>, ternary<W>, range<W> or optional<W> with the width in decimal (an LPM type is called bit<W>, an unsupported one by its given name), a kind of token as it is spelled or by its name in angle brackets, and a status code by its canonical upper-case name. A syntax error, type error or error during evaluation about a part of a constraint is exactly the quotation of that part, the label of the error and its text, with code InvalidArgument (Internal during evaluation). If the part cannot be quoted, it is an Internal error with the reason for that and the same text; there is no other answer except the crash for intervals that cannot be marked.", "quantifier": "all types, widths, kinds of tokens, codes, constraints, intervals and texts", "why_tests_cant": "all widths and all intervals of all constraints", "anchors": ["p4_constraints/ast.cc: TypeName", "p4_constraints/frontend/token.cc: Token::KindToKeyword", "gutils/status.cc: StableStatusToString", "p4_constraints/backend/errors.cc: RuntimeTypeError", "p4_constraints/backend/type_checker.cc: StaticTypeError", "p4_constraints/frontend/parser.cc: ParseError", "p4_constraints/quote.cc: QuoteSubConstraint"]}
{"id": "C115", "title": "Numbers are only names", "statement": "If tables, match fields, actions and parameters are given other numbers, in the P4Info and in the entries alike, the P4Info can be loaded exactly if it could before, the same entries are accepted, and checking any entry has the same outcome: the same explanation, letter for letter, an error with the same status code, or the same crash. Different things must keep different numbers; numbers of match fields need only be distinct within their table and those of parameters within their action. Constraint solvers made for a table and for its renumbered version, with the same keys skipped and the same decision procedure, are both made or both refused with the same message, reply alike to every list of requests, and then produce entries that differ in their numbers only, or fail with the same message.", "quantifier": "every P4Info, every faithful assignment of new numbers, every entry, every decision procedure, skipping callback and list of requests to the solver", "why_tests_cant": "Tests use a few fixed numbers; independence of the numbers, and of the order they induce in the maps by id, is a statement about all assignments.", "anchors": ["p4_constraints/backend/constraint_info.cc: P4ToConstraintInfo, ParseTableInfo, ParseActionInfo", "p4_constraints/backend/interpreter.cc: ReasonEntryViolatesConstraint, ParseTableEntry, ParseAction", "p4_constraints/backend/symbolic_interpreter.cc: ConstraintSolver::Create, AddConstraint, ConcretizeEntry, ConcretizeKey"]}
{"id": "C116", "title": "The names of tables and actions only appear in messages", "statement": "Take two P4 programs that differ only in how tables and actions are called: numbers, annotations, match fields and parameters are the same. Names may be empty, may be traded between declarations, and may occur twice. Then loading both succeeds, fails with the same error code, or ends the program in the same way. Checking any entry against both gives the same verdict (accepted, or refused with an explanation), the same error code, or the same crash. Constraint solvers made for a table of either are created alike and, asked any sequence of things (constraints as texts or as expressions, and entries), they accept and refuse alike, fail with the same codes and produce identical entries.", "quantifier": "all address parsers and decision procedures, all pairs of programs differing in names only, valid or not, all entries, all table numbers, all choices of skipped keys and all sequences of requests", "why_tests_cant": "Names are part of every source position and are compared whenever a message quotes a constraint; a clash that makes two positions look alike or different may occur for one pair of names only.", "anchors": ["p4_constraints/backend/constraint_info.cc:ExtractConstraint", "p4_constraints/backend/constraint_info.cc:P4ToConstraintInfo", "p4_constraints/quote.cc:QuoteSubConstraint", "p4_constraints/backend/interpreter.cc:ReasonEntryViolatesConstraint", "p4_constraints/backend/symbolic_interpreter.cc:ConstraintSolver"]}
{"id": "C117", "title": "Where a constraint stands affects messages only", "statement": "Two programs that differ only in their @file and @line annotations (added, removed or changed anywhere) and in the names of tables and actions load alike: both succeed, both fail with the same code, or both crash. Every entry gets the same verdict, the same error code or the same crash from both. This holds without exception if only @file annotations differ, and, for lines as well, if every constraint is written in one line. With constraints of several lines moved to other lines, the only possible difference is that one of the two programs dies with std::length_error while quoting; this happens, because the marker under a quotation of several lines gets shorter as line numbers get longer. Loading, acceptance of entries, and the decisions and entries of a constraint solver never depend on places. Under the same conditions, p4check exits with the same code and gives the same kind of answer for each entry file.", "quantifier": "all pairs of P4Infos that differ in @file and @line annotations and names only, all entries, all behaviours of inet_pton", "why_tests_cant": "The places where a constraint can stand, and the constraints, are unbounded; a test moves a few constraints to a few places.", "anchors": ["p4_constraints/backend/constraint_info.cc: ExtractConstraint", "p4_constraints/quote.cc: Quote, QuoteSubConstraint", "p4_constraints/backend/interpreter.cc: ReasonEntryViolatesConstraint", "p4_constraints/backend/symbolic_interpreter.cc: ConstraintSolver", "p4_constraints/cli/p4check.cc: main"]}
{"id": "C118", "title": "What is printed for values, symbolic results and keys tells them apart", "statement": "Two different values of keys or parameters have different texts in explanations, and streaming a value that is no Boolean prints that same text. Printing the result of encoding an expression for the solver tells its kind (exact, ternary, LPM or plain expression) and the texts of the Z3 expressions in it, provided these hold no single quote; with single quotes, which names of keys may hold, two different results can print alike. Printing the description of a key tells its number, its name whatever characters it has, and the text of its type unless that holds a double quote.", "quantifier": "all values, all symbolic results and all printers of Z3 expressions, all descriptions of keys and all printers of types", "why_tests_cant": "That texts never collide is a claim about all pairs of values and names; a test compares a few texts.", "anchors": ["p4_constraints/backend/interpreter.cc: EvalResultToString", "p4_constraints/backend/interpreter.h: operator<<", "p4_constraints/backend/symbolic_interpreter.h: AbslStringify", "p4_constraints/backend/constraint_info.h: AbslStringify"]}
