# Formal model of p4-constraints in Rocq (Coq 8.16.1)

## Approach

The model (`rocq/theories`) is a function-by-function transcription of
`/repo/p4_constraints` into total, computable Gallina functions. Only the Coq standard
library is used. The files are:

| kind | files | content |
|---|---|---|
| model | `Base Num Regex Token Lexer Ast Quote AstConstructors Parser Info TypeChecker ConstraintInfo Interpreter Z3 Symbolic Cli StatusBuilder DebugBuild Traced ParserWork InPlace SkipCalls CamelCase Printers` | each definition cites the C++ lines it models and states its simplifications |
| specification | `Spec*.v` | small, declarative (relations, grammars, truth functions), not using the model's helpers |
| proofs | `*Facts*.v`, `Sym*.v` | lemmas |
| properties | `Properties*.v` | the theorems `Cnn_…`, each followed by `Print Assumptions` and an `Example Cnn_case…` that meets its hypotheses |
| conformance | `TestsE2E.v TestsUnit.v TestsSymbolic.v` | the expectations of the repository's own unit, golden and end-to-end tests, replayed in the model by `vm_compute` |

### Outcomes
Every fallible function returns `outcome A := Ok a | Err code message | Crash why`.
`Err` is an `absl::Status`; `Crash` is undefined behaviour, an uncaught C++ exception
or an abort inside a dependency, always distinct from an error.

### What is modelled

| source | modelled | model file |
|---|---|---|
| frontend/token.{h,cc} | token kinds, keyword tables, `Token` | Token |
| frontend/lexer.cc | `Tokenize`, the scanner's regular expressions, location counting | Regex, Lexer |
| frontend/parser.cc, parser.h | `ParseConstraint` and the token stream, precedence climbing, all error exits | Parser |
| frontend/ast_constructors.cc | every constructor, including numeral, IPv4, IPv6 and MAC conversion | AstConstructors, Num |
| ast.{h,cc,proto} | expression/type/location messages, equality, `TypeName`, bitwidths, `GetVariables`, `Size` and its cache | Ast |
| quote.cc | `QuoteSubConstraint`, `QuoteSourceLocation`, line extraction, error builders | Quote |
| backend/type_checker.cc | `CastableToType`, `LeastUpperBound`, `InferAndCheckTypes` | TypeChecker, InPlace |
| backend/constraint_info.cc | annotation regexes, `ParseKeyType`, `ParseTableInfo`, `ParseActionInfo`, `P4ToConstraintInfo`, lookups, attributes | Info, ConstraintInfo |
| backend/interpreter.{h,cc}, errors.cc | `ParseTableEntry`, `ParseAction`, `Eval` with caches and dynamic type checks, `MinimalSubexpressionLeadingToEvalResult`, `ReasonEntryViolatesConstraint` | Interpreter |
| backend/symbolic_interpreter.{h,cc} | symbolic keys, well-formedness, symbolic evaluation, concretisation, `ConstraintSolver` (`Create`, `AddConstraint`, `ConcretizeEntry`) | Z3, Symbolic |
| every `DCHECK` of the files above | the same functions with the assertions executed (debug build) | DebugBuild |
| backend/interpreter.cc, `Size` | the work done: the same functions with a log of evaluated, measured and searched nodes | Traced |
| frontend/parser.cc, backend/type_checker.cc | the work of reading a constraint: tokens taken and looked at, nodes copied, nodes visited | ParserWork |
| gutils/testing.cc | `SnakeCaseToCamelCase` | CamelCase |
| backend/interpreter.h, symbolic_interpreter.h, constraint_info.h | `operator<<`, `AbslStringify` of values, symbolic results and `KeyInfo` | Printers |
| symbolic_interpreter.cc | `Create`, `ConcretizeEntry` with a stateful `skip_key_named` | SkipCalls |
| cli/p4check.cc | the tool's loop, output and exit codes | Cli |
| gutils/status_builder.{h,cc}, status.cc, status_macros.h, ret_check.{h,cc} | the builder with its stream, copies and conversions, `Annotate`, the macros; the rest of the model uses `annotate`, `bind`, `ret_check`, tied to it by `C74_annotate` | StatusBuilder, Base |

### What is not modelled
* `DebugString` of protobufs and `to_string` of Z3 expressions (they only appear in error texts; the text is simplified, the status code is exact). The printers that use them are in `Printers.v`, with these texts as parameters.
* Reading files and parsing text protos in `p4check` (abstracted to missing, unparsable, contents); Abseil flags.
* `gutils/protocol_buffer_matchers`, `parse_text_proto.h`, `status_matchers.h`, `overload.h`, `source_location.h`, `proto.cc`: test helpers and language glue. `ordered_map.h` is `Interpreter.Ordered`.
* Memory management, threads (the library has none), resource exhaustion: stack overflow on deeply nested constraints and `bad_alloc`.
* 32-bit overflow of line/column counters and sizes: they are unbounded `Z`; `C75_program` proves that they fit for every declared constraint that ends before line 2^31 - 1. An `@line` annotation can place one there (`C75_lines_refuted`): there the model says nothing about the code, in which the addition overflows.

### Modelling decisions
* `std::string` is Coq `string` (bytes). `mpz_class` is `Z`.
* `flat_hash_map` is an association list with unique keys; the list order models the
  (unspecified) iteration order, so theorems quantifying over the list quantify over orders.
* `const Expression*` used as a cache key is the path from the constraint's root.
* RE2 is modelled by a regex AST with leftmost-first backtracking semantics (list of
  successes), including RE2's UTF-8 treatment of negated classes.
* Z3 terms are an inductive type with an evaluator (bit-vectors modulo 2^n, signed and
  unsigned comparison as the C++ operators choose them, constants identified by name and sort).
* Recursion of the parser and of `Tokenize` uses fuel computed from the input; C09 proves the fuel is never exhausted.

## Trusted base

* Coq's kernel (8.16.1), `coqc`, and `vm_compute` where a closed computation is checked. The full development also passes `coqchk`.
* **Axioms: none.** Every property theorem is followed by `Print Assumptions`, which prints
  `Closed under the global context` for each of them. No library other than the standard library is loaded.
* The transcription of the C++ into Gallina (reviewed function by function, and replayed against the repository's tests in `Tests*.v`).
* The modelled behaviour of RE2, GMP (`mpz_import/export`, `get_str/set_str`), Abseil string helpers, `std::getline`, Z3's term semantics.
* Hypotheses about external components, always explicit in the theorem statement:
  * `pton_ok pton`: `inet_pton(AF_INET6, …)` returns 16 bytes when it succeeds; otherwise it is arbitrary.
  * `sound_solver check`: a model returned by Z3 satisfies the asserted terms. `complete_solver check`: Z3 finds a model when there is one. Completeness is used only where stated (Z3 may answer `unknown`). Both can be met: C100 gives, for every table, a decision procedure that is sound and finds a model of every satisfiable question the solver asks.
  * `sane_widths`: declared widths are 32-bit nonnegative integers, as P4Info guarantees.

## What was found about the code

The refuted claims are behaviours of the pinned commit, each with a concrete witness in the
named theorem:

* Line breaks inside quoted strings are not counted, so later locations are off (`C03_token_locations_refuted`; `C03_all_sources` gives the exact rule).
* Which of several missing keys is blamed, and with it even the status code, depends on the iteration order of a hash map (`C108_one_answer_refuted`).
* `trueish` lexes as `true` followed by `ish` (`C06_identifiers_refuted`).
* A bare carriage return turns a syntax error into an Internal error (`C13_parse_failures_refuted`).
* Ordered comparison of exact keys type-checks but fails at run time (`C21_exact_order_refuted`, `C26_exact_order_refuted`), as does `::priority` in an action constraint.
* The explanation search is not minimal (`C32_minimal_refuted`), and a violation of an action constraint may give an Internal error instead of an explanation (`C33_contested_refuted`).
* Entries of the wrong match kind and actions with missing arguments give Internal instead of InvalidArgument (`C36_…_refuted`).
* The symbolic encoding compares bit-vectors as signed numbers (`C41_signed_refuted`, `C44_signed_refuted`, `C46_signed_refuted`), aliases symbols of keys whose names coincide (`C46_names_refuted`, exactly characterised by C88), and rejects `::priority` for tables without ternary or optional keys (`C46_priority_refuted`).
* Quoting an interval that spans lines can crash (`C50_quote_crash_refuted`); C64 shows this is the only way to crash with one-line constraints excluded.
  It depends on where the constraint stands: the same violation is explained in line 9 of a file and crashes in line 10 (`C117_lines_refuted`).
* `@line(2147483647)` is accepted, and the line counter of the lexer and the line numbers in messages then overflow a 32-bit integer, which is undefined behaviour (`C75_lines_refuted`; `C75_program` gives the programs for which nothing overflows).
* Equality of locations ignores action names; `TypeName` of an LPM type is that of a bit type (`C52_…_refuted`).
* The comment assertion fails on invalid UTF-8 (`C54_comment_assertion_refuted`).
* Two parameters of an action may be confused because dots are dropped from their paths (C16).
* Text streamed into a copied `StatusBuilder` overwrites its text, and annotating drops payloads (`C74_copy_refuted`, `C74_payloads_refuted`). No code in the repository copies a builder and streams on.
* A constraint tree that was not type checked makes the solver throw a Z3 exception, or fail with codes other than the documented ones (`C86_documented_refuted`).
* Evaluation does not reject malformed trees as documented: parts that are not reached are not looked at, and values of different types compare as different (`C87_documented_refuted`).
* The parser copies each operand it has built once more for every operator around it, so reading `a && b && c ...` takes quadratic work (`C98_reached`, `C98_not_linear`).
* Skipping the last ternary or optional key of a table leaves the solver demanding a priority, although nothing it handles needs one (`C99_priority_stays`).
* `p4check` exits with 0 when an entry violates its constraint (C53).

## Testing the theorems

`seeded/LOG.jsonl` records the seeded bugs: each is an edit of one model definition in a
scratch copy, rebuilt with every proof that no longer goes through recorded. A theorem counts
as failed if its proof, or a lemma it depends on, no longer checks. Every claim broken by an edit was
detected by a theorem or by its `case` example.

## Properties: model, proof method, result

The first sentence of each item is the plan; *Result* names what is proved. `partial` means
the English claim is false of the code (a `_refuted` theorem gives the witness), or only part
of it is proved; the note says which part is missing.

* **C01 Tokenize is total and ends in exactly one sentinel** - Lexer.v `tokenize`; induction on input length; the sentinel is appended only by the loop exit. *Result*: proved; `C01_tokenize_total_one_sentinel`.
* **C02 Tokens and skipped text tile the source in order** - Relational spec of a lexical item (Spec) + induction over the loop. *Result*: proved; `C02_lexer_meets_spec`, `C02_lexemes_tile_source`.
* **C03 Token locations follow the documented line/column rule** - Spec function `advance` computes line/column of a byte string; loop invariant. Refutation witness: `'\n' x`. *Result*: partial; `C03_token_locations_partial`, `C03_all_sources`, `C03_token_locations_refuted`. The code counts no line break inside quoted strings; the refutation gives a source, the partial theorem covers every source whose strings hold no line break. C03_all_sources gives the exact rule for every source.
* **C04 Rendering tokens with separators and re-lexing gives the tokens back** - Render function in spec; scanner lemma per token kind; induction over the token list. *Result*: proved; `C04_render_relex`.
* **C05 Blanks, line breaks and comments never change the meaning** - Compositionality lemma of the loop; induction over skipped items. *Result*: proved; `C05_gap_in_front`, `C05_gap_between`.
* **C06 Identifiers lex as identifiers** - Scanner lemma for words; refutation by vm_compute on `trueish`. *Result*: partial; `C06_identifiers_partial`, `C06_identifiers_refuted`. Words that begin with true/false are split by the code (refuted); the partial theorem is an exact characterisation of the words lexed as one identifier.
* **C07 Keyword table is a bijection** - Case analysis over kinds / string comparison. *Result*: proved; `C07_keywords_bijection`.
* **C08 Parser recognises exactly the documented grammar with the documented precedences** - Inductive grammar in Spec; soundness by induction on fuel, completeness by induction on derivations. *Result*: proved; `C08_parser_iff_grammar`, `C08_tokens_iff_grammar`, `C08_grammar_unambiguous`. Both for texts and for arbitrary token sequences; the grammar is also proved unambiguous. inet_pton is a parameter assumed to return 16 bytes.
* **C09 Parsing always terminates and consumes input** - Fuel adequacy lemma; the token stream's tail is never inspected past the sentinel. *Result*: proved; `C09_parser_terminates`, `C09_nothing_after_sentinel`.
* **C10 Printing then parsing is the identity** - Printer in spec; via completeness of the parser for the grammar and lexer round trip. *Result*: proved; `C10_print_parse`.
* **C11 Non-associative operators never chain** - Corollary of the grammar equivalence (no derivation). *Result*: proved; `C11_no_chains`.
* **C12 Every parsed expression carries its exact source interval** - Invariant over parser recursion; spans as a spec predicate on trees. *Result*: proved; `C12_source_intervals`.
* **C13 Parse failures are InvalidArgument errors** - Case analysis of all error exits; quoting outcome as hypothesis; refutation witness for \r. *Result*: partial; `C13_parse_failures_partial`, `C13_token_failures_partial`, `C13_outcome`, `C13_never_crashes`, `C13_parse_failures_refuted`. Refuted for bare carriage returns (Internal error). Partial: all sources without bare CR that have a source name and a nonnegative column get Ok or InvalidArgument. For every other source C13_outcome gives the exact outcome (Internal exactly when a token cannot be quoted), and C13_never_crashes excludes crashes.
* **C14 Numerals denote their mathematical value in every base** - Positional value spec vs. model of mpz set_str/get_str. *Result*: proved; `C14_numerals`.
* **C15 Network address literals denote their big-endian value** - Spec of dotted quads / colon hex; inet_pton is an oracle (section variable, generalised). *Result*: proved; `C15_network_addresses`.
* **C16 Key names are preserved and distinct table keys stay distinct** - Join-injectivity lemma; refutation for parameters. *Result*: proved; `C16_table_keys`, `C16_action_parameters`, `C16_parameter_paths_collide`. Table keys: the name is the dotted path, and different paths give different names. Action parameters: the exact name that results (dots dropped), and a witness that two paths can collide.
* **C17 Castability is a strict partial order with least upper bounds** - Case analysis + Z decidable equality, all widths. *Result*: proved; `C17_castability_order`, `C17_least_upper_bound`, `C17_cast_assertions`.
* **C18 The type checker accepts exactly the well-typed constraints** - Inductive typing relation in spec; both directions by induction on the expression. *Result*: proved; `C18_typechecker_iff`, `C18_types_unique`, `C18_public`.
* **C19 Type checking only adds types and legal casts** - Induction; erase function in spec. *Result*: proved; `C19_only_types_and_casts`.
* **C20 Expressions that already contain casts are rejected** - Induction on the position of the cast. *Result*: proved; `C20_casts_rejected`.
* **C21 Well-typed constraints never fail at run time** - Typing invariant + progress by induction; two refutation witnesses. *Result*: partial; `C21_table_partial`, `C21_action_partial`, `C21_exact_order_refuted`, `C21_action_priority_refuted`. Refuted for ordered comparisons of exact keys and for ::priority in action constraints; the partial theorems cover everything else, for any entry consistent with the table and any action with all arguments. C71 gives the outcome of every check, including the excluded ones.
* **C22 Integer byte strings are read big-endian, leading zeros ignored** - Positional value spec, induction on the string. *Result*: proved; `C22_big_endian`, `C22_equal_iff`, `C22_leading_zeros`.
* **C23 An entry is checked against the complete key assignment, omitted keys meaning don't-care** - Spec `expected_value` of a key; induction over match list and key map. *Result*: proved; `C23_complete_assignment`, `C23_accepted_iff`.
* **C24 Inconsistent entries are rejected** - Case analysis, one theorem per class of inconsistency. *Result*: proved; `C24_inconsistent_rejected`, `C24_action_rejected`.
* **C25 The verdict does not depend on the order of match fields** - Permutation induction over the fold. *Result*: proved; `C25_order_independent`, `C25_action_order_independent`.
* **C26 The verdict is the constraint's meaning (end to end)** - Independent denotational semantics in spec over the cast-free surface tree; logical relation with Eval over the annotated tree. *Result*: partial; `C26_verdict_sound`, `C26_accepted_iff_partial`, `C26_action_sound`, `C26_action_accepted_iff`, `C26_exact_order_refuted`. Stated from the P4Info declaration and the text of the constraint to the verdict. Soundness is unconditional. The equivalence is refuted for ordered comparisons of exact keys, which give an Internal error; the partial theorem excludes them. Action constraints: full equivalence for invocations with all arguments. C71 gives the outcome in the excluded cases too.
* **C27 Literals are reduced modulo 2^W when compared with W-bit values** - Z.modulo/Z.land lemma for MaxValueForBitwidth; case analysis. *Result*: proved; `C27_modulo`, `C27_point`, `C27_equal_is_point`.
* **C28 Boolean connectives short-circuit as documented and ; means &&** - Case analysis on evaluation outcome; parser lemma for ;. *Result*: proved; `C28_short_circuit`, `C28_semicolon`.
* **C29 Caching never changes an answer** - Pointers modelled as tree paths; cache-consistency invariant. *Result*: proved; `C29_cache_transparent`, `C29_cache_correct`, `C29_explanation`, `C29_check`.
* **C30 Unmentioned keys do not matter** - Induction on the expression. *Result*: proved; `C30_unmentioned_keys`, `C30_unmentioned_params`.
* **C31 The explanation names a sufficient reason** - Induction on the expression, relational. *Result*: proved; `C31_sufficient_reason`, `C31_other_entries`.
* **C32 The explanation is minimal** - Candidate relation in spec; induction; refutation witness. *Result*: partial; `C32_minimal_partial`, `C32_minimal_refuted`. Minimality among all sufficient subexpressions is refuted. The partial theorem is minimality, with leftmost ties, among the candidates the search descends to. C85 shows that these are what matters: the reported part is the smallest that forces the verdict whatever the rest is.
* **C33 Violations always come with a nonempty explanation** - Non-emptiness of the assembled string; totality conditions; refutation witnesses. *Result*: partial; `C33_explained_partial`, `C33_outcome`, `C33_one_line_partial`, `C33_action_explained_partial`, `C33_contested_refuted`, `C33_unquotable_refuted`. Refuted for action constraints whose operands both fail and for multi-line constraints that cannot be quoted. The partial theorems: every constraint whose quotes can be displayed (in particular every one-line constraint), for tables and, when no two failing operands compete, for actions. C33_outcome gives the outcome for every table constraint: that of quoting the reason.
* **C34 An entry is accepted iff its table constraint and all its action constraints hold** - Induction over the action set. C34_by_number says which table and actions are meant by membership, without the lookup functions. *Result*: proved; `C34_accepted_iff`, `C34_first_rejected`, `C34_action_alone`, `C34_indirect`, `C34_by_number`.
* **C35 Unknown tables and actions are rejected with InvalidArgument; unconstrained ones accept** - Case analysis. *Result*: proved; `C35_unknown_table`, `C35_unknown_action`, `C35_unknown_never_accepted`, `C35_unconstrained_table`, `C35_unconstrained_action`.
* **C36 Bad entries are reported as InvalidArgument** - Case analysis of all error exits; refutation witnesses. *Result*: partial; `C36_inconsistent`, `C36_action_arguments`, `C36_kind_mismatch_refuted`, `C36_missing_argument_refuted`. Refuted: matches of another kind and missing arguments give Internal errors. C36_inconsistent says which of the two codes every inconsistent entry gets, and which declarations with negative widths make the process abort instead. Bad arguments of actions always give InvalidArgument.
* **C37 P4ToConstraintInfo is all-or-nothing and exact** - Induction over tables/actions; map spec. *Result*: proved; `C37_success_iff`, `C37_exact`, `C37_failure`, `C37_failure_can_crash`, `C37_loads_iff`. Success, the resulting infos and failures are characterised exactly; also shown: a failure can be a crash (a type error spanning lines crashes while quoting).
* **C38 Declaration order is irrelevant** - Permutation over the inserts. Match fields and parameters in another order lead to maps that are permutations of each other, so that C108 applies. *Result*: proved; `C38_order_irrelevant`, `C38_verdicts`, `C38_fields`, `C38_answers`, `C38_solver`.
* **C39 The constraint is the concatenation of the annotation's string parts** - Regex consumption lemmas; spec of annotation syntax. *Result*: proved; `C39_stored`, `C39_unique`, `C39_malformed`, `C39_extract`.
* **C40 Every stored constraint is type-checked against its own table or action** - From C18 through ParseTableInfo; witness for non-boolean constraint. *Result*: proved; `C40_type_checked`, `C40_non_boolean`, `C40_non_boolean_action`, `C40_need_not_be_boolean`. Every stored constraint is type-checked; a witness that it need not be boolean; non-boolean constraints are rejected with InvalidArgument at each check.
* **C41 Symbolic and concrete semantics agree** - Z3 terms as an inductive type with an evaluator; logical relation between EvalSymbolically and Eval; signedness witness. *Result*: partial; `C41_encoding_agrees_partial`, `C41_verdict_agrees_partial`, `C41_signed_refuted`. Refuted for ordered comparisons of fixed-width values: signed in the encoding, unsigned in the language. The partial theorems cover every constraint and entry in which no such comparison has exactly one operand with its top bit set. C59 says what the encoding means in all cases: the constraint with signed comparisons.
* **C42 Well-formedness assertions characterise exactly the well-formed entries** - Bit-level lemmas (Z.testbit / shifts) for each kind. *Result*: proved; `C42_key_assertions`, `C42_every_match`, `C42_representable`, `C42_unrepresentable`, `C42_priority`. Both directions, for each kind of key and any width; range keys and keys of width 0 are exactly those refused with an error.
* **C43 Concretized entries are well-formed** - From C42 and C47. *Result*: proved; `C43_bytes`, `C43_order`, `C43_entries_well_formed`, `C43_entries_parse`, `C43_entry_exists`. After any history of calls, for any solver whose models satisfy what it was asked; widths are 32-bit integers. That the entry parses assumes that skipped keys may be omitted.
* **C44 Concretized entries satisfy the table's constraint and all added constraints** - Composition of C41, C43 over the solver invariant. *Result*: partial; `C44_entries_satisfy_partial`, `C44_entries_accepted_partial`, `C44_declared_tables_partial`, `C44_signed_refuted`. Refuted for signed comparisons as in C41. The partial theorems cover every history and every sound solver otherwise, down to the P4Info declaration and the text of the constraint. C59_entries covers all constraints, read with signed comparisons.
* **C45 AddConstraint is transactional and keeps the solver satisfiable** - Solver modelled as assertion list + oracle; invariant over histories. *Result*: proved; `C45_refused_unchanged`, `C45_refused_text_unchanged`, `C45_accepted_added`, `C45_always_satisfiable`, `C45_always_entry`, `C45_answer`. The result of an incomplete solver (one that gives up on satisfiable assertions) is the explicit alternative.
* **C46 Nothing satisfiable is rejected** - Construct the assignment from the entry; aliasing witness. *Result*: partial; `C46_create_partial`, `C46_add_partial`, `C46_accepted_entry_partial`, `C46_signed_refuted`, `C46_names_refuted`, `C46_priority_refuted`. Refuted for signed comparisons, for key names that coincide with another key's symbols, and for ::priority in tables without ternary or optional keys. The partial theorems cover everything else; a solver that gives up is the explicit alternative. C59 removes the restriction on comparisons (read as signed) and C88 the one on names (symbols with the same name and sort share their value).
* **C47 Canonical byte strings round trip** - Model of both textual forms; induction on digits. *Result*: proved; `C47_round_trip`, `C47_unique`, `C47_onto`.
* **C48 Skipped keys never appear and constraints on them are rejected** - Induction over key map and over the constraint. *Result*: proved; `C48_skipped_absent`, `C48_mention_refused`, `C48_mention_error`, `C48_text_error`, `C48_create_refused`.
* **C49 Error quoting shows the right source lines** - Spec of the quoted block; arithmetic over lines. *Result*: proved; `C49_cited`, `C49_quote_shows_line`, `C49_tokens_stand_at_columns`, `C49_refused`. C49_cited is an equivalence with the whole text, heading and marker included, for every interval that does not start before the constraint, in one line or several. C49_refused gives, for the same intervals, when nothing is quoted and the exact error, as an equivalence.
* **C50 Quoting never crashes** - Exact crash condition; witness. *Result*: partial; `C50_quote_crash_partial`, `C50_quote_one_line_partial`, `C50_quote_crash_refuted`. Refuted by a parsed two-line constraint. The partial theorems give the exact crash condition for every source and interval, and safety for one-line intervals.
* **C51 Size counts boolean structure only** - Induction; witness for parameters. *Result*: proved; `C51_positive`, `C51_larger_than_operands`, `C51_locations`, `C51_table_constraints`, `C51_casts`, `C51_failure`, `C51_action_constraints`. Sizes are unbounded integers (C++ int).
* **C52 Location equality and type names identify their arguments** - Case analysis; witnesses. *Result*: partial; `C52_types`, `C52_locations_partial`, `C52_equality_partial`, `C52_locations_refuted`, `C52_equivalence`, `C52_type_names_partial`, `C52_type_names_refuted`. Both claims are refuted; the partial theorems say exactly what equality of locations ignores, and that type names determine types other than LPM and unsupported types. Equality of types is exact.
* **C53 p4check reports one verdict per entry file in order** - Induction over entry list; N.land lemmas. *Result*: proved; `C53_coerced_id`, `C53_idempotent`, `C53_proper_ids`, `C53_reports`, `C53_independent`, `C53_exit`, `C53_table_found`, `C53_collision`. For every list of files; reading files and text protos is abstracted to missing/unparsable/contents.
* **C54 The lexer's debug assertion on comments holds** - UTF-8 validity as a recursive predicate in the spec; induction over decoded code points for the comment regex. *Result*: partial; `C54_lexer_exact`, `C54_lexer_utf8`, `C54_comment_assertion_partial`, `C54_comment_assertion_refuted`. Fails for some input that is not valid UTF-8 (refuted); holds for all valid UTF-8. C54_lexer_exact says exactly when it fails: a block comment that is not closed is followed by bytes that are no characters.
* **C55 Only a constraint's tokens matter** - From C05/C08 and the fact that the type checker and evaluator ignore locations; induction over annotated trees with equal erasures. For the solver, by C63_solver. *Result*: proved; `C55_loads_alike`, `C55_accepts_alike`, `C55_solver`. Which violation text is printed (or whether quoting it crashes, see C50) may differ; acceptance may not. C55_solver needs no assumption about the decision procedure.
* **C56 Constraints compose textually** - From the exact characterisation (C58): the reading of `a ; b` is the conjunction of the readings. *Result*: proved; `C56_combined_accepted`, `C56_left_decides`, `C56_negated_accepted`, `C56_combined_verdict`, `C56_negated_verdict`, `C56_combined_reads`. Verdicts on entries without action (actions have their own constraints). Where the parts give a verdict, acceptance of the combination is decided (C56_combined_accepted), by the left part alone if it decides (C56_left_decides).
* **C57 Logical rewriting preserves verdicts** - Congruence and rewriting rules as an inductive relation in SpecLaws; induction over derivations, using C58 on both sides. *Result*: proved; `C57_rewritten_verdict`, `C57_rewritten_accepted`. If both constraints give a verdict the verdicts agree; if the rewritten one does not order exact keys, acceptance carries over (cf. C26).
* **C58 The checker's verdicts, exactly** - Declarative reading of constraint text and of an entry (SpecReading); both directions through grammar, typing and evaluation. *Result*: proved; `C58_accepted_iff`, `C58_rejected`, `C58_one_answer`, `C58_documented`. Exact characterisation of acceptance in terms of the declarations and a declarative reading of the constraint text; C58_documented relates that reading to the documented meaning (it is a restriction of it), C58_one_answer shows it is a function.
* **C59 What the symbolic solver decides, exactly** - Declarative two's-complement reading of the constraint; invariant over every history of the constraint solver. *Result*: proved; `C59_add`, `C59_add_text`, `C59_decides`, `C59_create`, `C59_entries`, `C59_agrees`. Exact decision property of the solver with respect to the reading it implements (two's-complement order); C59_agrees states when that is the documented reading. Z3 is any sound (and, where stated, complete) decision procedure for the modelled terms.
* **C60 Verdicts are local to the named declarations** - Case analysis of all lookups; the declarations enter only through the tables and actions they name. Programs are linked by the characterisation of loading (C37). *Result*: proved; `C60_linked`, `C60_linked_verdicts`, `C60_linked_solver`, `C60_solver`, `C60_local`, `C60_added`. C60_local: equality of outcomes, including errors and texts; C60_added: the special case of appended declarations; C60_solver: every reply of a solver; C60_linked, C60_linked_verdicts, C60_linked_solver: two programs put together.
* **C61 Encodings of an entry do not matter** - Relation on entries (same integer, other bytes; other order); congruence of entry parsing. *Result*: proved; `C61_same_match`. C61_same_match, about answers (Ok): error texts may mention the offending field, so failures are only known to stay failures.
* **C62 Renaming keys and parameters does not change what is accepted, nor what the solver decides** - Simultaneous induction over the two trees under an injective renaming. For the solver, solutions (C59) are carried over from one table to the other. *Result*: proved; `C62_solutions`, `C62_decides`, `C62_entries`, `C62_creates`, `C62_accepts`, `C62_loads`. C62_accepts, C62_loads. The relation between the two constraints is on the trees they read as. C62_solutions, C62_creates, C62_decides and C62_entries: the constraint solver.
* **C63 Only the tree of a constraint matters** - Relation "reads as the same tree" on sources; congruence through C58 and C37_loads_iff. For the solver, the type checker maps trees that differ in positions only to such trees, and their encodings are equal (PropertiesRestatedSolver.v). *Result*: proved; `C63_solver`, `C63_texts`, `C63_accepts`, `C63_loads`, `C63_numerals`. C63_accepts, C63_loads, C63_numerals; C63_solver and C63_texts for the solver, without assumptions about the decision procedure. C37_loads_iff characterises loading without reference to the parser or type checker.
* **C64 Constraints written in one line never crash the process** - Invariant: every interval in a parsed one-line constraint is quotable (C50's exact crash condition); all exits of loading, checking and the tool. *Result*: proved; `C64_loading`, `C64_checking`, `C64_tool`, `C64_one_line`, `C64_never_crashes`. C64_loading, C64_checking and C64_tool: every crash comes from an interval that spans lines (SpecCrash.unsafe). C64_never_crashes: none for constraints in one line. Negative widths are excluded by sane_widths; without it the interpreter's shifts abort.
* **C65 The constraint solver's calls never throw** - Every call of the solver API is a function into outcomes that include Crash; induction over histories keeps the encoded keys well-sorted, so no Z3 sort error is reachable, and one-line text never reaches the failing branch of Quote. *Result*: proved; `C65_never_crashes`, `C65_text_crash`, `C65_multiline_refuted`. C65_never_crashes covers Create and, after any history, both AddConstraint variants and ConcretizeEntry. C65_text_crash says when text with line breaks can throw, C65_multiline_refuted gives such a text.
* **C66 Type errors blame the part that violates a typing rule** - Inductive `fault` in SpecFault (blamed interval and reason); induction on the derivation against the type checker; decidability and uniqueness by induction on the tree. *Result*: proved; `C66_blames_fault`, `C66_typed_or_fault`, `C66_parsed`, `C66_table_constraint`, `C66_action_constraint`. SpecFault defines the blamed part and the reason independently of the checker. Declared constraints: all whose parts can be quoted (in particular one-line constraints, C33).
* **C67 A failed load reports every erroneous declaration** - Relation `Report` over declarations, each judged by loading it alone; induction over the two loops. *Result*: proved; `C67_reports_all`. An equivalence. If a declaration crashes by itself, so does the load (C64). The text of the duplicate declaration (DebugString) is not modelled.
* **C68 Errors for ill-typed constraint text given to the solver** - The outcome of AddConstraint on text with a fault (C66) is computed exactly; the quoted source is the table's own, so the property fails as documented and is refuted by witnesses. *Result*: partial; `C68_text_errors_partial`, `C68_internal_error`, `C68_text_errors_refuted`. Partial: the code quotes from the table's own constraint instead of the text. C68_text_errors_partial gives the exact outcome (reason and unchanged state as claimed, quote from the wrong source); C68_internal_error shows that for every table without a constraint, or with one located in a file, the error is Internal; C68_text_errors_refuted gives both symptoms.
* **C69 A syntax error blames the first token that cannot come where it stands** - The parser is simulated by a deterministic recogniser of token kinds; what it has read before getting stuck can be completed, and its result depends only on what was read and the next kind; with C08 this gives the place in terms of the grammar. *Result*: proved; `C69_every_failure_has_a_place`, `C69_one_place`, `C69_blames_that_token`, `C69_blames_that_address`, `C69_blames_and_quotes`. Existence and uniqueness of the place, and the exact error for it, also for address literals that are none (SpecAddress.v gives the message: first part that is not a byte, and why); the quotation succeeds for all sources without bare carriage returns. 'Can come where it stands' is defined by the grammar of C08 (viable, follows in SpecBlame.v), not by the parser.
* **C70 The tokens a syntax error says it expected are those that may come next** - A reader with two flags per open parenthesis is shown to read what the parser's recogniser reads and to stop where it stops; since what it has read can be completed, the tokens it accepts are those that may come next. The fixed list of operators is refuted by concrete texts. *Result*: partial; `C70_hints_partial`, `C70_refuted`, `C70_incomplete`, `C70_next_exact`, `C70_message_exact`, `C70_one_text`, `C70_list_right_iff`. False in general: the list of what may follow an expression is fixed; it offers ')' where none is open and comparisons that do not chain (C70_refuted) and omits '.' and '(' after a name (C70_incomplete). What may come next is nevertheless settled exactly: a small reader (SpecNext.v) decides it (C70_next_exact), gives the text of every syntax error (C70_message_exact), and the list is right exactly where an expression has to begin or one particular token is required (C70_list_right_iff).
* **C71 The outcome of checking an entry, exactly** - The explanation search, its failures and its sizes are characterised as relations over the untyped tree (Explained, Unexplained), shown equivalent to the memoised search by induction; parsing of entries and arguments is split into its fault cases; declarations are connected to loaded infos as for C21 and C37. *Result*: proved; `C71_outcome`, `C71_exact`, `C71_unique`, `C71_one_line`, `C71_numbers`. C71_outcome: every result is one that SpecOutcome.entry_outcome allows. C71_exact: for tables whose keys are all of the five standard kinds the two are equivalent (without this the code of an entry that omits both an exact key and one of unsupported kind depends on hash iteration order). C71_unique: every entry has exactly one verdict. C71_one_line: constraints written in one line can be quoted. The quotation in an explanation is QuoteSubConstraint, whose whole text C49_cited gives.
* **C72 The solver's answers depend on the set of constraints, not on how they are added** - Sessions (SpecSession.v) are lists of texts all answered with true; one step is proved exact like C59, with Z3's failure named for the very formulas asked, and induction over the list gives the rest. *Result*: proved; `C72_session`, `C72_order`, `C72_conjunction`, `C72_disjunction`. C72_session is exact for whole sequences; C72_order, C72_conjunction and C72_disjunction follow from it. Instead of a complete solver the theorems name the step at which Z3 overlooks a model (gets_stuck).
* **C73 Refusing the negation of a constraint means that the constraint follows** - Totality of the solver's reading on well-formed entries turns insolubility of the negation into entailment. *Result*: proved; `C73_follows`. Uses that a handled constraint is either true or false of each well-formed entry (meant_total). The case shows a refused negation at which nothing is overlooked, and an accepted one.
* **C74 Errors keep their code and message on the way up** - A separate model of StatusBuilder with the put position of its stringstream (StatusBuilder.v); the text of a chain by induction over the texts. *Result*: proved; `C74_chain`, `C74_code`, `C74_copied`, `C74_copy_refuted`, `C74_payloads_refuted`, `C74_ret_check`, `C74_annotate`, `C74_ok_is_empty`, `C74_text`, `C74_text_unique`. C74_copy_refuted and C74_payloads_refuted are the two witnesses; C74_copied gives the exact text after copying. C74_annotate ties the model's annotate (Base.v) to this model of the builder.
* **C75 Locations, sizes and recursion depth are bounded by the length of the constraint** - Induction over the lexing relation (locations, number of tokens), the grammar (nodes) and type inference (casts); over the annotations for the line that a constraint starts in. *Result*: proved; `C75_tokens`, `C75_tree`, `C75_typed`, `C75_no_overflow`, `C75_declared`, `C75_program`, `C75_lines_refuted`. Discharges the modelling assumption that unbounded integers can stand for the 32-bit fields, for every declared constraint that ends before line 2^31 - 1 (C75_program); an @line annotation may place one after it (C75_lines_refuted).
* **C76 Debug builds behave like release builds** - A second model of the same functions in which every DCHECK is executed (DebugBuild.v); it equals the first one: by fuel induction for lexer and parser, by an invariant (no type of width -1, every cast to a fixed width) for type checker and interpreter. *Result*: proved; `C76_startup`, `C76_parser`, `C76_loading`, `C76_loading_exact`, `C76_checking`, `C76_width_needed`. C76_width_needed shows that a width of -1 does make a debug build abort where the release build loads.
* **C77 Checking an entry takes linear work** - The interpreter with a log of the positions it works on (Traced.v): erasing the log gives the interpreter; an invariant between log and caches (evaluated operands of a settled connective are cached, the others untouched) shows nothing is logged twice; a second invariant (what is cached was logged completely) shows that exactly the parts specified in SpecReach.v are logged. *Result*: proved; `C77_exact`, `C77_same`, `C77_once`, `C77_linear`. Traced.v is the interpreter with a log of work; C77_same shows the log changes no result, C77_once is the claim for arbitrary constraints, C77_linear the bound for loaded ones; C77_exact says which parts are worked on (SpecReach.v).
* **C78 Verdicts depend only on the packets an entry matches** - A key's canonical match is determined by the set of numbers that meet it; packets are varied one key at a time, so equal sets of packets give equal key assignments. *Result*: proved; `C78_same_packets`, `C78_not_enforced`, `C78_solver_entries`. Which packets an entry matches is specified on match fields alone (SpecPackets); omitted keys are ignored there, so the theorem also says that the defaults for omitted keys are right.
* **C79 Documented constraints demand what the documentation says of packets** - For a set of documented forms closed under the connectives, SpecIdioms.v says which packets a constraint wants matched; by induction on the form, using the evaluation theorem (C26) and the uniqueness of canonical matches (C78), the verdict is that demand. *Result*: proved; `C79_accepted_iff`, `C79_violated_iff`, `C79_optional`. C79_accepted_iff reads the documentation's examples at the level of packets: what an entry matches, not what its fields contain. C79_violated_iff adds that all other canonical entries are reported as violations when the constraint is written in one line (see C33, C50). C79_case has the documentation's own examples in one table.
* **C80 Rewriting a constraint does not change what the solver does** - Prove every law of SpecLaws.v for readings in two's complement order over values that fit their widths; close under contexts; skipped keys get arbitrary values; conclude with the decision theorems of C72. *Result*: proved; `C80_same_solutions`, `C80_same_answers`, `C80_same_answer`. C80_same_solutions (all entries), C80_same_answer (one text, true or false), C80_same_answers (sessions). The laws are those of SpecLaws.v used by C57 for the checker; intermediate constraints may mention skipped keys.
* **C81 Only the IPv6 addresses written in constraints depend on the system** - Relate two runs of the parser with different resolvers by induction on the fuel: equal outcomes and the rest is a suffix, so every address asked for occurs in the tokens; lift to loading, p4check and AddConstraint. *Result*: proved; `C81_parse`, `C81_parse_without`, `C81_load`, `C81_p4check`, `C81_add`. C81_parse, C81_parse_without, C81_load, C81_p4check, C81_add. This also bounds the trusted base: the assumption pton_ok of other theorems is irrelevant for programs without ipv6('...').
* **C82 A quoted source interval identifies one part of the constraint** - Model: Parser.v, Quote.v. Strict order of token locations, carried through the grammar, gives nested intervals that differ; headings are read back using the specification of quotations. *Result*: proved; `C82_interval`, `C82_quote`. C82_interval: equal intervals imply equal parts. C82_quote: equal quotations, each followed by any text, imply the same part and the same following text. The headings and excerpts are read back from the specification of C49_cited, decimal numbers included.
* **C83 A rejection message determines what it reports** - Model: Interpreter.v. The specified texts of C71 are read back piece by piece: verdict, quotation, priority, and the list of values; names have no quotation mark because they consist of identifiers. *Result*: proved; `C83_table`, `C83_action`. C83_table, C83_action. Hypotheses as in C71: widths are not negative, and the constraints can be quoted (C50 shows when they cannot).
* **C84 Constraints of tables and actions can be rewritten anywhere in a program** - SpecRewritten.v relates programs whose constraints are related by rewriting (SpecLaws.v). Action constraints are reduced to table constraints by exchanging keys and parameters (RewrittenFacts.v), for which the laws are already sound; the rest follows from C37_loads_iff and C58_accepted_iff. *Result*: proved; `C84_loads`, `C84_accepts`. C84_loads (whether the program loads is preserved), C84_accepts (so are accepted entries); C84_needs_arguments shows that the assumption about arguments is needed. Extends C57 from single tables and entries without actions to whole programs. Rejections may turn into failures, since explaining a rejected action may fail (C33), so only acceptance is compared.
* **C85 The reported part of a constraint is the smallest that forces the verdict** - SpecForce.v says what truth values a constraint could have if one part had a given one. The parts found by descending through deciding operands are exactly those that force the verdict and contain no smaller ones (ForceFacts.v), so the search result of C32 is the smallest forcing part. *Result*: proved; `C85_smallest_forcing`, `C85_forcing_sufficient`. C85_smallest_forcing, with the semantic notion of forcing in SpecForce.v; C85_forcing_sufficient relates it to C31. Sizes are those of the code (Nodes), which action parameters do not have.
* **C86 What the solver does with a constraint tree that no type checker has seen** - `PropertiesSorts.v`: a relation (`SpecSorts.v`) assigns sorts to trees, another names the first flaw of a tree without sorts; induction on trees shows that they are exclusive and decide the outcome of EvalSymbolically and AddConstraint. *Result*: proved; `C86_any_tree`, `C86_checked`, `C86_documented_refuted`. Full characterisation in C86_any_tree (SpecSorts.v gives the sorts and the flaws); C86_checked says that type-checked trees never make Z3 throw. C86_documented_refuted shows that the documented error codes are not what happens; the statement above is what does happen, and is proved in full. What Z3 does with operands of unfit sorts is part of the trusted base (Z3.v).
* **C87 What evaluation does with a constraint tree that no type checker has seen** - Define a big-step relation for arbitrary labelled trees (SpecYields.v) and prove by induction on the tree that Eval computes exactly it; classify error codes and crashes by the same induction, with witnesses against the documented behaviour. *Result*: proved; `C87_c_string`, `C87_numerals`, `C87_evaluates`, `C87_single`, `C87_failures`, `C87_entry`, `C87_documented_refuted`. C87_evaluates, C87_single, C87_failures, C87_entry over SpecYields.v. C87_documented_refuted: the header says that malformed trees and missing names yield errors; parts that are not reached are never looked at, and an integer may be compared with a Boolean. The statement above is what does happen, and is proved in full. The reading of number literals is GMP's mpz_set_str; C87_numerals shows that Num.v reads what SpecGmp.v says, C87_c_string that strings end at the first NUL byte.
* **C88 What the symbolic solver decides when key names share solver variables** - `SpecShared.v` lists which number of an entry goes into which solver variable and calls an entry coherent if no variable needs two numbers; the construction of an assignment from an entry (C46) is redone for coherent entries, and models are read back as coherent entries. *Result*: proved; `C88_add`, `C88_add_text`, `C88_decides`, `C88_create`, `C88_entries`, `C88_possible`, `C88_apart`, `C88_names`, `C88_mask`. Removes the hypothesis of C46 and C59 that no variable is shared, replacing it by the exact condition on entries. C88_add, C88_add_text, C88_decides and C88_create: the answers; C88_entries and C88_possible: the entries are exactly the coherent solutions; C88_apart and C88_names: when nothing is shared; C88_mask: what sharing does. The case is a table with keys x (ternary) and x_mask (exact).
* **C89 All entries that satisfy the constraints can be enumerated with the solver's own interface** - PropertiesSingle.v: the loop "concretize, exclude, repeat" is a relation (SpecSingle.v); excluding texts are shown to be read as "not this entry" (print/parse of C10, readings of C59), and C88 with the pigeonhole principle gives soundness, distinctness, termination and exhaustion. *Result*: proved; `C89_excluded`, `C89_distinct`, `C89_exhausted`, `C89_ends`, `C89_loop`. Solutions are in the sense of C88 (well-formed entries that fit the variables the solver uses). The excluding text is the printed negation of a conjunction of equations for the fields of all keys that are not skipped, and for the priority if the table's entries have one.
* **C90 Every finite set of entries can be allowed, or forbidden, by a constraint** - PropertiesWhitelist.v: disjunctions of descriptions (SpecSingle.v) are printed and parsed back (C10), shown to load (C37) and read as membership in the list (C58). *Result*: proved; `C90_whitelist`, `C90_blacklist`, `C90_exists`. C90_whitelist and C90_blacklist are about any P4Info with such a declaration, C90_exists shows that the text exists and that the declaration loads.
* **C91 New match fields and parameters do not disturb existing entries** - Type inference and the evaluation of entries are shown to depend only on the declarations that the constraint mentions; larger lists of fields and parameters (SpecGrow.v) keep these. *Result*: proved; `C91_loads`, `C91_kept`, `C91_trimmed`, `C91_same`. C91_loads: the larger P4Info loads. C91_kept: every answer stays, with its text. C91_trimmed: what an entry says about the new fields and parameters does not change the answer. C91_same: for entries that say nothing about them, one P4Info gives an answer iff the other does. Failures are not compared: an entry that fails under the old P4Info because it uses an unknown field may of course be answered under the new one.
* **C92 What the solver asks of Z3, and how little its answers depend on Z3** - PropertiesQueries.v: AddConstraint is shown to agree for solvers that agree on two lists of formulas; induction over requests, over Create's loop and over EvalSymbolically for the sizes (SpecQueries.v). *Result*: proved; `C92_two_questions`, `C92_any_procedure`, `C92_correct_procedures`, `C92_model_values`, `C92_linear`. Z3 is an arbitrary function from lists of formulas to optional models.
* **C93 A type check only writes types and casts, and a failed one leaves an expression that is usable exactly if no cast was written** - InferAndCheckTypes is modelled a second time as an update of its argument (InPlace.v); the status agrees with Infer, the tree left behind is the argument up to types and casts (structural induction), and the effect of later calls follows from independence of the types on the argument. *Result*: proved; `C93_status`, `C93_only_types_and_casts`, `C93_types_not_read`, `C93_casts_rejected`, `C93_left_over`, `C93_later_call`, `C93_same_call`, `C93_where_it_stops`, `C93_must_copy`. InferAndCheckTypes modelled as the in-place update it is (InPlace.v), incl. the argument after failures; agrees with the pure model on every status. C93_must_copy shows that the failed attempt is felt.
* **C94 Match fields can be given a more general kind of match without changing verdicts** - Two declarations whose match fields correspond (exact/optional/lpm generalised) are related by a correspondence of types and values that all operations of constraints preserve; the proof is an induction over the reading of a constraint, used in both directions because the correspondence is symmetric. *Result*: proved; `C94_verdict`, `C94_accepted`. C94_verdict: the constraints of the two declarations say the same of the two entries; C94_accepted: hence ReasonEntryViolatesConstraint accepts both or neither. C94_exact_needed and C94_both_load show that the two hypotheses (exact fields are given; both P4Infos load) cannot be dropped. The texts for rejected entries may differ, because they print the values.
* **C95 Verdicts do not depend on the widths of exact keys, range keys and parameters** - The proof of C94 is done for an arbitrary correspondence of types and values; here types that differ only in width correspond and values are equal, and only the conversion of integers to fixed-width numbers needs the bound on literals. *Result*: proved; `C95_table`, `C95_action`, `C95_accepted`. C95_table and C95_action: the constraints say the same under both declarations; C95_accepted: hence entries are accepted under both or neither. C95_conditions shows that the conditions on literals and on omitted ranges are needed: 'e == 353' means 'e == 97' for 8 bits, and an omitted range ends at 2^w - 1.
* **C96 Constraints on different keys do not interact** - Put a mixed entry together from two solutions (separate keys), show that it is well-formed and that readings depend only on mentioned keys; then use C59/C72/C88. *Result*: proved; `C96_recombined`, `C96_alone`, `C96_any_state`, `C96_each`. C88 is the reason for the condition on variable names: shared variables do couple keys. Unless Z3 overlooks a model of one of the formulas it is asked about.
* **C97 Loosening a constraint never rejects what was accepted** - An inductive relation of loosening, with polarity under negation and implication; one soundness proof over an abstract total and functional reading, instantiated for checker and solver; lifted to programs as in C84 and to sessions as in C80. *Result*: proved; `C97_entails`, `C97_moved_bound`, `C97_loads`, `C97_accepts`, `C97_solutions`, `C97_session`, `C97_refused`. Loosening is an inductive relation over constraints as written (SpecWeaker); the checker's and the solver's reading are both covered by one proof over an abstract reading. C97_wraps shows that bounds that exceed the width wrap.
* **C98 What it costs to read a constraint** - the parser with counters (`ParserWork.v`); induction on the fuel with an invariant relating taken tokens, nodes and copied nodes; the lower bound from the grammar (C08) for a family of texts. *Result*: proved; `C98_same`, `C98_reads`, `C98_length`, `C98_copied`, `C98_reached`, `C98_not_linear`, `C98_checked`, `C98_checked_action`, `C98_taken`. ParserWork.v is the parser with counts of taken tokens, look-aheads and copied nodes; C98_same shows the counts change no result. C98_reads/C98_length bound them, C98_copied is exact, C98_reached and C98_not_linear show the bound's order is reached, C98_checked(_action) is the type checker.
* **C99 Skipping keys is the same as solving for the table without them** - Compare a solver that skips keys with one for the table that lacks them: the loops of Create and ConcretizeEntry over the filtered, sorted keys give the same state, type checking reads only the mentioned keys, and an induction over the added texts keeps the two states equal. *Result*: proved; `C99_create`, `C99_conversation`, `C99_program`. C99_create relates Create on both tables; C99_conversation compares every sequence of added texts and the entry at the end; C99_program gives the smaller table from the program. C99_priority_stays shows why the priority condition is needed.
* **C100 The solver's questions are decidable, and a Z3 that overlooks nothing answers them like an exhaustive search** - An executable search over all values of the symbols that occur in a formula; induction over histories shows that only symbols of handled keys and the priority occur, and that the base assertions bound the integer ones, so the search is complete for every query; the exact theorems of C88 and C89 are then instantiated with it. *Result*: proved; `C100_sound`, `C100_high_enough`, `C100_decides`, `C100_create`, `C100_exact`, `C100_entry`, `C100_loop`, `C100_same_create`, `C100_same_answers`. The search (`trial`, SpecTrial.v) is not part of the code. It shows that the hypotheses about Z3 in C41-C48, C59, C72, C88, C89 and C96 can be met for every table, and removes the clause about overlooked models. C100_case runs it.
* **C101 Putting known values into a constraint does not change its verdict** - SpecFilled.v: Filled relates a constraint to one with parts replaced by their values in an environment, for any reading of comparisons; FilledFacts.v proves that types and readings are preserved (induction over Filled); programs and sessions follow through C58 and the step lemma of C72. *Result*: proved; `C101_reading`, `C101_accepts`, `C101_violates`, `C101_solutions`, `C101_answers`. C101_wraps and C101_signed show why the side conditions are needed: literals wrap beside values of fixed width only, and the solver orders such values as signed numbers.
* **C102 Snake case is converted to camel case word by word** - CamelCase.v models the loop of SnakeCaseToCamelCase; SpecCamelCase.v splits into words independently; induction over the words. *Result*: proved; `C102_camel_case`, `C102_words`, `C102_stable`.
* **C103 A reported part can be cut out of the constraint and tried on its own** - Lexing only looks at prefixes, so a piece between two tokens has the same tokens; the tokens of a derivation are balanced, and an interval that drops a parenthesis is not; the verdict of the piece is the reading of the explained part. *Result*: proved; `C103_part`, `C103_interval`, `C103_reproduced`, `C103_reproduced_action`. C103_part and C103_interval for texts, C103_reproduced and C103_reproduced_action for rejections.
* **C104 Skip functions that change their mind** - model the two operations that call the skip function with a state that is passed through every call; induction over the keys shows that they ask in byte order and equal the stateless model for the answers given; compare the loop for two sets of answers. *Result*: proved; `C104_create`, `C104_entry`, `C104_adding`, `C104_consistent`, `C104_more`, `C104_less`, `C104_drift`. SkipCalls.v models Create and ConcretizeEntry with a stateful callback; C104_create and C104_entry reduce them to the model with a pure callback; C104_consistent, C104_more, C104_less say what follows; C104_drift exhibits an entry that violates the constraint of its table.
* **C105 A further requirement that is met leaves the explanation as it is** - A longer text starts with the same tokens at the same places, so it reads as the conjunction of the same tree and a copy of the added one; the outcome of C71 then has the same explanation, and the quotation only looks at lines the two texts share. *Result*: proved; `C105_appended`, `C105_appended_action`, `C105_repeated`, `C105_repeated_action_fails`. Texts, locations and quotations are compared in full. The added text is the annotation's further string, as joined by the loader (C39). Quotability of all constraints (legible) and the five standard match kinds are assumed, as in C71.
* **C106 A rejected entry stays rejected until a value that the explanation shows is changed** - For the reading of constraints of C58 and the explanation of C71: what holds of the explained part under one entry holds under every entry that keeps the values it mentions, and settles the verdict (induction on the search for the explanation); compare with an accepted entry. *Result*: proved; `C106_table`, `C106_action`. For tables and for actions (including action sets). Proved from the outcome theorem C71 and the reading of constraints; the explained part settles the verdict for every reading that keeps its values.
* **C107 Of several violated requirements the one with the shortest explanation is reported** - Divide the tree at conjunctions in any way; induction on the division, with the cases of the search for an explanation; sizes and truth values are unique. *Result*: proved; `C107_table`, `C107_action`. Clauses (SpecClauses.v) is the division into requirements; sizes are those of C51. Both theorems are read off the outcome theorem C71.
* **C108 Answers do not depend on how hash maps are traversed, except for the choice among several missing keys** - Permuted maps (SpecOrder.v): field parsing and evaluation look keys up by id or name, so they are equal under permutation; filling in omitted keys stops at the first key without a default, so the outcomes are equal or both are complaints about missing keys; each missing key can be moved to the front. *Result*: proved; `C108_determined`, `C108_any`, `C108_same`, `C108_action`, `C108_code`, `C108_solver`, `C108_one_answer_refuted`. The order can change which missing key is blamed (C108_one_answer_refuted), and nothing else (C108_determined, C108_any).
* **C109 Every declaration that does not load has one reason, and the error message states it** - SpecLoadError.v lists, without reference to the code, the reasons why a declaration does not load and the message of each; insertion of keys, extraction of annotations, parsing (C69) and type checking (C66) are shown to stop at exactly the first of them. *Result*: proved; `C109_one_reason`, `C109_reported`, `C109_all_reported`. C109_one_reason (a declaration loads or has a reason, not both, not two), C109_reported (the reason is what is reported), C109_all_reported (whole P4Infos). The DebugString of a repeated key, printed after the message, is not modelled. For a misplaced token the list of expected tokens is C70's subject.
* **C110 An entry that does not fit the program is answered with its first mistake** - SpecObjection.v lists the mistakes an entry can have and their messages, without reference to the code; the loops over match fields and arguments are shown, by induction with an invariant relating the values stored to the fields seen, to stop at exactly the first field that has one of them. *Result*: proved; `C110_ids`, `C110_table`, `C110_missing`, `C110_table_only`, `C110_indirect`, `C110_action`, `C110_action_only`. SpecObjection.v lists the mistakes and their messages, and how ids are written. C110_table, C110_indirect and C110_action give the answer for each; C110_missing the answer if only keys are missing (which one depends on hash order, C108); C110_table_only and C110_action_only show that there are no other errors for entries that do not fit. An optional match of a key with a negative width aborts instead (C36). Dumps of protobufs at the end of messages, and the code line and condition in the message for a wrong kind, are not modelled.
* **C111 What is answered when a constraint cannot be evaluated or its violation not explained** - SpecStuck.v says how evaluating a constraint and explaining its violation can fail, without reference to the interpreter; by induction on the tree the evaluator and the search for a reason are shown to fail at exactly these places with exactly these messages. *Result*: proved; `C111_table`, `C111_table_only`, `C111_action`, `C111_action_only`. SpecStuck.v says, without reference to the interpreter, how evaluation and explanation fail and what is then answered. C111_table and C111_action give the answer, C111_table_only and C111_action_only show that nothing else goes wrong for an entry that fits (C110 covers those that do not). The part of a message that dumps an expression or protobuf is not modelled.
* **C112 Which error the solver reports for what it cannot represent** - SpecRefuse.v says, without reference to the encoder, which keys and which parts of a constraint have no symbol and what is reported then; by induction on the tree the encoder is shown to stop at exactly the first such part, and by induction on the sorted list of keys creation is shown to stop at exactly the first such key. *Result*: proved; `C112_text`, `C112_cases`, `C112_entry`, `C112_create`, `C112_key`. Tables come from a P4Info and skipped keys have positive width; the outcome of the last case is C46's.
* **C113 What p4check prints is the truth about its files** - SpecPrinted.v says when an entry is permitted by the declarations as they stand in the P4Info file, table ids being compared by their lower 24 bits; changing an id is shown not to change what a declaration allows, and with this the verdict of the library (C58) is carried over to the text printed. *Result*: proved; `C113_report`, `C113_error`, `C113_exclusive`, `C113_complaint`. SpecPrinted.v says when an entry is permitted or forbidden by declarations as they stand in the P4Info file, with table ids compared by their lower 24 bits, and lists the complaints. C113_report: the start of a report tells which. C113_error: errors with their code and message. C113_exclusive: not both. C113_complaint: exit code, standard output and standard error. That reports follow each other in the order of the files is C53_reports.
* **C114 The words and the shape of error messages** - SpecWords.v lists the words and, using the relations of C49, the shape of quoted errors; each is proved equivalent to the function of the model that produces it, by cases, so that specifications using these words do not rest on the model. *Result*: proved; `C114_types`, `C114_kinds`, `C114_status`, `C114_announced`, `C114_runtime`, `C114_unique`. SpecWords.v. C114_types, C114_kinds, C114_status: the words, as equivalences. C114_announced, C114_runtime: the whole message of a quoted error, by the relations Cited and Uncited of C49. C114_unique: exactly one answer. With this the other specifications that use these words (SpecFault, SpecBlame, SpecSorts, SpecLoadError) do not depend on the model's definitions of them.
* **C115 Numbers are only names** - SpecRenumber.v relates programs and entries that differ in numbers only; the specifications of loading (C37), acceptance (C58) and verdicts (C71) are shown to be preserved along the relation and along its inverse, so that the answers of the code agree. For the solver, PropertiesRenumberSolver.v runs both solvers side by side, and PropertiesRenumberAll.v does the same for the checker, which also covers entries and programs on which it fails or crashes. *Result*: proved; `C115_loads`, `C115_accepts`, `C115_outcome`, `C115_every`, `C115_solver`. C115_every covers the outcome of checking without conditions on the program, errors and crashes included. C115_loads and C115_accepts follow from the independent specifications, and so does C115_outcome (under the conditions of C71_exact). C115_solver is unconditional, for any decision procedure.
* **C116 The names of tables and actions only appear in messages** - Sources in positions can be exchanged by any injective map that keeps the empty source: the lexer, parser, type checker, evaluator, explainer and solver commute with it up to texts (NameFacts.v, NameFacts2.v). Each pair of names gives such a map, the transposition of the two. *Result*: proved; `C116_load`, `C116_check`, `C116_solver`. C116_load, C116_check and C116_solver; C116_case has tables and an action that trade names with duplicates and an empty name, and shows a failing load, accepted, refused, faulty and crashing entries and a conversation with a solver. Unlike C55 error codes and crashes are covered too. The explanations themselves contain the name, so only their emptiness is compared.
* **C117 Where a constraint stands affects messages only** - Relate two runs whose locations name exchanged sources and lie a fixed number of lines apart, stage by stage (the relation of C116, extended by a shift of lines and by crashes while quoting); derive the case of one line from C64. *Result*: partial; `C117_files`, `C117_lines_partial`, `C117_one_line`, `C117_lines_refuted`, `C117_accepted`, `C117_solver`, `C117_safe`, `C117_tool`. C117_files: names of files only appear in messages. C117_lines_partial: with other lines, outcomes agree or one of the two crashes with LengthError. C117_one_line: no exception for constraints in one line. C117_safe: nor if, in both places, every part of every constraint can be quoted. C117_tool: what p4check prints. C117_accepted, C117_solver: what is accepted and what solvers decide does not depend on places, without exception. C117_lines_refuted: a violation that is explained when the constraint stands in line 9 of its file crashes the process when it stands in line 10.
* **C118 What is printed for values, symbolic results and keys tells them apart** - Printers.v models the printers with the texts of Z3 expressions and of protobuf types as parameters; texts are read back from the left (numbers, single quotes) and from the right (the last double quote). *Result*: proved; `C118_shown`, `C118_streamed`, `C118_symbolic`, `C118_symbolic_refuted`, `C118_keys`. C118_shown: explanations. C118_streamed: operator<<. C118_symbolic: symbolic results; C118_symbolic_refuted is the witness for names with single quotes, which the statement names as the exception. C118_keys: descriptions of keys. z3::expr::to_string and ShortDebugString are arbitrary functions.
