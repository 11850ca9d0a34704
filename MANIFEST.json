{
 "claims": [
  {
   "property": "C01",
   "status": "proved",
   "theorems": [
    "C01_tokenize_total_one_sentinel"
   ],
   "note": ""
  },
  {
   "property": "C02",
   "status": "proved",
   "theorems": [
    "C02_lexer_meets_spec",
    "C02_lexemes_tile_source"
   ],
   "note": ""
  },
  {
   "property": "C03",
   "status": "partial",
   "theorems": [
    "C03_token_locations_partial",
    "C03_all_sources",
    "C03_token_locations_refuted"
   ],
   "note": "The code counts no line break inside quoted strings; the refutation gives a source, the partial theorem covers every source whose strings hold no line break. C03_all_sources gives the exact rule for every source."
  },
  {
   "property": "C04",
   "status": "proved",
   "theorems": [
    "C04_render_relex"
   ],
   "note": ""
  },
  {
   "property": "C05",
   "status": "proved",
   "theorems": [
    "C05_gap_in_front",
    "C05_gap_between"
   ],
   "note": ""
  },
  {
   "property": "C06",
   "status": "partial",
   "theorems": [
    "C06_identifiers_partial",
    "C06_identifiers_refuted"
   ],
   "note": "Words that begin with true/false are split by the code (refuted); the partial theorem is an exact characterisation of the words lexed as one identifier."
  },
  {
   "property": "C07",
   "status": "proved",
   "theorems": [
    "C07_keywords_bijection"
   ],
   "note": ""
  },
  {
   "property": "C08",
   "status": "proved",
   "theorems": [
    "C08_parser_iff_grammar",
    "C08_tokens_iff_grammar",
    "C08_grammar_unambiguous"
   ],
   "note": "Both for texts and for arbitrary token sequences; the grammar is also proved unambiguous. inet_pton is a parameter assumed to return 16 bytes."
  },
  {
   "property": "C09",
   "status": "proved",
   "theorems": [
    "C09_parser_terminates",
    "C09_nothing_after_sentinel"
   ],
   "note": ""
  },
  {
   "property": "C10",
   "status": "proved",
   "theorems": [
    "C10_print_parse"
   ],
   "note": ""
  },
  {
   "property": "C11",
   "status": "proved",
   "theorems": [
    "C11_no_chains"
   ],
   "note": ""
  },
  {
   "property": "C12",
   "status": "proved",
   "theorems": [
    "C12_source_intervals"
   ],
   "note": ""
  },
  {
   "property": "C13",
   "status": "partial",
   "theorems": [
    "C13_parse_failures_partial",
    "C13_token_failures_partial",
    "C13_outcome",
    "C13_never_crashes",
    "C13_parse_failures_refuted"
   ],
   "note": "Refuted for bare carriage returns (Internal error). Partial: all sources without bare CR that have a source name and a nonnegative column get Ok or InvalidArgument. For every other source C13_outcome gives the exact outcome (Internal exactly when a token cannot be quoted), and C13_never_crashes excludes crashes."
  },
  {
   "property": "C14",
   "status": "proved",
   "theorems": [
    "C14_numerals"
   ],
   "note": ""
  },
  {
   "property": "C15",
   "status": "proved",
   "theorems": [
    "C15_network_addresses"
   ],
   "note": ""
  },
  {
   "property": "C16",
   "status": "proved",
   "theorems": [
    "C16_table_keys",
    "C16_action_parameters",
    "C16_parameter_paths_collide"
   ],
   "note": "Table keys: the name is the dotted path, and different paths give different names. Action parameters: the exact name that results (dots dropped), and a witness that two paths can collide."
  },
  {
   "property": "C17",
   "status": "proved",
   "theorems": [
    "C17_castability_order",
    "C17_least_upper_bound",
    "C17_cast_assertions"
   ],
   "note": ""
  },
  {
   "property": "C18",
   "status": "proved",
   "theorems": [
    "C18_typechecker_iff",
    "C18_types_unique",
    "C18_public"
   ],
   "note": ""
  },
  {
   "property": "C19",
   "status": "proved",
   "theorems": [
    "C19_only_types_and_casts"
   ],
   "note": ""
  },
  {
   "property": "C20",
   "status": "proved",
   "theorems": [
    "C20_casts_rejected"
   ],
   "note": ""
  },
  {
   "property": "C21",
   "status": "partial",
   "theorems": [
    "C21_table_partial",
    "C21_action_partial",
    "C21_exact_order_refuted",
    "C21_action_priority_refuted"
   ],
   "note": "Refuted for ordered comparisons of exact keys and for ::priority in action constraints; the partial theorems cover everything else, for any entry consistent with the table and any action with all arguments. C71 gives the outcome of every check, including the excluded ones."
  },
  {
   "property": "C22",
   "status": "proved",
   "theorems": [
    "C22_big_endian",
    "C22_equal_iff",
    "C22_leading_zeros"
   ],
   "note": ""
  },
  {
   "property": "C23",
   "status": "proved",
   "theorems": [
    "C23_complete_assignment",
    "C23_accepted_iff"
   ],
   "note": ""
  },
  {
   "property": "C24",
   "status": "proved",
   "theorems": [
    "C24_inconsistent_rejected",
    "C24_action_rejected"
   ],
   "note": ""
  },
  {
   "property": "C25",
   "status": "proved",
   "theorems": [
    "C25_order_independent",
    "C25_action_order_independent"
   ],
   "note": ""
  },
  {
   "property": "C26",
   "status": "partial",
   "theorems": [
    "C26_verdict_sound",
    "C26_accepted_iff_partial",
    "C26_action_sound",
    "C26_action_accepted_iff",
    "C26_exact_order_refuted"
   ],
   "note": "Stated from the P4Info declaration and the text of the constraint to the verdict. Soundness is unconditional. The equivalence is refuted for ordered comparisons of exact keys, which give an Internal error; the partial theorem excludes them. Action constraints: full equivalence for invocations with all arguments. C71 gives the outcome in the excluded cases too."
  },
  {
   "property": "C27",
   "status": "proved",
   "theorems": [
    "C27_modulo",
    "C27_point",
    "C27_equal_is_point"
   ],
   "note": ""
  },
  {
   "property": "C28",
   "status": "proved",
   "theorems": [
    "C28_short_circuit",
    "C28_semicolon"
   ],
   "note": ""
  },
  {
   "property": "C29",
   "status": "proved",
   "theorems": [
    "C29_cache_transparent",
    "C29_cache_correct",
    "C29_explanation",
    "C29_check"
   ],
   "note": ""
  },
  {
   "property": "C30",
   "status": "proved",
   "theorems": [
    "C30_unmentioned_keys",
    "C30_unmentioned_params"
   ],
   "note": ""
  },
  {
   "property": "C31",
   "status": "proved",
   "theorems": [
    "C31_sufficient_reason",
    "C31_other_entries"
   ],
   "note": ""
  },
  {
   "property": "C32",
   "status": "partial",
   "theorems": [
    "C32_minimal_partial",
    "C32_minimal_refuted"
   ],
   "note": "Minimality among all sufficient subexpressions is refuted. The partial theorem is minimality, with leftmost ties, among the candidates the search descends to. C85 shows that these are what matters: the reported part is the smallest that forces the verdict whatever the rest is."
  },
  {
   "property": "C33",
   "status": "partial",
   "theorems": [
    "C33_explained_partial",
    "C33_outcome",
    "C33_one_line_partial",
    "C33_action_explained_partial",
    "C33_contested_refuted",
    "C33_unquotable_refuted"
   ],
   "note": "Refuted for action constraints whose operands both fail and for multi-line constraints that cannot be quoted. The partial theorems: every constraint whose quotes can be displayed (in particular every one-line constraint), for tables and, when no two failing operands compete, for actions. C33_outcome gives the outcome for every table constraint: that of quoting the reason."
  },
  {
   "property": "C34",
   "status": "proved",
   "theorems": [
    "C34_accepted_iff",
    "C34_first_rejected",
    "C34_action_alone",
    "C34_indirect",
    "C34_by_number"
   ],
   "note": ""
  },
  {
   "property": "C35",
   "status": "proved",
   "theorems": [
    "C35_unknown_table",
    "C35_unknown_action",
    "C35_unknown_never_accepted",
    "C35_unconstrained_table",
    "C35_unconstrained_action"
   ],
   "note": ""
  },
  {
   "property": "C36",
   "status": "partial",
   "theorems": [
    "C36_inconsistent",
    "C36_action_arguments",
    "C36_kind_mismatch_refuted",
    "C36_missing_argument_refuted"
   ],
   "note": "Refuted: matches of another kind and missing arguments give Internal errors. C36_inconsistent says which of the two codes every inconsistent entry gets, and which declarations with negative widths make the process abort instead. Bad arguments of actions always give InvalidArgument."
  },
  {
   "property": "C37",
   "status": "proved",
   "theorems": [
    "C37_success_iff",
    "C37_exact",
    "C37_failure",
    "C37_failure_can_crash",
    "C37_loads_iff"
   ],
   "note": "Success, the resulting infos and failures are characterised exactly; also shown: a failure can be a crash (a type error spanning lines crashes while quoting)."
  },
  {
   "property": "C38",
   "status": "proved",
   "theorems": [
    "C38_order_irrelevant",
    "C38_verdicts",
    "C38_fields",
    "C38_answers",
    "C38_solver"
   ],
   "note": ""
  },
  {
   "property": "C39",
   "status": "proved",
   "theorems": [
    "C39_stored",
    "C39_unique",
    "C39_malformed",
    "C39_extract"
   ],
   "note": ""
  },
  {
   "property": "C40",
   "status": "proved",
   "theorems": [
    "C40_type_checked",
    "C40_non_boolean",
    "C40_non_boolean_action",
    "C40_need_not_be_boolean"
   ],
   "note": "Every stored constraint is type-checked; a witness that it need not be boolean; non-boolean constraints are rejected with InvalidArgument at each check."
  },
  {
   "property": "C41",
   "status": "partial",
   "theorems": [
    "C41_encoding_agrees_partial",
    "C41_verdict_agrees_partial",
    "C41_signed_refuted"
   ],
   "note": "Refuted for ordered comparisons of fixed-width values: signed in the encoding, unsigned in the language. The partial theorems cover every constraint and entry in which no such comparison has exactly one operand with its top bit set. C59 says what the encoding means in all cases: the constraint with signed comparisons."
  },
  {
   "property": "C42",
   "status": "proved",
   "theorems": [
    "C42_key_assertions",
    "C42_every_match",
    "C42_representable",
    "C42_unrepresentable",
    "C42_priority"
   ],
   "note": "Both directions, for each kind of key and any width; range keys and keys of width 0 are exactly those refused with an error."
  },
  {
   "property": "C43",
   "status": "proved",
   "theorems": [
    "C43_bytes",
    "C43_order",
    "C43_entries_well_formed",
    "C43_entries_parse",
    "C43_entry_exists"
   ],
   "note": "After any history of calls, for any solver whose models satisfy what it was asked; widths are 32-bit integers. That the entry parses assumes that skipped keys may be omitted."
  },
  {
   "property": "C44",
   "status": "partial",
   "theorems": [
    "C44_entries_satisfy_partial",
    "C44_entries_accepted_partial",
    "C44_declared_tables_partial",
    "C44_signed_refuted"
   ],
   "note": "Refuted for signed comparisons as in C41. The partial theorems cover every history and every sound solver otherwise, down to the P4Info declaration and the text of the constraint. C59_entries covers all constraints, read with signed comparisons."
  },
  {
   "property": "C45",
   "status": "proved",
   "theorems": [
    "C45_refused_unchanged",
    "C45_refused_text_unchanged",
    "C45_accepted_added",
    "C45_always_satisfiable",
    "C45_always_entry",
    "C45_answer"
   ],
   "note": "The result of an incomplete solver (one that gives up on satisfiable assertions) is the explicit alternative."
  },
  {
   "property": "C46",
   "status": "partial",
   "theorems": [
    "C46_create_partial",
    "C46_add_partial",
    "C46_accepted_entry_partial",
    "C46_signed_refuted",
    "C46_names_refuted",
    "C46_priority_refuted"
   ],
   "note": "Refuted for signed comparisons, for key names that coincide with another key's symbols, and for ::priority in tables without ternary or optional keys. The partial theorems cover everything else; a solver that gives up is the explicit alternative. C59 removes the restriction on comparisons (read as signed) and C88 the one on names (symbols with the same name and sort share their value)."
  },
  {
   "property": "C47",
   "status": "proved",
   "theorems": [
    "C47_round_trip",
    "C47_unique",
    "C47_onto"
   ],
   "note": ""
  },
  {
   "property": "C48",
   "status": "proved",
   "theorems": [
    "C48_skipped_absent",
    "C48_mention_refused",
    "C48_mention_error",
    "C48_text_error",
    "C48_create_refused"
   ],
   "note": ""
  },
  {
   "property": "C49",
   "status": "proved",
   "theorems": [
    "C49_cited",
    "C49_quote_shows_line",
    "C49_tokens_stand_at_columns",
    "C49_refused"
   ],
   "note": "C49_cited is an equivalence with the whole text, heading and marker included, for every interval that does not start before the constraint, in one line or several. C49_refused gives, for the same intervals, when nothing is quoted and the exact error, as an equivalence."
  },
  {
   "property": "C50",
   "status": "partial",
   "theorems": [
    "C50_quote_crash_partial",
    "C50_quote_one_line_partial",
    "C50_quote_crash_refuted"
   ],
   "note": "Refuted by a parsed two-line constraint. The partial theorems give the exact crash condition for every source and interval, and safety for one-line intervals."
  },
  {
   "property": "C51",
   "status": "proved",
   "theorems": [
    "C51_positive",
    "C51_larger_than_operands",
    "C51_locations",
    "C51_table_constraints",
    "C51_casts",
    "C51_failure",
    "C51_action_constraints"
   ],
   "note": "Sizes are unbounded integers (C++ int)."
  },
  {
   "property": "C52",
   "status": "partial",
   "theorems": [
    "C52_types",
    "C52_locations_partial",
    "C52_equality_partial",
    "C52_locations_refuted",
    "C52_equivalence",
    "C52_type_names_partial",
    "C52_type_names_refuted"
   ],
   "note": "Both claims are refuted; the partial theorems say exactly what equality of locations ignores, and that type names determine types other than LPM and unsupported types. Equality of types is exact."
  },
  {
   "property": "C53",
   "status": "proved",
   "theorems": [
    "C53_coerced_id",
    "C53_idempotent",
    "C53_proper_ids",
    "C53_reports",
    "C53_independent",
    "C53_exit",
    "C53_table_found",
    "C53_collision"
   ],
   "note": "For every list of files; reading files and text protos is abstracted to missing/unparsable/contents."
  },
  {
   "property": "C54",
   "status": "partial",
   "theorems": [
    "C54_lexer_exact",
    "C54_lexer_utf8",
    "C54_comment_assertion_partial",
    "C54_comment_assertion_refuted"
   ],
   "note": "Fails for some input that is not valid UTF-8 (refuted); holds for all valid UTF-8. C54_lexer_exact says exactly when it fails: a block comment that is not closed is followed by bytes that are no characters."
  },
  {
   "property": "C55",
   "status": "proved",
   "theorems": [
    "C55_loads_alike",
    "C55_accepts_alike",
    "C55_solver"
   ],
   "note": "Which violation text is printed (or whether quoting it crashes, see C50) may differ; acceptance may not. C55_solver needs no assumption about the decision procedure."
  },
  {
   "property": "C56",
   "status": "proved",
   "theorems": [
    "C56_combined_accepted",
    "C56_left_decides",
    "C56_negated_accepted",
    "C56_combined_verdict",
    "C56_negated_verdict",
    "C56_combined_reads"
   ],
   "note": "Verdicts on entries without action (actions have their own constraints). Where the parts give a verdict, acceptance of the combination is decided (C56_combined_accepted), by the left part alone if it decides (C56_left_decides)."
  },
  {
   "property": "C57",
   "status": "proved",
   "theorems": [
    "C57_rewritten_verdict",
    "C57_rewritten_accepted"
   ],
   "note": "If both constraints give a verdict the verdicts agree; if the rewritten one does not order exact keys, acceptance carries over (cf. C26)."
  },
  {
   "property": "C58",
   "status": "proved",
   "theorems": [
    "C58_accepted_iff",
    "C58_rejected",
    "C58_one_answer",
    "C58_documented"
   ],
   "note": "Exact characterisation of acceptance in terms of the declarations and a declarative reading of the constraint text; C58_documented relates that reading to the documented meaning (it is a restriction of it), C58_one_answer shows it is a function."
  },
  {
   "property": "C59",
   "status": "proved",
   "theorems": [
    "C59_add",
    "C59_add_text",
    "C59_decides",
    "C59_create",
    "C59_entries",
    "C59_agrees"
   ],
   "note": "Exact decision property of the solver with respect to the reading it implements (two's-complement order); C59_agrees states when that is the documented reading. Z3 is any sound (and, where stated, complete) decision procedure for the modelled terms."
  },
  {
   "property": "C60",
   "status": "proved",
   "theorems": [
    "C60_linked",
    "C60_linked_verdicts",
    "C60_linked_solver",
    "C60_solver",
    "C60_local",
    "C60_added"
   ],
   "note": "C60_local: equality of outcomes, including errors and texts; C60_added: the special case of appended declarations; C60_solver: every reply of a solver; C60_linked, C60_linked_verdicts, C60_linked_solver: two programs put together."
  },
  {
   "property": "C61",
   "status": "proved",
   "theorems": [
    "C61_same_match"
   ],
   "note": "C61_same_match, about answers (Ok): error texts may mention the offending field, so failures are only known to stay failures."
  },
  {
   "property": "C62",
   "status": "proved",
   "theorems": [
    "C62_solutions",
    "C62_decides",
    "C62_entries",
    "C62_creates",
    "C62_accepts",
    "C62_loads"
   ],
   "note": "C62_accepts, C62_loads. The relation between the two constraints is on the trees they read as. C62_solutions, C62_creates, C62_decides and C62_entries: the constraint solver."
  },
  {
   "property": "C63",
   "status": "proved",
   "theorems": [
    "C63_solver",
    "C63_texts",
    "C63_accepts",
    "C63_loads",
    "C63_numerals"
   ],
   "note": "C63_accepts, C63_loads, C63_numerals; C63_solver and C63_texts for the solver, without assumptions about the decision procedure. C37_loads_iff characterises loading without reference to the parser or type checker."
  },
  {
   "property": "C64",
   "status": "proved",
   "theorems": [
    "C64_loading",
    "C64_checking",
    "C64_tool",
    "C64_one_line",
    "C64_never_crashes"
   ],
   "note": "C64_loading, C64_checking and C64_tool: every crash comes from an interval that spans lines (SpecCrash.unsafe). C64_never_crashes: none for constraints in one line. Negative widths are excluded by sane_widths; without it the interpreter's shifts abort."
  },
  {
   "property": "C65",
   "status": "proved",
   "theorems": [
    "C65_never_crashes",
    "C65_text_crash",
    "C65_multiline_refuted"
   ],
   "note": "C65_never_crashes covers Create and, after any history, both AddConstraint variants and ConcretizeEntry. C65_text_crash says when text with line breaks can throw, C65_multiline_refuted gives such a text."
  },
  {
   "property": "C66",
   "status": "proved",
   "theorems": [
    "C66_blames_fault",
    "C66_typed_or_fault",
    "C66_parsed",
    "C66_table_constraint",
    "C66_action_constraint"
   ],
   "note": "SpecFault defines the blamed part and the reason independently of the checker. Declared constraints: all whose parts can be quoted (in particular one-line constraints, C33)."
  },
  {
   "property": "C67",
   "status": "proved",
   "theorems": [
    "C67_reports_all"
   ],
   "note": "An equivalence. If a declaration crashes by itself, so does the load (C64). The text of the duplicate declaration (DebugString) is not modelled."
  },
  {
   "property": "C68",
   "status": "partial",
   "theorems": [
    "C68_text_errors_partial",
    "C68_internal_error",
    "C68_text_errors_refuted"
   ],
   "note": "Partial: the code quotes from the table's own constraint instead of the text. C68_text_errors_partial gives the exact outcome (reason and unchanged state as claimed, quote from the wrong source); C68_internal_error shows that for every table without a constraint, or with one located in a file, the error is Internal; C68_text_errors_refuted gives both symptoms."
  },
  {
   "property": "C69",
   "status": "proved",
   "theorems": [
    "C69_every_failure_has_a_place",
    "C69_one_place",
    "C69_blames_that_token",
    "C69_blames_that_address",
    "C69_blames_and_quotes"
   ],
   "note": "Existence and uniqueness of the place, and the exact error for it, also for address literals that are none (SpecAddress.v gives the message: first part that is not a byte, and why); the quotation succeeds for all sources without bare carriage returns. 'Can come where it stands' is defined by the grammar of C08 (viable, follows in SpecBlame.v), not by the parser."
  },
  {
   "property": "C70",
   "status": "partial",
   "theorems": [
    "C70_hints_partial",
    "C70_refuted",
    "C70_incomplete",
    "C70_next_exact",
    "C70_message_exact",
    "C70_one_text",
    "C70_list_right_iff"
   ],
   "note": "False in general: the list of what may follow an expression is fixed; it offers ')' where none is open and comparisons that do not chain (C70_refuted) and omits '.' and '(' after a name (C70_incomplete). What may come next is nevertheless settled exactly: a small reader (SpecNext.v) decides it (C70_next_exact), gives the text of every syntax error (C70_message_exact), and the list is right exactly where an expression has to begin or one particular token is required (C70_list_right_iff)."
  },
  {
   "property": "C71",
   "status": "proved",
   "theorems": [
    "C71_outcome",
    "C71_exact",
    "C71_unique",
    "C71_one_line",
    "C71_numbers"
   ],
   "note": "C71_outcome: every result is one that SpecOutcome.entry_outcome allows. C71_exact: for tables whose keys are all of the five standard kinds the two are equivalent (without this the code of an entry that omits both an exact key and one of unsupported kind depends on hash iteration order). C71_unique: every entry has exactly one verdict. C71_one_line: constraints written in one line can be quoted. The quotation in an explanation is QuoteSubConstraint, whose whole text C49_cited gives."
  },
  {
   "property": "C72",
   "status": "proved",
   "theorems": [
    "C72_session",
    "C72_order",
    "C72_conjunction",
    "C72_disjunction"
   ],
   "note": "C72_session is exact for whole sequences; C72_order, C72_conjunction and C72_disjunction follow from it. Instead of a complete solver the theorems name the step at which Z3 overlooks a model (gets_stuck)."
  },
  {
   "property": "C73",
   "status": "proved",
   "theorems": [
    "C73_follows"
   ],
   "note": "Uses that a handled constraint is either true or false of each well-formed entry (meant_total). The case shows a refused negation at which nothing is overlooked, and an accepted one."
  },
  {
   "property": "C74",
   "status": "proved",
   "theorems": [
    "C74_chain",
    "C74_code",
    "C74_copied",
    "C74_copy_refuted",
    "C74_payloads_refuted",
    "C74_ret_check",
    "C74_annotate",
    "C74_ok_is_empty",
    "C74_text",
    "C74_text_unique"
   ],
   "note": "C74_copy_refuted and C74_payloads_refuted are the two witnesses; C74_copied gives the exact text after copying. C74_annotate ties the model's annotate (Base.v) to this model of the builder."
  },
  {
   "property": "C75",
   "status": "proved",
   "theorems": [
    "C75_tokens",
    "C75_tree",
    "C75_typed",
    "C75_no_overflow",
    "C75_declared",
    "C75_program",
    "C75_lines_refuted"
   ],
   "note": "Discharges the modelling assumption that unbounded integers can stand for the 32-bit fields, for every declared constraint that ends before line 2^31 - 1 (C75_program); an @line annotation may place one after it (C75_lines_refuted)."
  },
  {
   "property": "C76",
   "status": "proved",
   "theorems": [
    "C76_startup",
    "C76_parser",
    "C76_loading",
    "C76_loading_exact",
    "C76_checking",
    "C76_width_needed"
   ],
   "note": "C76_width_needed shows that a width of -1 does make a debug build abort where the release build loads."
  },
  {
   "property": "C77",
   "status": "proved",
   "theorems": [
    "C77_exact",
    "C77_same",
    "C77_once",
    "C77_linear"
   ],
   "note": "Traced.v is the interpreter with a log of work; C77_same shows the log changes no result, C77_once is the claim for arbitrary constraints, C77_linear the bound for loaded ones; C77_exact says which parts are worked on (SpecReach.v)."
  },
  {
   "property": "C78",
   "status": "proved",
   "theorems": [
    "C78_same_packets",
    "C78_not_enforced",
    "C78_solver_entries"
   ],
   "note": "Which packets an entry matches is specified on match fields alone (SpecPackets); omitted keys are ignored there, so the theorem also says that the defaults for omitted keys are right."
  },
  {
   "property": "C79",
   "status": "proved",
   "theorems": [
    "C79_accepted_iff",
    "C79_violated_iff",
    "C79_optional"
   ],
   "note": "C79_accepted_iff reads the documentation's examples at the level of packets: what an entry matches, not what its fields contain. C79_violated_iff adds that all other canonical entries are reported as violations when the constraint is written in one line (see C33, C50). C79_case has the documentation's own examples in one table."
  },
  {
   "property": "C80",
   "status": "proved",
   "theorems": [
    "C80_same_solutions",
    "C80_same_answers",
    "C80_same_answer"
   ],
   "note": "C80_same_solutions (all entries), C80_same_answer (one text, true or false), C80_same_answers (sessions). The laws are those of SpecLaws.v used by C57 for the checker; intermediate constraints may mention skipped keys."
  },
  {
   "property": "C81",
   "status": "proved",
   "theorems": [
    "C81_parse",
    "C81_parse_without",
    "C81_load",
    "C81_p4check",
    "C81_add"
   ],
   "note": "C81_parse, C81_parse_without, C81_load, C81_p4check, C81_add. This also bounds the trusted base: the assumption pton_ok of other theorems is irrelevant for programs without ipv6('...')."
  },
  {
   "property": "C82",
   "status": "proved",
   "theorems": [
    "C82_interval",
    "C82_quote"
   ],
   "note": "C82_interval: equal intervals imply equal parts. C82_quote: equal quotations, each followed by any text, imply the same part and the same following text. The headings and excerpts are read back from the specification of C49_cited, decimal numbers included."
  },
  {
   "property": "C83",
   "status": "proved",
   "theorems": [
    "C83_table",
    "C83_action"
   ],
   "note": "C83_table, C83_action. Hypotheses as in C71: widths are not negative, and the constraints can be quoted (C50 shows when they cannot)."
  },
  {
   "property": "C84",
   "status": "proved",
   "theorems": [
    "C84_loads",
    "C84_accepts"
   ],
   "note": "C84_loads (whether the program loads is preserved), C84_accepts (so are accepted entries); C84_needs_arguments shows that the assumption about arguments is needed. Extends C57 from single tables and entries without actions to whole programs. Rejections may turn into failures, since explaining a rejected action may fail (C33), so only acceptance is compared."
  },
  {
   "property": "C85",
   "status": "proved",
   "theorems": [
    "C85_smallest_forcing",
    "C85_forcing_sufficient"
   ],
   "note": "C85_smallest_forcing, with the semantic notion of forcing in SpecForce.v; C85_forcing_sufficient relates it to C31. Sizes are those of the code (Nodes), which action parameters do not have."
  },
  {
   "property": "C86",
   "status": "proved",
   "theorems": [
    "C86_any_tree",
    "C86_checked",
    "C86_documented_refuted"
   ],
   "note": "Full characterisation in C86_any_tree (SpecSorts.v gives the sorts and the flaws); C86_checked says that type-checked trees never make Z3 throw. C86_documented_refuted shows that the documented error codes are not what happens; the statement above is what does happen, and is proved in full. What Z3 does with operands of unfit sorts is part of the trusted base (Z3.v)."
  },
  {
   "property": "C87",
   "status": "proved",
   "theorems": [
    "C87_c_string",
    "C87_numerals",
    "C87_evaluates",
    "C87_single",
    "C87_failures",
    "C87_entry",
    "C87_documented_refuted"
   ],
   "note": "C87_evaluates, C87_single, C87_failures, C87_entry over SpecYields.v. C87_documented_refuted: the header says that malformed trees and missing names yield errors; parts that are not reached are never looked at, and an integer may be compared with a Boolean. The statement above is what does happen, and is proved in full. The reading of number literals is GMP's mpz_set_str; C87_numerals shows that Num.v reads what SpecGmp.v says, C87_c_string that strings end at the first NUL byte."
  },
  {
   "property": "C88",
   "status": "proved",
   "theorems": [
    "C88_add",
    "C88_add_text",
    "C88_decides",
    "C88_create",
    "C88_entries",
    "C88_possible",
    "C88_apart",
    "C88_names",
    "C88_mask"
   ],
   "note": "Removes the hypothesis of C46 and C59 that no variable is shared, replacing it by the exact condition on entries. C88_add, C88_add_text, C88_decides and C88_create: the answers; C88_entries and C88_possible: the entries are exactly the coherent solutions; C88_apart and C88_names: when nothing is shared; C88_mask: what sharing does. The case is a table with keys x (ternary) and x_mask (exact)."
  },
  {
   "property": "C89",
   "status": "proved",
   "theorems": [
    "C89_excluded",
    "C89_distinct",
    "C89_exhausted",
    "C89_ends",
    "C89_loop"
   ],
   "note": "Solutions are in the sense of C88 (well-formed entries that fit the variables the solver uses). The excluding text is the printed negation of a conjunction of equations for the fields of all keys that are not skipped, and for the priority if the table's entries have one."
  },
  {
   "property": "C90",
   "status": "proved",
   "theorems": [
    "C90_whitelist",
    "C90_blacklist",
    "C90_exists"
   ],
   "note": "C90_whitelist and C90_blacklist are about any P4Info with such a declaration, C90_exists shows that the text exists and that the declaration loads."
  },
  {
   "property": "C91",
   "status": "proved",
   "theorems": [
    "C91_loads",
    "C91_kept",
    "C91_trimmed",
    "C91_same"
   ],
   "note": "C91_loads: the larger P4Info loads. C91_kept: every answer stays, with its text. C91_trimmed: what an entry says about the new fields and parameters does not change the answer. C91_same: for entries that say nothing about them, one P4Info gives an answer iff the other does. Failures are not compared: an entry that fails under the old P4Info because it uses an unknown field may of course be answered under the new one."
  },
  {
   "property": "C92",
   "status": "proved",
   "theorems": [
    "C92_two_questions",
    "C92_any_procedure",
    "C92_correct_procedures",
    "C92_model_values",
    "C92_linear"
   ],
   "note": "Z3 is an arbitrary function from lists of formulas to optional models."
  },
  {
   "property": "C93",
   "status": "proved",
   "theorems": [
    "C93_status",
    "C93_only_types_and_casts",
    "C93_types_not_read",
    "C93_casts_rejected",
    "C93_left_over",
    "C93_later_call",
    "C93_same_call",
    "C93_where_it_stops",
    "C93_must_copy"
   ],
   "note": "InferAndCheckTypes modelled as the in-place update it is (InPlace.v), incl. the argument after failures; agrees with the pure model on every status. C93_must_copy shows that the failed attempt is felt."
  },
  {
   "property": "C94",
   "status": "proved",
   "theorems": [
    "C94_verdict",
    "C94_accepted"
   ],
   "note": "C94_verdict: the constraints of the two declarations say the same of the two entries; C94_accepted: hence ReasonEntryViolatesConstraint accepts both or neither. C94_exact_needed and C94_both_load show that the two hypotheses (exact fields are given; both P4Infos load) cannot be dropped. The texts for rejected entries may differ, because they print the values."
  },
  {
   "property": "C95",
   "status": "proved",
   "theorems": [
    "C95_table",
    "C95_action",
    "C95_accepted"
   ],
   "note": "C95_table and C95_action: the constraints say the same under both declarations; C95_accepted: hence entries are accepted under both or neither. C95_conditions shows that the conditions on literals and on omitted ranges are needed: 'e == 353' means 'e == 97' for 8 bits, and an omitted range ends at 2^w - 1."
  },
  {
   "property": "C96",
   "status": "proved",
   "theorems": [
    "C96_recombined",
    "C96_alone",
    "C96_any_state",
    "C96_each"
   ],
   "note": "C88 is the reason for the condition on variable names: shared variables do couple keys. Unless Z3 overlooks a model of one of the formulas it is asked about."
  },
  {
   "property": "C97",
   "status": "proved",
   "theorems": [
    "C97_entails",
    "C97_moved_bound",
    "C97_loads",
    "C97_accepts",
    "C97_solutions",
    "C97_session",
    "C97_refused"
   ],
   "note": "Loosening is an inductive relation over constraints as written (SpecWeaker); the checker's and the solver's reading are both covered by one proof over an abstract reading. C97_wraps shows that bounds that exceed the width wrap."
  },
  {
   "property": "C98",
   "status": "proved",
   "theorems": [
    "C98_same",
    "C98_reads",
    "C98_length",
    "C98_copied",
    "C98_reached",
    "C98_not_linear",
    "C98_checked",
    "C98_checked_action",
    "C98_taken"
   ],
   "note": "ParserWork.v is the parser with counts of taken tokens, look-aheads and copied nodes; C98_same shows the counts change no result. C98_reads/C98_length bound them, C98_copied is exact, C98_reached and C98_not_linear show the bound's order is reached, C98_checked(_action) is the type checker."
  },
  {
   "property": "C99",
   "status": "proved",
   "theorems": [
    "C99_create",
    "C99_conversation",
    "C99_program"
   ],
   "note": "C99_create relates Create on both tables; C99_conversation compares every sequence of added texts and the entry at the end; C99_program gives the smaller table from the program. C99_priority_stays shows why the priority condition is needed."
  },
  {
   "property": "C100",
   "status": "proved",
   "theorems": [
    "C100_sound",
    "C100_high_enough",
    "C100_decides",
    "C100_create",
    "C100_exact",
    "C100_entry",
    "C100_loop",
    "C100_same_create",
    "C100_same_answers"
   ],
   "note": "The search (`trial`, SpecTrial.v) is not part of the code. It shows that the hypotheses about Z3 in C41-C48, C59, C72, C88, C89 and C96 can be met for every table, and removes the clause about overlooked models. C100_case runs it."
  },
  {
   "property": "C101",
   "status": "proved",
   "theorems": [
    "C101_reading",
    "C101_accepts",
    "C101_violates",
    "C101_solutions",
    "C101_answers"
   ],
   "note": "C101_wraps and C101_signed show why the side conditions are needed: literals wrap beside values of fixed width only, and the solver orders such values as signed numbers."
  },
  {
   "property": "C102",
   "status": "proved",
   "theorems": [
    "C102_camel_case",
    "C102_words",
    "C102_stable"
   ],
   "note": ""
  },
  {
   "property": "C103",
   "status": "proved",
   "theorems": [
    "C103_part",
    "C103_interval",
    "C103_reproduced",
    "C103_reproduced_action"
   ],
   "note": "C103_part and C103_interval for texts, C103_reproduced and C103_reproduced_action for rejections."
  },
  {
   "property": "C104",
   "status": "proved",
   "theorems": [
    "C104_create",
    "C104_entry",
    "C104_adding",
    "C104_consistent",
    "C104_more",
    "C104_less",
    "C104_drift"
   ],
   "note": "SkipCalls.v models Create and ConcretizeEntry with a stateful callback; C104_create and C104_entry reduce them to the model with a pure callback; C104_consistent, C104_more, C104_less say what follows; C104_drift exhibits an entry that violates the constraint of its table."
  },
  {
   "property": "C105",
   "status": "proved",
   "theorems": [
    "C105_appended",
    "C105_appended_action",
    "C105_repeated",
    "C105_repeated_action_fails"
   ],
   "note": "Texts, locations and quotations are compared in full. The added text is the annotation's further string, as joined by the loader (C39). Quotability of all constraints (legible) and the five standard match kinds are assumed, as in C71."
  },
  {
   "property": "C106",
   "status": "proved",
   "theorems": [
    "C106_table",
    "C106_action"
   ],
   "note": "For tables and for actions (including action sets). Proved from the outcome theorem C71 and the reading of constraints; the explained part settles the verdict for every reading that keeps its values."
  },
  {
   "property": "C107",
   "status": "proved",
   "theorems": [
    "C107_table",
    "C107_action"
   ],
   "note": "Clauses (SpecClauses.v) is the division into requirements; sizes are those of C51. Both theorems are read off the outcome theorem C71."
  },
  {
   "property": "C108",
   "status": "proved",
   "theorems": [
    "C108_determined",
    "C108_any",
    "C108_same",
    "C108_action",
    "C108_code",
    "C108_solver",
    "C108_one_answer_refuted"
   ],
   "note": "The order can change which missing key is blamed (C108_one_answer_refuted), and nothing else (C108_determined, C108_any)."
  },
  {
   "property": "C109",
   "status": "proved",
   "theorems": [
    "C109_one_reason",
    "C109_reported",
    "C109_all_reported"
   ],
   "note": "C109_one_reason (a declaration loads or has a reason, not both, not two), C109_reported (the reason is what is reported), C109_all_reported (whole P4Infos). The DebugString of a repeated key, printed after the message, is not modelled. For a misplaced token the list of expected tokens is C70's subject."
  },
  {
   "property": "C110",
   "status": "proved",
   "theorems": [
    "C110_ids",
    "C110_table",
    "C110_missing",
    "C110_table_only",
    "C110_indirect",
    "C110_action",
    "C110_action_only"
   ],
   "note": "SpecObjection.v lists the mistakes and their messages, and how ids are written. C110_table, C110_indirect and C110_action give the answer for each; C110_missing the answer if only keys are missing (which one depends on hash order, C108); C110_table_only and C110_action_only show that there are no other errors for entries that do not fit. An optional match of a key with a negative width aborts instead (C36). Dumps of protobufs at the end of messages, and the code line and condition in the message for a wrong kind, are not modelled."
  },
  {
   "property": "C111",
   "status": "proved",
   "theorems": [
    "C111_table",
    "C111_table_only",
    "C111_action",
    "C111_action_only"
   ],
   "note": "SpecStuck.v says, without reference to the interpreter, how evaluation and explanation fail and what is then answered. C111_table and C111_action give the answer, C111_table_only and C111_action_only show that nothing else goes wrong for an entry that fits (C110 covers those that do not). The part of a message that dumps an expression or protobuf is not modelled."
  },
  {
   "property": "C112",
   "status": "proved",
   "theorems": [
    "C112_text",
    "C112_cases",
    "C112_entry",
    "C112_create",
    "C112_key"
   ],
   "note": "Tables come from a P4Info and skipped keys have positive width; the outcome of the last case is C46's."
  },
  {
   "property": "C113",
   "status": "proved",
   "theorems": [
    "C113_report",
    "C113_error",
    "C113_exclusive",
    "C113_complaint"
   ],
   "note": "SpecPrinted.v says when an entry is permitted or forbidden by declarations as they stand in the P4Info file, with table ids compared by their lower 24 bits, and lists the complaints. C113_report: the start of a report tells which. C113_error: errors with their code and message. C113_exclusive: not both. C113_complaint: exit code, standard output and standard error. That reports follow each other in the order of the files is C53_reports."
  },
  {
   "property": "C114",
   "status": "proved",
   "theorems": [
    "C114_types",
    "C114_kinds",
    "C114_status",
    "C114_announced",
    "C114_runtime",
    "C114_unique"
   ],
   "note": "SpecWords.v. C114_types, C114_kinds, C114_status: the words, as equivalences. C114_announced, C114_runtime: the whole message of a quoted error, by the relations Cited and Uncited of C49. C114_unique: exactly one answer. With this the other specifications that use these words (SpecFault, SpecBlame, SpecSorts, SpecLoadError) do not depend on the model's definitions of them."
  },
  {
   "property": "C115",
   "status": "proved",
   "theorems": [
    "C115_loads",
    "C115_accepts",
    "C115_outcome",
    "C115_every",
    "C115_solver"
   ],
   "note": "C115_every covers the outcome of checking without conditions on the program, errors and crashes included. C115_loads and C115_accepts follow from the independent specifications, and so does C115_outcome (under the conditions of C71_exact). C115_solver is unconditional, for any decision procedure."
  },
  {
   "property": "C116",
   "status": "proved",
   "theorems": [
    "C116_load",
    "C116_check",
    "C116_solver"
   ],
   "note": "C116_load, C116_check and C116_solver; C116_case has tables and an action that trade names with duplicates and an empty name, and shows a failing load, accepted, refused, faulty and crashing entries and a conversation with a solver. Unlike C55 error codes and crashes are covered too. The explanations themselves contain the name, so only their emptiness is compared."
  },
  {
   "property": "C117",
   "status": "partial",
   "theorems": [
    "C117_files",
    "C117_lines_partial",
    "C117_one_line",
    "C117_lines_refuted",
    "C117_accepted",
    "C117_solver",
    "C117_safe",
    "C117_tool"
   ],
   "note": "C117_files: names of files only appear in messages. C117_lines_partial: with other lines, outcomes agree or one of the two crashes with LengthError. C117_one_line: no exception for constraints in one line. C117_safe: nor if, in both places, every part of every constraint can be quoted. C117_tool: what p4check prints. C117_accepted, C117_solver: what is accepted and what solvers decide does not depend on places, without exception. C117_lines_refuted: a violation that is explained when the constraint stands in line 9 of its file crashes the process when it stands in line 10."
  },
  {
   "property": "C118",
   "status": "proved",
   "theorems": [
    "C118_shown",
    "C118_streamed",
    "C118_symbolic",
    "C118_symbolic_refuted",
    "C118_keys"
   ],
   "note": "C118_shown: explanations. C118_streamed: operator<<. C118_symbolic: symbolic results; C118_symbolic_refuted is the witness for names with single quotes, which the statement names as the exception. C118_keys: descriptions of keys. z3::expr::to_string and ShortDebugString are arbitrary functions."
  }
 ]
}