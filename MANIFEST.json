{
 "claims": [
  {
   "property": "C01",
   "status": "proved",
   "theorems": [
    "C01_addresses_fresh",
    "C01_exhaustion"
   ],
   "note": "Raw new/add/remove histories; the address space bound is part of the theorem."
  },
  {
   "property": "C02",
   "status": "proved",
   "theorems": [
    "C02_counts_are_balances",
    "C02_over_release_wraps"
   ],
   "note": "Histories of fewer than 2^32-2 calls (the counter and the addresses are 32 bit). Over-release, outside the quantifier, is shown to wrap."
  },
  {
   "property": "C03",
   "status": "proved",
   "theorems": [
    "C03_variables_never_dangle",
    "C03_self_assignment",
    "C03_assignment_effect"
   ],
   "note": "Self-assignment and the exact effect of an assignment are separate theorems."
  },
  {
   "property": "C04",
   "status": "proved",
   "theorems": [
    "C04_member_assignment_effect",
    "C04_no_dangling",
    "C04_acyclic_no_leak",
    "C04_cycles_leak",
    "C04_destructor_using_this_refuted"
   ],
   "note": "Destructors may assign members, outside variables and null; allocation in destructors is not modelled; a destructor that hands out `this` is proved to diverge (C04_destructor_using_this_refuted, finding)."
  },
  {
   "property": "C05",
   "status": "proved",
   "theorems": [
    "C05_innermost",
    "C05_found_iff_declared",
    "C05_current_scope_only"
   ],
   "note": "Chains of symbol, method and namespace scopes; objects are C37."
  },
  {
   "property": "C06",
   "status": "proved",
   "theorems": [
    "C06_symbol_scope_rejects",
    "C06_method_scope_rejects",
    "C06_define_effect",
    "C06_histories",
    "C06_method_scope_shadows_import_refuted"
   ],
   "note": "Holds as stated for block scopes; namespaces, classes and methods do not see imported names (finding, C06_method_scope_shadows_import_refuted)."
  },
  {
   "property": "C07",
   "status": "partial",
   "theorems": [
    "C07_rejected_iff",
    "C07_declared_is_called",
    "C07_strict_unambiguous_partial",
    "C07_default_ambiguity_refuted"
   ],
   "note": "Acceptance rule and self-resolution proved; uniqueness proved for parameter lists without defaults/untyped parameters. In general false: C07_default_ambiguity_refuted."
  },
  {
   "property": "C08",
   "status": "proved",
   "theorems": [
    "C08_accepts",
    "C08_completed",
    "C08_otherwise_rejected"
   ],
   "note": "Names, types and values of the completed list; mutability and access mode are not modelled."
  },
  {
   "property": "C09",
   "status": "partial",
   "theorems": [
    "C09_alias_exact",
    "C09_no_alias_refuted",
    "C09_no_alias_partial"
   ],
   "note": "False in general (finding, C09_no_alias_refuted); the exact references are C09_alias_exact and the true case is C09_no_alias_partial."
  },
  {
   "property": "C10",
   "status": "proved",
   "theorems": [
    "C10_strict_order",
    "C10_equivalent_iff_same_signature"
   ],
   "note": ""
  },
  {
   "property": "C11",
   "status": "partial",
   "theorems": [
    "C11_one_eof_partial",
    "C11_one_eof_refuted",
    "C11_no_underflow",
    "C11_underflow_refuted",
    "C11_trailing_word_refuted"
   ],
   "note": "True unless the last word of the text is \"operator\", which swallows the end-of-file token (C11_one_eof_refuted). Underflow happens only when a block comment end is directly followed by another comment mark (C11_no_underflow, C11_underflow_refuted)."
  },
  {
   "property": "C12",
   "status": "proved",
   "theorems": [
    "C12_layout"
   ],
   "note": ""
  },
  {
   "property": "C13",
   "status": "proved",
   "theorems": [
    "C13_line_comment",
    "C13_hash_comment",
    "C13_block_comment",
    "C13_hash_glues_refuted",
    "C13_slash_comment_refuted",
    "C13_adjacent_comments_refuted"
   ],
   "note": "For // comments anywhere in code, # comments behind white space, block comments followed by white space. The excluded cases are findings: C13_hash_glues_refuted, C13_slash_comment_refuted, C13_adjacent_comments_refuted."
  },
  {
   "property": "C14",
   "status": "proved",
   "theorems": [
    "C14_lexemes",
    "C14_spelling_unique",
    "C14_spelling_total",
    "C14_plain_tokens",
    "C14_operator_word",
    "C14_touching_lexemes",
    "C14_whole_numbers",
    "C14_fractions",
    "C14_separate_suffix"
   ],
   "note": "Scanner output for every layout of lexemes; C14_plain_tokens gives the final list where nothing joins, C14_operator_word where the word operator occurs."
  },
  {
   "property": "C15",
   "status": "proved",
   "theorems": [
    "C15_literal",
    "C15_escaped_text",
    "C15_open_literal_refuted"
   ],
   "note": "The round trip holds for every text. Beyond the claim: a literal that is never closed is dropped silently with everything behind it (C15_open_literal_refuted)."
  },
  {
   "property": "C16",
   "status": "partial",
   "theorems": [
    "C16_positions_partial",
    "C16_every_token_partial",
    "C16_monotone_partial",
    "C16_line_counts",
    "C16_escaped_newline_refuted"
   ],
   "note": "For texts without an escaped line end inside a string literal, which the scanner does not count (C16_escaped_newline_refuted)."
  },
  {
   "property": "C17",
   "status": "proved",
   "theorems": [
    "C17_nothing_left_to_join",
    "C17_text_kept",
    "C17_others_kept",
    "C17_tilde_assign_refuted",
    "C17_modulo_text_refuted",
    "C17_number_word_refuted"
   ],
   "note": "The ~= operator is never joined and %= keeps the text *= (findings)."
  },
  {
   "property": "C18",
   "status": "proved",
   "theorems": [
    "C18_accepts_iff",
    "C18_rejects",
    "C18_well_bracketed",
    "C18_order_refuted"
   ],
   "note": "Exact characterisation by counts, so well-bracketed programs are accepted; the order of brackets is not checked (refuted)."
  },
  {
   "property": "C19",
   "status": "proved",
   "theorems": [
    "C19_tree_generator",
    "C19_parser",
    "C19_unique",
    "C19_search_parenthesis",
    "C19_search_bracket",
    "C19_search_found"
   ],
   "note": "Both block extractors and the bracket searches return exactly the text up to the matching bracket, and that text is unique."
  },
  {
   "property": "C20",
   "status": "proved",
   "theorems": [
    "C20_parenthesised",
    "C20_accepted",
    "C20_sound",
    "C20_source_tokens",
    "C20_terminates",
    "C20_fuel_irrelevant",
    "C20_stray_argument_refuted",
    "C20_trailing_comma_refuted",
    "C20_undefined_refuted"
   ],
   "note": "For every writable tree, every context and every following token that does not continue it; conversely every accepted text belongs to the loose grammar; reading terminates on every token list. Stray tokens behind arguments and trailing commas are accepted, some malformed texts are undefined behaviour (refuted). Designtime casts, `new`, array and range operators and `this`/namespace chains are rejected or not covered by the surface grammar; see DESIGN.md."
  },
  {
   "property": "C21",
   "status": "proved",
   "theorems": [
    "C21_grammar",
    "C21_unambiguous",
    "C21_stronger_first",
    "C21_left_first",
    "C21_chain",
    "C21_conditional",
    "C21_conditional_refuted"
   ],
   "note": "Grammar, unambiguity, pairwise precedence, chains of any length; a conditional binds tighter than the operators on its left (finding)."
  },
  {
   "property": "C22",
   "status": "partial",
   "theorems": [
    "C22_print_reads_partial",
    "C22_brackets_refuted",
    "C22_unequal_refuted",
    "C22_lost_refuted"
   ],
   "note": "Proved for every tree the reader returns whose printed text needs no brackets (whole numbers, texts, names, calls, casts, typeid, assignments, prefixes, conditionals, is, all operators printed as written). In general false (refuted): brackets and != are lost, true is printed as 1, postfix steps as prefixes, ?: as a full conditional, a minus before a negative operand as --, a cast of a cast. Missing: numbers with a fraction."
  },
  {
   "property": "C23",
   "status": "proved",
   "theorems": [
    "C23_first_definition_wins",
    "C23_errors_classified",
    "C23_exists_agrees",
    "C23_definitions_are_kept",
    "C23_comparisons_announce_bool",
    "C23_comparisons_announce_bool_refuted",
    "C23_class_defaults"
   ],
   "note": "The table built by any sequence of define calls answers with the first definition; errors are classified by how much of the key is known; the existence query agrees. Finding: Object == Object is announced as Object, not bool."
  },
  {
   "property": "C24",
   "status": "partial",
   "theorems": [
    "C24_admitted_combining_runs_partial",
    "C24_admitted_combining_runs_refuted",
    "C24_announced_type_partial",
    "C24_announced_type_refuted",
    "C24_deciding_runs",
    "C24_assignment_runs",
    "C24_casts_run",
    "C24_enum_cast_refuted",
    "C24_unary_plus_refuted",
    "C24_unary_refused",
    "C24_not_is_opposite",
    "C24_concatenation",
    "C24_enum_arithmetic_refuted",
    "C24_connectives",
    "C24_references",
    "C24_objects_refused",
    "C24_float_with_bool_refused"
   ],
   "note": "Proved for all admitted operators except bit complement and int16/int64 bit-and/or, which always fail (refuted); the announced type is wrong for int op double/float and int16 op int/int64 (refuted); unary plus, casts to enum and enum arithmetic are admitted and always fail (refuted). C24_connectives gives the values of the logical operators. Floating point text conversion is an oracle. C24_references: references are true unless null; C24_objects_refused, C24_float_with_bool_refused: what throws."
  },
  {
   "property": "C25",
   "status": "proved",
   "theorems": [
    "C25_unary_exact_or_undefined",
    "C25_exact_or_undefined",
    "C25_operands_cut",
    "C25_never_undefined_refuted",
    "C25_smallest_remainder_refuted",
    "C25_int16_results_are_int16_refuted",
    "C25_floating",
    "C25_floating_single",
    "C25_floating_mixed"
   ],
   "note": "Exact whenever representable, undefined behaviour otherwise; double and float operators are those of IEEE 754 on the converted operands (C25_floating, C25_floating_single, C25_floating_mixed); int16 results may leave the int16 range (refuted)."
  },
  {
   "property": "C26",
   "status": "proved",
   "theorems": [
    "C26_integers_one_order",
    "C26_strings_one_order",
    "C26_dictionary_total",
    "C26_doubles_trichotomy",
    "C26_mixed_equality_symmetric_refuted"
   ],
   "note": "Integers of one width, strings; doubles up to NaN. Mixed-type equality is not symmetric (refuted)."
  },
  {
   "property": "C27",
   "status": "partial",
   "theorems": [
    "C27_integers_round_trip",
    "C27_text_to_number",
    "C27_text_too_large",
    "C27_text_without_number",
    "C27_bool_round_trip_partial",
    "C27_bool_round_trip_refuted",
    "C27_text_truth",
    "C27_truth",
    "C27_integers_as_double",
    "C27_integers_as_float",
    "C27_integers_as_double_refuted",
    "C27_float_as_double",
    "C27_bool_as_number",
    "C27_bool_as_text"
   ],
   "note": "Integers, the numbers texts start with (C27_text_to_number, with clamping and 0 without digits), truth of every value (C27_truth), bool as number and integers as double/float (exact below 2^53 and 2^24; beyond that digits are lost, refuted) proved; bool: true round-trips, false does not (refuted: its text 0 converts to true). A float kept as a double is the same number (C27_float_as_double). C27_bool_as_text: the texts of bools."
  },
  {
   "property": "C28",
   "status": "partial",
   "theorems": [
    "C28_short_circuit",
    "C28_truth_table",
    "C28_exceptions",
    "C28_negated_partial",
    "C28_nand_refuted",
    "C28_nor_refuted"
   ],
   "note": "&& and || are proved for arbitrary operand expressions (short circuit, truth table, exceptions). !& and !| are proved where the left operand decides or the operands agree; elsewhere they are wrong (refuted)."
  },
  {
   "property": "C29",
   "status": "partial",
   "theorems": [
    "C29_fuel_irrelevant",
    "C29_deterministic",
    "C29_block",
    "C29_rest_not_executed",
    "C29_while",
    "C29_if",
    "C29_jumps_absorbed",
    "C29_structured_semantics_partial",
    "C29_plain_programs_partial",
    "C29_constructor_return_refuted",
    "C29_constructor_exception_refuted",
    "C29_for_init_refuted",
    "C29_assignment_exception_refuted"
   ],
   "note": "Blocks, while and if are characterised by equivalences for every program; loops and switches of accepted programs absorb break and continue; forward simulation to a structured big-step semantics and, for plain programs, the converse. Refuted: return in a constructor, exception in a for initialisation, exception in an assignment used as an expression, exception in the constructor of an argument of an extension method."
  },
  {
   "property": "C30",
   "status": "proved",
   "theorems": [
    "C30_switch",
    "C30_first_equal_case",
    "C30_default",
    "C30_no_default",
    "C30_leaving"
   ],
   "note": "Equivalence between executing a switch and the specification [selects], for every program, with the cases spelled out. A continue inside a switch starts the switch again."
  },
  {
   "property": "C31",
   "status": "partial",
   "theorems": [
    "C31_try_partial",
    "C31_first_accepting_clause",
    "C31_unaccepted_goes_on",
    "C31_finally_once",
    "C31_exit_refuted",
    "C31_no_clauses_refuted",
    "C31_pending_exception_refuted"
   ],
   "note": "Equivalence between executing a try statement and the specification (body, handled, finished) for every program. Refuted: exit skips finally, a try without catch clauses swallows the exception, a finally block that handles an exception of its own replaces the pending one."
  },
  {
   "property": "C32",
   "status": "partial",
   "theorems": [
    "C32_scopes_balanced_partial",
    "C32_only_own_frame_partial",
    "C32_calls_balanced_partial",
    "C32_no_raise_partial",
    "C32_for_partial",
    "C32_for_break_refuted",
    "C32_return_finally_refuted",
    "C32_foreach_throw_refuted"
   ],
   "note": "Proved for programs without for and exit, with foreach loops in statement lists over iterator methods that do not throw; with for loops a statement leaves scopes open only in the running method and every call is balanced; a for loop that ends by its condition is balanced. False in general (refuted): a for loop left by break, return or an exception keeps its scope (a finally block then sees the variables of the try block), and an exception from an iterator method of a foreach in a called method leaves the frame of that method on the stack."
  },
  {
   "property": "C33",
   "status": "partial",
   "theorems": [
    "C33_jumps_stay_in_method_partial",
    "C33_expressions_do_not_jump_partial",
    "C33_stray_jump_rejected",
    "C33_cases_leave",
    "C33_for_step_refuted"
   ],
   "note": "Proved for every accepted program whose for-steps do not themselves break or continue; a break in a for-step escapes (refuted)."
  },
  {
   "property": "C34",
   "status": "partial",
   "theorems": [
    "C34_returns_partial",
    "C34_return_value",
    "C34_no_return_rejected",
    "C34_return_types",
    "C34_missing_return_refuted"
   ],
   "note": "Accepted methods whose body leaves on every path never fall off their end, and a return delivers the value assigned to the frame; the generator also accepts methods with a path without return (refuted)."
  },
  {
   "property": "C35",
   "status": "partial",
   "theorems": [
    "C35_own_exceptions_partial",
    "C35_uncaught_rejected",
    "C35_rethrow_refuted",
    "C35_throw_in_catch_refuted",
    "C35_throw_in_finally_refuted"
   ],
   "note": "Exceptions the method itself throws with a typed throw outside catch/finally are declared or caught; re-throws and throws inside catch and finally are refuted."
  },
  {
   "property": "C36",
   "status": "partial",
   "theorems": [
    "C36_instance_of_partial",
    "C36_instance_of_reachable",
    "C36_interface_of_interface_refuted",
    "C36_own_type",
    "C36_inherited",
    "C36_every_object",
    "C36_creation"
   ],
   "note": "Exact characterisation of instance-of for created objects, which is reachability when interfaces do not inherit from interfaces; inheritance between interfaces is not followed (refuted)."
  },
  {
   "property": "C37",
   "status": "proved",
   "theorems": [
    "C37_nearest_class",
    "C37_member_access_stays_inside",
    "C37_outer_only_if_not_inherited",
    "C37_designtime",
    "C37_methods_nearest_class",
    "C37_private_base_members_hidden_refuted"
   ],
   "note": "The clause on private base members is false for Private requests (finding, C37_private_base_members_hidden_refuted); method look-up is proved for hierarchies without final methods."
  },
  {
   "property": "C38",
   "status": "partial",
   "theorems": [
    "C38_order",
    "C38_circle_never_accepted",
    "C38_taken_over",
    "C38_acyclic_accepted",
    "C38_short_circles_partial",
    "C38_long_circle_refuted",
    "C38_same_name_refuted"
   ],
   "note": "Accepted types are prepared once and after their parents, circles are never accepted, acyclic sets are accepted, circles of at most two types are reported; circles of three types are not detected and preparing diverges, and two parents offering the same name are rejected (refuted)."
  },
  {
   "property": "C39",
   "status": "partial",
   "theorems": [
    "C39_contract_partial",
    "C39_nothing_else_lost",
    "C39_final_kept",
    "C39_unambiguous",
    "C39_accepted",
    "C39_other_names",
    "C39_final_of_base_refuted",
    "C39_override_of_nothing_refuted"
   ],
   "note": "The contract is proved for all methods of one type and every history; it is not applied between a type and its base: a final method can be redefined (refuted)."
  },
  {
   "property": "C40",
   "status": "partial",
   "theorems": [
    "C40_accepted_iff",
    "C40_increasing",
    "C40_distinct",
    "C40_rest_ignored_refuted",
    "C40_no_semicolon_refuted",
    "C40_empty_refuted",
    "C40_only_entries_refuted"
   ],
   "note": "buildEnum modelled token by token. C40_accepted_iff characterises the accepted declarations and their values exactly; C40_increasing/C40_distinct are the property. Counterexamples to 'any other declaration is rejected': what follows the first semicolon is ignored, a missing semicolon and an empty declaration are undefined behaviour, and at run time any int can be assigned to an enumeration variable."
  },
  {
   "property": "C41",
   "status": "proved",
   "theorems": [
    "C41_bound",
    "C41_indirect_bound_refuted",
    "C41_name_is_written_form",
    "C41_names_injective",
    "C41_missing_type_is_object",
    "C41_read_back",
    "C41_positions",
    "C41_nested_argument_refuted",
    "C41_qualified_argument_refuted",
    "C41_junk_accepted_refuted",
    "C41_first_constraint",
    "C41_merge",
    "C41_method",
    "C41_once",
    "C41_member",
    "C41_member_arguments",
    "C41_concrete_argument_refuted",
    "C41_argument_position_refuted",
    "C41_fill",
    "C41_instantiate"
   ],
   "note": "Names, reading back and substitution in methods and members are proved. Found: nested and qualified type arguments are misread; in members of a prototype an argument that is not a placeholder becomes Object, and an argument whose position differs from that in the enclosing prototype is rejected."
  },
  {
   "property": "C42",
   "status": "proved",
   "theorems": [
    "C42_parse_print",
    "C42_parsed_roundtrip",
    "C42_parsed_roundtrip_overflow_refuted",
    "C42_library"
   ],
   "note": "C++ SemanticVersionNumber and libSemVer. Bugfix numbers over 32 bits wrap (C42_parsed_roundtrip_overflow_refuted)."
  },
  {
   "property": "C43",
   "status": "partial",
   "theorems": [
    "C43_numbers_and_prereleases",
    "C43_labels_refuted",
    "C43_strict_order_partial",
    "C43_library_strict_order",
    "C43_library_greater",
    "C43_library_false_label_refuted",
    "C43_next_is_newer",
    "C43_next_is_least"
   ],
   "note": "Number and pre-release rules proved; two different labels are each older than the other (C43_labels_refuted); strict order proved for one label, and for the Slang library version of the comparison."
  },
  {
   "property": "C44",
   "status": "proved",
   "theorems": [
    "C44_visits_exactly_what_is_needed",
    "C44_closed",
    "C44_schedules_only_what_is_needed",
    "C44_terminates_without_cycles",
    "C44_deterministic",
    "C44_cycles_refuted",
    "C44_architecture",
    "C44_only_architecture",
    "C44_install_unpacks_what_is_needed",
    "C44_update",
    "C44_minimum_version_refuted",
    "C44_installed_version_refuted",
    "C44_maximum_version_refuted",
    "C44_missing_module_refuted"
   ],
   "note": "A finished preparation asks for exactly the transitive needs, everything listed is installed or scheduled, it ends on finite acyclic repositories; cycles never finish (refuted), and minimum/maximum versions, outdated installed modules and modules the server lacks are not handled (refuted). Modules for another architecture are not prepared (C44_architecture, C44_only_architecture)."
  },
  {
   "property": "C45",
   "status": "partial",
   "theorems": [
    "C45_check",
    "C45_install_refuses",
    "C45_dependencies_refuted",
    "C45_configuration",
    "C45_product_refuted",
    "C45_outdated"
   ],
   "note": "The check and the refusal for requested modules are proved; modules pulled in as dependencies are not checked and a configured restriction on the product itself is ignored (refuted)."
  },
  {
   "property": "C46",
   "status": "proved",
   "theorems": [
    "C46_split_at_first",
    "C46_split_of_join",
    "C46_trim_exact",
    "C46_trim_characterised",
    "C46_trim_idempotent",
    "C46_extract_quoted",
    "C46_compare_without_case"
   ],
   "note": ""
  },
  {
   "property": "C47",
   "status": "proved",
   "theorems": [
    "C47_load_total",
    "C47_last_line_wins",
    "C47_unset_key",
    "C47_reading_unique",
    "C47_order_of_unrelated_lines",
    "C47_reload_forgets",
    "C47_written_is_read",
    "C47_indexed",
    "C47_last_line_refuted"
   ],
   "note": "Configurator::load, getValue, isMember, LineParser and its Tokenizer modelled character by character. C47_last_line_wins is the property for every text, C47_order_of_unrelated_lines the exchange of lines, C47_written_is_read the round trip. C47_last_line_refuted: a setting on a last line without line feed is lost (finding)."
  },
  {
   "property": "C48",
   "status": "partial",
   "theorems": [
    "C48_directory_and_file",
    "C48_joined_path",
    "C48_no_separator",
    "C48_no_separator_refuted",
    "C48_stem_and_extension",
    "C48_joined_extension",
    "C48_no_extension",
    "C48_trailing_dot_refuted",
    "C48_directory_dot_refuted",
    "C48_module_paths_differ"
   ],
   "note": "Proved for every path with a separator (directory and file part) and for every path with a non-empty extension. Counterexamples: without a separator both parts are the whole path; a trailing dot stays in the stem; a dot in a directory name starts an 'extension'. The file system part of BuildPath (realpath) is not modelled."
  },
  {
   "property": "C49",
   "status": "partial",
   "theorems": [
    "C49_sequences_partial",
    "C49_erase_behind_end_refuted",
    "C49_double_push_front_refuted",
    "C49_copy_refuted"
   ],
   "note": "Refinement to mathematical sequences for every history over any number of List/Vector/DoubleLinkedList objects, except erase(size) and push_front on an empty DoubleLinkedList, which are wrong (refuted); copies share items (refuted)."
  },
  {
   "property": "C50",
   "status": "partial",
   "theorems": [
    "C50_pop_back_partial",
    "C50_last_after_pop_refuted",
    "C50_push_after_pop_refuted",
    "C50_stack_partial",
    "C50_second_pop_refuted"
   ],
   "note": "Histories with pop_back/pop are right as long as nothing looks at the tail before the collection has been emptied; in general false (refuted: last, push_back and a second pop after a pop)."
  },
  {
   "property": "C51",
   "status": "proved",
   "theorems": [
    "C51_first_in_first_out",
    "C51_peek_refuted"
   ],
   "note": "Every history over any number of queues; peek returns the wrong end (refuted, not part of the property)."
  },
  {
   "property": "C52",
   "status": "proved",
   "theorems": [
    "C52_finite_map",
    "C52_insert_twice_refuted",
    "C52_index_of_refuted"
   ],
   "note": "Every history with insert used for absent keys; insert of a present key and indexOf are wrong (refuted, not part of the property)."
  },
  {
   "property": "C53",
   "status": "partial",
   "theorems": [
    "C53_histories_partial",
    "C53_sorted",
    "C53_duplicates_refuted",
    "C53_last_refuted"
   ],
   "note": "Sortedness proved for every strict weak order and every sequence of insertions; duplicates are never rejected and last() is wrong (refuted)."
  },
  {
   "property": "C54",
   "status": "proved",
   "theorems": [
    "C54_iteration_in_order",
    "C54_current",
    "C54_reverse_refuted",
    "C54_empty",
    "C54_previous_refuted"
   ],
   "note": "Forward iteration for every plain history; the reverse iterator and previous() after erase are wrong (refuted)."
  },
  {
   "property": "C55",
   "status": "partial",
   "theorems": [
    "C55_length_counts",
    "C55_append_length_refuted",
    "C55_append_length",
    "C55_replace_first",
    "C55_replace_nothing",
    "C55_replace_all_shorter",
    "C55_replace_all_ends_refuted",
    "C55_remove_char",
    "C55_remove_outside",
    "C55_char_at",
    "C55_starts_with",
    "C55_contains",
    "C55_ends_with_partial",
    "C55_ends_with_longer_refuted",
    "C55_index_of",
    "C55_last_index_of",
    "C55_sub_string",
    "C55_cut",
    "C55_range_refuted",
    "C55_trim"
   ],
   "note": "String.os and the extension methods it calls modelled statement by statement. Proved: Length after every history without <<, Replace, RemoveCharAt, CharAt, StartsWith, Contains, IndexOf, LastIndexOf, SubString, Trim, TrimLeft/Right. Counterexamples: << does not update the length; EndsWith with a longer argument throws; ReplaceAll need not end; operator[](first, last) is empty inside the string. Positions are ints, so texts are shorter than 2^31-1."
  },
  {
   "property": "C56",
   "status": "partial",
   "theorems": [
    "C56_balanced_restores",
    "C56_frame_pop_restores",
    "C56_frame_kept",
    "C56_defined_iff",
    "C56_pop_empty_refuted",
    "C56_never_reported",
    "C56_new_scope_nested",
    "C56_deleted_once",
    "C56_open_scopes_leak_refuted",
    "C56_frame_levels",
    "C56_frame_numbers",
    "C56_break_allowed",
    "C56_thread_numbers"
   ],
   "note": "StackFrame, Thread and Threads with the pushScope/popScope of interpreter and generator. C56_balanced_restores and C56_frame_pop_restores are the property. Counterexamples: popping an empty stack is undefined behaviour, not an error (C56_pop_empty_refuted; C56_defined_iff says exactly when); scopes still open when their frame is popped are leaked except the top one."
  },
  {
   "property": "C57",
   "status": "partial",
   "theorems": [
    "C57_latest_request",
    "C57_is_break_point",
    "C57_listed_in_order",
    "C57_stops_iff",
    "C57_no_receiver",
    "C57_enter_exit",
    "C57_remove_iff",
    "C57_remove_absent_refuted",
    "C57_delete_by_number",
    "C57_store_load",
    "C57_store_blank_refuted",
    "C57_one_receiver",
    "C57_unregister",
    "C57_condition",
    "C57_condition_missing"
   ],
   "note": "Debugger, BreakPoint, Condition and the break point commands of the local client. C57_latest_request is the property (a map keyed by file and line with the latest condition). Counterexample: removing a break point that is not there is undefined behaviour. C57_store_load is the round trip through the stored texts (the JSON file and the file system look-up are parameters/not modelled). C57_enter_exit: when stepping stops at entering and leaving a method."
  },
  {
   "property": "C58",
   "status": "partial",
   "theorems": [
    "C58_all_kept",
    "C58_order_independent",
    "C58_order",
    "C58_repeated_refuted",
    "C58_arguments_refuted",
    "C58_extends_something"
   ],
   "note": "Proved for ancestors that differ in kind, name or visibility; the same ancestor written twice is kept twice, and of two that differ in their number of type arguments one is lost (refuted)."
  },
  {
   "property": "C59",
   "status": "partial",
   "theorems": [
    "C59_ascending",
    "C59_enumeration_unique",
    "C59_empty_partial",
    "C59_empty_refuted",
    "C59_descending_refuted",
    "C59_zero_step",
    "C59_new_step",
    "C59_current",
    "C59_no_current"
   ],
   "note": "Range.os and the random access iterators. C59_ascending is the property for every positive step with start <= end (forward, backward, size, at). Counterexamples: counting down always throws; start less than one step behind the end throws instead of being empty. C59_new_step, C59_current and C59_no_current: changing the step and asking for the current element."
  },
  {
   "property": "C60",
   "status": "partial",
   "theorems": [
    "C60_own_abstract",
    "C60_created_is_concrete",
    "C60_concrete_created",
    "C60_inherited_abstract_refuted"
   ],
   "note": "Own abstract methods prevent creation; inherited ones do not (refuted)."
  },
  {
   "property": "C61",
   "status": "partial",
   "theorems": [
    "C61_split_cuts",
    "C61_join",
    "C61_split_of_join",
    "C61_empty_separator_refuted",
    "C61_after_append_refuted",
    "C61_characters_partial",
    "C61_characters_refuted"
   ],
   "note": "StringIterator and CharacterIterator. C61_split_cuts/C61_join/C61_split_of_join are the property for every text and non-empty separator. Counterexamples: an empty separator does not end, text added with << is not seen, iterating over characters yields an extra empty text at the end."
  },
  {
   "property": "C62",
   "status": "proved",
   "theorems": [
    "C62_pad",
    "C62_pad_refused"
   ],
   "note": "strlpad and strrpad for every text, length and pattern."
  },
  {
   "property": "C63",
   "status": "partial",
   "theorems": [
    "C63_round_trip_partial",
    "C63_read_back",
    "C63_both_writers",
    "C63_one_reading",
    "C63_same_text",
    "C63_number_refuted",
    "C63_quote_refuted",
    "C63_backslash_refuted",
    "C63_false_first_refuted",
    "C63_single_value_refuted",
    "C63_unclosed_refuted"
   ],
   "note": "libJson writers, tokenizer and reader. C63_round_trip_partial is the property for arrays and objects of any size and depth whose texts have no quotes or backslashes, without numbers and without arrays of two or more elements that start with false; C63_read_back says what comes back with numbers and escaped texts. Counterexamples: numbers come back as strings, texts are not escaped, the comma behind a leading false is missing, a single value cannot be read, a missing closing bracket is accepted."
  },
  {
   "property": "C64",
   "status": "partial",
   "theorems": [
    "C64_const_variable_refused",
    "C64_const_parameter_refused",
    "C64_modify_call_refused",
    "C64_member_refused",
    "C64_own_class_call_refused",
    "C64_var_refused",
    "C64_const_argument_refused",
    "C64_const_variables_keep",
    "C64_const_numbers_keep_partial",
    "C64_types_keep_partial",
    "C64_const_methods_partial",
    "C64_const_members_refuted",
    "C64_const_method_this_refuted",
    "C64_const_parameter_alias_refuted",
    "C64_const_argument_refuted",
    "C64_const_numbers_refuted",
    "C64_const_method_copy_refuted"
   ],
   "note": "Const checks of the generator and the run of accepted code on a language core. Const variables and parameters hold the same after any accepted statements (C64_const_variables_keep); const numbers show the same number unless made with new (C64_const_numbers_keep_partial); const methods change no object when const methods do not write 'this', make no objects and hold objects in const variables (C64_const_methods_partial, with type soundness C64_types_keep_partial). Counterexamples for the rest: const members are modifiable, explicit 'this', aliases, parameters without ref, numbers made with new. C64_const_parameter_refused: whole programs that assign to a const parameter are refused."
  },
  {
   "property": "C65",
   "status": "partial",
   "theorems": [
    "C65_read_as_written",
    "C65_text",
    "C65_unambiguous",
    "C65_independent",
    "C65_accepted_sound",
    "C65_ends",
    "C65_type_arguments",
    "C65_enum_words_refuted",
    "C65_cut_off_refuted",
    "C65_nested_interface_refuted",
    "C65_object_in_interface_refuted",
    "C65_separators_refuted",
    "C65_semicolon_refuted",
    "C65_qualified_argument_refuted",
    "C65_colon_refuted",
    "C65_too_large_refuted",
    "C65_missing_signs_refuted",
    "C65_val_refuted"
   ],
   "note": "The reader of declarations of Parser.cpp and Analyser.cpp (names of types are kept as written, not resolved). The first half is proved for a grammar of all kinds of declarations (C65_read_as_written, C65_text, C65_unambiguous); C65_accepted_sound gives the rules for every accepted token list, with interfaces that declare no interfaces inside. Counterexamples for the rest: words before enum, files cut off (UB), interfaces in interfaces, separators of parameters, the semicolon of abstract methods, qualified type arguments, values too large."
  },
  {
   "property": "C66",
   "status": "partial",
   "theorems": [
    "C66_read_as_written",
    "C66_unambiguous",
    "C66_every_tree",
    "C66_sound",
    "C66_terminates",
    "C66_rounds_irrelevant",
    "C66_scopes",
    "C66_innermost",
    "C66_closed",
    "C66_block_apart",
    "C66_semicolon_refuted",
    "C66_else_refuted",
    "C66_for_refuted",
    "C66_finally_refuted",
    "C66_branch_scope_refuted",
    "C66_parameter_refuted",
    "C66_last_semicolon_refuted"
   ],
   "note": "The reader of method bodies of TreeGenerator.cpp. Proved: every text of an inductive grammar is read as its tree, errors included (C66_read_as_written, from source text), no text has two meanings (C66_unambiguous), every tree has a text (C66_every_tree), whatever is accepted is a text of a laxer grammar (C66_sound), names stay in their block (C66_scopes, C66_closed, C66_block_apart), reading ends (C66_terminates). Counterexamples for the rest: semicolons are optional except before the end of some blocks (where the reader runs over the end), if (p) f(); else g(); is refused, any token separates the head of a for loop, finally blocks, names declared by the statement behind an if are visible behind it, locals hide parameters."
  },
  {
   "property": "C67",
   "status": "partial",
   "theorems": [
    "C67_resolution",
    "C67_missing_folder",
    "C67_name_refuted",
    "C67_once",
    "C67_everything",
    "C67_only_needed",
    "C67_terminates",
    "C67_succeeds",
    "C67_order_of_folders",
    "C67_first_folder_refuted",
    "C67_import_order_refuted",
    "C67_script_twice_refuted",
    "C67_extension_refuted"
   ],
   "note": "The loading of libraries of VirtualMachine.cpp over a file system without links. Proved as stated for every file system and import graph: which file is named (C67_resolution), loaded once (C67_once), completely (C67_everything), nothing else (C67_only_needed), the end (C67_terminates), success (C67_succeeds), the order of the folders (C67_order_of_folders). Counterexamples for the rest: with a folder missing the rest of the path is ignored (C67_name_refuted), the script itself may be read twice (C67_script_twice_refuted), folders of loaded libraries make later imports succeed (C67_import_order_refuted)."
  },
  {
   "property": "C68",
   "status": "partial",
   "theorems": [
    "C68_accepted",
    "C68_runs_as_the_rules_say",
    "C68_nothing_else",
    "C68_deterministic",
    "C68_stopped",
    "C68_parameter_redeclared_refuted",
    "C68_outer_value_refuted",
    "C68_for_break_refuted",
    "C68_missing_return_refuted",
    "C68_loop_body_refuted",
    "C68_step_value_refuted"
   ],
   "note": "From the source text to the run, over the models of the tokenizer, the reader of declarations, the reader of statements and expressions, the control flow checks and the interpreter put together. Proved for every text of the fragment, against a big-step semantics of the surface syntax that shares no definition with the interpreter: accepted (C68_accepted), computes exactly what the rules derive (C68_runs_as_the_rules_say), nothing else can happen (C68_nothing_else), the rules are deterministic (C68_deterministic), a stopped run has no result by the rules (C68_stopped). Missing: objects, overloading, floating point numbers, exceptions, switch and foreach, for loops left by break, methods with a value where not every path is seen to end with a return. Counterexamples outside of the fragment: a local with the name of a parameter, var x = x, break in a for loop, a missing return in a branch, break without a block, the value of n++."
  },
  {
   "property": "C69",
   "status": "partial",
   "theorems": [
    "C69_arguments",
    "C69_no_run",
    "C69_no_script",
    "C69_missing",
    "C69_words",
    "C69_careful",
    "C69_script",
    "C69_lookup",
    "C69_absent",
    "C69_blank_refuted",
    "C69_falsy_refuted",
    "C69_equals_refuted",
    "C69_end_refuted"
   ],
   "note": "processParameters and the choice of action of slang/main.cpp and the program ParameterHandler.os, followed statement by statement over the models of the library strings. Proved: the arguments behind the script are handed over untouched (C69_arguments), options that ask for something else never run it (C69_no_run), no script or a missing value (C69_no_script, C69_missing), every text of words is read as its words mean (C69_words), anything in quotation marks round trips (C69_careful), plain arguments arrive end to end (C69_script), look ups (C69_lookup, C69_absent). Counterexamples for the rest: an argument with a blank is two parameters (C69_blank_refuted), an empty argument or false is lost (C69_falsy_refuted), a value with an equals sign loses its key (C69_equals_refuted), a blank at the end is one more parameter (C69_end_refuted)."
  },
  {
   "property": "C70",
   "status": "partial",
   "theorems": [
    "C70_objects_partial",
    "C70_one_output",
    "C70_uncaught_partial",
    "C70_throw_or_output",
    "C70_check_restricts",
    "C70_accepted",
    "C70_fine_simple",
    "C70_parameter_hidden_refuted",
    "C70_no_virtual_call_refuted",
    "C70_inherited_this_refuted",
    "C70_argument_scope_refuted",
    "C70_private_inherited_refuted",
    "C70_private_of_derived_refuted",
    "C70_null_member_refuted",
    "C70_lost_chain_refuted",
    "C70_no_base_method_refuted",
    "C70_private_through_member_refuted",
    "C70_reassigned_refuted"
   ],
   "note": "The resolution of names and methods at design time and at run time (TreeGenerator, TreeInterpreter, Object, Scope, Repository) on programs with classes, with the run over layered objects as the code builds them, against rules over flat objects. Proved for every program of the fragment 'fine' (C70_objects_partial, C70_one_output), with exceptions that are caught and, for those that are not, C70_uncaught_partial and C70_throw_or_output. Which programs are accepted is settled exactly, names, visibility, types and control flow included, for every program whose declarations do not clash and whose chains from own members can be followed (C70_accepted, and C70_fine_simple for the inclusion). Outside of it the code is wrong, one theorem each with an accepted program: parameter with the name of a member (C70_parameter_hidden_refuted), calls of overridden methods from the base class (C70_no_virtual_call_refuted), this in inherited methods (C70_inherited_this_refuted), arguments of chained calls (C70_argument_scope_refuted), private members and derived classes (C70_private_inherited_refuted, C70_private_of_derived_refuted), members that are null (C70_null_member_refuted), chains whose types do not know the next name (C70_lost_chain_refuted, C70_no_base_method_refuted), private members behind own members (C70_private_through_member_refuted), variables that have held an object of a derived class (C70_reassigned_refuted; C70_objects_partial is about the rules with that check, which only take outcomes away: C70_check_restricts). Missing: static members, overloads with the same number of parameters, operator methods, exceptions out of constructors and out of calls behind an expression, finally, destructors, for and foreach loops."
  },
  {
   "property": "C71",
   "status": "partial",
   "theorems": [
    "C71_handles",
    "C71_unknown_handle",
    "C71_open_is_safe_partial",
    "C71_closed_handle_refuted",
    "C71_others_untouched",
    "C71_round_trip",
    "C71_append",
    "C71_text",
    "C71_read",
    "C71_write_in_place",
    "C71_exists",
    "C71_flush",
    "C71_missing_file_refuted",
    "C71_write_result_refuted",
    "C71_write_result_others_refuted",
    "C71_open_twice",
    "C71_read_write_refuted",
    "C71_gets_partial",
    "C71_long_gets_refuted",
    "C71_getc_refuted",
    "C71_short_number_refuted",
    "C71_read_bool_refuted",
    "C71_zero_byte_refuted",
    "C71_stale_size_refuted"
   ],
   "note": "The stdio extension and System.IO.File over streams with the rules of C11. Proved for every reachable state: handles are fresh and distinct (C71_handles), unknown handles are refused (C71_unknown_handle), calls on open handles of modes without + are defined (C71_open_is_safe_partial), files not opened for writing never change (C71_others_untouched), what is written is read back (C71_round_trip, C71_append, C71_text), reading and end of file (C71_read), Exists (C71_exists), fgets up to 1024 (C71_gets_partial). The rest is wrong in the code, one theorem each: a closed handle is undefined behaviour (C71_closed_handle_refuted), and so is opening a missing file (C71_missing_file_refuted) and reading a truth value from another byte (C71_read_bool_refuted); write answers the opposite (C71_write_result_refuted); ReadWrite cannot write (C71_read_write_refuted); long fgets loses lines (C71_long_gets_refuted); fgetc answers a number (C71_getc_refuted); a number at the end of the file is made up (C71_short_number_refuted); a zero byte cuts the text (C71_zero_byte_refuted); getSize is not updated (C71_stale_size_refuted). Also: C71_flush, C71_open_twice (an open object refuses to open another file), C71_write_result_others_refuted (bool and text answer the wrong way round too)."
  },
  {
   "property": "C72",
   "status": "partial",
   "theorems": [
    "C72_round_trip",
    "C72_open_partial",
    "C72_last_line_refuted",
    "C72_titles_refuted",
    "C72_several",
    "C72_file_name_refuted",
    "C72_missing_file_refuted",
    "C72_get_idx",
    "C72_row_text_partial",
    "C72_row_text_refuted"
   ],
   "note": "The program CSVReader.os over the models of File and the string iterator. Proved: a table of plain fields round trips through the file system, with at, size and the exception outside (C72_round_trip), what every file with complete lines is read as (C72_open_partial), several files (C72_several), getIdx (C72_get_idx), the text of a row whose first field counts as true (C72_row_text_partial). Wrong in the code: the last line without a line break is lost (C72_last_line_refuted), column titles drop all rows (C72_titles_refuted), a file called false is not opened (C72_file_name_refuted), a missing file is undefined behaviour (C72_missing_file_refuted), the text of a row with an empty or false first field (C72_row_text_refuted)."
  },
  {
   "property": "C73",
   "status": "partial",
   "theorems": [
    "C73_service",
    "C73_not_found",
    "C73_no_path",
    "C73_server_unchanged",
    "C73_history",
    "C73_no_process",
    "C73_independent",
    "C73_unanswered_refuted",
    "C73_unseen_refuted",
    "C73_foreign_refuted",
    "C73_empty_name_refuted",
    "C73_arguments",
    "C73_missing_value",
    "C73_no_start"
   ],
   "note": "The loop of the server, the choice of the service and the variables handed over, for every program of the services (a parameter of the model). Proved: the right entry point runs with exactly the variables the specification lists (C73_service), not found (C73_not_found), isolation (C73_server_unchanged, C73_history, C73_independent), failing fork (C73_no_process), the command line (C73_arguments, C73_no_start). The code is wrong for requests without a query, method or address (C73_unanswered_refuted), variables that are not handed over such as CONTENT_LENGTH (C73_unseen_refuted), variables of the server seen as those of requests (C73_foreign_refuted), services with an empty name (C73_empty_name_refuted)."
  },
  {
   "property": "C74",
   "status": "partial",
   "theorems": [
    "C74_read_back",
    "C74_round_trip_partial",
    "C74_every_document",
    "C74_nested",
    "C74_no_reset_refuted",
    "C74_quote_refuted",
    "C74_number_refuted",
    "C74_array_refuted"
   ],
   "note": "The three builders, with the reader of C63. Proved for all documents whose texts are escaped: read back with numbers as strings (C74_read_back), unchanged without numbers, quotes and backslashes (C74_round_trip_partial), every document has its calls (C74_every_document), documents in documents (C74_nested). The code is wrong for numbers (C74_number_refuted, the reader), texts with quotes (C74_quote_refuted), a second document of the functions of the namespace (C74_no_reset_refuted) and arrays as documents (C74_array_refuted). Not modelled: float and double values."
  },
  {
   "property": "C75",
   "status": "partial",
   "theorems": [
    "C75_strcmp",
    "C75_seen_exists",
    "C75_strcmp_order",
    "C75_strcmp_equal_refuted",
    "C75_strncmp",
    "C75_strncmp_negative",
    "C75_spans",
    "C75_strchr",
    "C75_strpbrk",
    "C75_strstr",
    "C75_not_found_refuted",
    "C75_strncat",
    "C75_strncat_refuted",
    "C75_strpos",
    "C75_case",
    "C75_case_twice",
    "C75_ascii",
    "C75_abs",
    "C75_abs_refuted",
    "C75_strcat"
   ],
   "note": "All functions are characterised for every text. Refuted: strncat leaves out the first n characters instead of the others; strchr, strrchr, strpbrk and strstr are undefined behaviour when nothing is found; texts that differ behind a zero byte compare as equal; abs of the smallest int is negative or undefined. strcoll (locale) is not modelled."
  },
  {
   "property": "C76",
   "status": "partial",
   "theorems": [
    "C76_key_length",
    "C76_key_free",
    "C76_negative_length",
    "C76_child",
    "C76_path",
    "C76_messages_partial",
    "C76_lines_refuted",
    "C76_append_refuted"
   ],
   "note": "Keys and messages of libLog over the files of C71. Proved: C76_key_length, C76_key_free, C76_negative_length, C76_child, C76_path; C76_messages_partial (content of the file for every history of messages, which messages raise). The code is wrong for the rest: messages to a file are not on lines of their own (C76_lines_refuted) and the logger that appends empties the file (C76_append_refuted). Not modelled: messages to the standard output (one print statement each)."
  },
  {
   "property": "C77",
   "status": "partial",
   "theorems": [
    "C77_text",
    "C77_reset_reads_again",
    "C77_missing_file_refuted",
    "C77_grown_file_refuted"
   ],
   "note": "C77_text is the property for files shorter than 2^31 bytes that do not change; C77_reset_reads_again: a reset shows the new content of a changed file, up to the old size. The code is wrong for the rest: a missing file is undefined behaviour (C77_missing_file_refuted), and a reset reads only as many characters as the file had at the beginning (C77_grown_file_refuted)."
  },
  {
   "property": "C78",
   "status": "partial",
   "theorems": [
    "C78_power_partial",
    "C78_squares",
    "C78_zero_refuted",
    "C78_overflow_refuted"
   ],
   "note": "C78_power_partial (exponents from 1 on), C78_squares. The code is wrong for the rest: the exponent 0 gives the number itself (C78_zero_refuted), and results that do not fit are undefined behaviour (C78_overflow_refuted). Not modelled: the versions for float and double."
  },
  {
   "property": "C79",
   "status": "partial",
   "theorems": [
    "C79_sequence",
    "C79_fallback",
    "C79_unfinished",
    "C79_reactive_sequence",
    "C79_reactive_fallback",
    "C79_inverter",
    "C79_formula",
    "C79_forced_child_refuted",
    "C79_star_refuted",
    "C79_interrupted_refuted"
   ],
   "note": "C79_sequence, C79_fallback, C79_unfinished, C79_reactive_sequence, C79_reactive_fallback, C79_inverter, C79_formula hold for all trees and leaves. The code is wrong for the rest: forcing decorators do not run their child (C79_forced_child_refuted), SequenceStar always throws (C79_star_refuted), an interrupted child is not reset (C79_interrupted_refuted). Not modelled: RepeaterDecorator."
  },
  {
   "property": "C80",
   "status": "partial",
   "theorems": [
    "C80_first",
    "C80_checked",
    "C80_compare",
    "C80_with_text",
    "C80_longer_text_refuted"
   ],
   "note": "C80_first, C80_checked, C80_compare, C80_with_text. The code is wrong for one part: a Character equals longer texts that start with it (C80_longer_text_refuted)."
  },
  {
   "property": "C81",
   "status": "partial",
   "theorems": [
    "C81_key_partial",
    "C81_key_free",
    "C81_short_key_refuted"
   ],
   "note": "C81_key_partial (names that are at least as long as the length), C81_key_free. The code is wrong for the rest: shorter names throw (C81_short_key_refuted)."
  },
  {
   "property": "C82",
   "status": "partial",
   "theorems": [
    "C82_tokens_partial",
    "C82_number_at_end_refuted",
    "C82_q_refuted",
    "C82_open_text"
   ],
   "note": "C82_tokens_partial (all queries whose names are without q and that do not end with a number), C82_open_text. The code is wrong for the rest: a number at the end throws (C82_number_at_end_refuted), and so do names with q (C82_q_refuted)."
  },
  {
   "property": "C83",
   "status": "partial",
   "theorems": [
    "C83_set",
    "C83_rules",
    "C83_sane_refuted",
    "C83_box_refuted"
   ],
   "note": "C83_set, C83_rules for boards whose boxes are as wide and high as they are many. The code is wrong for the rest: isSane is false for every board (C83_sane_refuted), and for other boxes not the whole box is looked at (C83_box_refuted). Not modelled: the search."
  }
 ]
}