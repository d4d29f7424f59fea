{
 "claims": [
  {
   "property": "C01",
   "status": "proved",
   "theorems": [
    "C01_solve_keeps_bindings"
   ],
   "note": ""
  },
  {
   "property": "C02",
   "status": "proved",
   "theorems": [
    "C02_solutions_bind_only_query_variables"
   ],
   "note": ""
  },
  {
   "property": "C03",
   "status": "proved",
   "theorems": [
    "C03_conjunction_is_chaining",
    "C03_effects_in_order"
   ],
   "note": "for atoms that only read (the hypothesis says so); effects of writing atoms are sequenced by the same loop"
  },
  {
   "property": "C04",
   "status": "proved",
   "theorems": [
    "C04_no_duplicate_solutions",
    "C04_single_atom_duplicates_refuted"
   ],
   "note": "the deviation for single atoms is proved by witness (C04_single_atom_duplicates_refuted)"
  },
  {
   "property": "C05",
   "status": "proved",
   "theorems": [
    "C05_single_atom_is_unification"
   ],
   "note": ""
  },
  {
   "property": "C06",
   "status": "proved",
   "theorems": [
    "C06_query_functions_receive_the_bound_values"
   ],
   "note": ""
  },
  {
   "property": "C07",
   "status": "proved",
   "theorems": [
    "C07_union_of_the_modules_in_order",
    "C07_undefined_predicate_raises"
   ],
   "note": ""
  },
  {
   "property": "C08",
   "status": "proved",
   "theorems": [
    "C08_same_text_same_row",
    "C08_text_of_a_string",
    "C08_variables_collide_refuted"
   ],
   "note": "C08_variables_collide_refuted is the stated deviation"
  },
  {
   "property": "C09",
   "status": "proved",
   "theorems": [
    "C09_first_alternative_with_solutions"
   ],
   "note": ""
  },
  {
   "property": "C10",
   "status": "proved",
   "theorems": [
    "C10_table_queries_exact"
   ],
   "note": ""
  },
  {
   "property": "C11",
   "status": "proved",
   "theorems": [
    "C11_atom_order_does_not_matter"
   ],
   "note": ""
  },
  {
   "property": "C12",
   "status": "proved",
   "theorems": [
    "C12_not_a_list_raises",
    "C12_unknown_predicate_raises",
    "C12_wrong_first_row_raises",
    "C12_second_row_unchecked_refuted"
   ],
   "note": "C12_second_row_unchecked_refuted is the stated deviation"
  },
  {
   "property": "C13",
   "status": "proved",
   "theorems": [
    "C13_inference_is_sound"
   ],
   "note": ""
  },
  {
   "property": "C14",
   "status": "proved",
   "theorems": [
    "C14_inference_is_complete"
   ],
   "note": ""
  },
  {
   "property": "C15",
   "status": "proved",
   "theorems": [
    "C15_unbound_head_variable_no_solution",
    "C15_completeness_refuted",
    "C15_one_unbound_solution_drops_all_refuted",
    "C15_one_unbound_solution_drops_all"
   ],
   "note": "C15_completeness_refuted and C15_one_unbound_solution_drops_all_refuted are the stated deviations"
  },
  {
   "property": "C16",
   "status": "proved",
   "theorems": [
    "C16_all_is_universal"
   ],
   "note": ""
  },
  {
   "property": "C17",
   "status": "proved",
   "theorems": [
    "C17_not_none_scoped"
   ],
   "note": ""
  },
  {
   "property": "C18",
   "status": "proved",
   "theorems": [
    "C18_count",
    "C18_determiners"
   ],
   "note": ""
  },
  {
   "property": "C19",
   "status": "proved",
   "theorems": [
    "C19_sum",
    "C19_sum_of_integers",
    "C19_avg",
    "C19_percentage"
   ],
   "note": ""
  },
  {
   "property": "C20",
   "status": "proved",
   "theorems": [
    "C20_first_optimum"
   ],
   "note": ""
  },
  {
   "property": "C21",
   "status": "proved",
   "theorems": [
    "C21_find_all",
    "C21_find_one"
   ],
   "note": ""
  },
  {
   "property": "C22",
   "status": "proved",
   "theorems": [
    "C22_equals_decides",
    "C22_equals_binds",
    "C22_equals_symmetric",
    "C22_equals_unbound_raises",
    "C22_order_of_values",
    "C22_order_of_numbers",
    "C22_order_unbound_raises"
   ],
   "note": ""
  },
  {
   "property": "C23",
   "status": "proved",
   "theorems": [
    "C23_bound_result_not_checked",
    "C23_bound_let_not_checked",
    "C23_bound_multiply_not_checked",
    "C23_constant_result_is_checked",
    "C23_multiply_computes",
    "C23_multiply_computes_products",
    "C23_substitution_refuted"
   ],
   "note": ""
  },
  {
   "property": "C24",
   "status": "proved",
   "theorems": [
    "C24_store_writes_the_bound_atoms",
    "C24_store_no_rollback"
   ],
   "note": ""
  },
  {
   "property": "C25",
   "status": "proved",
   "theorems": [
    "C25_destructure_recovers_terms",
    "C25_destructure_mismatch_succeeds"
   ],
   "note": ""
  },
  {
   "property": "C26",
   "status": "proved",
   "theorems": [
    "C26_read_only_queries",
    "C26_read_only_modules"
   ],
   "note": ""
  },
  {
   "property": "C27",
   "status": "proved",
   "theorems": [
    "C27_limit_irrelevant",
    "C27_limit_irrelevant_for_rules"
   ],
   "note": ""
  },
  {
   "property": "C29",
   "status": "proved",
   "theorems": [
    "C29_hierarchical_rules_terminate_exactly",
    "C29_left_recursive_rule_never_answers"
   ],
   "note": ""
  },
  {
   "property": "C28",
   "status": "proved",
   "theorems": [
    "C28_yields_announced_number",
    "C28_negative_numbers_have_no_length",
    "C28_counted_when_alone",
    "C28_not_combined"
   ],
   "note": ""
  },
  {
   "property": "C30",
   "status": "proved",
   "theorems": [
    "C30_simple_data_source_is_a_list_of_records",
    "C30_select_column",
    "C30_other_tables_unaffected",
    "C30_none_value_breaks_select_refuted"
   ],
   "note": "C30_none_value_breaks_select_refuted is the stated deviation, for all histories"
  },
  {
   "property": "C31",
   "status": "proved",
   "theorems": [
    "C31_select_text_and_parameters",
    "C31_values_never_enter_the_text",
    "C31_plain_names",
    "C31_placeholders_match_parameters",
    "C31_placeholders_of_writes"
   ],
   "note": ""
  },
  {
   "property": "C32",
   "status": "proved",
   "theorems": [
    "C32_sqlite_is_a_list_of_records",
    "C32_delete_with_none_removes_nothing",
    "C32_conflicting_insert_is_silently_ignored",
    "C32_constraints_decide_on_inserts",
    "C32_unknown_column_raises"
   ],
   "note": "over the SQL subset engine in Sql.v (lexer, parser, evaluator); its simplifications are listed in DESIGN.md"
  },
  {
   "property": "C33",
   "status": "proved",
   "theorems": [
    "C33_answered_once_then_cached",
    "C33_refusals_are_reported",
    "C33_not_yet_answered_asks",
    "C33_transparent_for_a_steady_endpoint",
    "C33_different_queries_different_files"
   ],
   "note": "hypothesis own_file: no hash collision on the query and no half-written file for it"
  },
  {
   "property": "C34",
   "status": "proved",
   "theorems": [
    "C34_interrupted_write_poisons_the_query",
    "C34_crash_before_open_is_harmless",
    "C34_other_queries_unaffected"
   ],
   "note": ""
  },
  {
   "property": "C35",
   "status": "proved",
   "theorems": [
    "C35_rows_keep_bound_and_fill_free_positions",
    "C35_missing_variables_raise",
    "C35_query_selects_the_free_positions"
   ],
   "note": ""
  },
  {
   "property": "C36",
   "status": "proved",
   "theorems": [
    "C36_membership",
    "C36_iteration_order",
    "C36_no_duplicates",
    "C36_positions"
   ],
   "note": ""
  },
  {
   "property": "C37",
   "status": "proved",
   "theorems": [
    "C37_one_insert_per_row",
    "C37_imported_records",
    "C37_short_row_aborts_sqlite_import_refuted"
   ],
   "note": "C37_short_row_aborts_sqlite_import_refuted is the stated deviation"
  },
  {
   "property": "C39",
   "status": "proved",
   "theorems": [
    "C39_plain_text_arrives",
    "C39_quote_ends_the_literal_refuted"
   ],
   "note": "C39_quote_ends_the_literal_refuted is the stated deviation, for all texts with a quote"
  },
  {
   "property": "C42",
   "status": "proved",
   "theorems": [
    "C42_writes_are_lost_without_commit",
    "C42_commit_keeps_exactly_the_part_before_it"
   ],
   "note": ""
  },
  {
   "property": "C43",
   "status": "proved",
   "theorems": [
    "C43_shared_cache_mixes_sources_refuted",
    "C43_separate_directories_are_independent"
   ],
   "note": "C43_shared_cache_mixes_sources_refuted is the stated deviation"
  },
  {
   "property": "C40",
   "status": "proved",
   "theorems": [
    "C40_context_is_active_during_the_body",
    "C40_context_query",
    "C40_outer_context_is_removed_refuted",
    "C40_context_stays_after_an_exception_refuted"
   ],
   "note": "the two _refuted theorems are the stated deviations: an outer context with the same name is removed, and an exception in the body leaves the context active"
  },
  {
   "property": "C97",
   "status": "proved",
   "theorems": [
    "C97_contexts_last_until_they_are_ended",
    "C97_clear_removes_entity_types",
    "C97_types_last_until_they_are_cleared",
    "C97_relations_of_the_module"
   ],
   "note": ""
  },
  {
   "property": "C41",
   "status": "proved",
   "theorems": [
    "C41_output_is_consumed",
    "C41_buffer_is_kept_when_generation_raises"
   ],
   "note": "second theorem for grammars whose conditions and functions do not write to the buffer"
  },
  {
   "property": "C50",
   "status": "proved",
   "theorems": [
    "C50_find_one_commits_to_the_first_survivor",
    "C50_enter_returns_the_first_survivor",
    "C50_no_products_counts_as_success_refuted"
   ],
   "note": "C50_no_products_counts_as_success_refuted is the stated deviation"
  },
  {
   "property": "C51",
   "status": "proved",
   "theorems": [
    "C51_find_one_reports_the_last_error",
    "C51_find_one_stops_at_the_first_success",
    "C51_documented_first_error_refuted"
   ],
   "note": "C51_documented_first_error_refuted: the documentation says the first error is returned, the code returns the last"
  },
  {
   "property": "C52",
   "status": "proved",
   "theorems": [
    "C52_find_all_tries_everything",
    "C52_alternatives_are_all_products_in_order"
   ],
   "note": ""
  },
  {
   "property": "C53",
   "status": "proved",
   "theorems": [
    "C53_find_all_leaves_the_last_product",
    "C53_current_product_may_be_a_failed_one_refuted"
   ],
   "note": "C53_current_product_may_be_a_failed_one_refuted is the stated deviation"
  },
  {
   "property": "C54",
   "status": "proved",
   "theorems": [
    "C54_try_first_tries_only_the_first",
    "C54_other_products_make_no_difference"
   ],
   "note": ""
  },
  {
   "property": "C55",
   "status": "proved",
   "theorems": [
    "C55_known_errors_are_reported",
    "C55_other_errors_raise_after_storing_the_type_refuted"
   ],
   "note": "C55_other_errors_raise_after_storing_the_type_refuted is the stated deviation"
  },
  {
   "property": "C56",
   "status": "proved",
   "theorems": [
    "C56_processor_of_the_current_locale",
    "C56_first_locale_that_succeeds"
   ],
   "note": ""
  },
  {
   "property": "C57",
   "status": "proved",
   "theorems": [
    "C57_executor_never_rejects",
    "C57_first_interpretation_is_final"
   ],
   "note": ""
  },
  {
   "property": "C60",
   "status": "proved",
   "theorems": [
    "C60_whitespace_runs_become_one_space",
    "C60_only_single_spaces",
    "C60_normalising_twice_changes_nothing",
    "C60_other_characters_are_kept",
    "C60_whitespace_characters"
   ],
   "note": ""
  },
  {
   "property": "C61",
   "status": "proved",
   "theorems": [
    "C61_trees_are_derivations"
   ],
   "note": "hypotheses: rules without the reserved names gamma and delta and the reserved variable terminal; re.match returns a prefix; trees may follow any history of earlier parses"
  },
  {
   "property": "C62",
   "status": "proved",
   "theorems": [
    "C62_every_derivation_is_found"
   ],
   "note": "for grammars without empty rules and words; up to rules written in the same way (C70 proves these are really hidden)"
  },
  {
   "property": "C63",
   "status": "proved",
   "theorems": [
    "C63_the_chart_is_finite",
    "C63_no_error_without_empty_rules",
    "C63_empty_constituents_raise_refuted",
    "C63_patterns_must_compile_refuted"
   ],
   "note": "C63_empty_constituents_raise_refuted is the stated RuntimeError, C63_patterns_must_compile_refuted the stated re.error"
  },
  {
   "property": "C64",
   "status": "proved",
   "theorems": [
    "C64_parsing_ends_without_unit_cycles",
    "C64_unit_cycles_recurse_forever_refuted"
   ],
   "note": "C64_unit_cycles_recurse_forever_refuted is the stated deviation: no recursion depth suffices"
  },
  {
   "property": "C65",
   "status": "proved",
   "theorems": [
    "C65_earlier_parses_do_not_matter"
   ],
   "note": ""
  },
  {
   "property": "C66",
   "status": "proved",
   "theorems": [
    "C66_errors_classify_the_failure"
   ],
   "note": ""
  },
  {
   "property": "C67",
   "status": "proved",
   "theorems": [
    "C67_trees_are_ordered",
    "C67_ties_keep_their_order",
    "C67_products_are_ordered"
   ],
   "note": ""
  },
  {
   "property": "C68",
   "status": "proved",
   "theorems": [
    "C68_letters_with_a_lower_case",
    "C68_lower_case_words_match_any_case",
    "C68_upper_case_words_never_match",
    "C68_no_tree_with_a_capital"
   ],
   "note": ""
  },
  {
   "property": "C69",
   "status": "proved",
   "theorems": [
    "C69_regexp_leaves_are_prefixes",
    "C69_a_leaf_need_not_match_refuted"
   ],
   "note": "C69_a_leaf_need_not_match_refuted is the stated deviation"
  },
  {
   "property": "C70",
   "status": "proved",
   "theorems": [
    "C70_the_first_of_identical_rules_is_used",
    "C70_what_tells_rules_apart"
   ],
   "note": ""
  },
  {
   "property": "C71",
   "status": "proved",
   "theorems": [
    "C71_variants"
   ],
   "note": ""
  },
  {
   "property": "C72",
   "status": "proved",
   "theorems": [
    "C72_the_index_finds_the_added_rules",
    "C72_in_order_of_addition"
   ],
   "note": ""
  },
  {
   "property": "C73",
   "status": "proved",
   "theorems": [
    "C73_rules_round_trip",
    "C73_backslash_at_the_end_refuted"
   ],
   "note": "C73_backslash_at_the_end_refuted is the stated exception"
  },
  {
   "property": "C74",
   "status": "proved",
   "theorems": [
    "C74_unknown_characters_are_skipped",
    "C74_rules_with_unknown_characters"
   ],
   "note": "over all texts that consist of the same tokens with other characters between them"
  },
  {
   "property": "C75",
   "status": "proved",
   "theorems": [
    "C75_learn_grammar_rule_raises"
   ],
   "note": "the model counts the arguments of the call as Python does"
  },
  {
   "property": "C76",
   "status": "proved",
   "theorems": [
    "C76_rule_files_are_read",
    "C76_rules_round_trip"
   ],
   "note": "the layout theorem covers fractions; the printer has none (not every rational is a decimal fraction). The fuel bound is 7 * length + 6"
  },
  {
   "property": "C77",
   "status": "proved",
   "theorems": [
    "C77_no_zero_or_empty_arguments",
    "C77_zeros_are_rejected",
    "C77_empty_texts_and_signs_are_dropped_refuted"
   ],
   "note": "the refuted theorem shows the empty text and the minus sign that are dropped"
  },
  {
   "property": "C78",
   "status": "proved",
   "theorems": [
    "C78_comments_and_layout_do_not_matter",
    "C78_comment_lines_can_be_inserted",
    "C78_comment_at_the_end_refuted"
   ],
   "note": "the refuted theorem shows the comment without a newline"
  },
  {
   "property": "C80",
   "status": "proved",
   "theorems": [
    "C80_variables_are_shared_or_fresh",
    "C80_only_sentence_variables",
    "C80_sentences_do_not_share_variables"
   ],
   "note": "holds with any query optimizer for what is passed to it; the rules' functions are arbitrary but without side effects"
  },
  {
   "property": "C81",
   "status": "proved",
   "theorems": [
    "C81_nested_variables_keep_their_name",
    "C81_two_uses_share_a_variable_refuted"
   ],
   "note": "C81_two_uses_share_a_variable_refuted is the consequence for a sentence"
  },
  {
   "property": "C82",
   "status": "proved",
   "theorems": [
    "C82_exactly_the_bound_variables",
    "C82_variables_of_a_term",
    "C82_variables_of_atoms"
   ],
   "note": "variables inside templates are not terms of atoms: bind_variables and get_atom_variables leave them alone"
  },
  {
   "property": "C83",
   "status": "proved",
   "theorems": [
    "C83_values_are_spliced_in",
    "C83_too_many_values",
    "C83_only_lists_are_spliced",
    "C83_tokens_in_values_refuted"
   ],
   "note": "C83_tokens_in_values_refuted is the stated proviso"
  },
  {
   "property": "C84",
   "status": "proved",
   "theorems": [
    "C84_resolvers_come_first",
    "C84_sorting_permutes",
    "C84_isolation_keeps_atoms",
    "C84_isolated_groups",
    "C84_equal_atoms_are_multiplied_refuted"
   ],
   "note": "C84_equal_atoms_are_multiplied_refuted is the stated deviation"
  },
  {
   "property": "C85",
   "status": "proved",
   "theorems": [
    "C85_first_order_queries_keep_their_answers",
    "C85_optimized_first_order_queries_are_answered",
    "C85_negation_gets_values_refuted",
    "C85_count_is_overwritten_refuted",
    "C85_disjunction_is_put_first_refuted",
    "C85_optimizer_preserves_answers",
    "C85_isolation_preserves_answers"
   ],
   "note": "same_answer: equal values on the root variables and the variables bound before; atoms whose arguments are variables or constants; for isolation alone list arguments are allowed too. For first-order queries `tidies` states the conditions (1)-(3) on the query alone; good_sizes says that known sizes are below the limit and that the library predicates have none. The three _refuted theorems show that each condition is needed"
  },
  {
   "property": "C86",
   "status": "proved",
   "theorems": [
    "C86_isolation_adds_answers_refuted"
   ],
   "note": "witness by computation"
  },
  {
   "property": "C87",
   "status": "proved",
   "theorems": [
    "C87_cheapest_first",
    "C87_ties_keep_their_order_refuted",
    "C87_resolver_is_moved_back_refuted"
   ],
   "note": "the two refuted theorems are the stated deviations; costs are exact rationals"
  },
  {
   "property": "C90",
   "status": "proved",
   "theorems": [
    "C90_first_matching_unused_rule",
    "C90_no_matching_rule",
    "C90_the_output_is_what_the_rules_write"
   ],
   "note": "C90_the_output_is_what_the_rules_write: for every derivation of a text by the big-step relation of WriterSpec.v"
  },
  {
   "property": "C91",
   "status": "proved",
   "theorems": [
    "C91_used_rule_with_the_binding_of_another_rule_refuted",
    "C91_used_rule_is_used_again"
   ],
   "note": "the property is a defect; the _refuted theorem proves it for every such grammar"
  },
  {
   "property": "C92",
   "status": "proved",
   "theorems": [
    "C92_left_recursion_does_not_end_refuted"
   ],
   "note": "the property is a defect, proved for every such grammar"
  },
  {
   "property": "C93",
   "status": "proved",
   "theorems": [
    "C93_read_grammars_ignore_other_keys",
    "C93_write_grammars_ignore_other_keys",
    "C93_grammars_are_loaded"
   ],
   "note": ""
  },
  {
   "property": "C94",
   "status": "proved",
   "theorems": [
    "C94_parsing_terminates",
    "C94_only_unfinished_texts_raise"
   ],
   "note": "the fuel bounds the nesting depth of calls"
  },
  {
   "property": "C95",
   "status": "proved",
   "theorems": [
    "C95_import_adds_all_rules",
    "C95_import_of_a_bad_text_adds_nothing"
   ],
   "note": "the file system is not modelled: the text is the content of the file"
  },
  {
   "property": "C96",
   "status": "proved",
   "theorems": [
    "C96_parse_trees_are_composed",
    "C96_texts_mean_what_the_rules_say"
   ],
   "note": "uses C61 for the trees that the parser returns"
  },
  {
   "property": "C98",
   "status": "proved",
   "theorems": [
    "C98_the_first_tree_is_final",
    "C98_no_tree_no_effect_but_output",
    "C98_conjunctive_questions_are_answered_exactly",
    "C98_first_order_questions_are_answered_exactly",
    "C98_optimized_first_order_questions_are_answered_exactly"
   ],
   "note": "the parser block must not be FindAll (the dialog systems of the library use FindOne or TryFirst); limits (fuel) large enough exist for each text and database"
  },
  {
   "property": "C99",
   "status": "proved",
   "theorems": [
    "C99_what_is_read",
    "C99_unknown_words_are_reported",
    "C99_other_failures_raise_refuted",
    "C99_an_unread_report_hides_later_ones_refuted"
   ],
   "note": "the two refuted theorems are the stated deviations; the end-to-end theorems assume an empty buffer at the start"
  },
  {
   "property": "C44",
   "status": "proved",
   "theorems": [
    "C44_first_order_queries_exact",
    "C44_evaluation_ends",
    "C44_rules_define_their_predicates",
    "C44_sorted_programs_are_answered",
    "C44_count_in_the_head_refuted",
    "C44_negation_before_binding_refuted",
    "C44_incomparable_values_refuted"
   ],
   "note": "the three refuted theorems are the stated deviations; C44_evaluation_ends and C44_sorted_programs_are_answered give the limits (fuel) from which on the solver returns; C44_first_order_queries_exact also covers recursive rules, for every completed interpretation"
  },
  {
   "property": "C79",
   "status": "proved",
   "theorems": [
    "C79_matching_finds_the_described_texts",
    "C79_the_first_match_is_chosen",
    "C79_patterns_are_read_as_written",
    "C79_grammar_tokens",
    "C79_rule_tokens",
    "C79_token_classes",
    "C79_classes_of_rule_tokens",
    "C79_final_newline_refuted",
    "C79_white_space",
    "C79_white_space_characters",
    "C79_quoted_text_ends",
    "C79_final_backslash_refuted",
    "C79_word_characters",
    "C79_quantifiers_follow_something",
    "C79_patterns_in_grammar_rules"
   ],
   "note": "the two refuted theorems are the stated deviations; the patterns are compiled from the source strings by a modelled pattern compiler (syntax subset: literals, escapes, classes, groups, |, greedy and lazy ? * +, ., $, ^ at the start); counted and possessive repetition, lookaround, word boundaries, back references, flags are outside of it and refused by the model although Python reads them"
  },
  {
   "property": "C88",
   "status": "proved",
   "theorems": [
    "C88_english_questions_are_answered_exactly",
    "C88_numbers_count_combinations_refuted",
    "C88_optimized_english_questions_are_answered_exactly"
   ],
   "note": "C88_optimized_english_questions_are_answered_exactly needs that the sizes fit the tables and that no word stands for resolve_name; C88_numbers_count_combinations_refuted is the stated deviation; the grammar is a transcription of rules of the repository into one fragment (FragmentModel.v says what is simplified), C88_rules_as_written checks the syntax of its rules against the modelled rule parser"
  },
  {
   "property": "C45",
   "status": "proved",
   "theorems": [
    "C45_learning_adds_the_rule",
    "C45_refused_rules_change_nothing",
    "C45_predicates_are_words",
    "C45_learned_rules_hold",
    "C45_queries_after_learning_are_answered",
    "C45_learning_can_be_replaced_refuted"
   ],
   "note": "C45_learning_can_be_replaced_refuted is the stated deviation; uses C44 for what later queries answer"
  },
  {
   "property": "C38",
   "status": "proved",
   "theorems": [
    "C38_answers_depend_on_what_is_mentioned",
    "C38_queries_in_larger_models",
    "C38_core_predicates_are_not_protected_refuted"
   ],
   "note": "C38_core_predicates_are_not_protected_refuted is the stated deviation; stated for runs that return (C38_queries_in_larger_models gives the limit from which on they do)"
  },
  {
   "property": "C46",
   "status": "proved",
   "theorems": [
    "C46_a_conversation_is_answered_right",
    "C46_how_many_counts_combinations_refuted"
   ],
   "note": "C46_how_many_counts_combinations_refuted is the stated deviation; with the optimizer the sizes fit the tables, the library and the intents have none and no word stands for resolve_name; a text with several readings is answered for one of them (the first tree); the function that formats tables is a parameter (no sentence of the fragment uses it); C46_intents_as_written checks the intent rules against the text of intents.pl with the modelled parser, C46_sentences_as_written and C46_replies_as_written the syntax of the grammars"
  },
  {
   "property": "C48",
   "status": "proved",
   "theorems": [
    "C48_logging_only_adds_to_the_log",
    "C48_nothing_is_logged_for_other_tests",
    "C48_logging_reads_iterators_refuted",
    "C48_answers_as_logged",
    "C48_entries_on_the_screen",
    "C48_steps_that_change_are_logged",
    "C48_text_of_the_log",
    "C48_stripped",
    "C48_the_latest_settings_count"
   ],
   "note": "C48_logging_reads_iterators_refuted is the stated deviation (proved for every system whose answer is an iterator); the proof is a relational (parametricity) theorem about pipelines, LoggerProofs.v; solver statistics in the log are not modelled"
  },
  {
   "property": "C47",
   "status": "proved",
   "theorems": [
    "C47_tests_pass_when_the_replies_are_as_expected",
    "C47_a_run_stops_at_the_first_wrong_reply",
    "C47_the_log_of_a_run",
    "C47_dialogs_in_english_expect_what_is_true",
    "C47_only_the_last_test_is_logged_refuted",
    "C47_the_failing_question_is_printed_refuted"
   ],
   "note": "C47_only_the_last_test_is_logged_refuted and C47_the_failing_question_is_printed_refuted are the stated deviations, the last part of C47_dialogs_in_english_expect_what_is_true the third; the clock and the width of the terminal are parameters, the profiler is not modelled"
  },
  {
   "property": "C58",
   "status": "proved",
   "theorems": [
    "C58_servers_select_as_sqlite",
    "C58_data_sources_are_interchangeable",
    "C58_differences_refuted"
   ],
   "note": "C58_differences_refuted has the three stated deviations; the drivers and servers are not part of the repository: the driver is modelled by what PEP 249 says about the format style, the server by the engine of Sql.v"
  },
  {
   "property": "C89",
   "status": "proved",
   "theorems": [
    "C89_optimizer_fails_only_on_sizes",
    "C89_fitting_sizes_are_enough",
    "C89_sizes_are_not_checked_refuted"
   ],
   "note": "C89_sizes_are_not_checked_refuted is the stated deviation; costs are exact rationals in the model, so overflow of Python floats is not covered"
  },
  {
   "property": "C49",
   "status": "proved",
   "theorems": [
    "C49_the_facts_of_the_graph_are_selected",
    "C49_texts_are_not_quoted_refuted"
   ],
   "note": "C49_texts_are_not_quoted_refuted is the stated deviation; the endpoint is not part of the repository: SparqlEngine.v has the lexical rules, grammar and answers of the part of SPARQL 1.1 that the texts of the data source use"
  },
  {
   "property": "C59",
   "status": "proved",
   "theorems": [
    "C59_dialogs_are_answered_right",
    "C59_without_circles_all_is_answered",
    "C59_circles_are_never_answered",
    "C59_every_question_is_answered_refuted",
    "C59_nouns_are_kept_as_they_are_refuted"
   ],
   "note": "C59_every_question_is_answered_refuted and C59_nouns_are_kept_as_they_are_refuted are the stated deviations; the part of the SIR grammar about set inclusion, in one grammar with its articles, nouns and plurals; the guarantee is for nouns that do not end in s; limits (fuel) large enough exist for each dialog, the limit of the solver is explicit"
  },
  {
   "property": "C100",
   "status": "proved",
   "theorems": [
    "C100_descending_calls_are_answered",
    "C100_endless_calls_never_answer",
    "C100_transitive_rules_answer_the_chains",
    "C100_circles_never_answer"
   ],
   "note": "the stated deviation is C100_circles_never_answer; Python ends such a question with a RecursionError"
  },
  {
   "property": "C101",
   "status": "proved",
   "theorems": [
    "C101_every_text_is_read_as_its_table",
    "C101_written_tables_are_read_back",
    "C101_round_trip",
    "C101_carriage_returns_are_lost_refuted",
    "C101_open_quote_swallows_the_rest_refuted",
    "C101_imported_text",
    "C101_written_records_are_stored"
   ],
   "note": "C101_carriage_returns_are_lost_refuted and C101_open_quote_swallows_the_rest_refuted are the stated deviations; the state machine of csv.reader was transcribed from CPython and compared with Python 3.11 on 3000 random texts; decoding of bytes is not modelled"
  },
  {
   "property": "C102",
   "status": "proved",
   "theorems": [
    "C102_lines_tell_the_tree",
    "C102_one_line_tells_the_tree",
    "C102_parsed_trees",
    "C102_spaces_on_one_line_refuted",
    "C102_quotes_refuted"
   ],
   "note": "C102_spaces_on_one_line_refuted and C102_quotes_refuted are the stated deviations; names of categories must have no line ends (and, on one line, no spaces and brackets)"
  },
  {
   "property": "C103",
   "status": "proved",
   "theorems": [
    "C103_answers_follow",
    "C103_told",
    "C103_told_of_a_new_thing",
    "C103_learned",
    "C103_what_a_lesson_adds",
    "C103_capitals_refuted",
    "C103_every_refuted",
    "C103_new_names_refuted",
    "C103_names_and_qualities_refuted",
    "C103_taught_then_asked",
    "C103_one_right_reply"
   ],
   "note": "C103_capitals_refuted, C103_every_refuted, C103_new_names_refuted and C103_names_and_qualities_refuted are stated deviations, C103_what_a_lesson_adds has the one about two facts; C103_taught_then_asked goes from the texts to the replies for the four forms of lessons and the four forms of questions; for the other sentences of the grammars (verbs, adjectives in lessons, some, every, no thing, relative clauses, names that end in oxide, chloride or sulfide) only the run of both dialogs of test.py shows which atoms they execute"
  },
  {
   "property": "C104",
   "status": "proved",
   "theorems": [
    "C104_each_question",
    "C104_dialogs_are_answered_right",
    "C104_with_labels_all_is_answered_right",
    "C104_the_case_of_a_name_refuted",
    "C104_all_places_refuted",
    "C104_left_reports_refuted"
   ],
   "note": "C104_the_case_of_a_name_refuted, C104_all_places_refuted and C104_left_reports_refuted are stated deviations; the data source is used without its cache of results; names are ASCII word characters"
  },
  {
   "property": "C105",
   "status": "proved",
   "theorems": [
    "C105_texts_read_as_rules",
    "C105_other_texts_are_refused"
   ],
   "note": "stated on the tokens of the text (C74 tells what is skipped between them); the message is modelled without the text of the rule"
  },
  {
   "property": "C106",
   "status": "proved",
   "theorems": [
    "C106_a_value_with_its_unit",
    "C106_tables",
    "C106_goodbye",
    "C106_lists",
    "C106_whole_numbers_with_units_refuted"
   ],
   "note": "for bodies whose answers the solver gives without changing the model; the deviations are C106_lists (second half) and C106_whole_numbers_with_units_refuted"
  },
  {
   "property": "C107",
   "status": "proved",
   "theorems": [
    "C107_rules_are_as_written",
    "C107_full_stops_and_brackets",
    "C107_other_texts_are_refused"
   ],
   "note": "one direction; the other is C76 for well-formed layouts. The notation is ambiguous: one list of atoms between brackets is also a disjunction with one alternative, and the parser decides by position (C76). A comma after the last argument is accepted; characters that belong to no token are passed over (C107_example)"
  },
  {
   "property": "C108",
   "status": "proved",
   "theorems": [
    "C108_statistics_change_no_answers",
    "C108_modules_ignore_statistics",
    "C108_each_try_is_counted_once"
   ],
   "note": "the exact counts are proved for modules that only have tables (C108_each_try_is_counted_once); for nested queries an example shows them; predicates that are not strings are not counted"
  }
 ]
}