{
 "claims": [
  {
   "property": "C01",
   "status": "proved",
   "theorems": [
    "C01_expression_denotes_formula"
   ],
   "note": "coefficients and values are rationals; rounding not modelled"
  },
  {
   "property": "C02",
   "status": "proved",
   "theorems": [
    "C02_bounds_enclose_and_attained"
   ],
   "note": ""
  },
  {
   "property": "C03",
   "status": "proved",
   "theorems": [
    "C03_incremental_value_after_any_history",
    "C03_table_evaluation_is_coefficient_evaluation",
    "C03_repeated_variable_refuted"
   ],
   "note": "the evaluation goes through the modelled hash table for every injective address map; the _refuted theorem shows the proviso is needed"
  },
  {
   "property": "C04",
   "status": "proved",
   "theorems": [
    "C04_solve_and_substitute",
    "C04_self_substitution_refuted"
   ],
   "note": ""
  },
  {
   "property": "C05",
   "status": "proved",
   "theorems": [
    "C05_comparison_builds_written_constraint"
   ],
   "note": ""
  },
  {
   "property": "C06",
   "status": "proved",
   "theorems": [
    "C06_constraint_history"
   ],
   "note": ""
  },
  {
   "property": "C07",
   "status": "proved",
   "theorems": [
    "C07_exactly_one_type",
    "C07_order_independent",
    "C07_key_equal_names_refuted"
   ],
   "note": "the key variable is order independent when the names are distinct; the _refuted theorem shows why the condition is needed"
  },
  {
   "property": "C08",
   "status": "proved",
   "theorems": [
    "C08_type_requires",
    "C08_integer_flag",
    "C08_sums_recognized",
    "C08_type_meaning",
    "C08_trinomial_refuted"
   ],
   "note": "the trinomial type has its meaning only when the constant term is zero"
  },
  {
   "property": "C09",
   "status": "proved",
   "theorems": [
    "C09_variable_history",
    "C09_fixed_value_protected",
    "C09_set_value_on_fixed_throws",
    "C09_set_bound",
    "C09_update_margin_refuted"
   ],
   "note": ""
  },
  {
   "property": "C10",
   "status": "proved",
   "theorems": [
    "C10_indices_are_bijective",
    "C10_distinct_indices_distinct_elements"
   ],
   "note": ""
  },
  {
   "property": "C11",
   "status": "proved",
   "theorems": [
    "C11_single_move_score",
    "C11_full_evaluation",
    "C11_margin_flag_truthful",
    "C11_reached_states_consistent",
    "C11_stale_binary_flag_refuted"
   ],
   "note": "margin truthfulness is proved for integral constraints; the _refuted theorem shows the 0/1 proviso is needed"
  },
  {
   "property": "C12",
   "status": "proved",
   "theorems": [
    "C12_multi_move_score",
    "C12_multi_within_tolerance",
    "C12_integral_models_have_no_tiny_change",
    "C12_related_list_ok",
    "C12_duplicate_names_refuted",
    "C12_improvable_hint_refuted"
   ],
   "note": ""
  },
  {
   "property": "C13",
   "status": "proved",
   "theorems": [
    "C13_selection_move_score"
   ],
   "note": ""
  },
  {
   "property": "C14",
   "status": "proved",
   "theorems": [
    "C14_model_update_history",
    "C14_fixed_variable_refuted"
   ],
   "note": ""
  },
  {
   "property": "C15",
   "status": "proved",
   "theorems": [
    "C15_feasible_iff_constraints_hold",
    "C15_score_flag_agrees",
    "C15_score_flag_refuted"
   ],
   "note": ""
  },
  {
   "property": "C16",
   "status": "proved",
   "theorems": [
    "C16_dual_bound",
    "C16_incumbents_hold_best_offers",
    "C16_status_reports_changes",
    "C16_never_worse"
   ],
   "note": "the dual bound is the controllers' guarded update"
  },
  {
   "property": "C17",
   "status": "proved",
   "theorems": [
    "C17_sorted_archive_keeps_best",
    "C17_unsorted_archive_keeps_latest",
    "C17_duplicate_kept_refuted"
   ],
   "note": ""
  },
  {
   "property": "C18",
   "status": "proved",
   "theorems": [
    "C18_hash_map_lookup"
   ],
   "note": "open addressing table, all maps, keys, addresses and key sizes; memory ownership (shallow copies) not modelled"
  },
  {
   "property": "C19",
   "status": "proved",
   "theorems": [
    "C19_union_find_history",
    "C19_root_canonical"
   ],
   "note": "recursion depth bounded by the number of calls"
  },
  {
   "property": "C20",
   "status": "proved",
   "theorems": [
    "C20_minimum_spanning_tree"
   ],
   "note": "any weighted multigraph with distinct node keys; nodes added implicitly by add_edge"
  },
  {
   "property": "C21",
   "status": "proved",
   "theorems": [
    "C21_queue_holds_last_n",
    "C21_queue_statistics",
    "C21_queue_capacity_zero_refuted"
   ],
   "note": "capacity 0 is undefined behaviour, shown by the _refuted theorem"
  },
  {
   "property": "C22",
   "status": "proved",
   "theorems": [
    "C22_bidirectional_map_inverse",
    "C22_forward_returns_last_insert",
    "C22_reinsertion_refuted"
   ],
   "note": "the _refuted theorem exhibits the documented exception"
  },
  {
   "property": "C23",
   "status": "proved",
   "theorems": [
    "C23_rank",
    "C23_inverse",
    "C23_full_rank_iff_invertible"
   ],
   "note": ""
  },
  {
   "property": "C24",
   "status": "proved",
   "theorems": [
    "C24_reachability_is_transitive_closure"
   ],
   "note": ""
  },
  {
   "property": "C25",
   "status": "proved",
   "theorems": [
    "C25_gf2_solution_satisfies_equations",
    "C25_negative_coefficient_refuted",
    "C25_shared_key_refuted"
   ],
   "note": "the _refuted theorems show the two exceptions of the statement"
  },
  {
   "property": "C26",
   "status": "proved",
   "theorems": [
    "C26_tightening_keeps_solutions",
    "C26_no_undefined_behaviour",
    "C26_fractional_refuted",
    "C26_unbounded_refuted",
    "C26_cancelled_refuted"
   ],
   "note": "the _refuted theorems show the exceptions of the statement"
  },
  {
   "property": "C27",
   "status": "proved",
   "theorems": [
    "C27_removed_is_always_satisfied",
    "C27_removed_is_implied",
    "C27_far_refuted",
    "C27_half_refuted"
   ],
   "note": "one-variable constraints: when the constraint has a solution within moderate bounds and fixed terms are integral; the _refuted theorems show the exceptions of the statement"
  },
  {
   "property": "C28",
   "status": "proved",
   "theorems": [
    "C28_duplicates_keep_solutions",
    "C28_no_duplicate_left",
    "C28_shielded_duplicate_refuted",
    "C28_knapsack_refuted"
   ],
   "note": "the _refuted theorems show the duplicates that stay"
  },
  {
   "property": "C29",
   "status": "proved",
   "theorems": [
    "C29_implicit_equalities_keep_solutions",
    "C29_pair_becomes_equality"
   ],
   "note": ""
  },
  {
   "property": "C30",
   "status": "proved",
   "theorems": [
    "C30_set_domination_keeps_solutions",
    "C30_exactly_one_lists",
    "C30_fixed_overruled_refuted",
    "C30_disabled_refuted"
   ],
   "note": "the _refuted theorems show the exceptions of the statement"
  },
  {
   "property": "C31",
   "status": "proved",
   "theorems": [
    "C31_independent_fixing_keeps_an_optimum",
    "C31_zero_outside_refuted"
   ],
   "note": "objective coefficients are either zero or at least 1e-10 in magnitude, the code's threshold"
  },
  {
   "property": "C32",
   "status": "proved",
   "theorems": [
    "C32_selections_disjoint",
    "C32_extraction_effect",
    "C32_related_constraints",
    "C32_greedy_maximal",
    "C32_independent_exact",
    "C32_solutions_kept"
   ],
   "note": ""
  },
  {
   "property": "C33",
   "status": "proved",
   "theorems": [
    "C33_verified_start",
    "C33_valid_start_accepted",
    "C33_throws_when_hopeless",
    "C33_throws_only_when_hopeless",
    "C33_imported_solution",
    "C33_selected_known_before_search",
    "C33_fixed_selected_refuted",
    "C33_binary_bounds_refuted"
   ],
   "note": "the _refuted theorems: a selected variable that is fixed is not recorded; a binary variable with bounds 1..1 passes at 0"
  },
  {
   "property": "C34",
   "status": "proved",
   "theorems": [
    "C34_two_flips",
    "C34_stored_moves",
    "C34_offered_moves_respect",
    "C34_setup_skips_fixed",
    "C34_integer_moves_change",
    "C34_unit_steps_offered",
    "C34_flips_offered",
    "C34_sources",
    "C34_zero_bounds_refuted"
   ],
   "note": "the _refuted theorem shows the exception of the statement; the chain generator is covered through the variables' binary condition in data_ok"
  },
  {
   "property": "C35",
   "status": "proved",
   "theorems": [
    "C35_exclusive_inverted_balanced",
    "C35_constant_sum",
    "C35_constant_difference",
    "C35_constant_ratio",
    "C35_aggregation",
    "C35_precedence",
    "C35_variable_bound",
    "C35_soft_selection",
    "C35_trinomial",
    "C35_moves_defined",
    "C35_sum_refuted",
    "C35_difference_refuted",
    "C35_ratio_refuted",
    "C35_trinomial_refuted"
   ],
   "note": "the _refuted theorems show the exceptions of the statement"
  },
  {
   "property": "C36",
   "status": "proved",
   "theorems": [
    "C36_offered_moves",
    "C36_moves_keep_exactly_one",
    "C36_fixed_selected_refuted"
   ],
   "note": "the _refuted theorem shows the condition is needed"
  },
  {
   "property": "C37",
   "status": "proved",
   "theorems": [
    "C37_step_adjustment",
    "C37_wide_range_refuted"
   ],
   "note": "Ranges below 2^30; the refuted theorem shows the overflow for wider ranges."
  },
  {
   "property": "C38",
   "status": "proved",
   "theorems": [
    "C38_exposed_moves",
    "C38_generators_sound",
    "C38_chain_flags"
   ],
   "note": ""
  },
  {
   "property": "C39",
   "status": "proved",
   "theorems": [
    "C39_optimal_without_moves",
    "C39_no_improving_move_lost",
    "C39_gap_minimization",
    "C39_screening_off_refuted",
    "C39_gap_maximization_refuted"
   ],
   "note": "The two named exceptions are the refuted theorems."
  },
  {
   "property": "C40",
   "status": "proved",
   "theorems": [
    "C40_no_repairing_move_lost",
    "C40_flagged_variables_help",
    "C40_intensive_refuted"
   ],
   "note": "Soft, aggressive and local; intensive refuted."
  },
  {
   "property": "C41",
   "status": "proved",
   "theorems": [
    "C41_naive_dual_bound"
   ],
   "note": ""
  },
  {
   "property": "C42",
   "status": "proved",
   "theorems": [
    "C42_counts",
    "C42_last_alteration",
    "C42_intensity",
    "C42_frequency_penalty",
    "C42_lagrangian_penalty",
    "C42_lagrangian_refuted"
   ],
   "note": "The refuted theorem is the exception in the statement."
  },
  {
   "property": "C43",
   "status": "proved",
   "theorems": [
    "C43_permissible",
    "C43_window",
    "C43_tenure",
    "C43_never_altered_refuted"
   ],
   "note": "The refuted theorem shows the stated exception."
  },
  {
   "property": "C44",
   "status": "proved",
   "theorems": [
    "C44_reads_model",
    "C44_truncated_rejected",
    "C44_undeclared_rejected",
    "C44_items",
    "C44_fixed",
    "C44_ranges_refuted",
    "C44_format_refuted"
   ],
   "note": "Text level: lines are split into items as by the reader; atof on decimal numerals is exact. Infinity, nan and hexadecimal numerals are outside the model."
  },
  {
   "property": "C45",
   "status": "proved",
   "theorems": [
    "C45_fix_from_file",
    "C45_unfix_from_file",
    "C45_initial_solution_from_file",
    "C45_pairs_from_file",
    "C45_fixed_then_initial_refuted",
    "C45_default_names_refuted"
   ],
   "note": "End to end from the text of the auxiliary file to the state of every variable. The refuted forms: fixing from a file and then reading an initial solution that omits the fixed variables throws; default names of arrays contain blanks and cannot be used in the files."
  },
  {
   "property": "C46",
   "status": "proved",
   "theorems": [
    "C46_argmin_is_first_minimum",
    "C46_argmax_is_first_maximum"
   ],
   "note": ""
  },
  {
   "property": "C47",
   "status": "proved",
   "theorems": [
    "C47_presolve_terminates",
    "C47_presolve_loop_exact",
    "C47_reduction_keeps_an_optimum"
   ],
   "note": ""
  },
  {
   "property": "C48",
   "status": "proved",
   "theorems": [
    "C48_objective_bounds_keep_better",
    "C48_max_dual_refuted"
   ],
   "note": "the _refuted theorem shows the exception of the statement"
  },
  {
   "property": "C49",
   "status": "proved",
   "theorems": [
    "C49_set_variables_keep_an_optimum",
    "C49_covering_refuted",
    "C49_fixed_overwritten_refuted"
   ],
   "note": "the _refuted theorems show the exceptions of the statement"
  },
  {
   "property": "C50",
   "status": "proved",
   "theorems": [
    "C50_chain_moves"
   ],
   "note": ""
  },
  {
   "property": "C51",
   "status": "proved",
   "theorems": [
    "C51_selected_move"
   ],
   "note": ""
  },
  {
   "property": "C52",
   "status": "proved",
   "theorems": [
    "C52_early_stop",
    "C52_scores_are_true",
    "C52_feasible_incumbent",
    "C52_termination"
   ],
   "note": ""
  },
  {
   "property": "C53",
   "status": "proved",
   "theorems": [
    "C53_scores_are_true",
    "C53_always_better",
    "C53_termination",
    "C53_unconstrained_refuted",
    "C53_local_optimum_refuted",
    "C53_selection_refuted"
   ],
   "note": "The stated (conditioned) form is proved for all histories; the three known exceptions are proved as _refuted theorems."
  },
  {
   "property": "C54",
   "status": "proved",
   "theorems": [
    "C54_round_trip",
    "C54_unwritable_refuted"
   ],
   "note": "Proved from the characters of the file: printing with six significant digits and reading with atof are modelled exactly on rationals."
  },
  {
   "property": "C55",
   "status": "proved",
   "theorems": [
    "C55_solution_file_round_trip",
    "C55_large_objective_refuted",
    "C55_same_proxy_name_refuted"
   ],
   "note": "The text of the objective value (%.10e) is a parameter. Refuted without the conditions: an objective beyond the int range makes reading undefined; arrays with the same name overwrite each other in the file."
  },
  {
   "property": "C56",
   "status": "proved",
   "theorems": [
    "C56_given_names_kept",
    "C56_default_names_unique",
    "C56_created_proxies_proper",
    "C56_spaces_refused",
    "C56_same_name_refuted"
   ],
   "note": "Nothing in the API rejects equal array names or names that look like an element's; the refuted theorem shows the clash."
  },
  {
   "property": "C57",
   "status": "proved",
   "theorems": [
    "C57_lower_bound",
    "C57_dual_bound",
    "C57_search",
    "C57_maximization_refuted",
    "C57_best_refuted"
   ],
   "note": "Lagrangian bound proved for minimization for all runs; the bound is invalid for maximization (refuted with a witness)."
  },
  {
   "property": "C58",
   "status": "proved",
   "theorems": [
    "C58_solve",
    "C58_no_exception",
    "C58_penalties",
    "C58_round_status",
    "C58_iterations",
    "C58_not_a_number_refuted"
   ],
   "note": "For every prepared model and every sequence of phases, rounds, moves and clock readings. The two ways not to return are in the statement; C58_not_a_number_refuted shows that the second is reachable. Online bounding, archives and the search tree are not in the model."
  },
  {
   "property": "C59",
   "status": "proved",
   "theorems": [
    "C59_penalties",
    "C59_relaxation",
    "C59_tightening",
    "C59_restart",
    "C59_restart_simple",
    "C59_parameters",
    "C59_counters",
    "C59_defined",
    "C59_not_a_number_refuted"
   ],
   "note": "The exception (0/0 in the tightening) is characterized by C59_defined and shown to occur by C59_not_a_number_refuted."
  },
  {
   "property": "C60",
   "status": "proved",
   "theorems": [
    "C60_optimum_kept",
    "C60_maximization_refuted",
    "C60_maximization_throws_refuted"
   ],
   "note": "Minimization; the two refuted theorems give the exceptions for maximization."
  },
  {
   "property": "C61",
   "status": "proved",
   "theorems": [
    "C61_built",
    "C61_norms",
    "C61_product",
    "C61_transpose",
    "C61_adjoint",
    "C61_scaling",
    "C61_normalised",
    "C61_diagonal",
    "C61_unsorted_refuted",
    "C61_reuse_refuted",
    "C61_no_rows_refuted"
   ],
   "note": "Over exact numbers; the three refuted theorems are the exceptions in the statement."
  },
  {
   "property": "C62",
   "status": "proved",
   "theorems": [
    "C62_dual_bound",
    "C62_relaxation",
    "C62_constant_refuted",
    "C62_no_constraint_refuted"
   ],
   "note": "Over exact numbers, with restart decisions and weights as arbitrary inputs; the refuted theorems are the exceptions in the statement."
  },
  {
   "property": "C63",
   "status": "proved",
   "theorems": [
    "C63_run",
    "C63_reduced_costs",
    "C63_ends",
    "C63_optimal",
    "C63_infeasible",
    "C63_infeasible_refuted"
   ],
   "note": "Over exact numbers, with restart decisions and weights as arbitrary inputs; the refuted theorem is the exception in the statement."
  },
  {
   "property": "C64",
   "status": "proved",
   "theorems": [
    "C64_extraction_succeeds",
    "C64_chosen",
    "C64_three_passes",
    "C64_round_keeps_solutions",
    "C64_pairs_acyclic",
    "C64_definition_exact",
    "C64_loop_ends",
    "C64_loop_leaves_clean",
    "C64_ring_refuted",
    "C64_fraction_refuted",
    "C64_type_refuted",
    "C64_margin_refuted",
    "C64_cancellation_refuted"
   ],
   "note": "Over exact numbers; the refuted theorems are the exceptions in the statement."
  },
  {
   "property": "C65",
   "status": "proved",
   "theorems": [
    "C65_object",
    "C65_array",
    "C65_find",
    "C65_lookup",
    "C65_terminates",
    "C65_undefined",
    "C65_terminates_refuted",
    "C65_punctuation_refuted",
    "C65_quotation_refuted",
    "C65_integer_refuted",
    "C65_subnormal_refuted",
    "C65_long_long_refuted",
    "C65_crlf_refuted",
    "C65_crlf_parse",
    "C65_parse_text_refuted"
   ],
   "note": "Doubles are rationals and printing rounds to seven digits; the refuted theorems are the exceptions in the statement."
  },
  {
   "property": "C66",
   "status": "proved",
   "theorems": [
    "C66_default_values",
    "C66_default",
    "C66_setup",
    "C66_refuses",
    "C66_order",
    "C66_round_trip",
    "C66_round_trip_refuted",
    "C66_enumerator_refuted",
    "C66_ignored_refuted"
   ],
   "note": "The refuted theorems are the exceptions in the statement."
  },
  {
   "property": "C67",
   "status": "proved",
   "theorems": [
    "C67_access",
    "C67_sum",
    "C67_sum_all",
    "C67_dot",
    "C67_dot_all",
    "C67_whole",
    "C67_slice_sum",
    "C67_slice_dot",
    "C67_slice_refuted",
    "C67_name",
    "C67_default_names",
    "C67_copy_refuted",
    "C67_elements",
    "C67_assign_refuted"
   ],
   "note": "Over exact numbers; the refuted theorems are the exceptions in the statement."
  },
  {
   "property": "C68",
   "status": "proved",
   "theorems": [
    "C68_arrays",
    "C68_by_array",
    "C68_by_name",
    "C68_names_refuted",
    "C68_decimals_refuted"
   ],
   "note": "Doubles are rationals, printed with rounding; the refuted theorems are the exceptions in the statement."
  },
  {
   "property": "C69",
   "status": "proved",
   "theorems": [
    "C69_choice",
    "C69_records",
    "C69_average",
    "C69_manual",
    "C69_wanted_refuted",
    "C69_decay_refuted"
   ],
   "note": "Over exact numbers; sqrt(2 log t / n) is any non-negative function; builds with OpenMP. The refuted theorems are the exceptions in the statement."
  },
  {
   "property": "C70",
   "status": "proved",
   "theorems": [
    "C70_history",
    "C70_best",
    "C70_frontier",
    "C70_export",
    "C70_repeated_refuted",
    "C70_maximize_refuted"
   ],
   "note": "The refuted theorems are the exceptions in the statement."
  },
  {
   "property": "C71",
   "status": "proved",
   "theorems": [
    "C71_arguments",
    "C71_every_command_line",
    "C71_usage",
    "C71_both_rejected",
    "C71_start",
    "C71_starts",
    "C71_agreement_needed",
    "C71_name",
    "C71_lines",
    "C71_last_line",
    "C71_unknown_option_refuted",
    "C71_mutable_overrules_refuted",
    "C71_name_refuted"
   ],
   "note": "The refuted theorems (and the second case of C71_every_command_line) are the exceptions in the statement. A file is its text or cannot be opened; the solver's run itself is C58."
  },
  {
   "property": "C72",
   "status": "proved",
   "theorems": [
    "C72_pairs",
    "C72_file",
    "C72_candidates",
    "C72_disabled_refuted",
    "C72_blank_names_refuted"
   ],
   "note": "Ratios are exact; the refuted theorems are the exceptions in the statement."
  },
  {
   "property": "C73",
   "status": "proved",
   "theorems": [
    "C73_prepared_problem",
    "C73_without_elimination",
    "C73_optimum_kept",
    "C73_presolve_off",
    "C73_dependents_off",
    "C73_dependents_wanted",
    "C73_size_only",
    "C73_values_kept"
   ],
   "note": "The conditions of C64 (no circular definitions, integer data after substitution) and C49 are hypotheses, as stated; infeasible models, the limit of 100 constraint groups are outside; the GF(2) step that follows is C79."
  },
  {
   "property": "C74",
   "status": "proved",
   "theorems": [
    "C74_answer",
    "C74_no_exception",
    "C74_settled",
    "C74_without_elimination",
    "C74_dual_bound",
    "C74_stale_refuted",
    "C74_bounds_refuted"
   ],
   "note": "The refuted theorems are the exceptions in the statement. The conditions are those of C73 and C58; with the GF(2) step: C79 and C80."
  },
  {
   "property": "C75",
   "status": "proved",
   "theorems": [
    "C75_penalty",
    "C75_unshrunk",
    "C75_small_refuted"
   ],
   "note": "At the start of the search; later the local penalties change (C59)."
  },
  {
   "property": "C76",
   "status": "proved",
   "theorems": [
    "C76_dual_bound",
    "C76_gap",
    "C76_maximization_refuted",
    "C76_constant_refuted"
   ],
   "note": "The refuted theorems are the exceptions in the statement. The conditions are those of C74; restarts and primal weights of the linear relaxation are arbitrary."
  },
  {
   "property": "C77",
   "status": "proved",
   "theorems": [
    "C77_solve",
    "C77_offer",
    "C77_dual_bound",
    "C77_chains",
    "C77_stored_chains",
    "C77_curtail",
    "C77_fixed_selection_refuted",
    "C77_curtail_refuted"
   ],
   "note": "The refuted theorems are the exceptions in the statement. Conditions besides those of C74: no free integer variable with bounds within 0..1, constraint names differ, flippable pairs are pairs of different binary variables, and the local search is run only when every free variable occurs in a constraint of the search. User-defined neighbourhoods are left out."
  },
  {
   "property": "C78",
   "status": "proved",
   "theorems": [
    "C78_basic_moves",
    "C78_reach",
    "C78_solutions"
   ],
   "note": "The conditions are those of C74. That moves exist does not say that the search takes them."
  },
  {
   "property": "C79",
   "status": "proved",
   "theorems": [
    "C79_equations",
    "C79_solutions",
    "C79_values",
    "C79_answer",
    "C79_dual_bound",
    "C79_idle",
    "C79_negative_refuted",
    "C79_disabled_refuted",
    "C79_stale_moves_refuted"
   ],
   "note": "The refuted theorems are the exceptions in the statement. The conditions are those of C74; C79_idle says when the moves of the generators (C77) are not affected."
  },
  {
   "property": "C80",
   "status": "proved",
   "theorems": [
    "C80_after_preparation",
    "C80_any_moves",
    "C80_answer"
   ],
   "note": "The conditions are those of C74 without the one on moves. That the answer is the best of the visited is C58, C74 and C77, and needs moves that fit (C79_stale_moves_refuted)."
  },
  {
   "property": "C81",
   "status": "proved",
   "theorems": [
    "C81_any_moves",
    "C81_answer",
    "C81_infeasible",
    "C81_inequalities",
    "C81_inequalities_infeasible",
    "C81_half_refuted",
    "C81_far_refuted",
    "C81_clash_refuted"
   ],
   "note": "The refuted theorems are the exceptions in the statement. Free binary variables must have the bounds 0 and 1 (C74_bounds_refuted)."
  },
  {
   "property": "C82",
   "status": "proved",
   "theorems": [
    "C82_least_harm",
    "C82_sensitivities",
    "C82_kept_refuted",
    "C82_fraction_refuted"
   ],
   "note": "The refuted theorems are the exceptions in the statement. Overflow of the int that adds up the violations is not modelled."
  },
  {
   "property": "C83",
   "status": "proved",
   "theorems": [
    "C83_answer",
    "C83_infeasible",
    "C83_values_checked",
    "C83_fixed_overrules_refuted"
   ],
   "note": "From the words of the command line and the text of the files to the reported answer: composes the models of C71, C44, C66, C73, C74, C76, C77 and C79. The refuted theorem is the exception in the statement. Numbers are exact rationals."
  },
  {
   "property": "C84",
   "status": "proved",
   "theorems": [
    "C84_incumbent",
    "C84_restart",
    "C84_large_objective_refuted"
   ],
   "note": "Composes C83 with the models of the solution file (C45) and of the command line (C71). The refuted theorem is the exception in the statement. The digits of the objective are a parameter; numbers are exact rationals."
  },
  {
   "property": "C85",
   "status": "proved",
   "theorems": [
    "C85_bound",
    "C85_gap",
    "C85_unbounded_refuted"
   ],
   "note": "Composes C83 with the dual bounds of C76 for runs without presolve. The refuted theorem is the exception in the statement. The norm, the powers and the square root of the relaxation are parameters with their properties as hypotheses, the weights chosen at restarts are positive inputs (by C87 those of the code are); numbers are exact rationals."
  },
  {
   "property": "C86",
   "status": "proved",
   "theorems": [
    "C86_answer",
    "C86_infeasible",
    "C86_defaults",
    "C86_equality_refuted",
    "C86_large_refuted"
   ],
   "note": "Composes C71, C44, C83 and C81 for runs with presolve; the conditions are stated on the content of the file. The two refuted theorems are the exceptions in the statement. Numbers are exact rationals."
  },
  {
   "property": "C87",
   "status": "proved",
   "theorems": [
    "C87_bound",
    "C87_covered",
    "C87_ends",
    "C87_weights",
    "C87_restarts",
    "C87_decision",
    "C87_second",
    "C87_gap_refuted"
   ],
   "note": "Every run with the modelled restarts is one of the runs of C62, C63, C76 and C85 with positive weights, so their hypothesis on weights is met. The refuted theorem is the exception in the statement. The norm, the powers and the square root are parameters with their properties as hypotheses; numbers are exact rationals."
  },
  {
   "property": "C88",
   "status": "proved",
   "theorems": [
    "C88_bound",
    "C88_gap",
    "C88_cover_refuted"
   ],
   "note": "Composes C86, C85 and C79; the conditions are stated on the content of the file. The refuted theorem is the exception in the statement. The norm, the powers and the square root of the relaxation are parameters with their properties as hypotheses; numbers are exact rationals."
  },
  {
   "property": "C89",
   "status": "proved",
   "theorems": [
    "C89_incumbent",
    "C89_infeasible",
    "C89_restart",
    "C89_unsolvable_refuted"
   ],
   "note": "Composes C86 with the models of the solution file (C45, C84) and of the command line (C71). The refuted theorem is the exception in the statement; an objective that does not fit an int: C84_large_objective_refuted. The digits of the objective are a parameter; numbers are exact rationals."
  },
  {
   "property": "C90",
   "status": "proved",
   "theorems": [
    "C90_json",
    "C90_json_off",
    "C90_name"
   ],
   "note": "Composes C86 and C83 with the model of the JSON file (C68). The values of expressions and constraints in the file are a parameter of the theorems. The exception in the statement: C68_names_refuted. Numbers are exact rationals."
  },
  {
   "property": "C91",
   "status": "proved",
   "theorems": [
    "C91_stored",
    "C91_order",
    "C91_off",
    "C91_tabu",
    "C91_local",
    "C91_lagrange",
    "C91_stale_refuted",
    "C91_answer_refuted"
   ],
   "note": "Composes C77 and C17 with what the searches and controllers hand over. The refuted theorems are the exceptions in the statement. Violation and augmented objective of the stored solutions and the names of the variables are left out; numbers are exact rationals."
  },
  {
   "property": "C92",
   "status": "proved",
   "theorems": [
    "C92_file",
    "C92_solutions"
   ],
   "note": "C92_file is the written and re-read format for all lists of solutions; C92_solutions composes it with C91 and the command line of C84. The reported violation and the number of constraints are parameters; numbers are exact rationals."
  },
  {
   "property": "C93",
   "status": "proved",
   "theorems": [
    "C93_file",
    "C93_meaning",
    "C93_constant_refuted",
    "C93_unnamed_refuted",
    "C93_digits_refuted",
    "C93_names_refuted",
    "C93_presolved_refuted"
   ],
   "note": "The refuted theorems are the exceptions in the statement. Names are those setup_unique_names has given; what the search changes in the model before the stand-alone solver writes it is not part of C93_presolved_refuted. Numbers are exact rationals."
  },
  {
   "property": "C94",
   "status": "proved",
   "theorems": [
    "C94_target",
    "C94_default",
    "C94_stop",
    "C94_stop_feasible",
    "C94_unmet",
    "C94_tolerance_refuted"
   ],
   "note": "The refuted theorem is the exception in the statement. On the model of solve() after the preparation of the model (C58); the conditions are those of C58. Numbers are exact rationals."
  },
  {
   "property": "C95",
   "status": "proved",
   "theorems": [
    "C95_ordinary",
    "C95_special",
    "C95_chain",
    "C95_chain_all",
    "C95_taken",
    "C95_once"
   ],
   "note": "Moves are numbers; what the move updaters test besides the availability is a parameter of every iteration (C38, C34 are about it), and so is the choice among the moves on offer (C51). Sorting, deduplicating and shuffling of the chain moves are any functions that keep some of the moves."
  },
  {
   "property": "C96",
   "status": "proved",
   "theorems": [
    "C96_order",
    "C96_sorted",
    "C96_duplicates",
    "C96_capacity",
    "C96_address_refuted",
    "C96_overlap_refuted"
   ],
   "note": "The refuted theorems show that the two conditions in the statement are needed. Overlap rates are rationals; the sort is any permutation without inversions."
  },
  {
   "property": "C97",
   "status": "proved",
   "theorems": [
    "C97_ratio",
    "C97_order",
    "C97_range"
   ],
   "note": "About the exact ratio before the root: the call of pow and the rounding of doubles are not modelled."
  }
 ]
}