# A Coq model of snowberryfield/printemps

## 1. What is modelled, and how numbers are treated

The repository is a header-only C++ metaheuristic solver for integer programs.
Nothing is built or run here; every definition in `rocq/theories/*Model.v`
cites the file and lines it transcribes.

| C++ | model |
|---|---|
| `T_Variable = int` | `Z`, unbounded (overflow is modelled only where a property is about it: step-size adjustment, out-of-range casts in the presolve and in the file readers) |
| `T_Expression = double` | `Q` with `==`; every finite double is a rational, **rounding is not modelled** |
| `EPSILON = 1e-5`, `EPSILON_10 = 1e-10` | the exact rationals `1#100000`, `1#10000000000` |
| `Variable*`, `Constraint*` | `nat` identifiers (positions); where code looks at address bits (hash map, selection mask, ordering of binomials) an arbitrary address function is a parameter and the theorem quantifies over it |
| `std::unordered_map` | association list with distinct keys; theorems quantify over all such lists, hence over all iteration orders |
| `std::sort`/`std::stable_sort` | stable insertion sort |
| exceptions, undefined behaviour, NaN | distinct outcomes (`None`, `Rejected`, `NotANumber`, ...), never a normal value |
| unqualified `abs(double)` | floating absolute value |
| OpenMP loops | each iteration writes only its own slot of the output array, so the sequential map is the model |
| random numbers, clock | inputs; theorems quantify over every sequence of them |
| `std::log`, `std::pow`, `%.10e` text | function parameters with the few properties used stated as hypotheses (`log_like`, `root_like`) |

Not modelled: floating-point rounding and infinities other than the explicit
option type for "no incumbent yet", printing and logging, wall-clock time, thread
scheduling, memory safety other than the pre-conditions that appear as `None`.

## 2. Layout

* `<Area>Model.v` - definitions only, each citing `/repo`.
* `<Area>Spec.v` - the independent specification used by the statements.
* `<Area>Proof*.v` - lemmas.
* `Prop_<Area>.v` - the theorems named in MANIFEST.json, each followed by
  `Print Assumptions`, and `Example`s showing that the hypotheses are met by a
  concrete non-trivial case.  A theorem whose name ends in `_refuted` is a proved
  negation: it gives a witness for an exception named in the property.

## 3. How each property is modelled and proved

| id | what is modelled | how it is proved |
|---|---|---|
| C01 | expression operators as functions on coefficient maps | induction on an operator syntax tree against its mathematical value |
| C02 | `lower_bound`/`upper_bound` | induction over the coefficient map; attainment by an explicit corner assignment |
| C03 | `evaluate(move)`, `update(move)` | invariant over the list of moves |
| C04 | `solve`, `erase`, `substitute` | algebra on coefficient maps |
| C05 | the comparison operators and `violation` | case analysis on relation and operand order |
| C06 | constraint state, `update`, `update(move)` | invariant over the list of moves |
| C07, C08 | `setup_constraint_type` as a decision list | exhaustiveness by case analysis, invariance under `Permutation`; per class, induction over the coefficient list |
| C09, C10 | variable record and its operations; strides and index maps | invariant over operation lists; induction on the shape |
| C11-C13 | `evaluate`, `evaluate_single`, `evaluate_multi`, `evaluate_selection` | difference lemma: the sum over all enabled constraints is the old sum plus the change over the related constraints |
| C14, C15 | model state, `update`, `update(move)` | invariant over the list of moves |
| C16, C17 | incumbent holder and archive as state machines | induction over the history |
| C18 | open-addressing table with linear probing, any hash function | probing invariant |
| C19, C20 | parent maps, Kruskal's algorithm | refinement to the equivalence closure; exchange argument |
| C21, C22 | queue, bidirectional map | induction over the history |
| C23-C25 | Gauss-Jordan elimination over GF(2), closure passes, GF(2) presolve | row-operation invariants |
| C26, C27, C31, C47, C48 | bound tightening, redundancy, independent variables, the presolve loop, bounds from the objective | each rule keeps the set of integer points; termination by a measure on bounds and enabled constraints |
| C28, C29 | duplicate and opposite constraints | invariant over the pairwise pass inside hash groups |
| C30, C49 | set domination rules | solution-set equality; exchange argument for the optimum |
| C32, C33 | extraction of selections; verifier of initial values | induction over constraints; case analysis over fixed, selected and free members |
| C34-C36, C38, C50 | all move generators, flags, chain moves | per generator, over all variable values |
| C37 | doubling and bisection with an arbitrary score oracle | loop invariants and a bound on the number of steps |
| C39-C41 | improvability flags, naive dual bound | linear-objective argument |
| C42, C43, C46, C51 | memory, tabu rule, tenure, choice of the move | invariant over the history; first-minimum lemma |
| C52, C53, C57 | the tabu search, the local search, the Lagrange dual search as loops over arbitrary inputs | loop invariants: caches agree with the assignment, scores are true, incumbents are the best offered |
| C44, C54 | MPS reader and writer on characters and tokens | reader: induction over sections; writer: the reader applied to the printed text |
| C45, C55, C56 | names, auxiliary files, solution files | induction over lines; injectivity of default names |
| C59 | the controller of the tabu search | bounds by case analysis, exactness of the tightening by summing over violated constraints |
| C60 | online bounding between rounds | each round keeps every point at least as good as the incumbent; induction over the rounds |
| C61 | sparse matrices, vectors, diagonals | a row's positions are the entries of that row (counting lemma); sums over entries rearranged |
| C62 | `export_lp_instance`, scaling, PDLP core and controller | weak duality for any multipliers of the right signs; invariant of the iteration gives the signs; scaling and export keep points and objectives |
| C63 | the PDLP core | invariant of the iteration; |y.(Aw)| bounded by the weighted norm gives a positive lower bound of the step limit, hence termination; verdicts from weak duality |
| C64 | `DependentVariableExtractor::extract`, `eliminate` and the loop of `Model::setup` around them | substitution keeps values where the definitions hold; a rank of the definitions carries the bounds back; three passes clear rings too; the number of enabled equations falls in every round |
| C65 | JSON writer, tokenizer and parser on characters and tokens | the tokens of printed text computed by induction on the value; the parser reproduces the value from its tokens; a measure on positions for termination |
| C66 | the options as one table of sections, members, kinds, keys and defaults; setup and to_json over it | generic over tables with distinct keys; the table itself is checked by computation; the file part is C65 |
| C67 | arrays of variables and expressions: access, slices, sums, products, a world of expression arrays with shared element data and operations on it | positions of a slice are in bijection with its multi-indices; invariant over histories that an element still owns its index |
| C68 | the text built by create_json_array with its dimension counter, the JSON files of a solution | the counter equals the number of open brackets, by induction over the shape with the carries of prefix and block; tokens parsed by JsonModel's loops; files by C65 |
| C69 | UCB1 actions and learner, thread patterns, the state of one parallelization over the rounds; confidence width an arbitrary non-negative function | invariant over rounds: the record of each candidate is the fold of its own rates; first untried, then first argmax |
| C70 | graph with node sets, spanning tree, distance_l0, search tree, archive of incumbents over the history | edges by induction equal the complete graph; spanning tree by C20; degrees by the incident indices; leaves by counting edges |
| C71 | parser of the command line, files as texts, set-up of the MPS solver on top of the models of MPS, names, JSON and options | folding one item at a time; each file's effect by C45, composed; classification of all argument lists by induction on their length |
| C72 | related constraints, candidates in any order, pairs, stable sort, file | the pairs of a duplicate-free list by induction; set sizes by duplicate-free lists; file by the lemmas on items |
| C73 | `Model::setup` as the chain of the phases of C26-C33, C49 and C64 with the types each phase reads | an invariant (coherent and clean definitions, integer data, flags, bounds) through all phases; solutions of each phase lifted over the defined variables; induction on the number of equations for the rounds |
| C74 | C73, the state in which the search starts, and C58 joined into one function from the user's model to the answer | the prepared problem meets the invariants of C58 (the coefficient memory followed through all phases); answers mapped back by C73; two concrete runs for the exceptions |
| C75 | the penalty coefficient of the state in which the search starts | the objective lies between its two bounds; an infeasible solution has an integral violation of at least 1 |
| C76 | solve() with the linear relaxation (LpModel) and the Lagrange dual (LagrangeModel) of the prepared problem as its phases | the dual bound is changed by these phases only; each offers a bound of the prepared problem (C62, C57), which keeps the optimum (C73) |
| C77 | solve() whose searches try the moves of the generators of the prepared problem (setup_neighborhood, update_moves); clocks, screening, orders and random numbers are inputs | invariant over all visited solutions: valid and fixed values kept; every move on offer fits (C34, C36) and keeps it; then C58 |
| C78 | the moves on offer of C77 when all are accepted | completeness of the three basic generators, then induction on the distance; the preparation keeps an equally good solution (C73) |
| C79 | the GF(2) step at the end of `Model::setup`, after the neighbourhoods were set up, in front of C74, C76 and C77 | C25 gives one solution of the equations; the matrix is regular, so every solution has the values that are fixed; the chain of C73, C74 and C76 goes through; three concrete runs for the exceptions |
| C80 | C79 with arbitrary moves | for arbitrary moves the holder is still the fold of the offered solutions and the frame (bounds, fixed flags, definitions) is kept; postprocess imports and evaluates the stored solution anew, so the report is true of its values; C73 maps it back |
| C81 | C80 without the condition that the model has a solution | without presolve the prepared problem is the entered one with selections and initial values, and C80 applies without a solution to start from; with presolve and inequalities only, each step of the reduction is shown sound without a solution (bounds stay nested, a dropped row follows from the bounds left), the steps for equalities find nothing; three concrete runs for the failures |
| C82 | the choice of a variable in the correction of selections (verifier.h:76-343): the running values of the constraints, the violation of each candidate, the first least one | the running values plus the constant are the value of the row at the point with ones at the counted choices; with integer data the truncated sum is the sum of the distances; induction over the selections |
| C83 | MPSSolver(argc, argv) and solve() (standalone/mps_solver.h:112-305): the set-up of C71, the switches read from the options, the model entered from the instance, the solver of C79 | every variable and row of the instance is traced to the file (order of columns, coefficients, bounds, values asked for); the entered model meets the conditions of C81; the checks at the start give the values within bounds; a solution of the model is one of the file |
| C84 | the rest of solve() (standalone/mps_solver.h:305-325): import of the answer, export by name, incumbent.sol; reading it with -i | the lines of the file are computed from the answer of C83, one for each column; a name is given once, so its value is the one read back; fixed variables have their values in every answer, so the set-up of C71 accepts the file |
| C85 | the dual bound of the whole run of C83 (naive bound, linear relaxation, Lagrange dual) | every solution of the file is a solution of the model that is set up, with the same objective (fixed values are forced by the files or by the bound FX); without presolve the prepared problem has the same solutions and all its constraints hold for them, so the lemmas of C76 apply |
| C86 | the whole run of C83 with presolve on and the default options | the conditions on the file (values of rows under all assignments) give those of C81 on the model: the largest value of a row is attained at an assignment of signs, coefficients are differences of values; a row with a coefficient other than 1 is of no set type and stays, so no set variable is removed; then C81_inequalities |
| C87 | the decisions to restart, the gaps they use, the baselines and the weight of the PDLP core (RestartModel) | simulation: each iteration is one of LpModel with a positive weight, so C62 and C63 apply; invariants for the range of the weight, for the length of the inner loop and for the kept gap; case analysis of the decision; a covering problem at its lower bounds has gap 0 |
| C88 | the dual bound of the whole run of C86 | a solution of the file is one of the entered model (C85), which therefore has a solution; with inequalities only there are no defined variables and no GF(2) equations, and the bounds of the variables stay within those of the file, so the conditions of C79 hold; a covering file for the exception |
| C89 | the rest of solve() (standalone/mps_solver.h:305-325) after the run of C86 | the answer is a solution of the entered model (C86), with the value of every fixed variable; the rest of C84 is proved for any run whose answers are such; the files of C86 without a solution for the exception |
| C90 | postprocess (solver.h:105-142), export_named_solution (model.h:3279-3329) and write_json_by_name in solve() (mps_solver.h:323), after the runs of C84 and C89; the sections about the rows are a parameter | the one group of variables keeps its shape and names through set-up, its values are those of the answer, within int because they are within the bounds of the file; C68 for writing and reading |
| C91 | the feasible solutions the searches keep (tabu_search_core.h:1079-1088, local_search_core.h:693-702, lagrange_dual_core.h:470-479), what the controllers hand over and the archive of solve() (solver.h:376-382) | a search's kept solution is the current one of a state that satisfies the loop invariants, so it has the true objective and feasibility; the induction over the rounds of C77; C17 for the archive; exact list of what is handed over by induction over the iterations |
| C92 | write_solutions_json (solution_archive.h:203-232) on the model of JSON files (C68) and the archive of solve() (C91) as run by mps_solver.h:293-330 | round trip of the format by the writer and reader lemmas of C68; each entry corresponds to a stored solution, which C91 shows to be one of the model and C83/C84 carry back to the columns of the file |
| C93 | write_json (model.h:3707-3823) on the model of JSON files (C65) | round trip by C65 entry by entry; the meaning of the file as a relation on its entries, shown equal to that of the model by induction over the lists of terms |
| C94 | setup_target_objective (solver.h:54-78) before the model of solve() (C58) | invariant over the history of visited solutions: a solution that meets the target makes the incumbent meet it, and every search and every iteration tests the incumbent first; equality of two runs by induction over all loops |
| C95 | setup_neighborhood (model.h:1248-1336), enable_default_neighborhood and the check of the chain moves (solver.h:81-104, 309-319), the switching of the special kinds between rounds (tabu_search_controller_state_manager.h:327-370, 1112-1318), update_moves (neighborhood.h:121-161) | state machine over iterations and ends of rounds with a log; the switches and the availability of every move are characterised by the log, by induction over the run |
| C96 | the comparison of sort_moves, deduplicate_moves and reduce_moves (chain_move_generator.h:99-206), operator== (move.h:290-339) | the comparison is a lexicographic order of keys on groups of nearly equal overlap rates; induction over std::unique on a list without inversions; circles as counterexamples |
| C97 | setup_overlap_rate (move.h:183-226) with the set operations of unordered_set_utility.h, without the final root | invariant of the loop over the alterations: the two sets hold the constraints of some and of all variables so far; sets with equal elements have equal sizes |
| C58 | `Solver::solve` after the preparation of the model | invariant through preprocessing, PDLP, Lagrange dual search, local search, every round of tabu search and postprocessing |

## 4. Theorems per property

All of them are closed under the global context.

| id | status | file | theorems |
|---|---|---|---|
| C01 | proved | Prop_Expr.v | `C01_expression_denotes_formula` |
| C02 | proved | Prop_Expr.v | `C02_bounds_enclose_and_attained` |
| C03 | proved | Prop_Expr.v | `C03_incremental_value_after_any_history`, `C03_table_evaluation_is_coefficient_evaluation`, `C03_repeated_variable_refuted` |
| C04 | proved | Prop_Expr.v | `C04_solve_and_substitute`, `C04_self_substitution_refuted` |
| C05 | proved | Prop_Constraint.v | `C05_comparison_builds_written_constraint` |
| C06 | proved | Prop_Constraint.v | `C06_constraint_history` |
| C07 | proved | Prop_Type.v | `C07_exactly_one_type`, `C07_order_independent`, `C07_key_equal_names_refuted` |
| C08 | proved | Prop_Type.v | `C08_type_requires`, `C08_integer_flag`, `C08_sums_recognized`, `C08_type_meaning`, `C08_trinomial_refuted` |
| C09 | proved | Prop_Variable.v | `C09_variable_history`, `C09_fixed_value_protected`, `C09_set_value_on_fixed_throws`, `C09_set_bound`, `C09_update_margin_refuted` |
| C10 | proved | Prop_Variable.v | `C10_indices_are_bijective`, `C10_distinct_indices_distinct_elements` |
| C11 | proved | Prop_Eval.v | `C11_single_move_score`, `C11_full_evaluation`, `C11_margin_flag_truthful`, `C11_reached_states_consistent`, `C11_stale_binary_flag_refuted` |
| C12 | proved | Prop_Eval.v | `C12_multi_move_score`, `C12_multi_within_tolerance`, `C12_integral_models_have_no_tiny_change`, `C12_related_list_ok`, `C12_duplicate_names_refuted`, `C12_improvable_hint_refuted` |
| C13 | proved | Prop_Eval.v | `C13_selection_move_score` |
| C14 | proved | Prop_Eval.v | `C14_model_update_history`, `C14_fixed_variable_refuted` |
| C15 | proved | Prop_Eval.v | `C15_feasible_iff_constraints_hold`, `C15_score_flag_agrees`, `C15_score_flag_refuted` |
| C16 | proved | Prop_Solution.v | `C16_dual_bound`, `C16_incumbents_hold_best_offers`, `C16_status_reports_changes`, `C16_never_worse` |
| C17 | proved | Prop_Solution.v | `C17_sorted_archive_keeps_best`, `C17_unsorted_archive_keeps_latest`, `C17_duplicate_kept_refuted` |
| C18 | proved | Prop_HashMap.v | `C18_hash_map_lookup` |
| C19 | proved | Prop_UnionFind.v | `C19_union_find_history`, `C19_root_canonical` |
| C20 | proved | Prop_UnionFind.v | `C20_minimum_spanning_tree` |
| C21 | proved | Prop_Container.v | `C21_queue_holds_last_n`, `C21_queue_statistics`, `C21_queue_capacity_zero_refuted` |
| C22 | proved | Prop_Container.v | `C22_bidirectional_map_inverse`, `C22_forward_returns_last_insert`, `C22_reinsertion_refuted` |
| C23 | proved | Prop_BinMat.v | `C23_rank`, `C23_inverse`, `C23_full_rank_iff_invertible` |
| C24 | proved | Prop_BinMat.v | `C24_reachability_is_transitive_closure` |
| C25 | proved | Prop_BinMat.v | `C25_gf2_solution_satisfies_equations`, `C25_negative_coefficient_refuted`, `C25_shared_key_refuted` |
| C26 | proved | Prop_Presolve.v | `C26_tightening_keeps_solutions`, `C26_no_undefined_behaviour`, `C26_fractional_refuted`, `C26_unbounded_refuted`, `C26_cancelled_refuted` |
| C27 | proved | Prop_Presolve.v | `C27_removed_is_always_satisfied`, `C27_removed_is_implied`, `C27_far_refuted`, `C27_half_refuted` |
| C28 | proved | Prop_Duplicate.v | `C28_duplicates_keep_solutions`, `C28_no_duplicate_left`, `C28_shielded_duplicate_refuted`, `C28_knapsack_refuted` |
| C29 | proved | Prop_Duplicate.v | `C29_implicit_equalities_keep_solutions`, `C29_pair_becomes_equality` |
| C30 | proved | Prop_Duplicate.v | `C30_set_domination_keeps_solutions`, `C30_exactly_one_lists`, `C30_fixed_overruled_refuted`, `C30_disabled_refuted` |
| C31 | proved | Prop_Presolve.v | `C31_independent_fixing_keeps_an_optimum`, `C31_zero_outside_refuted` |
| C32 | proved | Prop_Selection.v | `C32_selections_disjoint`, `C32_extraction_effect`, `C32_related_constraints`, `C32_greedy_maximal`, `C32_independent_exact`, `C32_solutions_kept` |
| C33 | proved | Prop_Selection.v | `C33_verified_start`, `C33_valid_start_accepted`, `C33_throws_when_hopeless`, `C33_throws_only_when_hopeless`, `C33_imported_solution`, `C33_selected_known_before_search`, `C33_fixed_selected_refuted`, `C33_binary_bounds_refuted` |
| C34 | proved | Prop_Move.v | `C34_two_flips`, `C34_stored_moves`, `C34_offered_moves_respect`, `C34_setup_skips_fixed`, `C34_integer_moves_change`, `C34_unit_steps_offered`, `C34_flips_offered`, `C34_sources`, `C34_zero_bounds_refuted` |
| C35 | proved | Prop_Move.v | `C35_exclusive_inverted_balanced`, `C35_constant_sum`, `C35_constant_difference`, `C35_constant_ratio`, `C35_aggregation`, `C35_precedence`, `C35_variable_bound`, `C35_soft_selection`, `C35_trinomial`, `C35_moves_defined`, `C35_sum_refuted`, `C35_difference_refuted`, `C35_ratio_refuted`, `C35_trinomial_refuted` |
| C36 | proved | Prop_Selection.v | `C36_offered_moves`, `C36_moves_keep_exactly_one`, `C36_fixed_selected_refuted` |
| C37 | proved | Prop_Step.v | `C37_step_adjustment`, `C37_wide_range_refuted` |
| C38 | proved | Prop_Move.v | `C38_exposed_moves`, `C38_generators_sound`, `C38_chain_flags` |
| C39 | proved | Prop_Screen.v | `C39_optimal_without_moves`, `C39_no_improving_move_lost`, `C39_gap_minimization`, `C39_screening_off_refuted`, `C39_gap_maximization_refuted` |
| C40 | proved | Prop_Screen.v | `C40_no_repairing_move_lost`, `C40_flagged_variables_help`, `C40_intensive_refuted` |
| C41 | proved | Prop_Screen.v | `C41_naive_dual_bound` |
| C42 | proved | Prop_Tabu.v | `C42_counts`, `C42_last_alteration`, `C42_intensity`, `C42_frequency_penalty`, `C42_lagrangian_penalty`, `C42_lagrangian_refuted` |
| C43 | proved | Prop_Tabu.v | `C43_permissible`, `C43_window`, `C43_tenure`, `C43_never_altered_refuted` |
| C44 | proved | Prop_Mps.v | `C44_reads_model`, `C44_truncated_rejected`, `C44_undeclared_rejected`, `C44_items`, `C44_fixed`, `C44_ranges_refuted`, `C44_format_refuted` |
| C45 | proved | Prop_Names.v | `C45_fix_from_file`, `C45_unfix_from_file`, `C45_initial_solution_from_file`, `C45_pairs_from_file`, `C45_fixed_then_initial_refuted`, `C45_default_names_refuted` |
| C46 | proved | Prop_Solution.v | `C46_argmin_is_first_minimum`, `C46_argmax_is_first_maximum` |
| C47 | proved | Prop_Presolve.v | `C47_presolve_terminates`, `C47_presolve_loop_exact`, `C47_reduction_keeps_an_optimum` |
| C48 | proved | Prop_Presolve.v | `C48_objective_bounds_keep_better`, `C48_max_dual_refuted` |
| C49 | proved | Prop_Duplicate.v | `C49_set_variables_keep_an_optimum`, `C49_covering_refuted`, `C49_fixed_overwritten_refuted` |
| C50 | proved | Prop_Move.v | `C50_chain_moves` |
| C51 | proved | Prop_Tabu.v | `C51_selected_move` |
| C52 | proved | Prop_Loop.v | `C52_early_stop`, `C52_scores_are_true`, `C52_feasible_incumbent`, `C52_termination` |
| C53 | proved | Prop_Local.v | `C53_scores_are_true`, `C53_always_better`, `C53_termination`, `C53_unconstrained_refuted`, `C53_local_optimum_refuted`, `C53_selection_refuted` |
| C54 | proved | Prop_MpsWrite.v | `C54_round_trip`, `C54_unwritable_refuted` |
| C55 | proved | Prop_Names.v | `C55_solution_file_round_trip`, `C55_large_objective_refuted`, `C55_same_proxy_name_refuted` |
| C56 | proved | Prop_Names.v | `C56_given_names_kept`, `C56_default_names_unique`, `C56_created_proxies_proper`, `C56_spaces_refused`, `C56_same_name_refuted` |
| C57 | proved | Prop_Lagrange.v | `C57_lower_bound`, `C57_dual_bound`, `C57_search`, `C57_maximization_refuted`, `C57_best_refuted` |
| C58 | proved | Prop_Solver.v | `C58_solve`, `C58_no_exception`, `C58_penalties`, `C58_round_status`, `C58_iterations`, `C58_not_a_number_refuted` |
| C59 | proved | Prop_Controller.v | `C59_penalties`, `C59_relaxation`, `C59_tightening`, `C59_restart`, `C59_restart_simple`, `C59_parameters`, `C59_counters`, `C59_defined`, `C59_not_a_number_refuted` |
| C60 | proved | Prop_Online.v | `C60_optimum_kept`, `C60_maximization_refuted`, `C60_maximization_throws_refuted` |
| C61 | proved | Prop_Sparse.v | `C61_built`, `C61_norms`, `C61_product`, `C61_transpose`, `C61_adjoint`, `C61_scaling`, `C61_normalised`, `C61_diagonal`, `C61_unsorted_refuted`, `C61_reuse_refuted`, `C61_no_rows_refuted` |
| C62 | proved | Prop_Lp.v | `C62_dual_bound`, `C62_relaxation`, `C62_constant_refuted`, `C62_no_constraint_refuted` |
| C63 | proved | Prop_Lp.v | `C63_run`, `C63_reduced_costs`, `C63_ends`, `C63_optimal`, `C63_infeasible`, `C63_infeasible_refuted` |
| C64 | proved | Prop_Dependent.v | `C64_extraction_succeeds`, `C64_chosen`, `C64_three_passes`, `C64_round_keeps_solutions`, `C64_pairs_acyclic`, `C64_definition_exact`, `C64_loop_ends`, `C64_loop_leaves_clean`, `C64_ring_refuted`, `C64_fraction_refuted`, `C64_type_refuted`, `C64_margin_refuted`, `C64_cancellation_refuted` |
| C65 | proved | Prop_Json.v | `C65_object`, `C65_array`, `C65_find`, `C65_lookup`, `C65_terminates`, `C65_undefined`, `C65_terminates_refuted`, `C65_punctuation_refuted`, `C65_quotation_refuted`, `C65_integer_refuted`, `C65_subnormal_refuted`, `C65_long_long_refuted`, `C65_crlf_refuted`, `C65_crlf_parse`, `C65_parse_text_refuted` |
| C66 | proved | Prop_Option.v | `C66_default_values`, `C66_default`, `C66_setup`, `C66_refuses`, `C66_order`, `C66_round_trip`, `C66_round_trip_refuted`, `C66_enumerator_refuted`, `C66_ignored_refuted` |
| C67 | proved | Prop_Array.v | `C67_access`, `C67_sum`, `C67_sum_all`, `C67_dot`, `C67_dot_all`, `C67_whole`, `C67_slice_sum`, `C67_slice_dot`, `C67_slice_refuted`, `C67_name`, `C67_default_names`, `C67_copy_refuted`, `C67_elements`, `C67_assign_refuted` |
| C68 | proved | Prop_Report.v | `C68_arrays`, `C68_by_array`, `C68_by_name`, `C68_names_refuted`, `C68_decimals_refuted` |
| C69 | proved | Prop_Learner.v | `C69_choice`, `C69_records`, `C69_average`, `C69_manual`, `C69_wanted_refuted`, `C69_decay_refuted` |
| C70 | proved | Prop_SearchTree.v | `C70_history`, `C70_best`, `C70_frontier`, `C70_export`, `C70_repeated_refuted`, `C70_maximize_refuted` |
| C71 | proved | Prop_Command.v | `C71_arguments`, `C71_every_command_line`, `C71_usage`, `C71_both_rejected`, `C71_start`, `C71_starts`, `C71_agreement_needed`, `C71_name`, `C71_lines`, `C71_last_line`, `C71_unknown_option_refuted`, `C71_mutable_overrules_refuted`, `C71_name_refuted` |
| C72 | proved | Prop_Flip.v | `C72_pairs`, `C72_file`, `C72_candidates`, `C72_disabled_refuted`, `C72_blank_names_refuted` |
| C73 | proved | Prop_Prepare.v | `C73_prepared_problem`, `C73_without_elimination`, `C73_optimum_kept`, `C73_presolve_off`, `C73_dependents_off`, `C73_dependents_wanted`, `C73_size_only`, `C73_values_kept` |
| C74 | proved | Prop_Whole.v | `C74_answer`, `C74_no_exception`, `C74_settled`, `C74_without_elimination`, `C74_dual_bound`, `C74_stale_refuted`, `C74_bounds_refuted` |
| C75 | proved | Prop_Whole.v | `C75_penalty`, `C75_unshrunk`, `C75_small_refuted` |
| C76 | proved | Prop_Relax.v | `C76_dual_bound`, `C76_gap`, `C76_maximization_refuted`, `C76_constant_refuted` |
| C77 | proved | Prop_Offer.v | `C77_solve`, `C77_offer`, `C77_dual_bound`, `C77_chains`, `C77_stored_chains`, `C77_curtail`, `C77_fixed_selection_refuted`, `C77_curtail_refuted` |
| C78 | proved | Prop_Reach.v | `C78_basic_moves`, `C78_reach`, `C78_solutions` |
| C79 | proved | Prop_Parity.v | `C79_equations`, `C79_solutions`, `C79_values`, `C79_answer`, `C79_dual_bound`, `C79_idle`, `C79_negative_refuted`, `C79_disabled_refuted`, `C79_stale_moves_refuted` |
| C80 | proved | Prop_Truth.v | `C80_after_preparation`, `C80_any_moves`, `C80_answer` |
| C81 | proved | Prop_Infeasible.v | `C81_any_moves`, `C81_answer`, `C81_infeasible`, `C81_inequalities`, `C81_inequalities_infeasible`, `C81_half_refuted`, `C81_far_refuted`, `C81_clash_refuted` |
| C82 | proved | Prop_Correct.v | `C82_least_harm`, `C82_sensitivities`, `C82_kept_refuted`, `C82_fraction_refuted` |
| C83 | proved | Prop_File.v | `C83_answer`, `C83_infeasible`, `C83_values_checked`, `C83_fixed_overrules_refuted` |
| C84 | proved | Prop_Incumbent.v | `C84_incumbent`, `C84_restart`, `C84_large_objective_refuted` |
| C85 | proved | Prop_Certify.v | `C85_bound`, `C85_gap`, `C85_unbounded_refuted` |
| C86 | proved | Prop_Default.v | `C86_answer`, `C86_infeasible`, `C86_defaults`, `C86_equality_refuted`, `C86_large_refuted` |
| C87 | proved | Prop_Restart.v | `C87_bound`, `C87_covered`, `C87_ends`, `C87_weights`, `C87_restarts`, `C87_decision`, `C87_second`, `C87_gap_refuted` |
| C88 | proved | Prop_Enclose.v | `C88_bound`, `C88_gap`, `C88_cover_refuted` |
| C89 | proved | Prop_Saved.v | `C89_incumbent`, `C89_infeasible`, `C89_restart`, `C89_unsolvable_refuted` |
| C90 | proved | Prop_Written.v | `C90_json`, `C90_json_off`, `C90_name` |
| C91 | proved | Prop_Archive.v | `C91_stored`, `C91_order`, `C91_off`, `C91_tabu`, `C91_local`, `C91_lagrange`, `C91_stale_refuted`, `C91_answer_refuted` |
| C92 | proved | Prop_Feasible.v | `C92_file`, `C92_solutions` |
| C93 | proved | Prop_Instance.v | `C93_file`, `C93_meaning`, `C93_constant_refuted`, `C93_unnamed_refuted`, `C93_digits_refuted`, `C93_names_refuted`, `C93_presolved_refuted` |
| C94 | proved | Prop_Target.v | `C94_target`, `C94_default`, `C94_stop`, `C94_stop_feasible`, `C94_unmet`, `C94_tolerance_refuted` |
| C95 | proved | Prop_Switch.v | `C95_ordinary`, `C95_special`, `C95_chain`, `C95_chain_all`, `C95_taken`, `C95_once` |
| C96 | proved | Prop_ChainOrder.v | `C96_order`, `C96_sorted`, `C96_duplicates`, `C96_capacity`, `C96_address_refuted`, `C96_overlap_refuted` |
| C97 | proved | Prop_Overlap.v | `C97_ratio`, `C97_order`, `C97_range` |

## 5. Findings

Behaviour of the code that the proofs ran into.  Where a theorem establishes it, its
name is given; the other entries were found by reading and are visible in the model.

Evaluation and model state
* `update(move)` on a fixed variable leaves caches inconsistent (`C14_fixed_variable_refuted`); the same variable twice in a move (`C03_repeated_variable_refuted`).
* Related-constraint lists are sorted by name and made unique by address: equal names give double counting (`C12_duplicate_names_refuted`).
* The feasibility flag compares the sum of violations with the tolerance in one place and each violation in another (`C15_score_flag_refuted`).
* The only-binary flag of a constraint is not refreshed when bounds change (`C11_stale_binary_flag_refuted`); `Variable::update()` leaves margins stale (`C09_update_margin_refuted`).
* `fixed_term_value` truncates to an integer; assigning an expression-like object to an expression drops the constant; objective sensitivities are never reset after elimination.
* Archives keep non-adjacent duplicates (`C17_duplicate_kept_refuted`); a queue of size 0 is undefined (`C21_queue_capacity_zero_refuted`); the bidirectional map keeps stale reverse entries (`C22_reinsertion_refuted`); the sizes kept by the union-find are wrong (the partition is right).

Presolve
* Casts of out-of-range bounds are undefined; coefficients cancelled to 0 divide by zero (`C26_cancelled_refuted`); singleton rows with fractional or huge bounds (`C26_fractional_refuted`, `C26_unbounded_refuted`, `C27_half_refuted`, `C27_far_refuted`).
* An independent variable without objective is fixed at 0 even outside its bounds (`C31_zero_outside_refuted`).
* Redundant set rules overwrite variables fixed at 1 (`C30_fixed_overruled_refuted`, `C49_fixed_overwritten_refuted`), use disabled constraints (`C30_disabled_refuted`) and lose the optimum for covering rows with negative cost (`C49_covering_refuted`).
* Duplicates inside a hash group can be missed, knapsack rows are left out (`C28_*_refuted`).
* A sparse matrix object keeps its old row pointers when set up again, multiplies wrongly when its entries are not listed by rows, and cannot be transposed without rows (`C61_reuse_refuted`, `C61_unsorted_refuted`, `C61_no_rows_refuted`). So the PDLP solver on a model without enabled constraints is undefined behaviour.
* `export_lp_instance` drops the constant of the objective, so the dual bound that PDLP publishes can be better than the best solution (`C62_constant_refuted`).
* PDLP's infeasibility test compares a dual objective that includes the contribution of the fixed variables with an upper bound that excludes it, and reports feasible problems INFEASIBLE (`C63_infeasible_refuted`).
* Elimination of defined variables does not check for rings: x = 2y + 1, y = 2z + 1, z = 2x + 1 loses its only solution (`C64_ring_refuted`). It truncates fractional definitions (`C64_fraction_refuted`). It leaves the flags and the largest coefficient of the changed constraints as they were, so constraint types and margin tests go wrong (`C64_type_refuted`, `C64_margin_refuted`), and it leaves zero coefficients by which presolve then divides (`C64_cancellation_refuted`).
* The expressions and constraints that extraction creates count against the limit of 100 groups (model.h:336, 492), so preprocessing throws for a model that uses all of them (not modelled).
* `compute_normalized_gap` (pdlp_core_state_manager.h:221-224) tests `dual_upper_bounds` where the lower bounds are meant; this only steers restarts, which are arbitrary inputs of the model.
* Bounds derived from a dual bound are wrong when maximizing (`C48_max_dual_refuted`); the online bounding of the tabu search controller cuts on the wrong side when maximizing (`C60_maximization_refuted`).
* The GF(2) solver ignores signs and overwrites shared keys (`C25_*_refuted`). In setup this makes a feasible model infeasible (`C79_negative_refuted`), and disabled equations fix variables all the same (`C79_disabled_refuted`).
* The neighbourhoods are set up (model.h:775) before the GF(2) step fixes variables (795-810), and the binary and integer generators do not look at is_fixed again. Moves of fixed variables are then tried, the values of the constraints drift away from the solution, and solve() can report an infeasible answer although it visited a solution (`C79_stale_moves_refuted`). What is reported is true of its values all the same (`C80_answer`).
* For the same reason the archive of feasible solutions (feasible.json) can hold a point that violates a constraint, marked as feasible (`C91_stale_refuted`); the answer itself is re-evaluated. And the archive need not contain the answer: solutions visited before the first iteration of a search (by the initial modifications) are not handed over (`C91_answer_refuted`).
* write_json (model.h:3707-3823) leaves out the constant of the objective (`C93_constant_refuted`), gives a model without a name the name null, because "untitled" is passed as a const char* that the JSON writer does not know (`C93_unnamed_refuted`; write_mps writes untitled), keeps seven digits of a coefficient (`C93_digits_refuted`), and the bracketed names of array elements are read back with blanks in them (`C93_names_refuted`). --export-json-instance is carried out after solve(), so the file holds the model as presolve and search have left it, not the instance (`C93_presolved_refuted`).
* The search ends when the incumbent meets the target, and the incumbent is replaced only by a solution that is better by more than 1e-5 (incumbent_holder.h:108): a visited solution that meets the target after one that just misses it does not end the search (`C94_tolerance_refuted`).
* A comment in tabu_search_core.h:1063-1066 says that each special move can be used only once in one round. It stays unavailable longer: until a round that uses up its iterations ends without a better solution, so a move taken in a short round is not on offer in the next one (`C95_special`, `C95_example`).
* The comparison of sort_moves (chain_move_generator.h:160-165) stores the difference of two 64-bit addresses in an int. If variables lie more than 2 GiB apart it goes round in a circle, and the call of std::stable_sort is undefined (`C96_address_refuted`). So does the comparison of overlap rates with a tolerance (`C96_overlap_refuted`).
* The same comparison compares the hash of the left move with itself (chain_move_generator.h:124-128), so the hash never decides.
* Presolve can turn an infeasible model into one that is reported as solved: `2 x = 1` is cut to `x = 0` and dropped, `x <= -200000` on `0..3` is dropped because the bound is beyond 100000, and `x >= 1` followed by `x = 0` fixes x at 0: the equality does not look at the bounds (`C81_half_refuted`, `C81_far_refuted`, `C81_clash_refuted`; problem_size_reducer.h:213-510). The violation beside the answer is that of all constraints, so the report says feasible with a violation of 1. Without presolve this does not happen (`C81_infeasible`), nor with inequalities of moderate size only (`C81_inequalities`).
* The correction of initial values weighs a candidate against the choices in earlier selections, but a selection that needs no correction is not entered into the running values (verifier.h:337-339, no update as at 190-194, 264-268, 332-336), so the corrected start can violate a constraint that another candidate would meet; and the violation is an `int`, so fractions are dropped at each addition (`C82_kept_refuted`, `C82_fraction_refuted`).
* A file of fixed variables (-f) overrules a bound FX of the MPS file without complaint when the bounds are [0, 0] or [1, 1]: such a column is a binary variable, the check of the initial values (verifier.h:346-383) looks only for 0 or 1, and the answer that breaks the bound is reported as feasible (C83_fixed_overrules_refuted). For all other columns a value outside the bounds stops the run (C83_values_checked).
* A solution file whose objective does not fit an int cannot be given back with -i without undefined behaviour: read_names_and_values (auxiliary_file_reader.h:36-52) converts the number of every line with two items to int, also that of the line "=obj= ..." (C84_large_objective_refuted). On common machines the conversion yields some int that is then ignored, unless a column is called "=obj=".
* The dual bound of the linear relaxation is wrong for some models with columns without upper bound when the relaxation is stopped early: it is accepted if the dual violation divided by 1 + the norm of the objective is below the tolerance (pdlp_controller.h:190-206, default 1e-5), so with one large coefficient in the objective a violation of 1 on an unbounded variable passes. The reported bound and objective can then both be 0 although -1000 is attainable (C85_unbounded_refuted).
* With the default options and the command line "demo.mps" a file without a solution is reported as solved if a row is `2 x = 1` (`C86_equality_refuted`) or `z <= -200000` (`C86_large_refuted`).
* The gap by which PDLP decides about restarts tests the upper bound of a multiplier twice (pdlp_core_state_manager.h:217, 222), so rows that are violated never contribute: the gap is 0 at points that violate a row (`C87_gap_refuted`).
* The thresholds for restarts of PDLP are applied to `previous_outer_loop_normalized_gap` (pdlp_core_state_manager.h:410-428). After setup_new_inner_loop (lines 121-147) this is the gap of the restart before the last one, and DBL_MAX after the first restart: the second restart always comes at the first check it may come at (`C87_second`).
* With default options the stand-alone solver reports "minimize -x - y, x + y + z >= 1, all binary" with the objective -1 and the dual bound -1, as if it were optimal; the optimum is -2 (`C88_cover_refuted`). The cause is that of `C49_covering_refuted`.
* The verifier accepts a binary variable with bounds [1,1] at 0 (`C33_binary_bounds_refuted`) and leaves the selected pointer null when the selected variable is fixed (`C33_fixed_selected_refuted`, `C36_fixed_selected_refuted`).

Moves
* Flips, soft selection, two-flips and chains do not look at bounds (`C34_zero_bounds_refuted`); constant sum, difference and ratio moves have sign and truncation errors, the trinomial move ignores the constant (`C35_*_refuted`).
* The Lagrangian penalty of a move counts the new values of its variables and not their changes, so moves of different variables are compared wrongly (`C42_lagrangian_refuted`).
* The step-size adjuster overflows for ranges of 2^30 and more (`C37_wide_range_refuted`).

Search
* The optimality test by the gap mixes signs when maximizing (`C39_gap_maximization_refuted`); without screening an empty neighbourhood is reported optimal (`C39_screening_off_refuted`); intensive screening drops useful variables (`C40_intensive_refuted`).
* Variables never altered count as altered at iteration -1000 (`C43_never_altered_refuted`).
* Local search may combine moves of the same unconstrained variable or of one selection, and may stop at a violated point although a feasible neighbour was evaluated (`C53_*_refuted`).
* The Lagrangian bound is wrong when maximizing (`C57_maximization_refuted`); the bound reported is the last, not the best (`C57_best_refuted`); a variable-free model divides by zero.
* Tightening penalty coefficients computes 0/0 when no violated constraint was ever counted (`C59_not_a_number_refuted`), and solve() reaches that state (`C58_not_a_number_refuted`).
* After online bounding the import of a start outside the new bounds throws out of solve().

Files
* MPS: RANGES with the wrong sign on equalities (`C44_ranges_refuted`); several format deviations (`C44_format_refuted`): objective RHS ignored, later N rows override, LO/UP truncated, unknown RHS rows accepted, one-item ROWS lines undefined, 4-item FR/BV/MI/PL ignored.
* MPS writer: six digits only, unused variables unreadable, free lower bounds and objective constant lost (`C54_unwritable_refuted`).
* Default labels of more than nine elements contain blanks and cannot be used in files (`C45_default_names_refuted`); fixing and then initialising the same variable throws (`C45_fixed_then_initial_refuted`); equal array names overwrite each other (`C55_same_proxy_name_refuted`, `C56_same_name_refuted`); a large objective makes the solution file unreadable (`C55_large_objective_refuted`).
* Arrays of expressions: assigning a computed expression to an element replaces its multi-index by 0, so that sums over slices are wrong or undefined (`C67_slice_refuted`, expression.h:112-120); assigning one element to another makes them share their name (`C67_copy_refuted`).
* JSON: strings and keys with punctuation are altered (`C65_punctuation_refuted`), quotation marks are not escaped (`C65_quotation_refuted`), integers beyond int and subnormal doubles cannot be read back (`C65_integer_refuted`, `C65_subnormal_refuted`), a long long in an array throws on writing (`C65_long_long_refuted`), booleans in arrays come back as strings, doubles keep seven digits. A blank file is undefined behaviour (`C65_undefined`), `{ ] : 1, "b": [ }` makes the reader loop forever (`C65_terminates_refuted`), files with \r\n line ends are silently misread (`C65_crlf_refuted`), and parsing printed text directly fails because an end of line is no separator (`C65_parse_text_refuted`).
* JSON files of solutions: default names such as x[0] are altered on reading (`C68_names_refuted`); as arrays, doubles keep six decimals only (`C68_decimals_refuted`, std::to_string).
* Threads: without the automatic choice, the number of threads asked for is replaced by the maximum after the first round (`C69_wanted_refuted`); an unchecked decay factor can end in the use of a null pointer (`C69_decay_refuted`).
* Search tree: a solution offered twice can shrink the archive under the tree, which is then read past its end (`C70_repeated_refuted`; the solver itself offers strictly improving solutions); when maximizing, augmented objectives are exported with the wrong sign and the locally optimal solutions shown are the worse ones (`C70_maximize_refuted`).
* Command line: an option without its value reads past the arguments (`C71_every_command_line`); a misspelt option becomes the name of the MPS file (`C71_unknown_option_refuted`); `-m` fixes at 0 what the MPS file fixes elsewhere, or frees it (`C71_mutable_overrules_refuted`); with `-i` every fixed variable must be in the file with its value unless that is 0 (`C71_agreement_needed`); a name without extension is cut at a dot of its directory (`C71_name_refuted`).
* The set-up reads constraint types from before the changes made since (implicit equalities before redundant set constraints; fixed variables before duplicates); C73 shows that this does no harm. In a model with 100 groups of constraints, implicit equalities or dependent variables make the set-up throw, since they are added as a new group (create_constraints; not in the model).
* Elimination of dependent variables (on by default): constraints are not set up again after the substitution, so the largest coefficient and "only binary variables" they remember are outdated; a feasible solution the search has visited is then not recorded and an infeasible answer is reported (`C74_stale_refuted`, constraint.h:226-300, dependent_variable_extractor.h:341-385). Without presolve a binary variable with the bounds [1, 1] takes the value 0 and is reported feasible (`C74_bounds_refuted`, variable.h:421-429). The penalty is exact only if the initial coefficient exceeds the range of the objective by 1 (`C75_small_refuted`).
* The two wrong dual bounds of C57 and C62 reach the user: `C76_maximization_refuted` (Lagrange dual when maximizing), `C76_constant_refuted` (constant of the objective left out of the linear relaxation).
* A variable of a selection constraint that the user fixes at 1, with the presolve reductions switched off: the selection neighbourhood swaps it with another variable, the fixed one stays at 1, two variables of the selection are at 1, and the next import of a solution throws (`C77_fixed_selection_refuted`; selection_move_generator.h:83-92 does not look whether the selected variable is fixed).
* tabu_search.move_preserve_rate above 1 (not checked anywhere): curtailing sets the number of moves above the number of stored moves and the loop reads behind the end of the vector (tabu_search_core.h:476-480, 939-975; `C77_curtail_refuted`).
* Flippable pairs read from a file are not checked to be binary: a two-flip move writes 0 and 1 to integer variables without a look at their bounds (two_flip_move_generator.h; `flippable_pairs` is asked in C77).
* Flippable pairs: constraints removed by the presolve are counted as common (`C72_disabled_refuted`); default names with blanks make the file unreadable (`C72_blank_names_refuted`).
* Options: a stray semicolon in the key of number_of_threads_move_update makes a file unable to set it (`C66_round_trip_refuted`, parallel_option.h:167-169); enumerations accept any integer, after which to_json throws (`C66_enumerator_refuted`), and ignore values of other types (`C66_ignored_refuted`).

## 6. Trusted base

* Coq 8.16.1's kernel (and `coqchk`, run over the final build).
* `Print Assumptions` under each theorem prints "Closed under the global context"
  for every theorem in section 4.  No axiom of the standard library is used by a theorem.
  The libraries loaded contain the declarations of `Coq.ssr.ssrunder.Under_rel`
  (`Under_rel`, `Under_rel_from_rel`, `Under_relE`, `under_rel_done`, `Over_rel`,
  `over_rel`, `over_rel_done`), which `coqchk` lists because they are in a sealed
  module of the standard library; no theorem here depends on them.
* The transcription from C++ to Gallina: it was made by reading, guided by the cited
  lines.  Nothing links the two mechanically.
* The abstraction of numbers in section 1.

Modelled parts of the code, by file of the model:

| model | code |
|---|---|
| ExprModel, ConstraintModel, VariableModel, TypeModel | model_component/expression.h, expression_binary_operator.h, constraint.h, constraint_binary_operator.h, variable.h; multi_array/abstract_multi_array.h (indices) |
| EvalModel, ScreenModel | model/model.h: update, evaluate and its fast forms, is_feasible, improvability, naive dual bound |
| SolutionModel | solution/incumbent_holder.h, solution_archive.h, solution_score.h |
| HashMapModel, ContainerModel, UnionFindModel, BinMatModel | utility/fixed_size_hash_map.h, fixed_size_queue.h, bidirectional_map.h, union_find.h, graph/*.h, binary_matrix.h |
| PresolveModel, DuplicateModel, SelectionModel | preprocess/problem_size_reducer.h, selection_extractor.h, verifier.h; gf2_solver.h is in BinMatModel |
| SparseModel | utility/sparse/*: vectors, diagonals, matrices, scaling, products |
| LpModel | model.h: export_lp_instance; linear_programming/linear_programming.h; solver/pdlp/core/*, solver/pdlp/controller/* (restart decisions and primal weights are inputs) |
| DependentModel | preprocess/dependent_variable_extractor.h; model.h: the loop of setup |
| PrepareModel | model.h: setup up to the verified initial values |
| OfferModel | model.h: setup_neighborhood; neighborhood.h: update_moves joined to the searches and solver.h: solve |
| ParityModel | model.h: setup, the GF(2) step; solver.h: solve with it and with the neighbourhood made before it |
| RelaxModel | solver.h: run_pdlp, run_lagrange_dual with the controllers' skip conditions; the lists of variables and constraints that are exported |
| WholeModel | solver.h: preprocess, solve as the chain of PrepareModel, the initial penalties and dual bound, and SolverModel |
| OnlineModel | tabu_search_controller.h: online bounding |
| MoveModel | neighborhood/*: all generators, flags, move.h |
| StepModel, TabuModel, LoopModel | solver/integer_step_size_adjuster.h, memory.h, tabu_search/core/* |
| LocalModel, LagrangeModel | solver/local_search/core/*, solver/lagrange_dual/* |
| ControllerModel, SolverModel | solver/tabu_search/controller/*, solver.h |
| TextModel, MpsModel, NamesModel | mps/mps.h, model.h (reading and writing MPS), helper/auxiliary_file_reader.h, solution/named_solution.h, names |
| ArrayModel | model_component/variable_proxy.h, expression_proxy.h (access, sums, products, assignment), multi_array/abstract_multi_array_element.h |
| JsonModel | utility/json/json.h |
| ReportModel | multi_array/value_proxy.h, solution/named_solution.h (JSON files) |
| LearnerModel | utility/ucb1/*.h; tabu_search_controller_state_manager.h: parallelization |
| SearchTreeModel | solver/search_tree.h, abstract_solver_controller.h (archive of incumbents), utility/graph/*.h, unordered_map_utility.h: distance_l0 |
| CommandModel | standalone/mps_solver.h: initialize, parse_command_line_arguments, setup; utility/string_utility.h: base_name |
| FileModel | standalone/mps_solver.h: setup joined to solve: from the command line to the answer of the run |
| IncumbentModel | standalone/mps_solver.h: solve, writing incumbent.sol |
| WrittenModel | solver.h: postprocess; model.h: export_named_solution; mps_solver.h: solve, writing incumbent.json |
| ArchiveModel | tabu_search_core.h, local_search_core.h, lagrange_dual_core.h: run, keeping feasible solutions; abstract_solver_controller.h: update_feasible_solution_archive; model.h: export_sparse_solution; solver.h: solve, the archive |
| FeasibleModel | solution_archive.h: write_solutions_json; mps_solver.h: solve, the file of feasible solutions |
| InstanceModel | model.h: write_json; mps_solver.h: solve, the file of the instance |
| TargetModel | solver.h: setup_target_objective |
| SwitchModel | model.h: setup_neighborhood; solver.h: enable_default_neighborhood; tabu_search_controller_state_manager.h: enable/disable_special_neighborhood_moves and the lines of update that call them; neighborhood.h: update_moves, the availability of the special moves |
| ChainOrderModel | chain_move_generator.h: sort_moves, deduplicate_moves, reduce_moves; move.h: operator==, setup_hash |
| OverlapModel | move.h: setup_overlap_rate without pow; unordered_set_utility.h: update_union_set, update_intersection_set, from_vector |
| RestartModel | solver/pdlp/core/*: the restarts of the relaxation solver |
| FlipModel | preprocess/flippable_variable_pair_extractor.h, utility/unordered_set_utility.h: intersection_set, union_set; model.h: setup_variable_related_constraints |
| OptionModel | option/*.h, option/enumerate/*.h (the table of parameters was extracted from these files by a script) |

Not modelled: status files (solver/status.h), the loggers and console output, what
standalone/mps_solver.h does after the set-up other than running the solver and writing
incumbent.sol, incumbent.json, feasible.json and the JSON file of the instance (status.json, and what incumbent.json says about the rows, are left out), q-learning (not used by the solver), time
keeping.

## 7. How to read seeded/LOG.jsonl

Each line is one edit of the model in a scratch copy. A script rebuilds the files that depend on it, replaces each failing proof by `Admitted` in the scratch copy, goes on, and asks `Print Assumptions` which property theorems now rest on such a proof.

* `theorems_failed` therefore lists the theorems whose proofs no longer go through. It does not show that each of them is false of the edited program: a theorem is also listed if a lemma it uses has failed for another reason, or if only the proof script no longer fits. The list is an upper bound on what an edit breaks.
* Edits marked as harmless or equivalent show this: their theorems are listed although the claim still holds. They say nothing about the strength of the theorems.
* An edit is known to be wrong on a concrete case where an `Example` fails by computation, or where the note gives the case. The log does not record this for most lines.
* A file in the scratch copy whose statements no longer typecheck, or which runs into the time limit, is counted as failed as well.
* An empty `theorems_failed` is explained in the note of the line.
