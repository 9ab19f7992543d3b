(** C66: the default value of every parameter, in the form in which a file gives it:
    read off the constants in option/*_option.h, independently of OptionModel. *)
From Coq Require Import List ZArith QArith Bool String.
From Verif Require Import JsonModel.
Import ListNotations.
Local Open Scope Z_scope.

Definition default_values : list (string * list (string * json)) := ([
("general", [
  ("iteration_max", JInt KInt 100);
  ("time_max", JReal (120 # 1));
  ("time_offset", JReal (0 # 1));
  ("target_objective_value", JReal (- (10 ^ 100) # 1));
  ("seed", JInt KInt 1);
  ("is_enabled_fast_evaluation", JBool true)]);
("penalty", [
  ("penalty_coefficient_relaxing_rate", JReal (9 # 10));
  ("penalty_coefficient_tightening_rate", JReal (1 # 1));
  ("penalty_coefficient_updating_balance", JReal (0 # 1));
  ("initial_penalty_coefficient", JReal (10000000 # 1));
  ("penalty_coefficient_relaxing_rate_min", JReal (3 # 10));
  ("penalty_coefficient_relaxing_rate_max", JReal (9999 # 10000));
  ("penalty_coefficient_relaxing_rate_increase_rate", JReal (1 # 10));
  ("penalty_coefficient_relaxing_rate_decrease_rate", JReal (9 # 10));
  ("inner_stagnation_threshold", JInt KInt 20);
  ("outer_stagnation_threshold", JInt KInt 80);
  ("is_enabled_inner_stagnation_breaker", JBool true);
  ("is_enabled_outer_stagnation_breaker", JBool true);
  ("is_enabled_group_penalty_coefficient", JBool false);
  ("is_enabled_shrink_penalty_coefficient", JBool true)]);
("parallel", [
  ("is_enabled_move_update_parallelization", JBool true);
  ("is_enabled_move_evaluation_parallelization", JBool true);
  ("is_enabled_automatic_move_update_parallelization", JBool true);
  ("is_enabled_automatic_move_evaluation_parallelization", JBool true);
  ("decay_factor_move_update", JReal (1 # 2));
  ("decay_factor_move_evaluation", JReal (1 # 2));
  ("number_of_threads_move_update", JInt KInt (-1));
  ("number_of_threads_move_evaluation", JInt KInt (-1))]);
("preprocess", [
  ("is_enabled_presolve", JBool true);
  ("is_enabled_remove_duplicated_constraints", JBool true);
  ("is_enabled_remove_redundant_set_variables", JBool true);
  ("is_enabled_remove_redundant_set_constraints", JBool true);
  ("is_enabled_extract_implicit_equality_constraints", JBool true);
  ("is_enabled_online_bounding", JBool true);
  ("is_enabled_initial_value_correction", JBool true);
  ("is_enabled_extract_dependent_exclusive_or", JBool true);
  ("is_enabled_extract_dependent_exclusive_nor", JBool false);
  ("is_enabled_extract_dependent_inverted_integers", JBool true);
  ("is_enabled_extract_dependent_balanced_integers", JBool false);
  ("is_enabled_extract_dependent_constant_sum_integers", JBool true);
  ("is_enabled_extract_dependent_constant_difference_integers", JBool true);
  ("is_enabled_extract_dependent_constant_ratio_integers", JBool true);
  ("is_enabled_extract_dependent_intermediate", JBool true)]);
("restart", [
  ("restart_mode", JStr "Smart")]);
("neighborhood", [
  ("is_enabled_binary_move", JBool true);
  ("is_enabled_integer_move", JBool true);
  ("is_enabled_exclusive_or_move", JBool true);
  ("is_enabled_exclusive_nor_move", JBool true);
  ("is_enabled_inverted_integers_move", JBool true);
  ("is_enabled_balanced_integers_move", JBool true);
  ("is_enabled_constant_sum_integers_move", JBool true);
  ("is_enabled_constant_difference_integers_move", JBool true);
  ("is_enabled_constant_ratio_integers_move", JBool true);
  ("is_enabled_aggregation_move", JBool true);
  ("is_enabled_precedence_move", JBool false);
  ("is_enabled_variable_bound_move", JBool false);
  ("is_enabled_trinomial_exclusive_nor_move", JBool false);
  ("is_enabled_soft_selection_move", JBool false);
  ("is_enabled_chain_move", JBool true);
  ("is_enabled_two_flip_move", JBool false);
  ("is_enabled_user_defined_move", JBool false);
  ("chain_move_capacity", JInt KInt 100000);
  ("chain_move_reduce_mode", JStr "OverlapRate");
  ("chain_move_overlap_rate_threshold", JReal (1 # 5));
  ("selection_mode", JStr "Independent");
  ("improvability_screening_mode", JStr "Automatic");
  ("is_enabled_integer_step_size_adjuster", JBool false)]);
("output", [
  ("verbose", JStr "Off");
  ("is_enabled_write_trend", JBool false);
  ("is_enabled_store_feasible_solutions", JBool false);
  ("feasible_solutions_capacity", JInt KInt 1000);
  ("is_enabled_print_search_behavior_summary", JBool true);
  ("is_enabled_print_tree_summary", JBool true);
  ("is_enabled_print_parallelization_controller_summary", JBool true);
  ("is_enabled_print_variable_update_summary", JBool true);
  ("is_enabled_print_constraint_violation_summary", JBool true);
  ("is_enabled_print_violation_and_penalty_summary", JBool true);
  ("is_enabled_print_tabu_search_parameter", JBool true)]);
("pdlp", [
  ("is_enabled", JBool false);
  ("iteration_max", JInt KInt 100000);
  ("time_max", JReal (120 # 1));
  ("time_offset", JReal (0 # 1));
  ("tolerance", JReal (1 # 100000));
  ("step_size_extend_exponent", JReal (-3 # 5));
  ("step_size_reduce_exponent", JReal (-3 # 10));
  ("restart_threshold_sufficient", JReal (1 # 10));
  ("restart_threshold_necessary", JReal (9 # 10));
  ("restart_threshold_artificial", JReal (1 # 2));
  ("restart_check_interval", JInt KInt 10);
  ("convergence_check_interval", JInt KInt 10);
  ("counts_of_ruiz_scaling", JInt KInt 10);
  ("is_enabled_pock_chambolle_scaling", JBool true);
  ("log_interval", JInt KInt 10)]);
("lagrange_dual", [
  ("is_enabled", JBool false);
  ("iteration_max", JInt KInt 10000);
  ("time_max", JReal (120 # 1));
  ("time_offset", JReal (0 # 1));
  ("step_size_extend_rate", JReal (21 # 20));
  ("step_size_reduce_rate", JReal (19 # 20));
  ("tolerance", JReal (1 # 100000));
  ("queue_size", JInt KInt 100);
  ("log_interval", JInt KInt 10)]);
("local_search", [
  ("is_enabled", JBool true);
  ("iteration_max", JInt KInt 10000);
  ("time_max", JReal (120 # 1));
  ("time_offset", JReal (0 # 1));
  ("log_interval", JInt KInt 10);
  ("seed", JInt KInt 1)]);
("tabu_search", [
  ("iteration_max", JInt KInt 200);
  ("time_max", JReal (120 # 1));
  ("time_offset", JReal (0 # 1));
  ("log_interval", JInt KInt 10);
  ("initial_tabu_tenure", JInt KInt 10);
  ("tabu_tenure_randomize_rate", JReal (3 # 10));
  ("initial_modification_fixed_rate", JReal (1 # 2));
  ("initial_modification_randomize_rate", JReal (1 # 2));
  ("tabu_mode", JStr "All");
  ("move_preserve_rate", JReal (1 # 1));
  ("frequency_penalty_coefficient", JReal (1 # 10000));
  ("lagrangian_penalty_coefficient", JReal (1 # 1));
  ("pruning_rate_threshold", JReal (1 # 1));
  ("is_enabled_shuffle", JBool true);
  ("is_enabled_move_curtail", JBool false);
  ("is_enabled_automatic_break", JBool true);
  ("is_enabled_automatic_tabu_tenure_adjustment", JBool true);
  ("is_enabled_automatic_iteration_adjustment", JBool true);
  ("is_enabled_initial_modification", JBool true);
  ("intensity_increase_count_threshold", JInt KInt 10);
  ("intensity_decrease_count_threshold", JInt KInt 10);
  ("iteration_increase_rate", JReal (3 # 2));
  ("iteration_decrease_rate", JReal (9 # 10));
  ("ignore_tabu_if_global_incumbent", JBool true);
  ("number_of_initial_modification", JInt KInt 0);
  ("seed", JInt KInt 1)])]%string).

(** Equal numbers, whatever the fractions are that denote them. *)
Definition same_json (a b : json) : Prop :=
  match a, b with JReal q, JReal r => (q == r)%Q | _, _ => a = b end.
