(** Options: the parameters of a run, their default values, their JSON form and reading
    them from a file (option/option.h, option/*_option.h, option/read_json.h,
    option/enumerate/*.h).  The eleven structs are one table [schema]: a section per
    struct, a field per member, in the order of declaration, which is also the order in
    which setup reads and to_json writes them. *)
From Coq Require Import List ZArith QArith Bool String Ascii.
From Verif Require Import PresolveModel JsonModel.
Import ListNotations.
Local Open Scope Z_scope.

Inductive kind := FBool | FInt | FReal | FEnum (names : list string).
(** The value of a member.  [VEnum z]: the enumerator with the underlying int z.
    [VSpecial]: a double that is not a finite decimal (see [JSpecial]). *)
Inductive oval := VBool (b : bool) | VInt (z : Z) | VReal (q : Q) | VSpecial (t : string) | VEnum (z : Z).
(** [f_read], [f_write]: the keys used by setup and by to_json. *)
Record field := mkField { f_name : string; f_kind : kind; f_default : oval; f_read : string; f_write : string }.
Definition member (name : string) (k : kind) (d : oval) : field := mkField name k d name name.

(** option/enumerate/improvability_screening_mode.h: the names in the order of the enumeration, used by
    ImprovabilityScreeningModeMap and ImprovabilityScreeningModeInverseMap. *)
Definition improvability_screening_mode_names : list string := ["Off"; "Soft"; "Aggressive"; "Intensive"; "Automatic"]%string.
(** option/enumerate/verbose.h: the names in the order of the enumeration, used by
    VerboseMap and VerboseInverseMap. *)
Definition verbose_names : list string := ["Off"; "Warning"; "Outer"; "Inner"; "Full"; "Debug"]%string.
(** option/enumerate/selection_mode.h: the names in the order of the enumeration, used by
    SelectionModeMap and SelectionModeInverseMap. *)
Definition selection_mode_names : list string := ["Off"; "Defined"; "Smaller"; "Larger"; "Independent"; "UserDefined"]%string.
(** option/enumerate/tabu_mode.h: the names in the order of the enumeration, used by
    TabuModeMap and TabuModeInverseMap. *)
Definition tabu_mode_names : list string := ["All"; "Any"]%string.
(** option/enumerate/restart_mode.h: the names in the order of the enumeration, used by
    RestartModeMap and RestartModeInverseMap. *)
Definition restart_mode_names : list string := ["Simple"; "Smart"]%string.
(** option/enumerate/chain_move_reduce_mode.h: the names in the order of the enumeration, used by
    ChainMoveReduceModeMap and ChainMoveReduceModeInverseMap. *)
Definition chain_move_reduce_mode_names : list string := ["OverlapRate"; "Shuffle"]%string.
(** option/general_option.h: initialize (line 40), setup (85), to_json (114). *)
Definition general_fields : list field := [
  member "iteration_max" FInt (VInt 100);
  member "time_offset" FReal (VReal (0 # 1));
  member "time_max" FReal (VReal (120 # 1));
  member "target_objective_value" FReal (VReal (- (10 ^ 100) # 1));
  member "seed" FInt (VInt 1);
  member "is_enabled_fast_evaluation" FBool (VBool true)]%string.
(** option/penalty_option.h: initialize (line 64), setup (192), to_json (253). *)
Definition penalty_fields : list field := [
  member "penalty_coefficient_relaxing_rate" FReal (VReal (9 # 10));
  member "penalty_coefficient_tightening_rate" FReal (VReal (1 # 1));
  member "penalty_coefficient_updating_balance" FReal (VReal (0 # 1));
  member "initial_penalty_coefficient" FReal (VReal (10000000 # 1));
  member "penalty_coefficient_relaxing_rate_min" FReal (VReal (3 # 10));
  member "penalty_coefficient_relaxing_rate_max" FReal (VReal (9999 # 10000));
  member "penalty_coefficient_relaxing_rate_increase_rate" FReal (VReal (1 # 10));
  member "penalty_coefficient_relaxing_rate_decrease_rate" FReal (VReal (9 # 10));
  member "inner_stagnation_threshold" FInt (VInt 20);
  member "outer_stagnation_threshold" FInt (VInt 80);
  member "is_enabled_inner_stagnation_breaker" FBool (VBool true);
  member "is_enabled_outer_stagnation_breaker" FBool (VBool true);
  member "is_enabled_group_penalty_coefficient" FBool (VBool false);
  member "is_enabled_shrink_penalty_coefficient" FBool (VBool true)]%string.
(** option/parallel_option.h: initialize (line 58), setup (134), to_json (179). *)
Definition parallel_fields : list field := [
  member "is_enabled_move_update_parallelization" FBool (VBool true);
  member "is_enabled_move_evaluation_parallelization" FBool (VBool true);
  member "is_enabled_automatic_move_update_parallelization" FBool (VBool true);
  member "is_enabled_automatic_move_evaluation_parallelization" FBool (VBool true);
  member "decay_factor_move_update" FReal (VReal (1 # 2));
  member "decay_factor_move_evaluation" FReal (VReal (1 # 2));
  mkField "number_of_threads_move_update" FInt (VInt (-1)) "number_of_threads_move_update;" "number_of_threads_move_update";
  member "number_of_threads_move_evaluation" FInt (VInt (-1))]%string.
(** option/preprocess_option.h: initialize (line 74), setup (220), to_json (315). *)
Definition preprocess_fields : list field := [
  member "is_enabled_presolve" FBool (VBool true);
  member "is_enabled_remove_duplicated_constraints" FBool (VBool true);
  member "is_enabled_remove_redundant_set_variables" FBool (VBool true);
  member "is_enabled_remove_redundant_set_constraints" FBool (VBool true);
  member "is_enabled_extract_implicit_equality_constraints" FBool (VBool true);
  member "is_enabled_online_bounding" FBool (VBool true);
  member "is_enabled_initial_value_correction" FBool (VBool true);
  member "is_enabled_extract_dependent_exclusive_or" FBool (VBool true);
  member "is_enabled_extract_dependent_exclusive_nor" FBool (VBool false);
  member "is_enabled_extract_dependent_inverted_integers" FBool (VBool true);
  member "is_enabled_extract_dependent_balanced_integers" FBool (VBool false);
  member "is_enabled_extract_dependent_constant_sum_integers" FBool (VBool true);
  member "is_enabled_extract_dependent_constant_difference_integers" FBool (VBool true);
  member "is_enabled_extract_dependent_constant_ratio_integers" FBool (VBool true);
  member "is_enabled_extract_dependent_intermediate" FBool (VBool true)]%string.
(** option/restart_option.h: initialize (line 31), setup (44), to_json (50). *)
Definition restart_fields : list field := [
  member "restart_mode" (FEnum restart_mode_names) (VEnum 1)]%string.
(** option/neighborhood_option.h: initialize (line 88), setup (260), to_json (357). *)
Definition neighborhood_fields : list field := [
  member "is_enabled_binary_move" FBool (VBool true);
  member "is_enabled_integer_move" FBool (VBool true);
  member "is_enabled_exclusive_or_move" FBool (VBool true);
  member "is_enabled_exclusive_nor_move" FBool (VBool true);
  member "is_enabled_inverted_integers_move" FBool (VBool true);
  member "is_enabled_balanced_integers_move" FBool (VBool true);
  member "is_enabled_constant_sum_integers_move" FBool (VBool true);
  member "is_enabled_constant_difference_integers_move" FBool (VBool true);
  member "is_enabled_constant_ratio_integers_move" FBool (VBool true);
  member "is_enabled_aggregation_move" FBool (VBool true);
  member "is_enabled_precedence_move" FBool (VBool false);
  member "is_enabled_variable_bound_move" FBool (VBool false);
  member "is_enabled_trinomial_exclusive_nor_move" FBool (VBool false);
  member "is_enabled_soft_selection_move" FBool (VBool false);
  member "is_enabled_chain_move" FBool (VBool true);
  member "is_enabled_two_flip_move" FBool (VBool false);
  member "is_enabled_user_defined_move" FBool (VBool false);
  member "chain_move_capacity" FInt (VInt 100000);
  member "chain_move_reduce_mode" (FEnum chain_move_reduce_mode_names) (VEnum 0);
  member "chain_move_overlap_rate_threshold" FReal (VReal (1 # 5));
  member "selection_mode" (FEnum selection_mode_names) (VEnum 4);
  member "improvability_screening_mode" (FEnum improvability_screening_mode_names) (VEnum 4);
  member "is_enabled_integer_step_size_adjuster" FBool (VBool false)]%string.
(** option/output_option.h: initialize (line 65), setup (159), to_json (208). *)
Definition output_fields : list field := [
  member "verbose" (FEnum verbose_names) (VEnum 0);
  member "is_enabled_write_trend" FBool (VBool false);
  member "is_enabled_store_feasible_solutions" FBool (VBool false);
  member "feasible_solutions_capacity" FInt (VInt 1000);
  member "is_enabled_print_search_behavior_summary" FBool (VBool true);
  member "is_enabled_print_tree_summary" FBool (VBool true);
  member "is_enabled_print_parallelization_controller_summary" FBool (VBool true);
  member "is_enabled_print_variable_update_summary" FBool (VBool true);
  member "is_enabled_print_constraint_violation_summary" FBool (VBool true);
  member "is_enabled_print_violation_and_penalty_summary" FBool (VBool true);
  member "is_enabled_print_tabu_search_parameter" FBool (VBool true)]%string.
(** option/pdlp_option.h: initialize (line 58), setup (164), to_json (229). *)
Definition pdlp_fields : list field := [
  member "is_enabled" FBool (VBool false);
  member "iteration_max" FInt (VInt 100000);
  member "time_max" FReal (VReal (120 # 1));
  member "time_offset" FReal (VReal (0 # 1));
  member "tolerance" FReal (VReal (1 # 100000));
  member "step_size_extend_exponent" FReal (VReal (-3 # 5));
  member "step_size_reduce_exponent" FReal (VReal (-3 # 10));
  member "restart_threshold_sufficient" FReal (VReal (1 # 10));
  member "restart_threshold_necessary" FReal (VReal (9 # 10));
  member "restart_threshold_artificial" FReal (VReal (1 # 2));
  member "restart_check_interval" FInt (VInt 10);
  member "convergence_check_interval" FInt (VInt 10);
  member "counts_of_ruiz_scaling" FInt (VInt 10);
  member "is_enabled_pock_chambolle_scaling" FBool (VBool true);
  member "log_interval" FInt (VInt 10)]%string.
(** option/lagrange_dual_option.h: initialize (line 46), setup (109), to_json (150). *)
Definition lagrange_dual_fields : list field := [
  member "is_enabled" FBool (VBool false);
  member "iteration_max" FInt (VInt 10000);
  member "time_max" FReal (VReal (120 # 1));
  member "time_offset" FReal (VReal (0 # 1));
  member "step_size_extend_rate" FReal (VReal (21 # 20));
  member "step_size_reduce_rate" FReal (VReal (19 # 20));
  member "tolerance" FReal (VReal (1 # 100000));
  member "queue_size" FInt (VInt 100);
  member "log_interval" FInt (VInt 10)]%string.
(** option/local_search_option.h: initialize (line 40), setup (83), to_json (112). *)
Definition local_search_fields : list field := [
  member "is_enabled" FBool (VBool true);
  member "iteration_max" FInt (VInt 10000);
  member "time_max" FReal (VReal (120 # 1));
  member "time_offset" FReal (VReal (0 # 1));
  member "log_interval" FInt (VInt 10);
  member "seed" FInt (VInt 1)]%string.
(** option/tabu_search_option.h: initialize (line 83), setup (267), to_json (376). *)
Definition tabu_search_fields : list field := [
  member "iteration_max" FInt (VInt 200);
  member "time_max" FReal (VReal (120 # 1));
  member "time_offset" FReal (VReal (0 # 1));
  member "log_interval" FInt (VInt 10);
  member "initial_tabu_tenure" FInt (VInt 10);
  member "tabu_tenure_randomize_rate" FReal (VReal (3 # 10));
  member "initial_modification_fixed_rate" FReal (VReal (1 # 2));
  member "initial_modification_randomize_rate" FReal (VReal (1 # 2));
  member "tabu_mode" (FEnum tabu_mode_names) (VEnum 0);
  member "move_preserve_rate" FReal (VReal (1 # 1));
  member "frequency_penalty_coefficient" FReal (VReal (1 # 10000));
  member "lagrangian_penalty_coefficient" FReal (VReal (1 # 1));
  member "pruning_rate_threshold" FReal (VReal (1 # 1));
  member "is_enabled_shuffle" FBool (VBool true);
  member "is_enabled_move_curtail" FBool (VBool false);
  member "is_enabled_automatic_break" FBool (VBool true);
  member "is_enabled_automatic_tabu_tenure_adjustment" FBool (VBool true);
  member "is_enabled_automatic_iteration_adjustment" FBool (VBool true);
  member "is_enabled_initial_modification" FBool (VBool true);
  member "intensity_increase_count_threshold" FInt (VInt 10);
  member "intensity_decrease_count_threshold" FInt (VInt 10);
  member "iteration_increase_rate" FReal (VReal (3 # 2));
  member "iteration_decrease_rate" FReal (VReal (9 # 10));
  member "ignore_tabu_if_global_incumbent" FBool (VBool true);
  member "number_of_initial_modification" FInt (VInt 0);
  member "seed" FInt (VInt 1)]%string.
(** option/option.h:58-128, 131-146. *)
Definition schema : list (string * list field) := [("general", general_fields); ("penalty", penalty_fields); ("parallel", parallel_fields); ("preprocess", preprocess_fields); ("restart", restart_fields); ("neighborhood", neighborhood_fields); ("output", output_fields); ("pdlp", pdlp_fields); ("lagrange_dual", lagrange_dual_fields); ("local_search", local_search_fields); ("tabu_search", tabu_search_fields)]%string.

(** An Option: the values of the members of each section. *)
Definition opts := list (list oval).
(** Option::initialize (option.h:52-64). *)
Definition initialize : opts := map (fun s => map f_default (snd s)) schema.
(** The member o.section.name. *)
Fixpoint field_at (fs : list field) (vs : list oval) (name : string) : option oval :=
  match fs, vs with
  | f :: fs', v :: vs' => if String.eqb (f_name f) name then Some v else field_at fs' vs' name
  | _, _ => None
  end.
Fixpoint param_in (ss : list (string * list field)) (o : opts) (section name : string) : option oval :=
  match ss, o with
  | (s, fs) :: ss', vs :: o' => if String.eqb s section then field_at fs vs name else param_in ss' o' section name
  | _, _ => None
  end.
Definition param (o : opts) (section name : string) : option oval := param_in schema o section name.

Fixpoint index_from (s : string) (names : list string) (i : Z) : option Z :=
  match names with [] => None | n :: tl => if String.eqb n s then Some i else index_from s tl (i + 1) end.
(** read_json (read_json.h:11-174): of a double (11-22), of an enumeration (25-161), of
    anything else (164-171).  [v]: the value found under the key; [old]: the default. *)
Definition read_value (k : kind) (old : oval) (v : json) : outcome oval :=
  match k with
  | FReal => match v with
             | JInt KInt z => Ok (VReal (inject_Z z)) | JReal q => Ok (VReal q) | JSpecial t => Ok (VSpecial t)
             | _ => Throw
             end
  | FEnum names => match v with
                   | JInt KInt z => Ok (VEnum z)
                   | JStr s => match index_from s names 0 with Some i => Ok (VEnum i) | None => Throw end
                   | _ => Ok old
                   end
  | FBool => match v with JBool b => Ok (VBool b) | _ => Throw end
  | FInt => match v with JInt KInt z => Ok (VInt z) | _ => Throw end
  end.
Fixpoint traverse {A B} (g : A -> outcome B) (l : list A) : outcome (list B) :=
  match l with [] => Ok [] | a :: tl => bind (g a) (fun b => bind (traverse g tl) (fun bs => Ok (b :: bs))) end.
(** setup of a section: initialize, then read_json for each member. *)
Definition setup_section (obj : list (string * json)) (fs : list field) : outcome (list oval) :=
  traverse (fun f => match last_with (f_read f) obj with None => Ok (f_default f) | Some v => read_value (f_kind f) (f_default f) v end) fs.
(** Option::setup (option.h:87-165) after reading the file: a section that is absent
    keeps its defaults, one that is not an object throws bad_any_cast. *)
Definition setup_object (obj : list (string * json)) : outcome opts :=
  traverse (fun s => match last_with (fst s) obj with
                     | None => Ok (map f_default (snd s))
                     | Some (JObj o) => setup_section o (snd s)
                     | Some _ => Throw
                     end) schema.
Definition setup_file (fuel : nat) (file : string) : option (outcome opts) :=
  match read_json_object fuel file with
  | Some (Ok obj) => Some (setup_object obj)
  | Some Throw => Some Throw | Some UB => Some UB | None => None
  end.

(** to_json of a member: enumerations by their name, looked up with at(). *)
Definition value_json (k : kind) (v : oval) : outcome json :=
  match v with
  | VBool b => Ok (JBool b)
  | VInt z => Ok (JInt KInt z)
  | VReal q => Ok (JReal q)
  | VSpecial t => Ok (JSpecial t)
  | VEnum z => match k with
               | FEnum names => if z <? 0 then Throw else match nth_error names (Z.to_nat z) with Some s => Ok (JStr s) | None => Throw end
               | _ => Throw
               end
  end.
Definition section_json (fs : list field) (vs : list oval) : outcome (list (string * json)) :=
  traverse (fun fv => bind (value_json (f_kind (fst fv)) (snd fv)) (fun j => Ok (f_write (fst fv), j))) (combine fs vs).
(** Option::to_json (option.h:168-183). *)
Definition to_json (o : opts) : outcome (list (string * json)) :=
  traverse (fun sv => bind (section_json (snd (fst sv)) (snd sv)) (fun obj => Ok (fst (fst sv), JObj obj))) (combine schema o).
