(** The stand-alone solver from the command line to the answer: MPSSolver::setup
    (CommandModel), then MPSSolver::solve (standalone/mps_solver.h:293-305), which
    runs IPSolver on the model and the options.
    Left out: verify_problem (C55), the files written afterwards (ReportModel), and the
    options of the searches, which are arguments here (moves, penalties, limits). *)
From Coq Require Import List NArith ZArith QArith Bool String.
From Verif Require Import ExprModel ConstraintModel VariableModel TypeModel PresolveModel DependentModel SelectionModel PrepareModel
  TextModel MpsModel NamesModel JsonModel OptionModel CommandModel WholeModel RelaxModel OfferModel ParityModel.
From Verif Require SolverModel.
Import ListNotations.
Local Open Scope nat_scope.

(** The options Model::setup reads (model/model.h:674-790). *)
Definition flag (o : opts) (section name : string) : bool := match param o section name with Some (VBool b) => b | _ => false end.
Definition preprocess_flag (o : opts) (name : string) : bool := flag o "preprocess" name.
(** is_enabled_extract_dependent_... by type (preprocess_option.h:286-313). *)
Definition dependent_flag (o : opts) (t : ctype) : bool :=
  match t with
  | ExclusiveOR => preprocess_flag o "is_enabled_extract_dependent_exclusive_or"
  | ExclusiveNOR => preprocess_flag o "is_enabled_extract_dependent_exclusive_nor"
  | InvertedIntegers => preprocess_flag o "is_enabled_extract_dependent_inverted_integers"
  | BalancedIntegers => preprocess_flag o "is_enabled_extract_dependent_balanced_integers"
  | ConstantSumIntegers => preprocess_flag o "is_enabled_extract_dependent_constant_sum_integers"
  | ConstantDifferenceIntegers => preprocess_flag o "is_enabled_extract_dependent_constant_difference_integers"
  | ConstantRatioIntegers => preprocess_flag o "is_enabled_extract_dependent_constant_ratio_integers"
  | Intermediate => preprocess_flag o "is_enabled_extract_dependent_intermediate"
  | _ => false
  end.
(** option/enumerate/selection_mode.h: the modes in the order of the enumeration. *)
Definition mode_of (o : opts) : selection_mode :=
  match param o "neighborhood" "selection_mode" with
  | Some (VEnum z) => nth (Z.to_nat z) [Off; Defined; Smaller; Larger; Independent; UserDefined] Off
  | _ => Off
  end.
Definition switches_of (o : opts) : switches := mkSw
  (preprocess_flag o "is_enabled_presolve")
  (preprocess_flag o "is_enabled_extract_implicit_equality_constraints")
  (preprocess_flag o "is_enabled_remove_redundant_set_constraints")
  (preprocess_flag o "is_enabled_remove_redundant_set_variables")
  (preprocess_flag o "is_enabled_remove_duplicated_constraints")
  (dependent_flag o) (mode_of o)
  (preprocess_flag o "is_enabled_initial_value_correction").

(** The model that import_mps (model.h:3459-3574) and the files leave: variables and
    constraints by position; nothing is defined by an expression.  Positions beyond
    the last hold a fixed variable that nothing refers to. *)
Definition no_variable : var := mkVar 0 0 0 true true VInteger false false.
Definition entered_vars (l : list (string * var)) : vars := fun k => match nth_error l k with Some (_, v) => v | None => no_variable end.
Definition enter (i : instance) : dstate :=
  mkD (List.length (elements (in_vars i))) (entered_vars (elements (in_vars i))) (map snd (in_cons i)) (in_objective i) [] (fun _ => None).
(** is_user_defined_selection of the constraints. *)
Definition with_user (su : surroundings) (sels : list bool) : surroundings :=
  mkSu (su_addr su) (su_caddr su) (su_name su) (su_cname su) (fun k => nth k sels false) (su_sens su).

(** MPSSolver(argc, argv) and solve() (mps_solver.h:112-305).  import_mps minimizes, so
    the objective is defined (model.h:3566).  [None] inside: only the usage is
    printed. *)
Definition run_command (fuel : nat) (order : list nat -> list nat) (su : surroundings) (on : ctype -> bool) (penalty : Q) (shrink user : bool)
  (nrm : list Q -> Q) (red ext : nat -> Q) (sq : Q -> Q) (lg : Z -> Q) (root : Q -> Q) (x : relaxations) (a : ninputs)
  (fs : files) (args : list string) : option (outcome (option (SolverModel.outcome (SolverModel.answer * SolverModel.run)))) :=
  match CommandModel.setup fuel fs args with
  | None => None
  | Some Throw => Some Throw
  | Some UB => Some UB
  | Some (Ok Usage) => Some (Ok None)
  | Some (Ok (Ready i)) =>
      match p_solve_model fuel order (switches_of (in_options i)) (with_user su (in_selections i)) on (in_pairs i) (mkWo penalty shrink true user)
              nrm red ext sq lg root true x a (enter i) with
      | None => None
      | Some r => Some (bind r (fun out => Ok (Some out)))
      end
  end.
