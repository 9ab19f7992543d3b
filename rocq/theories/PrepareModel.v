(** Model of Model::setup (model/model.h:644-857) up to the verified initial
    values: the phases modelled in PresolveModel, DuplicateModel, DependentModel
    and SelectionModel in the order and under the conditions in which setup runs
    them.
    setup_structure (859-868) is not a step here: each phase below computes what
    it reads from it (types, relations, mutable terms) from the state in which
    setup_structure ran last.
    Left out: verify_problem and the unique names (C55), the neighbourhoods
    (775, C39), the GF(2) solver (796-810), which runs after the phases
    here (ParityModel), the quantities derived afterwards (812-856), and the exception when a
    new group of constraints would be the 101st (create_constraints). *)
From Coq Require Import List NArith ZArith QArith Bool.
From Verif Require Import ExprModel ConstraintModel VariableModel TypeModel PresolveModel DuplicateModel DependentModel SelectionModel.
Import ListNotations.
Local Open Scope nat_scope.

(** The switches setup reads: option/preprocess_option.h and
    neighborhood.selection_mode. *)
Record switches := mkSw {
  sw_presolve : bool;                 (* is_enabled_presolve *)
  sw_implicit : bool;                 (* is_enabled_extract_implicit_equality_constraints *)
  sw_set_cons : bool;                 (* is_enabled_remove_redundant_set_constraints *)
  sw_set_vars : bool;                 (* is_enabled_remove_redundant_set_variables *)
  sw_duplicates : bool;               (* is_enabled_remove_duplicated_constraints *)
  sw_dependent : ctype -> bool;       (* is_enabled_extract_dependent_... *)
  sw_mode : selection_mode;           (* neighborhood.selection_mode *)
  sw_correct : bool }.                (* is_enabled_initial_value_correction *)

(** What the phases see of the outside: addresses, names (as ranks), the
    constraints the user flagged as selections, and the constraint sensitivities
    the verifier adds up, in whatever order. *)
Record surroundings := mkSu {
  su_addr : nat -> N;
  su_caddr : nat -> N;
  su_name : nat -> nat;
  su_cname : nat -> nat;
  su_user : nat -> bool;
  su_sens : list constr -> nat -> list (nat * Q) }.

(** The types extract asks the option for (dependent_variable_extractor.h:40-300)
    and is_enabled_extract_dependent (preprocess_option.h:286-313), which setup
    tests (698). *)
Definition extracted_types : list ctype :=
  [ExclusiveOR; ExclusiveNOR; InvertedIntegers; BalancedIntegers; ConstantSumIntegers; ConstantDifferenceIntegers;
   ConstantRatioIntegers; Intermediate].
Definition wants_dependents (sw : switches) : bool := existsb (sw_dependent sw) extracted_types.

(** 674-691.  Both extract_implicit_equality_constraints and
    remove_redundant_set_constraints read the types of the setup_structure at 659,
    so the second does not see the equations the first has added. *)
Definition prepare_reduce (fuel : nat) (sw : switches) (su : surroundings) (minimize : bool) (s : dstate)
  : option (outcome dstate) :=
  if sw_presolve sw then
    let refs := type_refs (vctx (su_name su) (ds_vars s)) (ds_cons s) in
    let cs1 := if sw_implicit sw then extract_implicit_equalities (su_addr su) (is01_of (ds_vars s)) refs (ds_cons s)
               else ds_cons s in
    let r := if sw_set_cons sw then remove_redundant_set_constraints refs (ds_vars s) cs1 else (ds_vars s, cs1) in
    match reduce_problem_size fuel minimize (coef (ex_sens (ds_obj s))) (mkP (ds_number s) (fst r) (snd r)) with
    | None => None
    | Some Throw => Some Throw
    | Some UB => Some UB
    | Some (Ok p) => Some (Ok (mkD (ds_number s) (ps_vars p) (ps_cons p) (ds_obj s) (ds_exprs s) (ds_dep s)))
    end
  else Some (Ok s).

(** 696-718. *)
Definition prepare_dependents (fuel : nat) (sw : switches) (su : surroundings) (minimize : bool) (s : dstate)
  : option (outcome dstate) :=
  if sw_presolve sw && wants_dependents sw then dependent_loop fuel (sw_dependent sw) (su_name su) minimize s
  else Some (Ok s).

(** 723-750.  remove_duplicated_constraints reads the types from before variables
    were fixed. *)
Definition prepare_sets (sw : switches) (su : surroundings) (minimize : bool) (s : dstate) : dstate :=
  let refs := type_refs (vctx (su_name su) (ds_vars s)) (ds_cons s) in
  let vs := if sw_presolve sw && sw_set_vars sw
            then remove_redundant_set_variables (su_caddr su) refs minimize (coef (ex_sens (ds_obj s))) (su_name su) (ds_number s) (ds_cons s) (ds_vars s)
            else ds_vars s in
  let cs := if sw_presolve sw && sw_duplicates sw then remove_duplicated_constraints (su_addr su) refs (ds_cons s)
            else ds_cons s in
  mkD (ds_number s) vs cs (ds_obj s) (ds_exprs s) (ds_dep s).

(** 757-765; number_of_variables and number_of_constraints (4076, 4116) count
    fixed variables and disabled constraints too. *)
Definition is_off (m : selection_mode) : bool := match m with Off => true | _ => false end.
Definition prepare_selections (sw : switches) (su : surroundings) (s : dstate) : dstate * list sel :=
  if negb (is_off (sw_mode sw)) && Nat.ltb (length (ds_cons s)) (ds_number s) then
    let '(vs, cs, sels) := extract_selections (su_name su) (su_cname su) (sw_mode sw) (su_user su) (ds_vars s) (ds_cons s)
                             (type_refs (vctx (su_name su) (ds_vars s)) (ds_cons s) SetPartitioning) in
    (mkD (ds_number s) vs cs (ds_obj s) (ds_exprs s) (ds_dep s), sels)
  else (s, []).

(** 780-790. *)
Definition prepare_start (sw : switches) (su : surroundings) (r : dstate * list sel) : outcome (dstate * list sel) :=
  let '(s, sels) := r in
  match verify (sw_correct sw) (ds_number s) (ds_cons s) (su_sens su (ds_cons s)) (ds_vars s) sels with
  | None => Throw
  | Some (vs, sels) => Ok (mkD (ds_number s) vs (ds_cons s) (ds_obj s) (ds_exprs s) (ds_dep s), sels)
  end.

(** setup (644-765): the phases that change the problem.  [None]: the fuel is used
    up. *)
Definition prepare_problem (fuel : nat) (sw : switches) (su : surroundings) (minimize : bool) (s : dstate)
  : option (outcome (dstate * list sel)) :=
  match prepare_reduce fuel sw su minimize s with
  | None => None
  | Some Throw => Some Throw
  | Some UB => Some UB
  | Some (Ok s1) =>
      match prepare_dependents fuel sw su minimize s1 with
      | None => None
      | Some Throw => Some Throw
      | Some UB => Some UB
      | Some (Ok s2) => Some (Ok (prepare_selections sw su (prepare_sets sw su minimize s2)))
      end
  end.

(** setup (644-790). *)
Definition prepare (fuel : nat) (sw : switches) (su : surroundings) (minimize : bool) (s : dstate)
  : option (outcome (dstate * list sel)) :=
  match prepare_problem fuel sw su minimize s with
  | None => None
  | Some o => Some (bind o (prepare_start sw su))
  end.
