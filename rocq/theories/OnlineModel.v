(** Online bounding: after a round of the tabu search the variable bounds are tightened
    with the objective value of the feasible incumbent
    (solver/tabu_search/controller/tabu_search_controller.h:953-964). *)
From Coq Require Import List ZArith QArith Bool.
From Verif Require Import ExprModel ConstraintModel SolutionModel VariableModel PresolveModel.
Import ListNotations.
Local Open Scope Q_scope.

(** What the test looks at in a round: the flags of the controller state and the
    incumbents. *)
Record oround := mkOr { or_now : bool; or_before : bool; or_holder : holder (nat -> Z) }.
(** The step.  [enabled]: is_enabled_presolve and is_enabled_online_bounding.  A set
    flag means that there is a feasible incumbent; without one its objective is the
    largest double, which is left undefined here. *)
Definition online_round (enabled : bool) (n : nat) (minimize : bool) (obj : expr) (is01 : nat -> bool) (vs : vars) (r : oround) : outcome vars :=
  if enabled && or_now r && negb (or_before r)
  then match sl_obj (ho_feasible (or_holder r)) with Some q => update_variable_bounds n minimize true obj q is01 vs | None => UB end
  else Ok vs.
Definition online_bounds (enabled : bool) (n : nat) (minimize : bool) (obj : expr) (is01 : nat -> bool) (rs : list oround) (vs : vars) : outcome vars :=
  fold_left (fun o r => bind o (fun vs => online_round enabled n minimize obj is01 vs r)) rs (Ok vs).
