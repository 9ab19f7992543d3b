(** Specification for C76. *)
From Coq Require Import List ZArith QArith Bool.
From Verif Require Import ExprModel VariableModel DependentModel SelectionModel PrepareModel LpModel LpSpec RelaxModel.
From Verif Require SolverModel SolutionModel DependentSpec.
Import ListNotations.
Local Open Scope Q_scope.

(** What is asked when the linear relaxation is solved: functions with the
    properties of a norm, of powers and of a square root, positive weights, bounds
    within the quarter range of int, and a constant of the objective that can be
    left out. *)
Definition relaxable (nrm : list Q -> Q) (red ext : nat -> Q) (sq : Q -> Q) (minimize : bool) (r : dstate * list sel) (envs : list penv) : Prop :=
  powers red ext /\ norm_like nrm /\ (forall q, 0 < q -> 0 < sq q) /\ (forall e, In e envs -> 0 < pe_weight e) /\
  moderate_range (ds_vars (fst r)) (seq 0 (ds_number (fst r))) /\
  (if minimize then 0 <= ex_const (ds_obj (fst r)) else ex_const (ds_obj (fst r)) <= 0).

(** b bounds the objective of every solution of the user's model. *)
Definition bounds_all (minimize : bool) (s : dstate) (b : Q) : Prop :=
  forall x, DependentSpec.solves s x -> if minimize then b <= e_eval (ds_obj s) x else e_eval (ds_obj s) x <= b.
(** The state in which solve ends. *)
Definition final_run (out : SolverModel.outcome (SolverModel.answer * SolverModel.run)) : SolverModel.run :=
  match out with SolverModel.Done (_, r) => r | SolverModel.Rejected r _ => r | SolverModel.NotANumber r => r end.
Definition reported_bound (out : SolverModel.outcome (SolverModel.answer * SolverModel.run)) : Q :=
  SolutionModel.ho_dual (SolverModel.rn_holder (final_run out)).
