(** Specification for C80. *)
From Coq Require Import List ZArith QArith Bool.
From Verif Require Import ExprModel ExprSpec ConstraintModel EvalModel EvalSpec2 VariableModel PresolveModel SelectionModel SelectionSpec LoopSpec ControllerSpec SolverModel SolverSpec.
Import ListNotations.
Local Open Scope Q_scope.

(** What holds of an answer even if the searches were misled: within the bounds, one
    variable per selection at 1, fixed variables untouched, dependent variables
    computed; a visited solution; the objective, the violation and the feasibility are
    those of its values.  (Of SolverSpec.right_answer all but that it is the best of
    the visited solutions.) *)
Definition truthful (p : problem) (s0 : mstate) (r : run) (a : answer) : Prop :=
  let md := ms_model s0 in
  valid_start (pb_n p) (placed p (an_x a)) (pb_sels p) /\
  (forall v, ms_fixed s0 v = true -> an_x a v = ms_x s0 v) /\
  (forall d i q, In (d, i) (ms_deps s0) -> nth_error (ms_exprs s0) i = Some q -> NoDup (map fst (ms_deps s0)) -> an_x a d = Qtrunc (e_eval (fst (fst q)) (an_x a))) /\
  (exists y, In y (visited r) /\ forall v, an_x a v = y v) /\
  (md_defined md = true -> an_objective a == e_eval (md_obj md) (an_x a)) /\
  an_violation a == total_viol (md_cons md) (an_x a) /\
  (an_feasible a = true <-> satisfies md (an_x a)).
