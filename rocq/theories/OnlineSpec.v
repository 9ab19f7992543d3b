(** Specification for C60. *)
From Coq Require Import List ZArith QArith Bool.
From Verif Require Import ExprModel ExprSpec ConstraintModel ConstraintSpec SolutionModel VariableModel TypeSpec PresolveModel PresolveSpec OnlineModel.
Import ListNotations.
Local Open Scope Q_scope.

(** A solution of the constraints within bounds and fixings; one with the least
    objective. *)
Definition feasible_point (vs : vars) (cs : list constr) (y : nat -> Z) : Prop :=
  legal vs y /\ forall c, In c cs -> ct_enabled c = true -> satisfies c y.
Definition least (vs : vars) (cs : list constr) (obj : expr) (y : nat -> Z) : Prop :=
  feasible_point vs cs y /\ forall z, feasible_point vs cs z -> e_eval obj y <= e_eval obj z.
(** Whenever the flag is set the feasible incumbent carries the objective of a feasible
    point, sign turned when maximizing. *)
Definition true_incumbents (minimize : bool) (vs : vars) (cs : list constr) (obj : expr) (rs : list oround) : Prop :=
  forall r, In r rs -> or_now r = true -> exists z q, feasible_point vs cs z /\ sl_obj (ho_feasible (or_holder r)) = Some q /\
    q == (if minimize then e_eval obj z else - e_eval obj z).
