(** Specification for C26, C27, C31 and C47. *)
From Coq Require Import List ZArith QArith Qabs Bool.
From Verif Require Import ExprModel ExprSpec ConstraintModel VariableModel TypeSpec PresolveModel.
Import ListNotations.
Local Open Scope Q_scope.

(** y respects fixings and bounds. *)
Definition legal (vs : vars) (y : nat -> Z) : Prop :=
  forall v, (va_fixed (vs v) = true -> y v = va_value (vs v)) /\
            (va_fixed (vs v) = false -> (va_lower (vs v) <= y v <= va_upper (vs v))%Z).

(** y is a solution: legal, and every enabled constraint holds. *)
Definition solution (s : pstate) (y : nat -> Z) : Prop :=
  legal (ps_vars s) y /\ forall c, In c (ps_cons s) -> ct_enabled c = true -> satisfies c y.

(** Coefficients are integers. *)
Definition integral (e : expr) : Prop := forall v a, In (v, a) (ex_sens e) -> exists z, a == inject_Z z.
(** No coefficient is zero. *)
Definition no_zero (e : expr) : Prop := forall v a, In (v, a) (ex_sens e) -> ~ a == 0.

(** Bounds inside the range in which one-variable constraints are turned into
    bounds. *)
Definition moderate (vs : vars) : Prop :=
  forall v, va_fixed (vs v) = false -> (- BOUND_LIMIT < va_lower (vs v) /\ va_upper (vs v) < BOUND_LIMIT)%Z.

Definition number_enabled (cs : list constr) : nat := length (filter ct_enabled cs).
Definition number_mutable (n : nat) (vs : vars) : nat := length (filter (fun v => negb (va_fixed (vs v))) (seq 0 n)).

(** The contribution of every fixed variable is an integer. *)
Definition integral_when_fixed (vs : vars) (e : expr) : Prop :=
  forall v a, In (v, a) (ex_sens e) -> va_fixed (vs v) = true -> exists z, a * inject_Z (va_value (vs v)) == inject_Z z.

(** The expression's values fit an int when all variables are moderate. *)
Fixpoint abs_sum (s : sens) : Q := match s with [] => 0 | p :: tl => Qabs (snd p) + abs_sum tl end.
Definition fits (e : expr) : Prop := Qabs (ex_const e) + inject_Z BOUND_LIMIT * abs_sum (ex_sens e) <= inject_Z INT_MAX.
Definition moderate_fixed (vs : vars) : Prop := forall v, va_fixed (vs v) = true -> (Z.abs (va_value (vs v)) < BOUND_LIMIT)%Z.

(** What the exactness theorem asks of the constraints. *)
Definition tame (cs : list constr) : Prop := forall c, In c cs -> ct_enabled c = true ->
  wf (ct_expr c) /\ integral (ct_expr c) /\ no_zero (ct_expr c) /\ fits (ct_expr c).

(** a is at least as good an objective value as b. *)
Definition as_good (minimize : bool) (a b : Q) : Prop := if minimize then a <= b else b <= a.
(** A variable in no constraint has either a visible objective coefficient, or
    none at all and the value 0 within its bounds. *)
Definition decided (cs : list constr) (obj : expr) (vs : vars) : Prop :=
  forall v, va_fixed (vs v) = false -> (forall c, In c cs -> ~ In v (keys (ct_expr c))) ->
  EPS10 <= Qabs (coef (ex_sens obj) v) \/
  coef (ex_sens obj) v == 0 /\ (va_lower (vs v) <= 0 <= va_upper (vs v))%Z.
