(** Specification for C64: problems in which some variables are defined by
    expressions in the others. *)
From Coq Require Import List ZArith QArith Qabs Bool.
From Verif Require Import ExprModel ExprSpec ConstraintModel ConstraintSpec VariableModel TypeModel TypeSpec PresolveModel DependentModel.
Import ListNotations.
Local Open Scope Q_scope.

Definition within (a : var) (z : Z) : Prop :=
  if va_fixed a then z = va_value a else (va_lower a <= z <= va_upper a)%Z.

(** x solves the problem: the variables that are not defined respect their
    fixings and bounds, the enabled constraints hold, and every defined variable
    has the value of its definition. *)
Record solves (s : dstate) (x : nat -> Z) : Prop := mkSolves {
  sv_range : forall v, ds_dep s v = None -> within (ds_vars s v) (x v);
  sv_cons : forall c, In c (ds_cons s) -> ct_enabled c = true -> satisfies c x;
  sv_defs : forall v k, ds_dep s v = Some k -> inject_Z (x v) == e_eval (nth k (ds_exprs s) no_expr) x }.

(** The range a variable has when no bound was given for it. *)
Definition ordinary (x : nat -> Z) : Prop := forall v, (INT_HALF_MIN <= x v <= INT_HALF_MAX)%Z.

Definition is_dependent (a : var) : Prop := va_sense a = VDependentBinary \/ va_sense a = VDependentInteger.

(** No defined variable is left in the objective, in an enabled constraint or in
    an expression. *)
Record clean (s : dstate) : Prop := mkClean {
  cl_obj : forall v, (v < ds_number s)%nat -> is_dependent (ds_vars s v) -> ~ In v (keys (ds_obj s));
  cl_cons : forall v c, (v < ds_number s)%nat -> is_dependent (ds_vars s v) -> In c (ds_cons s) -> ct_enabled c = true ->
            ~ In v (keys (ct_expr c));
  cl_exprs : forall v e, (v < ds_number s)%nat -> is_dependent (ds_vars s v) -> In e (ds_exprs s) -> ~ In v (keys e) }.

(** The data are consistent: coefficient maps list a variable once and only
    variables of the model, and exactly the variables of a dependent sense have a
    definition. *)
Record coherent (s : dstate) : Prop := mkCoherent {
  co_obj : wf (ds_obj s);
  co_cons : forall c, In c (ds_cons s) -> wf (ct_expr c) /\ forall v, In v (keys (ct_expr c)) -> (v < ds_number s)%nat;
  co_exprs : forall e, In e (ds_exprs s) -> wf e /\ forall v, In v (keys e) -> (v < ds_number s)%nat;
  co_dep : forall v, ds_dep s v <> None <-> (v < ds_number s)%nat /\ is_dependent (ds_vars s v);
  co_bound : forall v k, ds_dep s v = Some k -> (k < length (ds_exprs s))%nat;
  co_apart : forall v w k, ds_dep s v = Some k -> ds_dep s w = Some k -> v = w }.

(** No definition leads back to the variable it defines. *)
Definition acyclic (s : dstate) : Prop := exists rank : nat -> nat, forall v k w,
  ds_dep s v = Some k -> In w (keys (nth k (ds_exprs s) no_expr)) -> ds_dep s w <> None -> (rank w < rank v)%nat.

(** Coefficients and constant are integers. *)
Definition whole (e : expr) : Prop :=
  (exists z, ex_const e == inject_Z z) /\ forall v a, In (v, a) (ex_sens e) -> exists z, a == inject_Z z.

(** The types of two-variable equations that name no variable but by its position
    in the order of names. *)
Definition pair_types (opt : ctype -> bool) : Prop :=
  forall t, opt t = true -> In t [ExclusiveOR; ExclusiveNOR; InvertedIntegers; BalancedIntegers;
                                  ConstantSumIntegers; ConstantDifferenceIntegers].
