(** Specification for C81: models with inequalities only. *)
From Coq Require Import List ZArith QArith Qabs Bool.
From Verif Require Import ExprModel ExprSpec ConstraintModel VariableModel PresolveModel DependentModel.
Import ListNotations.
Local Open Scope Q_scope.

(** Every constraint is a "<=" or a ">=". *)
Definition only_inequalities (s : dstate) : Prop := forall c, In c (ds_cons s) -> ct_sense c <> Equal.

(** No two constraints (or one taken twice) bound the same expression from both
    sides. *)
Definition no_opposites (s : dstate) : Prop := forall c d, In c (ds_cons s) -> In d (ds_cons s) ->
  (ct_sense c <> ct_sense d -> ~ forall x, e_eval (ct_expr c) x == e_eval (ct_expr d) x) /\
  (ct_sense c = ct_sense d -> ~ forall x, e_eval (ct_expr c) x == - e_eval (ct_expr d) x).

(** The largest absolute value the terms can add up to within the bounds. *)
Fixpoint reach (vs : vars) (l : sens) : Q :=
  match l with
  | [] => 0
  | (v, a) :: tl => Qabs a * inject_Z (Z.max (Z.abs (va_lower (vs v))) (Z.abs (va_upper (vs v)))) + reach vs tl
  end.
(** No constraint can reach 100000. *)
Definition small_rows (s : dstate) : Prop := forall c, In c (ds_cons s) ->
  Qabs (ex_const (ct_expr c)) + reach (ds_vars s) (ex_sens (ct_expr c)) <= 99999.
