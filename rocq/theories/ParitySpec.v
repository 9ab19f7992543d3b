(** Specification for C79. *)
From Coq Require Import List ZArith QArith Bool.
From Verif Require Import ExprModel ExprSpec ConstraintModel VariableModel PresolveModel DependentModel DependentSpec.
Import ListNotations.
Local Open Scope Q_scope.

(** A parity equation with the key k, as the type detection finds it: no variable is
    fixed, k has the coefficient 2 or -2, the others are binary and have the
    coefficient 1 or -1, and the constant is 0, 1 or -1. *)
Record parity_row (vs : vars) (c : constr) (k : nat) : Prop := mkRow {
  pr_equation : ct_sense c = Equal;
  pr_free : forall v, In v (keys (ct_expr c)) -> va_fixed (vs v) = false;
  pr_key : exists a, In (k, a) (ex_sens (ct_expr c)) /\ (a == 2 \/ a == -(2));
  pr_key_sense : va_sense (vs k) = VBinary \/ va_sense (vs k) = VInteger;
  pr_others : forall v a, In (v, a) (ex_sens (ct_expr c)) -> v <> k -> va_sense (vs v) = VBinary /\ (a == 1 \/ a == -(1));
  pr_const : ex_const (ct_expr c) == 0 \/ ex_const (ct_expr c) == 1 \/ ex_const (ct_expr c) == -(1) }.

(** No key is a variable of another of the equations. *)
Definition keys_apart (l : list (constr * nat)) : Prop := forall c k c' k', In (c, k) l -> In (c', k') l -> In k (keys (ct_expr c')) -> k = k'.
(** The variables beside the keys have the coefficient 1. *)
Definition all_plus (l : list (constr * nat)) : Prop := forall c k v a, In (c, k) l -> In (v, a) (ex_sens (ct_expr c)) -> v <> k -> a == 1.
(** The equations are in force, or the problem has no defined variables (so that those
    which are not in force follow from the others). *)
Definition in_force (s : dstate) (l : list (constr * nat)) : Prop :=
  (forall v, ds_dep s v = None) \/ forall c k, In (c, k) l -> ct_enabled c = true.
