(** Specification for C28, C29, C30 and C49. *)
From Coq Require Import List ZArith QArith Bool Permutation.
From Verif Require Import ExprModel ExprSpec ConstraintModel ConstraintSpec VariableModel TypeModel TypeSpec PresolveModel PresolveSpec.
Import ListNotations.

(** y satisfies every enabled constraint. *)
Definition satisfies_all (cs : list constr) (y : nat -> Z) : Prop :=
  forall c, In c cs -> ct_enabled c = true -> satisfies c y.
Definition well_formed (cs : list constr) : Prop := forall c, In c cs -> wf (ct_expr c).

(** The same constraint written again. *)
Definition same_constraint (c d : constr) : Prop :=
  ct_sense c = ct_sense d /\ forall y, e_eval (ct_expr c) y == e_eval (ct_expr d) y.
(** cs' is cs with some constraints switched off. *)
Definition only_disables (cs cs' : list constr) : Prop :=
  length cs' = length cs /\
  forall i c c', nth_error cs i = Some c -> nth_error cs' i = Some c' ->
    ct_expr c' = ct_expr c /\ ct_sense c' = ct_sense c /\ (ct_enabled c' = true -> ct_enabled c = true).

(** Exactly one, at most one, at least one of the variables is 1, for every
    assignment within the bounds. *)
Definition exactly_one (vs : vars) (c : constr) : Prop := NoDup (variables c) /\
  forall y, legal vs y -> (forall v, In v (variables c) -> 0 <= y v <= 1)%Z /\ (satisfies c y <-> total (variables c) y = 1%Z).
Definition at_most_one (vs : vars) (c : constr) : Prop := NoDup (variables c) /\
  forall y, legal vs y -> (forall v, In v (variables c) -> 0 <= y v <= 1)%Z /\ (satisfies c y <-> (total (variables c) y <= 1)%Z).
Definition at_least_one (vs : vars) (c : constr) : Prop := NoDup (variables c) /\
  forall y, legal vs y -> (forall v, In v (variables c) -> 0 <= y v <= 1)%Z /\ (satisfies c y <-> (1 <= total (variables c) y)%Z).

(** What the removal of redundant set variables relies on.  Variables are 0/1... *)
Definition unit_bounds (n : nat) (vs : vars) : Prop :=
  forall v, (v < n)%nat -> va_fixed (vs v) = false -> va_lower (vs v) = 0%Z /\ va_upper (vs v) = 1%Z.
(** ... all enabled constraints are of a set type ... *)
Definition set_problem (vs : vars) (cs : list constr) : Prop :=
  forall c, In c cs -> ct_enabled c = true -> exactly_one vs c \/ at_most_one vs c \/ at_least_one vs c.
(** ... leaving a variable at 0 does not hurt, or it competes with others for a
    constraint ... *)
Definition worth_zero (n : nat) (minimize : bool) (obj : expr) (vs : vars) (cs : list constr) : Prop :=
  forall v, (v < n)%nat -> va_fixed (vs v) = false ->
  as_good minimize 0 (coef (ex_sens obj) v) \/
  exists c, In c cs /\ ct_enabled c = true /\ In v (variables c) /\ (exactly_one vs c \/ at_most_one vs c).
(** ... and no free variable occurs in precisely the constraints of one fixed at a
    nonzero value. *)
Definition no_fixed_twin (n : nat) (vs : vars) (cs : list constr) : Prop :=
  forall i j, (i < n)%nat -> (j < n)%nat -> va_fixed (vs i) = false -> va_fixed (vs j) = true -> va_value (vs j) <> 0%Z ->
  exists c, In c cs /\ ~ (In i (variables c) <-> In j (variables c)).

(** The same constraint entered again, with its terms in any order. *)
Definition rewritten (c d : constr) : Prop :=
  ct_sense c = ct_sense d /\ Permutation (ex_sens (ct_expr c)) (ex_sens (ct_expr d)) /\
  ex_const (ct_expr c) = ex_const (ct_expr d).

(** The constraint at place i is an inequality. *)
Definition an_inequality (cs : list constr) (i : nat) : bool :=
  match nth_error cs i with Some c => match ct_sense c with Equal => false | _ => true end | None => false end.
