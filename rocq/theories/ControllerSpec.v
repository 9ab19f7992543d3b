(** Specification for C59. *)
From Coq Require Import List ZArith QArith Qabs Bool.
From Verif Require Import ExprModel ConstraintModel EvalModel EvalSpec SolutionModel TabuModel ControllerModel.
Import ListNotations.
Local Open Scope Q_scope.

(** The local and global incumbents are present, with their objectives. *)
Definition incumbents (h : holder (nat -> Z)) (qg : Q) (yg : nat -> Z) (ql : Q) (yl : nat -> Z) (feasible : bool) : Prop :=
  exists sg sl, ho_global h = mkSlot (Some qg) (Some (yg, sg)) /\ ho_local h = mkSlot (Some ql) (Some (yl, sl)) /\ sc_feasible sl = feasible.

(** Sensible options: rates that are rates, coefficients that are not negative. *)
Definition sensible (o : copt) : Prop :=
  0 <= co_initial o /\ 0 <= co_tight o /\ 0 <= co_balance o <= 1 /\
  0 < co_relax_min o /\ co_relax_min o <= co_relax o /\ co_relax o <= co_relax_max o /\ co_relax_max o <= 1 /\
  0 <= co_relax_inc o <= 1 /\ 0 <= co_relax_dec o <= 1.
(** What is used of the logarithm log(n + 1) and of the square root. *)
Definition log_like (lg : Z -> Q) : Prop := lg 0%Z == 0 /\ forall n, (1 <= n)%Z -> 0 < lg n.
Definition root_like (root : Q -> Q) : Prop := forall q, 0 < q -> q <= 1 -> q <= root q /\ root q <= 1.

(** c' is c with other penalty coefficients. *)
Definition repriced (c c' : constr) : Prop :=
  ct_expr c' = ct_expr c /\ ct_sense c' = ct_sense c /\ ct_enabled c' = ct_enabled c /\ ct_only_binary_var c' = ct_only_binary_var c /\
  ct_only_binary_coef c' = ct_only_binary_coef c /\ ct_is_integer c' = ct_is_integer c /\ ct_max_abs c' = ct_max_abs c /\
  ct_evalue c' = ct_evalue c /\ ct_value c' = ct_value c /\ ct_positive c' = ct_positive c /\ ct_negative c' = ct_negative c /\
  ct_violation c' = ct_violation c /\ ct_margin c' = ct_margin c /\ ct_has_margin c' = ct_has_margin c.
Definition priced_within (cap : Q) (c : constr) : Prop := 0 <= ct_pen_less c <= cap /\ 0 <= ct_pen_greater c <= cap.
Definition not_dearer (c c' : constr) : Prop := ct_pen_less c' <= ct_pen_less c /\ ct_pen_greater c' <= ct_pen_greater c.
Definition not_cheaper (c c' : constr) : Prop := ct_pen_less c <= ct_pen_less c' /\ ct_pen_greater c <= ct_pen_greater c'.
Definition priced_at (g : Q) (c c' : constr) : Prop := ct_pen_less c' == g /\ ct_pen_greater c' == g.

(** The penalized objective of a solution under the present coefficients. *)
Definition penalized (md : model) (cs : list constr) (y : nat -> Z) : Q :=
  (if md_defined md then md_sign md * e_eval (md_obj md) y else 0) + sum_enabled (fun c => penalty c y) cs.

(** No constraint is violated by a positive amount of 1e-5 or less (true of integral
    constraints), and a disabled constraint was never counted as violated. *)
Definition clear_violations (count : nat -> Z) (y : nat -> Z) (cs : list constr) : Prop :=
  (forall c, In c cs -> viol c y == 0 \/ EPS < viol c y) /\
  (forall i c, nth_error cs i = Some c -> (0 <= count i)%Z /\ (ct_enabled c = false -> count i = 0%Z)).

(** Sides a constraint has, and what relaxing by the factor f and tightening do at a
    solution y: relaxing scales the sides y respects and no other; tightening raises
    no side y respects. *)
Definition bounds_above (c : constr) : Prop := ct_sense c <> Greater.
Definition bounds_below (c : constr) : Prop := ct_sense c <> Less.
Definition relaxed (f : Q) (y : nat -> Z) (c c' : constr) : Prop :=
  (bounds_above c /\ above c y < EPS -> ct_pen_less c' == ct_pen_less c * f) /\
  (~ (bounds_above c /\ above c y < EPS) -> ct_pen_less c' == ct_pen_less c) /\
  (bounds_below c /\ below c y < EPS -> ct_pen_greater c' == ct_pen_greater c * f) /\
  (~ (bounds_below c /\ below c y < EPS) -> ct_pen_greater c' == ct_pen_greater c).
Definition tightened (y : nat -> Z) (c c' : constr) : Prop :=
  ct_pen_less c <= ct_pen_less c' /\ ct_pen_greater c <= ct_pen_greater c' /\
  (~ (bounds_above c /\ EPS < above c y) -> ct_pen_less c' == ct_pen_less c) /\
  (~ (bounds_below c /\ EPS < below c y) -> ct_pen_greater c' == ct_pen_greater c).

(** y has a smaller objective (whatever the sense of optimization) or a smaller
    violation of all constraints than z. *)
Definition total_viol (cs : list constr) (y : nat -> Z) : Q := fold_right (fun c q => viol c y + q) 0 cs.
Definition bettered (md : model) (y z : nat -> Z) : Prop :=
  (if md_defined md then e_eval (md_obj md) y else 0) < (if md_defined md then e_eval (md_obj md) z else 0) \/
  total_viol (md_cons md) y < total_viol (md_cons md) z.
(** The relative range of the penalized objectives in the round. *)
Definition narrow_range (r : rres) (qg : Q) : Prop := rr_range r / (if Qlt_le_dec 1 (Qabs qg) then Qabs qg else 1) < 1 # 100.
Definition counts (count : nat -> Z) (cs : list constr) : Prop := forall i c, nth_error cs i = Some c -> (0 <= count i)%Z.
