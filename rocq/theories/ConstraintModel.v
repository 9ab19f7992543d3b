(** Model of model_component/constraint.h (construction, update, flags) and
    constraint_binary_operator.h. *)
From Coq Require Import List ZArith QArith Qabs Qround Bool.
From Verif Require Import ExprModel.
Import ListNotations.
Local Open Scope Q_scope.

(** constant.h: EPSILON = 1e-5, EPSILON_10 = 1e-10. *)
Definition EPS : Q := 1 # 100000.
Definition EPS10 : Q := 1 # 10000000000.

(** std::max / std::min. *)
Definition qmax (a b : Q) : Q := if Qlt_le_dec a b then b else a.
Definition qmin (a b : Q) : Q := if Qlt_le_dec b a then b else a.

(** ConstraintSense (constraint.h:27). *)
Inductive csense := Less | Equal | Greater.

(** The members of Constraint used in evaluation (constraint.h:47-117).
    [ct_evalue] is m_expression.m_value.  Penalties are rationals here; the code
    initialises them with HUGE_VALF until the solver sets them. *)
Record constr := mkC {
  ct_expr : expr; ct_sense : csense;
  ct_enabled : bool;
  ct_only_binary_var : bool; ct_only_binary_coef : bool; ct_is_integer : bool;
  ct_max_abs : Q;
  ct_pen_less : Q; ct_pen_greater : Q;
  ct_evalue : Q;
  ct_value : Q; ct_positive : Q; ct_negative : Q;
  ct_violation : Q; ct_margin : Q; ct_has_margin : bool }.

(** is_less_or_equal / is_greater_or_equal (constraint.h:286-299). *)
Definition ct_le (c : constr) : bool := match ct_sense c with Less | Equal => true | Greater => false end.
Definition ct_ge (c : constr) : bool := match ct_sense c with Greater | Equal => true | Less => false end.

(** is_integer test on one number (constraint.h:247-266). *)
Definition near_integer (q : Q) : bool :=
  if Qlt_le_dec (Qabs (q - inject_Z (Qfloor q))) EPS10 then true else false.

(** setup (constraint.h:226-300); [is01 v] says whether variable v has sense
    Binary or Selection at that moment. *)
Definition c_setup (e : expr) (s : csense) (is01 : nat -> bool) : constr :=
  mkC e s true
      (forallb (fun p => is01 (fst p)) (ex_sens e))
      (forallb (fun p => Qeq_bool (snd p) 1) (ex_sens e))
      (near_integer (ex_const e) && forallb (fun p => near_integer (snd p)) (ex_sens e))
      (fold_left (fun m p => qmax m (Qabs (snd p))) (ex_sens e) 0)
      0 0 0 0 0 0 0 0 false.

(** Operands of a comparison and the expression it constrains
    (constraint_binary_operator.h:35-332). *)
Inductive operand := OExpr (e : expr) | ONum (a : Q).
Definition compare_expr (l r : operand) : option expr :=
  match l, r with
  | OExpr e, ONum a => Some (e_sub_value e a)
  | ONum a, OExpr e => Some (e_add_value (e_neg e) a)
  | OExpr e, OExpr f => Some (e_sub e f)
  | ONum _, ONum _ => None
  end.
Definition compare (l : operand) (s : csense) (r : operand) (is01 : nat -> bool) : option constr :=
  match compare_expr l r with None => None | Some e => Some (c_setup e s is01) end.

(** The common part of update() and update(move): parts, violation and margin
    from the constraint value (constraint.h:915-933,950-972). *)
Definition c_refresh (c : constr) (v ev : Q) (threshold : Q) : constr :=
  let p := qmax v 0 in
  let n := - qmin v 0 in
  let viol := match ct_sense c with Less => p | Equal => p + n | Greater => n end in
  let marg := match ct_sense c with Less => n | Equal => 0 | Greater => p end in
  mkC (ct_expr c) (ct_sense c) (ct_enabled c) (ct_only_binary_var c) (ct_only_binary_coef c)
      (ct_is_integer c) (ct_max_abs c) (ct_pen_less c) (ct_pen_greater c)
      ev v p n viol marg
      (ct_only_binary_var c && (if Qlt_le_dec marg threshold then false else true)).

(** update() (constraint.h:907-938). *)
Definition c_update (c : constr) (x : nat -> Z) : constr :=
  let v := e_eval (ct_expr c) x in
  c_refresh c v v (ct_max_abs c - EPS10).

(** evaluate_constraint(move) (constraint.h:900-904). *)
Definition c_eval_move (c : constr) (x : nat -> Z) (m : alterations) : Q :=
  e_eval_move (ct_expr c) (ct_evalue c) x m.

(** update(move) (constraint.h:941-977): the expression is updated last, with
    the same formula. *)
Definition c_update_move (c : constr) (x : nat -> Z) (m : alterations) : constr :=
  let v := c_eval_move c x m in
  c_refresh c v v (ct_max_abs c).

(** is_feasible (constraint.h:1026), is_evaluation_ignorable (1116). *)
Definition c_is_feasible (c : constr) : bool := if Qlt_le_dec (ct_violation c) EPS then true else false.
Definition c_ignorable (c : constr) : bool := negb (ct_enabled c) || ct_has_margin c.

(** reset of the local penalties (constraint.h:1060-1064); [g] is the
    constraint's global penalty coefficient.  The limit (1067-1071) has no callers. *)
Definition c_with_pen (c : constr) (l g : Q) : constr :=
  mkC (ct_expr c) (ct_sense c) (ct_enabled c) (ct_only_binary_var c) (ct_only_binary_coef c)
      (ct_is_integer c) (ct_max_abs c) l g (ct_evalue c)
      (ct_value c) (ct_positive c) (ct_negative c) (ct_violation c) (ct_margin c) (ct_has_margin c).
Definition c_reset_penalty (c : constr) (g : Q) : constr := c_with_pen c g g.

(** A history: update() or update(move); the variables are written afterwards. *)
Inductive c_event := CUpdate | CMove (m : alterations).
Definition c_step (cx : constr * (nat -> Z)) (e : c_event) : constr * (nat -> Z) :=
  match e with
  | CUpdate => (c_update (fst cx) (snd cx), snd cx)
  | CMove m => (c_update_move (fst cx) (snd cx) m, apply_move (snd cx) m)
  end.
