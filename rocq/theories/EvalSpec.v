(** Specification for C11-C15: scores computed from scratch. *)
From Coq Require Import List ZArith QArith Qabs Permutation.
From Verif Require Import ExprModel ExprSpec ConstraintModel ConstraintSpec EvalModel.
Import ListNotations.
Local Open Scope Q_scope.

(** Excess above / below zero of a constraint's left-hand side at x. *)
Definition above (c : constr) (x : nat -> Z) : Q := if Qlt_le_dec 0 (e_eval (ct_expr c) x) then e_eval (ct_expr c) x else 0.
Definition below (c : constr) (x : nat -> Z) : Q := if Qlt_le_dec (e_eval (ct_expr c) x) 0 then - e_eval (ct_expr c) x else 0.

(** Violation and penalty of one constraint at x. *)
Definition viol (c : constr) (x : nat -> Z) : Q :=
  match ct_sense c with Less => above c x | Equal => above c x + below c x | Greater => below c x end.
Definition penalty (c : constr) (x : nat -> Z) : Q :=
  match ct_sense c with
  | Less => above c x * ct_pen_less c
  | Equal => above c x * ct_pen_less c + below c x * ct_pen_greater c
  | Greater => below c x * ct_pen_greater c
  end.

(** Sums over the enabled constraints. *)
Fixpoint sum_enabled (f : constr -> Q) (l : list constr) : Q :=
  match l with [] => 0 | c :: tl => (if ct_enabled c then f c else 0) + sum_enabled f tl end.

(** The score of moving from x to x'. *)
Definition scores (md : model) (x x' : nat -> Z) (s : score) : Prop :=
  let objective := if md_defined md then md_sign md * e_eval (md_obj md) x' else 0 in
  let before := if md_defined md then md_sign md * e_eval (md_obj md) x else 0 in
  let tv := sum_enabled (fun c => viol c x') (md_cons md) in
  let lp := sum_enabled (fun c => penalty c x') (md_cons md) in
  sc_objective s == objective /\ sc_improvement s == before - objective /\
  sc_violation s == tv /\ sc_local s == lp /\ sc_global s == tv * md_gpen md /\
  sc_local_aug s == objective + lp /\ sc_global_aug s == objective + tv * md_gpen md /\
  (sc_feasible s = true <-> tv <= EPS) /\
  (sc_obj_improvable s = true <-> before - objective > EPS).

(** Cached values of the model are those of x. *)
Definition consistent (md : model) (x : nat -> Z) : Prop :=
  (forall c, In c (md_cons md) -> wf (ct_expr c)) /\ wf (md_obj md) /\
  (forall c, In c (md_cons md) -> ct_enabled c = true -> agrees c x) /\
  (md_defined md = true -> md_obj_evalue md == e_eval (md_obj md) x /\ md_obj_value md == e_eval (md_obj md) x).

(** The supplied score is the one of the current solution. *)
Definition current (md : model) (x : nat -> Z) (cur : score) : Prop :=
  sc_violation cur == sum_enabled (fun c => viol c x) (md_cons md) /\
  sc_local cur == sum_enabled (fun c => penalty c x) (md_cons md).

(** The margin flag is truthful for a change of v to n: a flagged constraint that
    contains v has room for the largest coefficient, and v changes by at most 1
    (v is a 0/1 variable). *)
Definition margin_truthful (md : model) (x : nat -> Z) (v : nat) (n : Z) : Prop :=
  forall c a, In c (md_cons md) -> ct_enabled c = true -> ct_has_margin c = true ->
  In (v, a) (ex_sens (ct_expr c)) ->
  (Z.abs (n - x v) <= 1)%Z /\ Qabs a <= ct_margin c /\
  ct_margin c == match ct_sense c with Less => below c x | Equal => 0 | Greater => above c x end.

(** No enabled constraint changes by a nonzero amount below 1e-10. *)
Definition no_tiny_change (md : model) (x x' : nat -> Z) : Prop :=
  forall c, In c (md_cons md) -> ct_enabled c = true ->
  Qabs (e_eval (ct_expr c) x' - e_eval (ct_expr c) x) < EPS10 ->
  e_eval (ct_expr c) x' == e_eval (ct_expr c) x.

(** The list covers every enabled constraint in which some altered variable occurs. *)
Definition covers (cons : list constr) (vs : list nat) (related : list nat) : Prop :=
  forall i c v, nth_error cons i = Some c -> ct_enabled c = true -> In v vs ->
  In v (map fst (ex_sens (ct_expr c))) -> In i related.
