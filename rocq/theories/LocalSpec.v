(** Specification for C53. *)
From Coq Require Import List ZArith QArith Qabs Bool.
From Verif Require Import ExprModel ExprSpec ConstraintModel ConstraintSpec EvalModel EvalSpec EvalSpec2 SolutionModel LoopModel LoopSpec LocalModel.
Import ListNotations.
Local Open Scope Q_scope.

(** Total violation and signed objective of a solution. *)
Definition violation (md : model) (y : nat -> Z) : Q := sum_enabled (fun c => viol c y) (md_cons md).
Definition value (md : model) (y : nat -> Z) : Q := if md_defined md then md_sign md * e_eval (md_obj md) y else 0.
Definition augmented (md : model) (y : nat -> Z) : Q := value md y + violation md y * md_gpen md.

(** y' is better than y: less violated if y violates something; otherwise still
    without violation and with a smaller objective. *)
Definition strictly_better (md : model) (y' y : nat -> Z) : Prop :=
  (0 < violation md y -> violation md y' < violation md y) /\
  (violation md y == 0 -> violation md y' == 0 /\ value md y' + EPS < value md y).

(** The criterion of the local search for going from y to y': a solution without
    violation must improve the objective by more than EPS, any other one must reduce
    the violation. *)
Definition accepted (md : model) (y' y : nat -> Z) : Prop :=
  (violation md y' == 0 -> value md y' + EPS < value md y) /\ (0 < violation md y' -> violation md y' < violation md y).

(** Every variable the move alters occurs in some enabled constraint. *)
Definition anchored (md : model) (t : tmove) : Prop :=
  forall v n, In (v, n) (tm_alts t) -> exists c, In c (md_cons md) /\ ct_enabled c = true /\ In v (keys (ct_expr c)).

(** What a termination status says about the final state. *)
Definition local_meaning (o : soptions) (s0 : mstate) (e : senv) (l : slocal) (st : sstatus) : Prop :=
  let md := ms_model s0 in
  let x := ms_x (sl_ms l) in
  match st with
  | STimeOver => se_time_over e = true
  | SIterationOver => (so_iteration_max o <= sl_iteration l)%Z
  | SReachTarget => exists q, sl_obj (ho_feasible (sl_holder l)) = Some q /\ q <= so_target o
  | SOptimal => se_moves e = [] /\ satisfies md x /\ se_improvable e = false
  | SNoMove => se_moves e = [] /\ (~ satisfies md x \/ se_improvable e = true)
  | SLocalOptimal => exists t, In t (se_moves e) /\ ~ accepted md (apply_move x (tm_alts t)) x /\
      forall t', In t' (se_moves e) -> augmented md (apply_move x (tm_alts t)) <= augmented md (apply_move x (tm_alts t'))
  end.
