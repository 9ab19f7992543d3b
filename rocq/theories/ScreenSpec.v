(** Specification for C39, C40 and C41. *)
From Coq Require Import List ZArith NArith QArith Bool.
From Verif Require Import ExprModel ExprSpec ConstraintModel ConstraintSpec EvalModel EvalSpec EvalSpec2
  VariableModel PresolveModel MoveModel MoveSpec ScreenModel.
Import ListNotations.
Local Open Scope Q_scope.

(** The assignments the search may reach: within the bounds, fixed variables kept. *)
Definition reachable (s : sstate) (y : nat -> Z) : Prop :=
  forall v, if ms_fixed (ss_ms s) v then y v = ms_x (ss_ms s) v else (ss_lo s v <= y v <= ss_hi s v)%Z.

(** Objective to be minimized (sign -1 for maximization). *)
Definition cost (s : sstate) (y : nat -> Z) : Q :=
  md_sign (ms_model (ss_ms s)) * e_eval (md_obj (ms_model (ss_ms s))) y.

(** A move the search applies: [move_ok] and a truthful list of related
    constraints. *)
Definition search_move (s : mstate) (ml : alterations * list nat) : Prop :=
  move_ok s ml /\ covers (md_cons (ms_model s)) (map fst (fst ml)) (snd ml).

(** A start of a search: distinct variables in every expression, named
    expressions free of dependent variables, every non-fixed variable of the
    objective mutable. *)
Definition start_ok (mutables : list nat) (s : mstate) : Prop :=
  model_wf s /\
  (forall p, In p (ms_exprs s) -> snd (fst p) = true -> forall d, In d (map fst (ms_deps s)) -> ~ In d (keys (fst (fst p)))) /\
  (forall v, In v (keys (md_obj (ms_model s))) -> ms_fixed s v = false -> In v mutables).

(** A constraint that counts and is violated (by at least EPS, constraint.h:1026). *)
Definition violated (s : sstate) (c : constr) : Prop :=
  In c (md_cons (ms_model (ss_ms s))) /\ ct_enabled c = true /\ EPS <= viol c (ms_x (ss_ms s)).

(** A move of non-fixed variables within their bounds. *)
Definition allowed (s : sstate) (m : alterations) : Prop :=
  proper m /\ forall v n, In (v, n) m -> ms_fixed (ss_ms s) v = false /\ (ss_lo s v <= n <= ss_hi s v)%Z.

(** It reduces the violation of some violated constraint / the cost. *)
Definition repairs (s : sstate) (m : alterations) : Prop :=
  exists c, violated s c /\ viol c (apply_move (ms_x (ss_ms s)) m) < viol c (ms_x (ss_ms s)).
Definition improves (s : sstate) (m : alterations) : Prop :=
  cost s (apply_move (ms_x (ss_ms s)) m) < cost s (ms_x (ss_ms s)).

(** Some step of one, within the bounds, brings a violated constraint closer to
    being satisfied. *)
Definition helps (s : sstate) (v : nat) : Prop :=
  let x := ms_x (ss_ms s) in
  ms_fixed (ss_ms s) v = false /\
  exists c n, violated s c /\ (n = x v - 1 \/ n = x v + 1)%Z /\ (ss_lo s v <= n <= ss_hi s v)%Z /\
  let before := e_eval (ct_expr c) x in
  let after := e_eval (ct_expr c) (set_val x v n) in
  (0 < before -> after < before) /\ (before <= 0 -> before < after).

(** No screening. *)
Definition everything : accept := mkAccept true true true (fun _ => false) (fun _ => false).
