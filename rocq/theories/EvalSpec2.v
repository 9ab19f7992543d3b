(** Specification for C14 and C15: histories of the whole model. *)
From Coq Require Import List ZArith QArith Qabs.
From Verif Require Import ExprModel ExprSpec ConstraintModel ConstraintSpec EvalModel EvalSpec.
Import ListNotations.
Local Open Scope Q_scope.

(** Every expression holds each variable once. *)
Definition model_wf (s : mstate) : Prop :=
  (forall c, In c (md_cons (ms_model s)) -> wf (ct_expr c)) /\ wf (md_obj (ms_model s)) /\
  (forall p, In p (ms_exprs s) -> wf (fst (fst p))).

(** A move the search may apply: it alters distinct, non-fixed variables, and its
    list of related constraints is duplicate free and covers what it touches
    (the list is not used when a user-defined neighborhood is enabled). *)
Definition move_ok (s : mstate) (ml : alterations * list nat) : Prop :=
  proper (fst ml) /\ (forall v n, In (v, n) (fst ml) -> ms_fixed s v = false) /\
  (ms_user_defined s = true \/
   (NoDup (snd ml) /\ covers (md_cons (ms_model s)) (map fst (fst ml)) (snd ml))).

(** No enabled constraint and no objective mentions a dependent variable. *)
Definition dependents_eliminated (s : mstate) : Prop :=
  forall d, In d (map fst (ms_deps s)) ->
  (forall c, In c (md_cons (ms_model s)) -> ct_enabled c = true -> ~ In d (keys (ct_expr c))) /\
  ~ In d (keys (md_obj (ms_model s))).

(** Two constraints show the same values. *)
Definition same_constraint (c c' : constr) : Prop :=
  ct_expr c = ct_expr c' /\ ct_sense c = ct_sense c' /\ ct_enabled c = ct_enabled c' /\
  (ct_enabled c = true ->
   ct_value c == ct_value c' /\ ct_positive c == ct_positive c' /\ ct_negative c == ct_negative c' /\
   ct_violation c == ct_violation c' /\ ct_margin c == ct_margin c').

(** Two model states show the same values. *)
Definition same_caches (s r : mstate) : Prop :=
  Forall2 same_constraint (md_cons (ms_model s)) (md_cons (ms_model r)) /\
  Forall2 (fun p q : expr * bool * Q => fst p = fst q /\ (snd (fst p) = true -> snd p == snd q)) (ms_exprs s) (ms_exprs r) /\
  (md_defined (ms_model s) = true -> md_obj_value (ms_model s) == md_obj_value (ms_model r)) /\
  ms_violative s = ms_violative r /\ ms_feasible s = ms_feasible r.
