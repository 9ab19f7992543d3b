(** Specification for C57. *)
From Coq Require Import List ZArith QArith Qabs Bool.
From Verif Require Import ExprModel ExprSpec ConstraintModel ConstraintSpec EvalModel SolutionModel ContainerModel LoopModel LagrangeModel.
Import ListNotations.
Local Open Scope Q_scope.

(** An assignment within the bounds that respects the fixed values. *)
Definition attainable (vars : list nat) (lo hi : nat -> Z) (s0 : mstate) (y : nat -> Z) : Prop :=
  forall v, In v vars -> (ms_fixed s0 v = true -> y v = ms_x s0 v) /\ (ms_fixed s0 v = false -> (lo v <= y v <= hi v)%Z).
(** It satisfies every constraint, also those disabled. *)
Definition satisfies_all (md : model) (y : nat -> Z) : Prop :=
  forall c, In c (md_cons md) -> holds (e_eval (ct_expr c) y) (ct_sense c) 0.
(** The list holds every variable of the problem once. *)
Definition lists_variables (vars : list nat) (s : mstate) : Prop :=
  NoDup vars /\ (forall v, In v (keys (md_obj (ms_model s))) -> In v vars) /\
  (forall c v, In c (md_cons (ms_model s)) -> In v (keys (ct_expr c)) -> In v vars).
(** A problem the search is run on: objective defined, no dependent variables, every
    expression holds each variable once. *)
Definition dual_problem (vars : list nat) (s : mstate) : Prop :=
  lists_variables vars s /\ md_defined (ms_model s) = true /\ ms_deps s = [] /\ wf (md_obj (ms_model s)).
(** No assignment that counts has an objective below the bound. *)
Definition below_all (vars : list nat) (lo hi : nat -> Z) (s0 : mstate) (b : Q) : Prop :=
  forall y, attainable vars lo hi s0 y -> satisfies_all (ms_model s0) y -> b <= e_eval (md_obj (ms_model s0)) y.

(** What a termination status says. *)
Fixpoint total (l : list Q) : Q := match l with [] => 0 | q :: tl => q + total tl end.
Definition dual_meaning (o : goptions) (clock : list bool) (l : gloop) (st : gstatus) : Prop :=
  match st with
  | GTimeOver => In true clock
  | GIterationOver => (go_iteration_max o <= gl_iteration l)%Z
  | GReachTarget => exists q, sl_obj (ho_feasible (gl_holder l)) = Some q /\ q <= go_target o
  | GConverge => exists q a, gl_lagrangian l = Some q /\ Z.of_nat (length (fq_items (gl_queue l))) = go_queue o /\
      a * inject_Z (go_queue o) == total (fq_items (gl_queue l)) /\
      (Qabs (q - a) < go_tolerance o \/ Qabs (q - a) < Qabs a * go_tolerance o)
  | GUndefined => False
  end.
