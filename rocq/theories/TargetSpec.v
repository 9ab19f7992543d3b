(** Specification for C94. *)
From Coq Require Import List ZArith QArith Bool.
From Verif Require Import ExprModel ExprSpec ConstraintModel EvalModel SolutionModel SolutionSpec LoopModel LoopSpec SolverModel SolverSpec.
Import ListNotations.
Local Open Scope Q_scope.

(** A target value the user has chosen: well above the default of -1e100. *)
Definition chosen (t : Q) : Prop := - inject_Z (99999 * 10 ^ 95) < t.
Definition left_alone (t : Q) : Prop := t == - inject_Z (10 ^ 100).

(** The objective of the user's model. *)
Definition objective_at (md : model) (y : nat -> Z) : Q := if md_defined md then e_eval (md_obj md) y else 0.
(** [u] is as good as the target [t]. *)
Definition as_good (maximize : bool) (u t : Q) : Prop := if maximize then t <= u else u <= t.
(** [u] is worse than [t], by at most 1e-5. *)
Definition just_missed (maximize : bool) (u t : Q) : Prop := if maximize then t - (1 # 100000) <= u < t else t < u <= t + (1 # 100000).
(** [u] is better than [t] by at least 1e-5. *)
Definition clearly (maximize : bool) (u t : Q) : Prop := if maximize then t + (1 # 100000) <= u else u <= t - (1 # 100000).
(** The sense of the optimization. *)
Definition sense_is (maximize : bool) (md : model) : Prop := md_sign md == if maximize then -1 else 1.

(** The run, however solve() ended. *)
Definition ending (o : outcome (answer * run)) : run := match o with Done (_, r) => r | Rejected r _ => r | NotANumber r => r end.
(** The target is met by [y] in the run [r]: clearly, or otherwise with no feasible
    solution visited that just misses it. *)
Definition meets (maximize : bool) (md : model) (t : Q) (r : run) (y : nat -> Z) : Prop := satisfies md y /\
  (clearly maximize (objective_at md y) t \/
   as_good maximize (objective_at md y) t /\ forall z, In z (visited r) -> satisfies md z -> ~ just_missed maximize (objective_at md z) t).
(** The most initial modifications of a round. *)
Definition most_modifications (a : inputs) : nat := fold_right Nat.max O (map (fun d => length (td_mods d)) (in_rounds a)).
