(** The Lagrange dual search (solver/lagrange_dual/). *)
From Coq Require Import List ZArith QArith Qabs Bool.
From Verif Require Import ExprModel ConstraintModel EvalModel SolutionModel ContainerModel TabuModel LoopModel.
Import ListNotations.
Local Open Scope Q_scope.

(** Values of the dual solution by constraint (position in the model).
    bound_dual (lagrange_dual_core_state_manager.h:215-245) for one constraint. *)
Definition clamp (c : constr) (d : Q) : Q :=
  match ct_sense c with Less => qmax d 0 | Greater => qmin d 0 | Equal => d end.
(** update_dual (lagrange_dual_core_state_manager.h:188-212): constraint_ptrs holds
    every constraint, enabled or not (model.h:1078-1088). *)
Definition update_dual (cons : list constr) (step : Q) (dual : nat -> Q) (i : nat) : Q :=
  match nth_error cons i with
  | Some c => clamp c (dual i + step * ct_value c)
  | None => dual i
  end.
(** generate_constraint_parameter_proxies(0.0) and bound_dual
    (lagrange_dual_core_state_manager.h:87-88). *)
Definition zero_dual (cons : list constr) (i : nat) : Q :=
  match nth_error cons i with Some c => clamp c 0 | None => 0 end.

(** sign (model.h:4027). *)
Definition dsign (minimize : bool) : Q := if minimize then 1 else - (1).

(** The coefficient of a variable in the Lagrangian (lagrange_dual_core.h:439-452).
    objective_sensitivity is the coefficient in the objective (model.h:971-975). *)
Definition lagrangian_coefficient (minimize : bool) (md : model) (dual : nat -> Q) (v : nat) : Q :=
  fold_left (fun acc p => acc + dual (fst p) * snd p * dsign minimize)
    (constraint_sensitivities (md_cons md) v) (coef (ex_sens (md_obj md)) v).
(** set_lower_or_upper_bound on every non-fixed variable (lagrange_dual_core.h:435-457,
    variable.h:257-259).  The parallel loop writes each variable once. *)
Definition primal_step (minimize : bool) (vars : list nat) (lo hi : nat -> Z) (s : mstate) (dual : nat -> Q) (v : nat) : Z :=
  if existsb (Nat.eqb v) vars && negb (ms_fixed s v)
  then if Bool.eqb (if Qlt_le_dec 0 (lagrangian_coefficient minimize (ms_model s) dual v) then true else false) minimize then lo v else hi v
  else ms_x s v.
Definition with_x (s : mstate) (x : nat -> Z) : mstate :=
  mkMs (ms_model s) (ms_exprs s) (ms_deps s) x (ms_fixed s) (ms_user_defined s) (ms_violative s) (ms_feasible s).

(** compute_lagrangian (model.h:3023-3038). *)
Definition compute_lagrangian (md : model) (dual : nat -> Q) : Q :=
  fold_left (fun acc ic => acc + dual (fst ic) * ct_value (snd ic))
    (combine (seq 0 (length (md_cons md))) (md_cons md)) (md_obj_value md).

(** option/lagrange_dual_option.h, the target and store flag. *)
Record goptions := mkGo { go_iteration_max : Z; go_target : Q; go_extend : Q; go_reduce : Q; go_tolerance : Q; go_queue : Z; go_store : bool }.
Inductive gstatus := GTimeOver | GIterationOver | GReachTarget | GConverge | GUndefined.

(** LagrangeDualCoreState (lagrange_dual_core_state.h).  A Lagrangian of None is
    -HUGE_VALF.  [gl_visited] is not in the code: the solutions offered to the
    incumbents. *)
Record gloop := mkGl {
  gl_ms : mstate; gl_score : score; gl_holder : holder (nat -> Z); gl_dual : nat -> Q; gl_lagrangian : option Q;
  gl_best : option Q; gl_best_x : nat -> Z; gl_best_dual : nat -> Q; gl_step : Q; gl_queue : fqueue; gl_iteration : Z;
  gl_feasible : list (nat -> Z); gl_visited : list ((nat -> Z) * score) }.

(** preprocess (lagrange_dual_core.h:34-62) and setup of the state manager
    (lagrange_dual_core_state_manager.h:44-105).  With no variable 1.0/0 is infinite;
    here it is 0. *)
Definition g_setup (o : goptions) (nvars : nat) (s0 : mstate) (h0 : holder (nat -> Z)) : gloop :=
  let s := ms_update s0 in
  let sc := evaluate (ms_model s) (ms_x s) [] in
  let '(s1, h1, _) := l_offer s (reset_local h0) sc in
  let dual := zero_dual (md_cons (ms_model s1)) in
  mkGl s1 sc h1 dual None None (ms_x s1) dual (1 / inject_Z (Z.of_nat nvars)) (fq_setup (go_queue o)) 0 []
    [(ms_x (ms_export s), sc)].

(** update_step_size (lagrange_dual_core_state_manager.h:174-185); the queue is not
    empty after a push. *)
Definition next_step (o : goptions) (q : fqueue) (lagrangian step : Q) : Q :=
  match fq_average q, fq_max_value q with
  | Some a, Some m =>
      let step := if Qlt_le_dec a lagrangian then step * go_extend o else step in
      if Qlt_le_dec lagrangian m then step * go_reduce o else step
  | _, _ => step
  end.
(** satisfy_converge_terminate_condition (lagrange_dual_core.h:117-131). *)
Definition converged (o : goptions) (q : fqueue) (lagrangian : Q) : bool :=
  match fq_average q with
  | Some a => (Z.of_nat (length (fq_items q)) =? go_queue o)%Z &&
              (if Qlt_le_dec (Qabs (lagrangian - a)) (qmax 1 (Qabs a) * go_tolerance o) then true else false)
  | None => false
  end.
(** update_lagrangian's comparison (lagrange_dual_core_state_manager.h:161). *)
Definition exceeds (q : Q) (best : option Q) : bool :=
  match best with None => true | Some b => if Qlt_le_dec b q then true else false end.

(** One iteration (lagrange_dual_core.h:396-500): the tests, update_dual, the primal
    solution, update(), evaluate, update of the state
    (lagrange_dual_core_state_manager.h:108-128), the stored feasible solution and the
    convergence test.  [time_over]: the clock. *)
Definition g_iterate (o : goptions) (minimize : bool) (vars : list nat) (lo hi : nat -> Z) (time_over : bool) (l : gloop) : gloop * option gstatus :=
  if time_over then (l, Some GTimeOver)
  else if (go_iteration_max o <=? gl_iteration l)%Z then (l, Some GIterationOver)
  else if (match sl_obj (ho_feasible (gl_holder l)) with Some q => Qle_bool q (go_target o) | None => false end) then (l, Some GReachTarget)
  else
    let dual := update_dual (md_cons (ms_model (gl_ms l))) (gl_step l) (gl_dual l) in
    let s := ms_update (with_x (gl_ms l) (primal_step minimize vars lo hi (gl_ms l) dual)) in
    let sc := evaluate (ms_model s) (ms_x s) [] in
    let '(s1, h1, _) := l_offer s (gl_holder l) sc in
    let lagrangian := compute_lagrangian (ms_model s1) dual * dsign minimize in
    let better := exceeds lagrangian (gl_best l) in
    match fq_push (gl_queue l) lagrangian with
    | None => (l, Some GUndefined)
    | Some q =>
        let store := go_store o && sc_feasible sc in
        let s2 := if store then ms_export s1 else s1 in
        let done := converged o q lagrangian in
        (mkGl s2 sc h1 dual (Some lagrangian)
           (if better then Some lagrangian else gl_best l) (if better then ms_x s1 else gl_best_x l) (if better then dual else gl_best_dual l)
           (next_step o q lagrangian (gl_step l)) q (if done then gl_iteration l else gl_iteration l + 1)%Z
           (if store then gl_feasible l ++ [ms_x s2] else gl_feasible l) (gl_visited l ++ [(ms_x (ms_export s), sc)]),
         if done then Some GConverge else None)
    end.
Fixpoint g_run (o : goptions) (minimize : bool) (vars : list nat) (lo hi : nat -> Z) (clock : list bool) (l : gloop) : gloop * option gstatus :=
  match clock with
  | [] => (l, None)
  | t :: tl => match g_iterate o minimize vars lo hi t l with
               | (l', None) => g_run o minimize vars lo hi tl l'
               | r => r
               end
  end.
(** The whole search; [clock]: the outcome of the time test in each iteration. *)
Definition g_search (o : goptions) (minimize : bool) (vars : list nat) (lo hi : nat -> Z) (s0 : mstate) (h0 : holder (nat -> Z)) (clock : list bool) : gloop * option gstatus :=
  g_run o minimize vars lo hi clock (g_setup o (length vars) s0 h0).

(** The end of run of the controller (lagrange_dual_controller.h:164-181): the dual
    bound is offered the last Lagrangian (lagrange_dual_core_result.h:37); -HUGE_VALF
    changes nothing. *)
Definition g_dual_bound (minimize : bool) (l : gloop) : holder (nat -> Z) :=
  match gl_lagrangian l with Some q => offer_dual minimize (gl_holder l) q | None => gl_holder l end.
(** The whole controller (lagrange_dual_controller.h:55-181): skipped when there are
    selection or dependent variables ([applicable] = false), when the time is over,
    or when the target is reached. *)
Definition g_control (o : goptions) (minimize applicable late : bool) (vars : list nat) (lo hi : nat -> Z) (s0 : mstate) (h0 : holder (nat -> Z)) (clock : list bool) : holder (nat -> Z) :=
  if negb applicable || late || (match sl_obj (ho_feasible h0) with Some q => Qle_bool q (go_target o) | None => false end) then h0
  else g_dual_bound minimize (fst (g_search o minimize vars lo hi s0 h0 clock)).
