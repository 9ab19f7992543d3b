(** The target objective value (printemps/solver/solver.h). *)
From Coq Require Import List ZArith QArith Qabs Bool.
From Verif Require Import ConstraintModel EvalModel LoopModel LocalModel LagrangeModel SolverModel.
Import ListNotations.
Local Open Scope Q_scope.

(** DEFAULT_TARGET_OBJECTIVE_VALUE (general_option.h:15). *)
Definition DEFAULT_TARGET : Q := inject_Z (- 10 ^ 100).

(** setup_target_objective (solver.h:54-78).  [sign]: Model::sign(), [defined]: whether
    there is an objective, [t]: the option general.target_objective_value. *)
Definition setup_target (sign : Q) (defined : bool) (t : Q) : Q :=
  let rate := t / DEFAULT_TARGET - 1 in
  let t1 := if Qlt_le_dec EPS (Qabs rate) then t * sign else t in
  if Qlt_le_dec (Qabs rate) EPS then (if defined then t1 else 0) else t1.

(** All searches read the altered option: the Lagrange dual search
    (lagrange_dual_controller.h:83, lagrange_dual_core.h:112), the local search
    (local_search_controller.h:66, local_search_core.h:120) and the tabu search
    (tabu_search_controller.h:120, tabu_search_core.h:126). *)
Definition targeted (t : Q) (a : inputs) : inputs :=
  mkIn (in_naive a) (in_pdlp a)
    (option_map (fun g => let o := gg_options g in
       mkGlag (mkGo (go_iteration_max o) t (go_extend o) (go_reduce o) (go_tolerance o) (go_queue o) (go_store o))
         (gg_applicable g) (gg_late g) (gg_vars g) (gg_lo g) (gg_hi g) (gg_clock g)) (in_lagrange a))
    (option_map (fun g => let o := gc_options g in
       mkGloc (mkSo (so_iteration_max o) t (so_adjust o) (so_store o)) (gc_late g) (gc_envs g)) (in_local a))
    (in_control a) (in_limit a) t
    (map (fun d => let o := td_options d in
       mkTd (td_time_over d)
         (mkLo (lo_iteration_max o) t (lo_pruning o) (lo_ignore_tabu o) (lo_all o) (lo_frequency o) (lo_lagrangian o) (lo_multiplier o) (lo_randomize o)
            (lo_inc o) (lo_dec o) (lo_fast o) (lo_break o) (lo_adjust o) (lo_store o) (lo_initial_tenure o) (lo_nmut o))
         (td_mods d) (td_envs d) (td_last_update d) (td_range d) (td_rate d) (td_draw d)) (in_rounds a)).
(** solve (solver.h:428-480) with setup_target_objective (solver.h:281) before it. *)
Definition solve_target (lg : Z -> Q) (root : Q -> Q) (p : problem) (a : inputs) (s0 : mstate) (m0 : TabuModel.memory) (t : Q) : outcome (answer * run) :=
  solve lg root p (targeted (setup_target (md_sign (ms_model s0)) (md_defined (ms_model s0)) t) a) s0 m0.
