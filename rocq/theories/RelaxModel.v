(** solve() with the two phases that compute dual bounds: the linear relaxation
    (LpModel) and the Lagrange dual search (LagrangeModel) of the prepared problem. *)
From Coq Require Import List NArith ZArith QArith Bool.
From Verif Require Import ExprModel ConstraintModel VariableModel PresolveModel DependentModel SelectionModel PrepareModel EvalModel TabuModel WholeModel.
From Verif Require ScreenModel SolverModel LpModel LagrangeModel.
Import ListNotations.
Local Open Scope nat_scope.

(** The variables of a sense (categorize_variables, model.h:1029-1075). *)
Definition with_sense (s : dstate) (k : vsense) : list nat := SelectionModel.of_sense k (ds_number s) (ds_vars s).
(** The columns in the order of export_lp_instance (model.h:1401-1424), and
    fixed_variable_ptrs. *)
Definition lp_order (s : dstate) : list nat := with_sense s VBinary ++ with_sense s VInteger ++ with_sense s VSelection.
Definition lp_fixed (s : dstate) : list nat := filter (fun v => va_fixed (ds_vars s v)) (seq 0 (ds_number s)).
(** The constraints of a sense (categorize_constraints, model.h:1090-1118; that only
    enabled ones are listed is left to the filter of the export). *)
Definition cons_of (k : csense) (cs : list constr) : list constr := filter (fun c => DuplicateModel.csense_eqb (ct_sense c) k) cs.
(** The constraints the selections were made from (constraint_ptr, model.h:1435-1440). *)
Definition sel_cons (r : dstate * list sel) : list constr :=
  flat_map (fun t => match nth_error (ds_cons (fst r)) (sl_con t) with Some c => [c] | None => [] end) (snd r).

(** pdlp.is_enabled with the options, the course and the clock of the phase;
    lagrange_dual.is_enabled with the options, whether the time is over, and the
    clock. *)
Record relaxations := mkRx {
  rx_pdlp : option (LpModel.poption * list LpModel.penv * bool);
  rx_lagrange : option (LagrangeModel.goptions * bool * list bool) }.

(** run_pdlp (solver.h:146-154, 432-434): the dual bound that is offered.  The
    solution that is imported (pdlp_controller.h:154) is the present one.  That
    every variable is fixed (98-107) is asked of the independent ones.  [Ran]'s bound
    is that of the objective as it is; what is offered is that of the minimization. *)
Definition pdlp_phase (nrm : list Q -> Q) (red ext : nat -> Q) (sq : Q -> Q) (x : relaxations) (minimize : bool) (r : dstate * list sel) : outcome (option Q) :=
  match rx_pdlp x with
  | None => Ok None
  | Some (po, envs, late) =>
      let s := fst r in
      bind (LpModel.pdlp_run nrm red ext sq po envs late minimize (ds_obj s) (ds_vars s) (lp_order s) (lp_fixed s)
              (cons_of Less (ds_cons s)) (sel_cons r) (cons_of Equal (ds_cons s)) (cons_of Greater (ds_cons s)))
        (fun q => Ok match q with
                     | LpModel.Ran _ _ (Some b) => Some (if minimize then b else - b)%Q
                     | _ => None end)
  end.

(** satisfy_not_applicable_skip_condition (lagrange_dual_controller.h:49-63) and
    the variables the search sets (lagrange_dual_core.h:435-457). *)
Definition plain_sense (k : vsense) : bool := match k with VBinary | VInteger => true | _ => false end.
Definition lagrange_applies (s : dstate) : bool := forallb (fun v => plain_sense (va_sense (ds_vars s v))) (seq 0 (ds_number s)).
Definition lagrange_phase (x : relaxations) (r : dstate * list sel) : option SolverModel.glag :=
  match rx_lagrange x with
  | None => None
  | Some (o, late, clock) =>
      let s := fst r in
      Some (SolverModel.mkGlag o (lagrange_applies s) late (seq 0 (ds_number s)) (fun v => va_lower (ds_vars s v)) (fun v => va_upper (ds_vars s v)) clock)
  end.

(** The inputs of the search, with the three sources of dual bounds filled in. *)
Definition with_relaxations (naive : Q) (b : option Q) (g : option SolverModel.glag) (a : SolverModel.inputs) : SolverModel.inputs :=
  SolverModel.mkIn naive b g (SolverModel.in_local a) (SolverModel.in_control a) (SolverModel.in_limit a) (SolverModel.in_target a) (SolverModel.in_rounds a).
(** Solver::solve (solver.h:418-480).  [None]: the fuel of the preparation is used
    up. *)
Definition solve_relaxed (fuel : nat) (sw : switches) (su : surroundings) (o : search_options)
  (nrm : list Q -> Q) (red ext : nat -> Q) (sq : Q -> Q) (lg : Z -> Q) (root : Q -> Q)
  (minimize : bool) (x : relaxations) (a : SolverModel.inputs) (s : dstate)
  : option (outcome (SolverModel.outcome (SolverModel.answer * SolverModel.run))) :=
  match prepare fuel sw su minimize s with
  | None => None
  | Some p => Some (bind p (fun r => bind (pdlp_phase nrm red ext sq x minimize r) (fun b => Ok
      (SolverModel.solve lg root (search_problem su minimize r)
         (with_relaxations (ScreenModel.naive_dual_bound minimize (ds_obj (fst r)) (ds_vars (fst r))) b (lagrange_phase x r) a)
         (search_state o minimize r) mem_setup))))
  end.
