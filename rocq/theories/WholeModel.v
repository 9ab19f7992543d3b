(** From the user's model to the answer: Model::setup (PrepareModel), the state in
    which the search starts, and solve() (SolverModel).
    Left out beside what those two leave out: the GF(2) solver (model.h:796-810),
    which runs only if presolve is on and some constraint has that type (ParityModel). *)
From Coq Require Import List NArith ZArith QArith Bool.
From Verif Require Import ExprModel ConstraintModel VariableModel PresolveModel DependentModel SelectionModel PrepareModel EvalModel TabuModel.
From Verif Require ScreenModel SolverModel.
Import ListNotations.
Local Open Scope nat_scope.

(** setup_is_integer (model.h:924-939) over the flags kept by the constraints. *)
Definition all_integer (cs : list constr) : bool := forallb ct_is_integer cs.

(** The options read here: penalty.initial_penalty_coefficient,
    penalty.is_enabled_shrink_penalty_coefficient; and whether the objective is
    defined and a user-defined neighbourhood is enabled. *)
Record search_options := mkWo { wo_initial : Q; wo_shrink : bool; wo_defined : bool; wo_user : bool }.

(** The global penalty coefficient (model.h:834-844), with
    shrink_global_penalty_coefficient (1632-1657). *)
Definition shrunk_penalty (initial : Q) (s : dstate) : Q :=
  qmin initial (e_upper (ds_obj s) (vi_of (ds_vars s)) - e_lower (ds_obj s) (vi_of (ds_vars s)) + 1).
Definition global_penalty (o : search_options) (s : dstate) : Q :=
  if all_integer (ds_cons s) && wo_shrink o then shrunk_penalty (wo_initial o) s else wo_initial o.

(** The variables with a definition (variable_reference, model.h:1029-1075) and its
    position. *)
Definition defined_list (s : dstate) : list (nat * nat) :=
  flat_map (fun v => match ds_dep s v with Some k => [(v, k)] | None => [] end) (seq 0 (ds_number s)).

(** The model when the search starts: both penalty coefficients of every constraint
    reset to the global one (solver.h:352-360); expressions are never disabled. *)
Definition search_state (o : search_options) (minimize : bool) (r : dstate * list sel) : mstate :=
  let s := fst r in
  let g := global_penalty o s in
  mkMs (mkM (wo_defined o) (if minimize then 1 else -1)%Q (ds_obj s) 0 0 (map (fun c => c_reset_penalty c g) (ds_cons s)) g)
    (map (fun e => (e, true, 0%Q)) (ds_exprs s)) (defined_list s)
    (fun v => va_value (ds_vars s v)) (fun v => va_fixed (ds_vars s v)) (wo_user o) [] false.
Definition search_problem (su : surroundings) (minimize : bool) (r : dstate * list sel) : SolverModel.problem :=
  SolverModel.mkPb (ds_number (fst r)) (ds_vars (fst r)) (snd r) (su_sens su (ds_cons (fst r))) minimize.

(** Solver::solve (solver.h:428-480): preprocess (252-412), with the dual bound of
    C41, the phases, postprocess.
    [None]: the fuel of the preparation is used up. *)
Definition with_naive (q : Q) (a : SolverModel.inputs) : SolverModel.inputs :=
  SolverModel.mkIn q (SolverModel.in_pdlp a) (SolverModel.in_lagrange a) (SolverModel.in_local a) (SolverModel.in_control a)
    (SolverModel.in_limit a) (SolverModel.in_target a) (SolverModel.in_rounds a).
Definition solve_model (fuel : nat) (sw : switches) (su : surroundings) (o : search_options) (lg : Z -> Q) (root : Q -> Q)
  (minimize : bool) (a : SolverModel.inputs) (s : dstate)
  : option (outcome (SolverModel.outcome (SolverModel.answer * SolverModel.run))) :=
  match prepare fuel sw su minimize s with
  | None => None
  | Some p => Some (bind p (fun r => Ok
      (SolverModel.solve lg root (search_problem su minimize r)
         (with_naive (ScreenModel.naive_dual_bound minimize (ds_obj (fst r)) (ds_vars (fst r))) a) (search_state o minimize r) mem_setup)))
  end.
