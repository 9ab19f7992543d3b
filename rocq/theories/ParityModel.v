(** Model of the last step of Model::setup that changes the problem (model/model.h:792-810):
    the GF(2) solver fixes the variables of the constraints of the type GF2; and of
    solve() with that step.
    Simplification: the types were detected before the initial values were corrected;
    they do not depend on the values of variables that are not fixed. *)
From Coq Require Import List NArith ZArith QArith Bool.
From Verif Require Import ExprModel ConstraintModel VariableModel TypeModel PresolveModel DuplicateModel DependentModel SelectionModel BinMatModel PrepareModel EvalModel
  MoveModel TabuModel WholeModel RelaxModel OfferModel.
From Verif Require ScreenModel SolverModel.
Import ListNotations.
Local Open Scope nat_scope.

(** gf2_ptrs of the constraint type reference (model.h:1146-1243), disabled constraints
    included, with their key variables. *)
Definition parity_items (su : surroundings) (s : dstate) : list (constr * nat) :=
  flat_map (fun p : constr * option nat => match snd p with Some k => [(fst p, k)] | None => [] end)
    (items_of (vctx (su_name su) (ds_vars s)) (ds_cons s) GF2).
Definition parity_equations (su : surroundings) (s : dstate) : list gf2c :=
  map (fun p : constr * nat => (ct_expr (fst p), snd p)) (parity_items su s).

(** model.h:795-810.  [order]: the order in which the set of the variables is walked
    (gf2_solver.h:97); fix_by (variable.h:330-334) does not look at the bounds. *)
Definition fix_solved (l : list nat) (y : nat -> Z) (vs : vars) : vars :=
  fold_left (fun vs v => do_fix_by vs v (y v)) l vs.
Definition prepare_parities (order : list nat -> list nat) (sw : switches) (su : surroundings) (r : dstate * list sel) : dstate * list sel :=
  let s := fst r in
  let es := parity_equations su s in
  if sw_presolve sw && negb (length es =? 0) then
    let bs := order (binary_variables es) in
    match gf2_solve es bs (fun v => va_value (ds_vars s v)) with
    | None => r
    | Some y => (mkD (ds_number s) (fix_solved (bs ++ map snd es) y (ds_vars s)) (ds_cons s) (ds_obj s) (ds_exprs s) (ds_dep s), snd r)
    end
  else r.

(** solve() for moves from anywhere, as solve_relaxed in RelaxModel, with this step. *)
Definition p_solve (fuel : nat) (order : list nat -> list nat) (sw : switches) (su : surroundings) (o : search_options)
  (nrm : list Q -> Q) (red ext : nat -> Q) (sq : Q -> Q) (lg : Z -> Q) (root : Q -> Q)
  (minimize : bool) (x : relaxations) (a : SolverModel.inputs) (s : dstate)
  : option (outcome (SolverModel.outcome (SolverModel.answer * SolverModel.run))) :=
  match prepare fuel sw su minimize s with
  | None => None
  | Some p => Some (bind p (fun r0 => let r := prepare_parities order sw su r0 in bind (pdlp_phase nrm red ext sq x minimize r) (fun b => Ok
      (SolverModel.solve lg root (search_problem su minimize r)
         (with_relaxations (ScreenModel.naive_dual_bound minimize (ds_obj (fst r)) (ds_vars (fst r))) b (lagrange_phase x r) a) (search_state o minimize r) mem_setup))))
  end.

(** The generators are set up before this step (model.h:775); their moves read the
    variables as they are. *)
Definition stale_neighborhood (on : ctype -> bool) (pairs : list (nat * nat)) (su : surroundings) (r0 r : dstate * list sel) : neighborhood :=
  let nb := setup_neighborhood on pairs su r0 in
  mkNb (nb_addr nb) (nb_cname nb) (ds_vars (fst r)) (nb_cons nb) (nb_sels nb) (nb_binary nb) (nb_integer nb) (nb_selection nb) (nb_special nb) (nb_two_flip nb).

(** Solver::solve (solver.h:418-480) with Model::setup, this step included. *)
Definition p_solve_model (fuel : nat) (order : list nat -> list nat) (sw : switches) (su : surroundings) (on : ctype -> bool) (pairs : list (nat * nat)) (o : search_options)
  (nrm : list Q -> Q) (red ext : nat -> Q) (sq : Q -> Q) (lg : Z -> Q) (root : Q -> Q)
  (minimize : bool) (x : relaxations) (a : ninputs) (s : dstate)
  : option (outcome (SolverModel.outcome (SolverModel.answer * SolverModel.run))) :=
  match prepare fuel sw su minimize s with
  | None => None
  | Some p => Some (bind p (fun r0 => let r := prepare_parities order sw su r0 in bind (pdlp_phase nrm red ext sq x minimize r) (fun b => Ok
      (n_solve (stale_neighborhood on pairs su r0 r) lg root (search_problem su minimize r)
         (ScreenModel.naive_dual_bound minimize (ds_obj (fst r)) (ds_vars (fst r))) b (lagrange_phase x r) a
         (search_state o minimize r) mem_setup))))
  end.
