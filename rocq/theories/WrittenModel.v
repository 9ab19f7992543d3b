(** The file incumbent.json that the stand-alone solver writes (standalone/mps_solver.h:291-324). *)
From Coq Require Import List ZArith QArith Bool String.
From Verif Require Import ConstraintModel VariableModel TypeModel PresolveModel PrepareModel TextModel MpsModel NamesModel CommandModel
  SolverModel WholeModel RelaxModel OfferModel FileModel IncumbentModel JsonModel ReportModel.
Import ListNotations.

(** export_values_and_names of the variable proxies (model.h:3289-3292): shape, values
    and names of each. *)
Definition variable_values (m : list proxy) : list (string * vproxy) :=
  map (fun p => (px_name p, mkVp (px_shape p) (map (fun e => VInt (va_value (snd e))) (px_elems p)) (map fst (px_elems p)))) m.
(** What the file says about the rows of the model after presolve: their number
    (model.h:3320), and the values of expressions and constraints (model.h:3294-3310).
    Simplified: a parameter. *)
Record row_report := mkRr { rr_number : Z; rr_expr : list (string * vproxy); rr_con : list (string * vproxy); rr_vio : list (string * vproxy) }.
(** export_named_solution (model.h:3279-3329), called by postprocess (solver.h:129-132)
    after the answer is put into the variables. *)
Definition incumbent_report (rr : row_report) (i : instance) (an : answer) : report :=
  mkReport (in_name i) (Z.of_nat (List.length (elements (in_vars i)))) (rr_number rr) (an_feasible an) (an_objective an) (an_violation an)
    (variable_values (setup_unique_names (put_proxies 0 (an_x an) (in_vars i)))) (rr_expr rr) (rr_con rr) (rr_vio rr).
(** solve (mps_solver.h:291-323): what write_json_by_name gets, if the run gets there. *)
Definition report_of (rr : row_report) (fuel : nat) (order : list nat -> list nat) (su : surroundings) (on : ctype -> bool) (penalty : Q) (shrink user : bool)
  (nrm : list Q -> Q) (red ext : nat -> Q) (sq : Q -> Q) (lg : Z -> Q) (root : Q -> Q) (x : relaxations) (a : ninputs)
  (fs : files) (args : list string) : option report :=
  match CommandModel.setup fuel fs args, run_command fuel order su on penalty shrink user nrm red ext sq lg root x a fs args with
  | Some (Ok (Ready i)), Some (Ok (Some (Done (an, _)))) => Some (incumbent_report rr i an)
  | _, _ => None
  end.
