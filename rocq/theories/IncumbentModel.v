(** The solution file incumbent.sol that the stand-alone solver writes
    (standalone/mps_solver.h:291-325). *)
From Coq Require Import List ZArith QArith Bool String.
From Verif Require Import ConstraintModel VariableModel TypeModel PresolveModel PrepareModel TextModel MpsModel NamesModel CommandModel
  SolverModel WholeModel RelaxModel OfferModel FileModel.
Import ListNotations.

(** import_solution(incumbent) (solver.h:129, model.h:3332-3341): the value of the answer
    at each position.  The checks that follow are part of the answer. *)
Fixpoint put_from (k : nat) (x : nat -> Z) (l : list (string * var)) : list (string * var) :=
  match l with
  | [] => []
  | (n, v) :: tl => (n, v_with_value v (x k)) :: put_from (S k) x tl
  end.
Fixpoint put_proxies (k : nat) (x : nat -> Z) (m : list proxy) : list proxy :=
  match m with
  | [] => []
  | p :: tl => mkProxy (px_name p) (px_shape p) (put_from k x (px_elems p)) :: put_proxies (k + List.length (px_elems p)) x tl
  end.
(** export_named_solution (solver.h:132) and write_solution (mps_solver.h:324); the names
    are those of setup_unique_names (solver.h, Model::setup).  [show]: the objective as
    "%.10e". *)
Definition incumbent_lines (show : Q -> string) (i : instance) (an : answer) : list string :=
  solution_lines (if an_feasible an then Some (show (an_objective an)) else None)
    (export_named (setup_unique_names (put_proxies 0 (an_x an) (in_vars i)))).
(** solve (mps_solver.h:291-325): the lines of incumbent.sol, if the run gets there. *)
Definition write_incumbent (show : Q -> string) (fuel : nat) (order : list nat -> list nat) (su : surroundings) (on : ctype -> bool) (penalty : Q) (shrink user : bool)
  (nrm : list Q -> Q) (red ext : nat -> Q) (sq : Q -> Q) (lg : Z -> Q) (root : Q -> Q) (x : relaxations) (a : ninputs)
  (fs : files) (args : list string) : option (list string) :=
  match CommandModel.setup fuel fs args, run_command fuel order su on penalty shrink user nrm red ext sq lg root x a fs args with
  | Some (Ok (Ready i)), Some (Ok (Some (Done (an, _)))) => Some (incumbent_lines show i an)
  | _, _ => None
  end.
