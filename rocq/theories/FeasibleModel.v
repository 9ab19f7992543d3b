(** The file feasible.json: the archive of feasible solutions as the stand-alone solver
    writes it (solution/solution_archive.h:203-232, standalone/mps_solver.h:326-330). *)
From Coq Require Import List ZArith QArith Bool String.
From Verif Require Import ConstraintModel VariableModel TypeModel PresolveModel PrepareModel TextModel MpsModel NamesModel JsonModel OptionModel CommandModel
  SolutionModel SolverModel WholeModel RelaxModel OfferModel ParityModel FileModel ReportModel ArchiveModel.
Import ListNotations.

(** SparseSolution (sparse_solution.h): what is written of it; the variables in the
    order in which the unordered_map lists them. *)
Record srecord := mkSr { sr_feasible : bool; sr_objective : Q; sr_violation : Q; sr_vars : list (string * Z) }.
(** One entry of the array (solution_archive.h:215-229). *)
Definition solution_object (q : srecord) : json :=
  JObj [("is_feasible", JBool (sr_feasible q)); ("objective", JReal (sr_objective q)); ("total_violation", JReal (sr_violation q));
        ("variables", JObj (map (fun p => (fst p, JInt KInt (snd p))) (sr_vars q)))]%string.
(** write_solutions_json (solution_archive.h:203-232): the text of the file. *)
Definition write_solutions (name : string) (nv nc : Z) (l : list srecord) : PresolveModel.outcome string :=
  write_json 0 (JObj [("version", JStr VERSION); ("name", JStr name); ("number_of_variables", JInt KInt nv); ("number_of_constraints", JInt KInt nc);
                      ("solutions", JArr (map solution_object l))]%string).

(** A solution of the archive with the names of its variables (model.h:3255-3258; the
    names are those of setup_unique_names).  [iter]: the order of the unordered_map;
    [vio]: the total violation, which ArchiveModel leaves out. *)
Definition record_of (names : list string) (vio : ssol -> Q) (iter : list (string * Z) -> list (string * Z)) (q : ssol) : srecord :=
  mkSr (so_feasible q) (so_obj q) (vio q) (iter (map (fun p => (nth (fst p) names EmptyString, snd p)) (so_vars q))).
Definition instance_names (i : instance) : list string := map fst (elements (setup_unique_names (in_vars i))).
(** The capacity of the archive (solver.h:376-378, output_option.h:44). *)
Definition capacity_of (o : opts) : Z := match param o "output" "feasible_solutions_capacity" with Some (OptionModel.VInt z) => z | _ => 0%Z end.
(** solve (mps_solver.h:293-305): the archive in the result, if the run gets there. *)
Definition archive_of (fuel : nat) (order : list nat -> list nat) (su : surroundings) (on : ctype -> bool) (penalty : Q) (shrink user : bool)
  (nrm : list Q -> Q) (red ext : nat -> Q) (sq : Q -> Q) (lg : Z -> Q) (root : Q -> Q) (x : relaxations) (a : ninputs)
  (fs : files) (args : list string) : option (instance * list ssol) :=
  match CommandModel.setup fuel fs args, run_command fuel order su on penalty shrink user nrm red ext sq lg root x a fs args with
  | Some (Ok (Ready i)), Some (Ok (Some (Done _))) =>
      match solve_archive fuel order (switches_of (in_options i)) (with_user su (in_selections i)) on (in_pairs i) (mkWo penalty shrink true user)
              nrm red ext sq lg root true x a (capacity_of (in_options i)) (enter i) with
      | Some (Ok l) => Some (i, l)
      | _ => None
      end
  | _, _ => None
  end.
(** The text of feasible.json (mps_solver.h:326-330), if it is written.  [nc]:
    number_of_constraints of the model after setup (solver.h:376-382), a parameter. *)
Definition feasible_json (nc : Z) (vio : ssol -> Q) (iter : list (string * Z) -> list (string * Z))
  (fuel : nat) (order : list nat -> list nat) (su : surroundings) (on : ctype -> bool) (penalty : Q) (shrink user : bool)
  (nrm : list Q -> Q) (red ext : nat -> Q) (sq : Q -> Q) (lg : Z -> Q) (root : Q -> Q) (x : relaxations) (a : ninputs)
  (fs : files) (args : list string) : option (PresolveModel.outcome string) :=
  match archive_of fuel order su on penalty shrink user nrm red ext sq lg root x a fs args with
  | Some (i, l) =>
      if flag (in_options i) "output" "is_enabled_store_feasible_solutions"
      then Some (write_solutions (in_name i) (Z.of_nat (List.length (elements (in_vars i)))) nc (map (record_of (instance_names i) vio iter) l))
      else None
  | None => None
  end.
