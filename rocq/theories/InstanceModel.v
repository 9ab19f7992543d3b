(** The model as a JSON file (--export-json-instance): Model::write_json,
    model/model.h:3707-3823; called by MPSSolver::solve (standalone/mps_solver.h:332-334). *)
From Coq Require Import List ZArith QArith Bool String.
From Verif Require Import ExprModel ConstraintModel VariableModel PresolveModel DependentModel TextModel MpsModel JsonModel.
Import ListNotations.

(** One coefficient (model.h:3763-3766, 3807-3811). *)
Definition term_object (names : list string) (t : nat * Q) : json :=
  JObj [("variable", JStr (nth (fst t) names EmptyString)); ("coefficient", JReal (snd t))]%string.
(** One variable (model.h:3737-3751). *)
Definition variable_object (e : string * var) : json :=
  let v := snd e in
  JObj [("name", JStr (fst e)); ("value", JInt KInt (va_value v)); ("is_fixed", JBool (va_fixed v)); ("lower_bound", JInt KInt (va_lower v)); ("upper_bound", JInt KInt (va_upper v));
        ("sense", JStr (match va_sense v with VBinary => "Binary" | _ => "Integer" end))]%string.
(** One constraint (model.h:3780-3816). *)
Definition constraint_object (names : list string) (iter : sens -> sens) (e : string * constr) : json :=
  let c := snd e in
  JObj [("name", JStr (fst e)); ("is_enabled", JBool (ct_enabled c)); ("rhs", JReal (- ex_const (ct_expr c)));
        ("sense", JStr (match ct_sense c with Equal => "=" | Less => "<=" | Greater => ">=" end));
        ("sensitivities", JArr (map (term_object names) (iter (ex_sens (ct_expr c)))))]%string.
(** The name (model.h:3724-3728): "untitled" is passed as a const char*, a type the
    writer does not know (json.h:29-48, 268-273). *)
Definition name_entry (name : string) : json := if (name =? "")%string then JNull else JStr (delete_space name).
(** write_json (model.h:3707-3823): the text of the file.  Names have been set by
    setup_unique_names (NamesModel); the sensitivities that are set up first
    (model.h:3716-3717) do not enter the file.  [iter]: the order in which an
    unordered_map lists its elements. *)
Definition instance_object (iter : sens -> sens) (w : written) : list (string * json) :=
  let names := map fst (wr_vars w) in
  [("name", name_entry (wr_name w)); ("is_minimization", JBool (wr_minimize w));
   ("variables", JArr (map variable_object (wr_vars w)));
   ("objective", JObj [("sensitivities", JArr (map (term_object names) (iter (ex_sens (wr_objective w)))))]);
   ("constraints", JArr (map (constraint_object names iter) (wr_cons w)))]%string.
Definition write_instance (iter : sens -> sens) (w : written) : outcome string := write_json 0 (JObj (instance_object iter w)).
(** What is written of a prepared problem (mps_solver.h:332-334 comes after solve(),
    which has prepared the model): [names], [cnames] are the names of all its variables
    and constraints.  The search changes values and bounds once more; not modelled here. *)
Definition prepared_instance (name : string) (minimize : bool) (names cnames : list string) (s : dstate) : written :=
  mkWr name minimize (combine names (map (ds_vars s) (seq 0 (ds_number s)))) (combine cnames (ds_cons s)) (ds_obj s).
