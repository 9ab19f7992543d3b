(** Specification for C90: the written JSON file. *)
From Coq Require Import List ZArith QArith Bool String.
From Verif Require Import PresolveModel JsonModel JsonSpec MpsModel MpsSpec ReportModel.
Import ListNotations.

(** The report [r] is written as a text that the reader of JSON files accepts; what it reads has the name of the report
    and the number of columns, says that a feasible solution was found, has the objective [q] up to the digits written, and under "variables" the value [y] gives
    each column. *)
Definition saved_as (r : report) (f : content) (y : string -> Z) (q : Q) : Prop :=
  exists file m l, write_by_name r = Ok file /\ (exists steps, forall fuel, (steps <= fuel)%nat -> read_json_object fuel file = Some (Ok m)) /\
    last_with "name" m = Some (JStr (rp_name r)) /\ last_with "number_of_variables" m = Some (JInt KInt (Z.of_nat (List.length (columns f)))) /\
    last_with "is_found_feasible_solution" m = Some (JBool true) /\
    (exists t, last_with "objective" m = Some (JReal t) /\ rounded q t) /\
    last_with "variables" m = Some (JObj l) /\ forall n, In n (columns f) -> last_with n l = Some (JInt KInt (y n)).
