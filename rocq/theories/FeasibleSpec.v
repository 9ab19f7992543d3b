(** Specification for C92: the file feasible.json. *)
From Coq Require Import List ZArith QArith Bool String.
From Verif Require Import PresolveModel JsonModel JsonSpec MpsModel MpsSpec ReportSpec FeasibleModel.
Import ListNotations.
Local Open Scope Z_scope.

(** A solution that can be written and read back: plain names, values within int, the
    other numbers 0 or between 1e-300 and 1e300. *)
Definition sound_record (q : srecord) : Prop :=
  sound_real (sr_objective q) /\ sound_real (sr_violation q) /\ Forall (fun p => plain (fst p) /\ -2147483648 <= snd p <= 2147483647) (sr_vars q).
(** What is read back for it: everything, the two doubles up to the digits written. *)
Definition kept_record (q : srecord) (w : json) : Prop :=
  exists objective violation, rounded (sr_objective q) objective /\ rounded (sr_violation q) violation /\
  w = JObj [("is_feasible", JBool (sr_feasible q)); ("objective", JReal objective); ("total_violation", JReal violation);
            ("variables", JObj (map (fun p => (fst p, JInt KInt (snd p))) (sr_vars q)))]%string.

(** The entry [w] tells the solution [y] of the columns of [f]: it is marked as feasible,
    has the objective [q] up to the digits written, and its "variables" are the columns
    with a value other than 0, each once, with that value. *)
Definition tells (f : content) (y : string -> Z) (q : Q) (w : json) : Prop :=
  exists m l, w = JObj m /\ last_with "is_feasible" m = Some (JBool true) /\ (exists t, last_with "objective" m = Some (JReal t) /\ rounded q t) /\
  last_with "variables" m = Some (JObj l) /\ NoDup (map fst l) /\
  forall n v, In (n, v) l <-> In n (columns f) /\ y n <> 0 /\ v = JInt KInt (y n).
