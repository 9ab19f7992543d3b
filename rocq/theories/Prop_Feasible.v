(** C92: the file of feasible solutions of the stand-alone solver. *)
From Coq Require Import List ZArith QArith Bool String Permutation.
From Verif Require Import ExprModel ConstraintModel VariableModel TypeModel PresolveModel SelectionModel PrepareModel TextModel MpsModel MpsSpec NamesModel NamesSpec JsonModel JsonSpec OptionModel CommandModel CommandSpec
  SolutionModel LagrangeModel SolverModel WholeModel RelaxModel OfferModel OfferSpec ParityModel FileModel FileSpec FileProof3 FileProof4 ReportSpec FeasibleModel FeasibleSpec FeasibleProof FeasibleProof3.
From Verif Require PrepareProof6.
Import ListNotations.
Local Open Scope string_scope.
Local Open Scope Z_scope.

(** C92: whatever solutions are written, the reader of JSON files accepts the file and finds them all, in the order in
    which they were written: names and values exactly, objective and violation up to the digits written. *)
Theorem C92_file (name : string) (nv nc : Z) (l : list srecord) :
  plain name -> -2147483648 <= nv <= 2147483647 -> -2147483648 <= nc <= 2147483647 -> Forall sound_record l ->
  exists file ws, write_solutions name nv nc l = Ok file /\ Forall2 kept_record l ws /\
  exists steps, forall fuel, (steps <= fuel)%nat -> read_json_object fuel file =
    Some (Ok [("version", JStr "v2.5.0"); ("name", JStr name); ("number_of_variables", JInt KInt nv); ("number_of_constraints", JInt KInt nc); ("solutions", JArr ws)]).
Proof. exact (feasible_file name nv nc l). Qed.
Print Assumptions C92_file.

(** C92: command line and MPS file as in C84 (integer coefficients of any size outside the objective, presolve off), with
    an option file that asks for the solutions to be stored.  Then feasible.json is written, can be read back, and every
    entry of its "solutions" is a solution of the MPS file: the columns it lists, with all others at 0, meet all rows, all
    bounds and all values asked for, and its objective is that of these values up to the digits written.  There are no
    more entries than the option allows.  Rows have different names; either no selections are used or no
    column is fixed at 1; flippable pairs are of different binary columns; chain moves and step sizes are as in C77. *)
Theorem C92_solutions (nc : Z) (vio : ssol -> Q) (iter : list (string * Z) -> list (string * Z)) (fuel : nat) (order : list nat -> list nat) (su : surroundings) (on : ctype -> bool)
  (penalty : Q) (shrink user : bool) (nrm : list Q -> Q) (red ext : nat -> Q) (sq : Q -> Q) (lg : Z -> Q) (root : Q -> Q) (x : relaxations) (a : ninputs)
  (fs : files) (items : list item) (s : settings) (lines : list string) (f : content) (obj : string) (i : instance) (l : list ssol) :
  (forall l, Permutation (iter l) l) ->
  Forall well_named items -> Forall well_numbered items -> describes items s ->
  opens fs (st_mps s) lines -> contains lines f -> well_formed f obj -> integer_rows f obj -> thin_binaries fs s f -> presolve_off fuel fs s ->
  archive_of fuel order su on penalty shrink user nrm red ext sq lg root x a fs (flat_map words items) = Some (i, l) ->
  (forall j k, su_cname su j = su_cname su k -> j = k) ->
  mode_of (in_options i) = Off \/ (forall n w, In (n, w) (elements (in_vars i)) -> va_fixed w = true -> va_value w <> 1) ->
  flippable_pairs (enter i, []) (in_pairs i) ->
  (forall r, prepare fuel (switches_of (in_options i)) (with_user su (in_selections i)) true (enter i) = Some (Ok r) -> driven r a) ->
  (forall go late clock, rx_lagrange x = Some (go, late, clock) -> 1 <= go_queue go) ->
  param (in_options i) "output" "is_enabled_store_feasible_solutions" = Some (VBool true) ->
  plain (in_name i) -> Forall plain (columns f) -> Z.of_nat (List.length (columns f)) <= 2147483647 -> -2147483648 <= nc <= 2147483647 ->
  Forall (fun q => sound_real (so_obj q) /\ sound_real (vio q)) l ->
  exists text ws, feasible_json nc vio iter fuel order su on penalty shrink user nrm red ext sq lg root x a fs (flat_map words items) = Some (Ok text) /\
    (exists steps, forall fuel, (steps <= fuel)%nat -> read_json_object fuel text =
      Some (Ok [("version", JStr "v2.5.0"); ("name", JStr (in_name i)); ("number_of_variables", JInt KInt (Z.of_nat (List.length (columns f)))); ("number_of_constraints", JInt KInt nc); ("solutions", JArr ws)])) /\
    Forall (fun w => exists y, file_solution fs s f y /\ tells f y (row_value f y obj) w) ws /\
    forall c, param (in_options i) "output" "feasible_solutions_capacity" = Some (OptionModel.VInt c) -> 0 < c -> Z.of_nat (List.length ws) <= c.
Proof. exact (run_told nc vio iter fuel order su on penalty shrink user nrm red ext sq lg root x a fs items s lines f obj i l). Qed.
Print Assumptions C92_solutions.

(** The model of C83 with x given as 0.2, and searches that set z to 2, 3 and 1: the file lists y = 1, z = 3 with
    objective 0 and y = 1, z = 2 with objective 1. *)
Example C92_example : exists text, g_json = Some (Ok text) /\ read_json_object 500 text =
  Some (Ok [("version", JStr "v2.5.0"); ("name", JStr "demo"); ("number_of_variables", JInt KInt 3); ("number_of_constraints", JInt KInt 2);
            ("solutions", JArr [g_entry (0 # 1000000) 3; g_entry (1000000 # 1000000) 2])]).
Proof. exact g_read. Qed.
(** The hypotheses of this run; those on the command line and the MPS file are C83_hypotheses. *)
Example C92_hypotheses : (forall l : list (string * Z), Permutation (rev l) l) /\ opens g_files (st_mps (d_settings "fix.txt")) (d_lines false) /\
  thin_binaries g_files (d_settings "fix.txt") (d_content false) /\ presolve_off 100 g_files (d_settings "fix.txt") /\ Forall plain (columns (d_content false)) /\
  (forall j k, su_cname PrepareProof6.p_around j = su_cname PrepareProof6.p_around k -> j = k) /\
  exists i l, g_archive = Some (i, l) /\ map so_vars l = [[(1%nat, 1); (2%nat, 3)]; [(1%nat, 1); (2%nat, 2)]] /\
  (forall n w, In (n, w) (elements (in_vars i)) -> va_fixed w = true -> va_value w <> 1) /\ flippable_pairs (enter i, []) (in_pairs i) /\
  (forall r, prepare 100 (switches_of (in_options i)) (with_user PrepareProof6.p_around (in_selections i)) true (enter i) = Some (Ok r) -> driven r g_inputs) /\
  param (in_options i) "output" "is_enabled_store_feasible_solutions" = Some (VBool true) /\ param (in_options i) "output" "feasible_solutions_capacity" = Some (OptionModel.VInt 1000) /\
  plain (in_name i) /\ Forall (fun q => sound_real (so_obj q) /\ sound_real 0) l.
Proof.
  split; [intros l; apply Permutation_sym, Permutation_rev|]. split; [exact g_opens|]. split; [exact g_thin|]. split; [exact g_off|]. split; [exact g_plain|]. split; [intros j k E; exact E|]. exact g_stored.
Qed.
