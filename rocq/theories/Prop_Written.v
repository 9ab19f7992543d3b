(** C90: the JSON file of the stand-alone solver. *)
From Coq Require Import List ZArith QArith Bool String Ascii Permutation.
From Verif Require Import ExprModel ConstraintModel VariableModel TypeModel PresolveModel SelectionModel PrepareModel TextModel MpsModel MpsSpec NamesModel NamesSpec JsonModel JsonSpec OptionModel CommandModel CommandSpec
  SolverModel WholeModel RelaxModel OfferModel ParityModel FileModel FileSpec DefaultSpec DefaultProof3 ReportModel ReportSpec WrittenModel WrittenSpec WrittenProof WrittenProof2.
From Verif Require IncumbentProof2 SavedProof.
Import ListNotations.
Local Open Scope string_scope.
Local Open Scope Z_scope.

(** C90: command line and MPS file as in C89 (inequalities, default options).  If the run reports a feasible answer, then
    incumbent.json, read back, says so and holds under "variables" the name of every column with a value, such that all
    rows, all bounds and all values asked for hold, and its "objective" is that of these values up to the digits written.
    The names are free of the characters JSON uses, the numbers within 1e300; the sections on the rows are arbitrary. *)
Theorem C90_json (rr : row_report) (fuel : nat) (order : list nat -> list nat) (su : surroundings) (on : ctype -> bool) (penalty : Q) (shrink user : bool)
  (nrm : list Q -> Q) (red ext : nat -> Q) (sq : Q -> Q) (lg : Z -> Q) (root : Q -> Q) (x : relaxations) (a : ninputs)
  (fs : files) (items : list item) (s : settings) (lines : list string) (f : content) (obj : string) (o : opts) (r : report) :
  (forall l, Permutation (order l) l) ->
  Forall well_named items -> Forall well_numbered items -> describes items s ->
  opens fs (st_mps s) lines -> contains lines f -> well_formed f obj -> integer_rows f obj -> thin_binaries fs s f ->
  options_are fuel fs s o -> switched o "is_enabled_presolve" true ->
  values_left fs s f -> narrow f -> inequalities f -> small f -> placed f obj ->
  switched o "is_enabled_extract_implicit_equality_constraints" false \/ one_sided f ->
  switched o "is_enabled_remove_redundant_set_variables" false \/ weighted f ->
  report_of rr fuel order su on penalty shrink user nrm red ext sq lg root x a fs (flat_map words items) = Some r -> rp_feasible r = true ->
  columns f <> [] -> Forall plain (columns f) -> sound_summary r -> sound_names (rr_expr rr) -> sound_names (rr_con rr) -> sound_names (rr_vio rr) ->
  exists y, file_solution fs s f y /\ saved_as r f y (row_value f y obj).
Proof.
  intros A B C D E F G H I J K L M N O P Q R.
  exact (written_json rr fuel order su on penalty shrink user nrm red ext sq lg root x a fs items s lines f obj B C D E F G I
    (SavedProof.default_run_answer fuel order su on penalty shrink user nrm red ext sq lg root x a fs items s lines f obj o A B C D E F G H I J K L M N O P Q R) r).
Qed.
Print Assumptions C90_json.

(** C90: the same for an MPS file as in C84 (integer coefficients of any size, equalities) with presolve switched off. *)
Theorem C90_json_off (rr : row_report) (fuel : nat) (order : list nat -> list nat) (su : surroundings) (on : ctype -> bool) (penalty : Q) (shrink user : bool)
  (nrm : list Q -> Q) (red ext : nat -> Q) (sq : Q -> Q) (lg : Z -> Q) (root : Q -> Q) (x : relaxations) (a : ninputs)
  (fs : files) (items : list item) (s : settings) (lines : list string) (f : content) (obj : string) (r : report) :
  Forall well_named items -> Forall well_numbered items -> describes items s ->
  opens fs (st_mps s) lines -> contains lines f -> well_formed f obj -> integer_rows f obj -> thin_binaries fs s f -> presolve_off fuel fs s ->
  report_of rr fuel order su on penalty shrink user nrm red ext sq lg root x a fs (flat_map words items) = Some r -> rp_feasible r = true ->
  columns f <> [] -> Forall plain (columns f) -> sound_summary r -> sound_names (rr_expr rr) -> sound_names (rr_con rr) -> sound_names (rr_vio rr) ->
  exists y, file_solution fs s f y /\ saved_as r f y (row_value f y obj).
Proof.
  intros B C D E F G H I J.
  exact (written_json rr fuel order su on penalty shrink user nrm red ext sq lg root x a fs items s lines f obj B C D E F G I
    (IncumbentProof2.run_answer fuel order su on penalty shrink user nrm red ext sq lg root x a fs items s lines f obj B C D E F G H I J) r).
Qed.
Print Assumptions C90_json_off.

(** C90: the name in the file is that of the MPS file without its directory and its extension. *)
Theorem C90_name (rr : row_report) (fuel : nat) (order : list nat -> list nat) (su : surroundings) (on : ctype -> bool) (penalty : Q) (shrink user : bool)
  (nrm : list Q -> Q) (red ext : nat -> Q) (sq : Q -> Q) (lg : Z -> Q) (root : Q -> Q) (x : relaxations) (a : ninputs)
  (fs : files) (items : list item) (s : settings) (r : report) (dir stem extension : string) :
  Forall well_named items -> Forall well_numbered items -> describes items s ->
  report_of rr fuel order su on penalty shrink user nrm red ext sq lg root x a fs (flat_map words items) = Some r ->
  st_mps s = append dir (append stem (append "." extension)) -> (dir = "" \/ exists d, dir = append d "/" \/ dir = append d "\") ->
  ~ In "/"%char (list_ascii_of_string stem) -> ~ In "\"%char (list_ascii_of_string stem) -> ~ In "."%char (list_ascii_of_string extension) -> rp_name r = stem.
Proof. exact (written_name rr fuel order su on penalty shrink user nrm red ext sq lg root x a fs items s r dir stem extension). Qed.
Print Assumptions C90_name.

(** The report for the file Fine of C86, and the conditions on it; the other hypotheses: C86_hypotheses. *)
Example C90_example : e_report Fine = Some (mkReport "demo" 3 5 true (-(1))%Q 0 [("variables", mkVp [3] [VInt 1; VInt 0; VInt 0] ["x"; "y"; "z"])] [] (rr_con e_row_values) (rr_vio e_row_values)).
Proof. exact e_reports. Qed.
Example C90_hypotheses r : e_report Fine = Some r -> rp_feasible r = true /\ sound_summary r /\ sound_names (rr_expr e_row_values) /\ sound_names (rr_con e_row_values) /\ sound_names (rr_vio e_row_values) /\
  columns (e_content Fine) <> [] /\ Forall plain (columns (e_content Fine)).
Proof. intros E. destruct (e_sound r E) as (A & B & C & D & F). destruct (e_plain Fine) as [G H]. repeat (split; [assumption|]). assumption. Qed.
(** The name of its MPS file. *)
Example C90_name_example : exists dir stem extension, st_mps e_settings = append dir (append stem (append "." extension)) /\ dir = "" /\ stem = "demo" /\
  ~ In "/"%char (list_ascii_of_string stem) /\ ~ In "\"%char (list_ascii_of_string stem) /\ ~ In "."%char (list_ascii_of_string extension).
Proof. exists "", "demo", "mps". repeat (split; [reflexivity|]). cbn. repeat split; intros H; repeat (destruct H as [H|H]; [discriminate H|]); exact H. Qed.
