(** C83: what the stand-alone solver reports is true of the MPS file. *)
From Coq Require Import List ZArith QArith Bool String.
From Verif Require Import ExprModel ConstraintModel VariableModel TypeModel PresolveModel SelectionModel PrepareModel TextModel MpsModel MpsSpec NamesModel NamesSpec JsonModel OptionModel CommandModel CommandSpec
  SolverModel WholeModel RelaxModel OfferModel ParityModel FileModel FileSpec FileProof3 FileProof4.
Import ListNotations.
Local Open Scope string_scope.
Local Open Scope Z_scope.

(** C83: the command line names an MPS file with integer coefficients (of any size) outside its objective, and an
    option file that switches presolve off.  If the run ends and reports a feasible solution, then the values it
    reports for the columns, in the order of the file, satisfy every row and every bound of the file and every value
    the files of fixed and mutable variables ask for, and the objective it reports is that of the file.  The other
    options and files, the moves tried, the clocks and the random numbers are arbitrary. *)
Theorem C83_answer (fuel : nat) (order : list nat -> list nat) (su : surroundings) (on : ctype -> bool) (penalty : Q) (shrink user : bool)
  (nrm : list Q -> Q) (red ext : nat -> Q) (sq : Q -> Q) (lg : Z -> Q) (root : Q -> Q) (x : relaxations) (a : ninputs)
  (fs : files) (items : list item) (s : settings) (lines : list string) (f : content) (obj : string) (an : answer) (rn : run) :
  Forall well_named items -> Forall well_numbered items -> describes items s ->
  opens fs (st_mps s) lines -> contains lines f -> well_formed f obj -> integer_rows f obj -> thin_binaries fs s f -> presolve_off fuel fs s ->
  run_command fuel order su on penalty shrink user nrm red ext sq lg root x a fs (flat_map words items) = Some (Ok (Some (Done (an, rn)))) ->
  an_feasible an = true ->
  exists y, (forall j n, nth_error (columns f) j = Some n -> y n = an_x an j) /\ file_solution fs s f y /\ (an_objective an == row_value f y obj)%Q.
Proof. intros A B C D E F G H I J. exact (file_answer fuel order su on penalty shrink user nrm red ext sq lg root x a fs items s lines f obj _ A B C D E F G H I J). Qed.
Print Assumptions C83_answer.

(** C83: so a file that has no solution with the values asked for is not reported as solved. *)
Theorem C83_infeasible (fuel : nat) (order : list nat -> list nat) (su : surroundings) (on : ctype -> bool) (penalty : Q) (shrink user : bool)
  (nrm : list Q -> Q) (red ext : nat -> Q) (sq : Q -> Q) (lg : Z -> Q) (root : Q -> Q) (x : relaxations) (a : ninputs)
  (fs : files) (items : list item) (s : settings) (lines : list string) (f : content) (obj : string) (an : answer) (rn : run) :
  Forall well_named items -> Forall well_numbered items -> describes items s ->
  opens fs (st_mps s) lines -> contains lines f -> well_formed f obj -> integer_rows f obj -> thin_binaries fs s f -> presolve_off fuel fs s ->
  (forall y, ~ file_solution fs s f y) ->
  run_command fuel order su on penalty shrink user nrm red ext sq lg root x a fs (flat_map words items) = Some (Ok (Some (Done (an, rn)))) ->
  an_feasible an = false.
Proof.
  intros A B C D E F G H I No J. destruct (an_feasible an) eqn:Fe; [|reflexivity]. exfalso.
  destruct (C83_answer fuel order su on penalty shrink user nrm red ext sq lg root x a fs items s lines f obj an rn A B C D E F G H I J Fe) as (y & _ & S & _). exact (No y S).
Qed.
Print Assumptions C83_infeasible.

(** C83: a value asked for that lies outside the bounds of the file stops the run: no run gets past the preparation
    unless every column is left a value. *)
Theorem C83_values_checked (fuel : nat) (order : list nat -> list nat) (su : surroundings) (on : ctype -> bool) (penalty : Q) (shrink user : bool)
  (nrm : list Q -> Q) (red ext : nat -> Q) (sq : Q -> Q) (lg : Z -> Q) (root : Q -> Q) (x : relaxations) (a : ninputs)
  (fs : files) (items : list item) (s : settings) (lines : list string) (f : content) (obj : string) (out : SolverModel.outcome (answer * run)) :
  Forall well_named items -> Forall well_numbered items -> describes items s ->
  opens fs (st_mps s) lines -> contains lines f -> well_formed f obj -> integer_rows f obj -> thin_binaries fs s f -> presolve_off fuel fs s ->
  run_command fuel order su on penalty shrink user nrm red ext sq lg root x a fs (flat_map words items) = Some (Ok (Some out)) ->
  forall n, In n (columns f) -> exists z, left_to fs s f n z.
Proof. exact (file_values fuel order su on penalty shrink user nrm red ext sq lg root x a fs items s lines f obj out). Qed.
Print Assumptions C83_values_checked.

(** A column fixed at 0 by a bound FX is not among those checked: a file of fixed variables that gives it the value 1
    overrules the bound, and the answer that breaks the bound is reported as feasible. *)
Theorem C83_fixed_overrules_refuted : exists fs items s lines f obj an rn,
  Forall well_named items /\ Forall well_numbered items /\ describes items s /\
  opens fs (st_mps s) lines /\ contains lines f /\ well_formed f obj /\ integer_rows f obj /\ presolve_off 100 fs s /\
  run_command 100 (fun l => l) PrepareProof6.p_around (fun _ => true) 100%Q false false (fun _ => 1%Q) (fun _ => 1%Q) (fun _ => 1%Q) (fun q => q)
    WholeProof4.w_lg (fun q => q) (mkRx None None) InfeasibleProof.u_inputs fs (flat_map words items) = Some (Ok (Some (Done (an, rn)))) /\
  an_feasible an = true /\ nth_error (columns f) 2 = Some "z" /\ interval f "z" = (0, 0) /\ (exists z, In (BFx z) (bounds_of f "z")) /\ an_x an 2 = 1 /\
  forall y, ~ file_solution fs s f y.
Proof.
  destruct d_overruled as (an & rn & E & F & X & N & I & B & S). exists (d_files true), (d_items "one.txt"), (d_settings "one.txt"), (d_lines true), (d_content true), "cost", an, rn.
  destruct (d_named "one.txt") as [A1 A2]. split; [exact A1|]. split; [exact A2|]. split; [exact (d_describes "one.txt")|]. split; [exact (d_opens true "one.txt")|]. split; [exact (d_contains true)|].
  split; [exact (d_well_formed true)|]. split; [exact (d_integer true)|]. split; [exact (d_off true "one.txt")|]. split; [exact E|]. split; [exact F|]. split; [exact N|]. split; [exact I|]. split; [exact B|]. split; [exact X|]. exact S.
Qed.
Print Assumptions C83_fixed_overrules_refuted.

(** minimize -x + 3 y - z with 2 x + y + z <= 4, x + y = 1, x and y binary, z in 0..5.  Command lines
    "-f FILE demo.mps -p off.json": with x given as 0.2 the answer is 0, 1, 0 with objective 3; with x = 0 and z = 5 none is
    feasible; z = 9 stops the run.  The third line is the exception above. *)
Example C83_example : d_view (d_run false "fix.txt") = Some ([0; 1; 0], 3%Q, 0%Q, true, 4%nat) /\ d_view (d_run false "five.txt") = Some ([0; 1; 5], (-(2))%Q, 2%Q, false, 2%nat) /\
  d_view (d_run true "one.txt") = Some ([1; 0; 1], (-(2))%Q, 0%Q, true, 3%nat) /\ d_run false "far.txt" = Some Throw.
Proof. exact d_shows. Qed.
Example C83_hypotheses (fixed : string) : Forall well_named (d_items fixed) /\ Forall well_numbered (d_items fixed) /\ describes (d_items fixed) (d_settings fixed) /\
  opens (d_files false) (st_mps (d_settings fixed)) (d_lines false) /\ contains (d_lines false) (d_content false) /\ well_formed (d_content false) "cost" /\
  integer_rows (d_content false) "cost" /\ thin_binaries (d_files false) (d_settings fixed) (d_content false) /\ presolve_off 100 (d_files false) (d_settings fixed) /\
  (forall y, ~ file_solution (d_files false) (d_settings "five.txt") (d_content false) y) /\ exists an rn, d_run false "fix.txt" = Some (Ok (Some (Done (an, rn)))) /\ an_feasible an = true.
Proof.
  destruct (d_named fixed) as [A1 A2]. split; [exact A1|]. split; [exact A2|]. split; [exact (d_describes fixed)|]. split; [exact (d_opens false fixed)|]. split; [exact (d_contains false)|].
  split; [exact (d_well_formed false)|]. split; [exact (d_integer false)|]. split; [exact (d_thin fixed)|]. split; [exact (d_off false fixed)|]. split; [exact d_void|].
  destruct (view_done _ _ _ _ _ _ (proj1 d_shows)) as (an & rn & E & _ & F). eauto.
Qed.
