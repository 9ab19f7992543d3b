(** C86: what the stand-alone solver reports with its default options is true of an MPS file with inequalities only. *)
From Coq Require Import List ZArith QArith Bool String Permutation.
From Verif Require Import ExprModel ConstraintModel VariableModel TypeModel PresolveModel SelectionModel PrepareModel TextModel MpsModel MpsSpec NamesModel NamesSpec JsonModel OptionModel CommandModel CommandSpec
  SolverModel WholeModel RelaxModel OfferModel ParityModel FileModel FileSpec FileProof3 FileProof4 DefaultSpec DefaultProof2 DefaultProof3.
Import ListNotations.
Local Open Scope string_scope.
Local Open Scope Z_scope.

(** C86: the command line names an MPS file whose rows are inequalities with integer coefficients; presolve is on, as it
    is by default.  The bounds are within -99999..99999, no row can get further than 99999 from its right-hand side within
    the bounds (or beyond an int with columns up to 100000), every column occurs in a row (or is decided by its cost), no
    two rows bound one expression from both sides (or the search for such pairs is off), some coefficient is not 1 (or
    redundant set variables are left alone), and the other files leave every column a value.  If the run ends and
    reports a feasible solution, then the values it reports for the columns satisfy every row and bound of the file
    and every value asked for, and the objective is that of the file.  The file may have no solution at all. *)
Theorem C86_answer (fuel : nat) (order : list nat -> list nat) (su : surroundings) (on : ctype -> bool) (penalty : Q) (shrink user : bool)
  (nrm : list Q -> Q) (red ext : nat -> Q) (sq : Q -> Q) (lg : Z -> Q) (root : Q -> Q) (x : relaxations) (a : ninputs)
  (fs : files) (items : list item) (s : settings) (lines : list string) (f : content) (obj : string) (o : opts) (an : answer) (rn : run) :
  (forall l, Permutation (order l) l) ->
  Forall well_named items -> Forall well_numbered items -> describes items s ->
  opens fs (st_mps s) lines -> contains lines f -> well_formed f obj -> integer_rows f obj -> thin_binaries fs s f ->
  options_are fuel fs s o -> switched o "is_enabled_presolve" true ->
  values_left fs s f -> narrow f -> inequalities f -> small f -> placed f obj ->
  switched o "is_enabled_extract_implicit_equality_constraints" false \/ one_sided f ->
  switched o "is_enabled_remove_redundant_set_variables" false \/ weighted f ->
  run_command fuel order su on penalty shrink user nrm red ext sq lg root x a fs (flat_map words items) = Some (Ok (Some (Done (an, rn)))) ->
  an_feasible an = true ->
  exists y, (forall j n, nth_error (columns f) j = Some n -> y n = an_x an j) /\ file_solution fs s f y /\ (an_objective an == row_value f y obj)%Q.
Proof. exact (default_answer fuel order su on penalty shrink user nrm red ext sq lg root x a fs items s lines f obj o an rn). Qed.
Print Assumptions C86_answer.

(** C86: so such a file without a solution is not reported as solved. *)
Theorem C86_infeasible (fuel : nat) (order : list nat -> list nat) (su : surroundings) (on : ctype -> bool) (penalty : Q) (shrink user : bool)
  (nrm : list Q -> Q) (red ext : nat -> Q) (sq : Q -> Q) (lg : Z -> Q) (root : Q -> Q) (x : relaxations) (a : ninputs)
  (fs : files) (items : list item) (s : settings) (lines : list string) (f : content) (obj : string) (o : opts) (an : answer) (rn : run) :
  (forall l, Permutation (order l) l) ->
  Forall well_named items -> Forall well_numbered items -> describes items s ->
  opens fs (st_mps s) lines -> contains lines f -> well_formed f obj -> integer_rows f obj -> thin_binaries fs s f ->
  options_are fuel fs s o -> switched o "is_enabled_presolve" true ->
  values_left fs s f -> narrow f -> inequalities f -> small f -> placed f obj ->
  switched o "is_enabled_extract_implicit_equality_constraints" false \/ one_sided f ->
  switched o "is_enabled_remove_redundant_set_variables" false \/ weighted f ->
  (forall y, ~ file_solution fs s f y) ->
  run_command fuel order su on penalty shrink user nrm red ext sq lg root x a fs (flat_map words items) = Some (Ok (Some (Done (an, rn)))) ->
  an_feasible an = false.
Proof.
  intros A B C D E F G H I J K L M N O P Q R No T. destruct (an_feasible an) eqn:Fe; [|reflexivity]. exfalso.
  destruct (C86_answer fuel order su on penalty shrink user nrm red ext sq lg root x a fs items s lines f obj o an rn A B C D E F G H I J K L M N O P Q R T Fe) as (y & _ & S & _). exact (No y S).
Qed.
Print Assumptions C86_infeasible.

(** The default options meet the first condition on them; the other two ask something of the file. *)
Theorem C86_defaults : switched initialize "is_enabled_presolve" true /\ switched initialize "is_enabled_extract_implicit_equality_constraints" true /\
  switched initialize "is_enabled_remove_redundant_set_variables" true.
Proof. vm_compute. repeat split; reflexivity. Qed.
Print Assumptions C86_defaults.

(** With an equality the claim fails: for the file "minimize -x + 3 y - z, x + y + z <= 2, 2 x = 1, x and y binary, z in
    0..5" and the command line "demo.mps" the answer x = y = z = 0 is reported as feasible.  All other conditions hold. *)
Theorem C86_equality_refuted : let c := Half in exists an rn,
  Forall well_named e_items /\ Forall well_numbered e_items /\ describes e_items e_settings /\ opens (e_files c) (st_mps e_settings) (e_lines c) /\ contains (e_lines c) (e_content c) /\
  well_formed (e_content c) "cost" /\ integer_rows (e_content c) "cost" /\ thin_binaries (e_files c) e_settings (e_content c) /\ options_are 100 (e_files c) e_settings initialize /\
  values_left (e_files c) e_settings (e_content c) /\ narrow (e_content c) /\
  e_run c = Some (Ok (Some (Done (an, rn)))) /\ an_feasible an = true /\ forall y, ~ file_solution (e_files c) e_settings (e_content c) y.
Proof.
  cbv zeta. destruct (view_done _ _ _ _ _ _ (proj1 (proj2 (proj2 e_shows)))) as (an & rn & E & _ & F). exists an, rn. destruct e_named as [A B]. split; [exact A|]. split; [exact B|]. split; [exact e_describes|].
  split; [exact (e_opens Half)|]. split; [exact (e_contains Half)|]. split; [exact (e_well_formed Half)|]. split; [exact (e_integer Half)|]. split; [exact (e_thin Half)|]. split; [exact (e_options Half)|].
  split; [exact (e_values Half)|]. split; [exact (e_narrow Half)|]. split; [exact E|]. split; [exact F|]. intros y. apply e_nothing. auto.
Qed.
Print Assumptions C86_equality_refuted.
(** So does it with a row that asks for more than 100000: "z <= -200000" in the place of "2 x = 1" is dropped, and
    x = 1, y = z = 0 is reported as feasible.  All rows are inequalities. *)
Theorem C86_large_refuted : let c := Far in exists an rn,
  Forall well_named e_items /\ Forall well_numbered e_items /\ describes e_items e_settings /\ opens (e_files c) (st_mps e_settings) (e_lines c) /\ contains (e_lines c) (e_content c) /\
  well_formed (e_content c) "cost" /\ integer_rows (e_content c) "cost" /\ thin_binaries (e_files c) e_settings (e_content c) /\ options_are 100 (e_files c) e_settings initialize /\
  values_left (e_files c) e_settings (e_content c) /\ narrow (e_content c) /\ inequalities (e_content c) /\
  e_run c = Some (Ok (Some (Done (an, rn)))) /\ an_feasible an = true /\ forall y, ~ file_solution (e_files c) e_settings (e_content c) y.
Proof.
  cbv zeta. destruct (view_done _ _ _ _ _ _ (proj2 (proj2 (proj2 e_shows)))) as (an & rn & E & _ & F). exists an, rn. destruct e_named as [A B]. split; [exact A|]. split; [exact B|]. split; [exact e_describes|].
  split; [exact (e_opens Far)|]. split; [exact (e_contains Far)|]. split; [exact (e_well_formed Far)|]. split; [exact (e_integer Far)|]. split; [exact (e_thin Far)|]. split; [exact (e_options Far)|].
  split; [exact (e_values Far)|]. split; [exact (e_narrow Far)|]. split; [intros k r (I & N); cbn in I; repeat (destruct I as [I|I]; [injection I as <- _; discriminate|]); destruct I|].
  split; [exact E|]. split; [exact F|]. intros y. apply e_nothing. auto.
Qed.
Print Assumptions C86_large_refuted.

(** minimize -x + 3 y - z, x and y binary, z in 0..5, command line "demo.mps".  Fine: x + y + z <= 2, x + y >= 1,
    x + z >= 1, y + z >= 0, 2 z <= 4.  Void: x + y + z <= 1, x + y >= 1, x + z >= 1, y + z >= 1, 2 z <= 4.  Values,
    objective, violation, feasible or not, solutions visited. *)
Example C86_example : d_view (e_run Fine) = Some ([1; 0; 0], (-(1))%Q, 0%Q, true, 4%nat) /\ d_view (e_run Void) = Some ([1; 0; 1], (-(2))%Q, 1%Q, false, 4%nat) /\
  d_view (e_run Half) = Some ([0; 0; 0], 0%Q, 1%Q, true, 4%nat) /\ d_view (e_run Far) = Some ([1; 0; 0], (-(1))%Q, 200000%Q, true, 4%nat).
Proof. exact e_shows. Qed.
Example C86_hypotheses (c : case) : c = Fine \/ c = Void ->
  Forall well_named e_items /\ Forall well_numbered e_items /\ describes e_items e_settings /\ opens (e_files c) (st_mps e_settings) (e_lines c) /\ contains (e_lines c) (e_content c) /\
  well_formed (e_content c) "cost" /\ integer_rows (e_content c) "cost" /\ thin_binaries (e_files c) e_settings (e_content c) /\ options_are 100 (e_files c) e_settings initialize /\
  switched initialize "is_enabled_presolve" true /\ values_left (e_files c) e_settings (e_content c) /\ narrow (e_content c) /\ inequalities (e_content c) /\ small (e_content c) /\
  placed (e_content c) "cost" /\ one_sided (e_content c) /\ weighted (e_content c) /\ (forall y, ~ file_solution (e_files Void) e_settings (e_content Void) y) /\
  exists an rn, e_run Fine = Some (Ok (Some (Done (an, rn)))) /\ an_feasible an = true.
Proof.
  intros S. destruct e_named as [A B]. split; [exact A|]. split; [exact B|]. split; [exact e_describes|]. split; [exact (e_opens c)|]. split; [exact (e_contains c)|]. split; [exact (e_well_formed c)|].
  split; [exact (e_integer c)|]. split; [exact (e_thin c)|]. split; [exact (e_options c)|]. split; [exact e_on|]. split; [exact (e_values c)|]. split; [exact (e_narrow c)|].
  split; [exact (e_inequalities c S)|]. split; [exact (e_small c S)|]. split; [exact (e_placed c S)|]. split; [exact (e_one_sided c S)|]. split; [exact (e_weighted c S)|].
  split; [intros y; apply e_nothing; auto|]. destruct (view_done _ _ _ _ _ _ (proj1 e_shows)) as (an & rn & E & _ & F). eauto.
Qed.
