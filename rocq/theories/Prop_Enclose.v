(** C88: with its default options, the bound the stand-alone solver reports holds for every solution of an MPS file with inequalities only. *)
From Coq Require Import List ZArith QArith Bool String Permutation Lqa.
From Verif Require Import ExprModel ConstraintModel VariableModel TypeModel PresolveModel SelectionModel PrepareModel TextModel MpsModel MpsSpec NamesModel NamesSpec JsonModel OptionModel CommandModel CommandSpec
  SolverModel WholeModel RelaxModel RelaxSpec OfferModel ParityModel FileModel FileSpec DefaultSpec EncloseSpec DefaultProof3.
From Verif Require EncloseProof EncloseProof2 DefaultProof2 CertifyProof2 LpProof6 PrepareProof6 WholeProof4 InfeasibleProof.
Import ListNotations.
Local Open Scope string_scope.
Local Open Scope Z_scope.

(** C88: a command line as in C86 (inequalities with integer coefficients, presolve on).  However the run ends, the dual
    bound it has reached is at most the objective of every solution of the MPS file with the values the other files ask
    for.  The linear relaxation and the Lagrange dual may each be solved or not. *)
Theorem C88_bound (fuel : nat) (order : list nat -> list nat) (su : surroundings) (on : ctype -> bool) (penalty : Q) (shrink user : bool)
  (nrm : list Q -> Q) (red ext : nat -> Q) (sq : Q -> Q) (lg : Z -> Q) (root : Q -> Q) (x : relaxations) (a : ninputs)
  (fs : files) (items : list item) (s : settings) (lines : list string) (f : content) (obj : string) (o : opts) (out : SolverModel.outcome (answer * run)) :
  (forall l, Permutation (order l) l) ->
  Forall well_named items -> Forall well_numbered items -> describes items s ->
  opens fs (st_mps s) lines -> contains lines f -> well_formed f obj -> integer_rows f obj -> thin_binaries fs s f ->
  options_are fuel fs s o -> switched o "is_enabled_presolve" true ->
  narrow f -> inequalities f -> small f -> placed f obj ->
  switched o "is_enabled_extract_implicit_equality_constraints" false \/ one_sided f ->
  switched o "is_enabled_remove_redundant_set_variables" false \/ weighted f ->
  (forall po envs late, rx_pdlp x = Some (po, envs, late) -> solvable nrm red ext sq envs) ->
  run_command fuel order su on penalty shrink user nrm red ext sq lg root x a fs (flat_map words items) = Some (Ok (Some out)) ->
  forall y, file_solution fs s f y -> (reported_bound out <= row_value f y obj)%Q.
Proof. exact (EncloseProof.default_bound fuel order su on penalty shrink user nrm red ext sq lg root x a fs items s lines f obj o out). Qed.
Print Assumptions C88_bound.

(** C88: so a run that reports a feasible answer encloses the optimum of the file: the answer is a solution, and no
    solution is better than it by more than the difference of its objective and the bound.  In particular, if the two
    are equal the answer is optimal. *)
Theorem C88_gap (fuel : nat) (order : list nat -> list nat) (su : surroundings) (on : ctype -> bool) (penalty : Q) (shrink user : bool)
  (nrm : list Q -> Q) (red ext : nat -> Q) (sq : Q -> Q) (lg : Z -> Q) (root : Q -> Q) (x : relaxations) (a : ninputs)
  (fs : files) (items : list item) (s : settings) (lines : list string) (f : content) (obj : string) (o : opts) (an : answer) (rn : run) :
  (forall l, Permutation (order l) l) ->
  Forall well_named items -> Forall well_numbered items -> describes items s ->
  opens fs (st_mps s) lines -> contains lines f -> well_formed f obj -> integer_rows f obj -> thin_binaries fs s f ->
  options_are fuel fs s o -> switched o "is_enabled_presolve" true ->
  values_left fs s f -> narrow f -> inequalities f -> small f -> placed f obj ->
  switched o "is_enabled_extract_implicit_equality_constraints" false \/ one_sided f ->
  switched o "is_enabled_remove_redundant_set_variables" false \/ weighted f ->
  (forall po envs late, rx_pdlp x = Some (po, envs, late) -> solvable nrm red ext sq envs) ->
  run_command fuel order su on penalty shrink user nrm red ext sq lg root x a fs (flat_map words items) = Some (Ok (Some (Done (an, rn)))) ->
  an_feasible an = true ->
  exists y, (forall j n, nth_error (columns f) j = Some n -> y n = an_x an j) /\ file_solution fs s f y /\ (an_objective an == row_value f y obj)%Q /\
  let b := reported_bound (Done (an, rn)) in
  (b <= an_objective an)%Q /\
  (forall z, file_solution fs s f z -> (an_objective an - row_value f z obj <= an_objective an - b)%Q) /\
  ((b == an_objective an)%Q -> forall z, file_solution fs s f z -> (row_value f y obj <= row_value f z obj)%Q).
Proof.
  intros A B C D E F G H I J K L M N O P Q R Re T Fe.
  pose proof (C88_bound fuel order su on penalty shrink user nrm red ext sq lg root x a fs items s lines f obj o _ A B C D E F G H I J K M N O P Q R Re T) as Bd.
  destruct (DefaultProof2.default_answer fuel order su on penalty shrink user nrm red ext sq lg root x a fs items s lines f obj o an rn A B C D E F G H I J K L M N O P Q R T Fe) as (y & Y1 & Y2 & Y3).
  exists y. split; [exact Y1|]. split; [exact Y2|]. split; [exact Y3|]. cbv zeta. split; [rewrite Y3; exact (Bd y Y2)|]. split.
  - intros z Sz. pose proof (Bd z Sz). lra.
  - intros Eq z Sz. pose proof (Bd z Sz) as Bz. rewrite <- Y3, <- Eq. exact Bz.
Qed.
Print Assumptions C88_gap.

(** The condition on the coefficients (or the option) is needed: minimize -x - y with x + y + z >= 1, all binary, default
    options.  x covers the row as well as y and z do, so y and z are fixed at 0 although y would lower the objective.
    The run reports an answer with the objective -1 and the bound -1, so that it looks optimal; x = y = 1 has the
    objective -2.  All other conditions of C88_gap hold, and no relaxation is solved. *)
Theorem C88_cover_refuted : exists fs items s lines f obj an rn y,
  Forall well_named items /\ Forall well_numbered items /\ describes items s /\
  opens fs (st_mps s) lines /\ contains lines f /\ well_formed f obj /\ integer_rows f obj /\ thin_binaries fs s f /\
  options_are 100 fs s initialize /\ switched initialize "is_enabled_presolve" true /\
  narrow f /\ inequalities f /\ small f /\ placed f obj /\ one_sided f /\
  run_command 100 (fun l => l) PrepareProof6.p_around (fun _ => true) 100%Q false false LpProof6.norm1 LpProof6.pow1 LpProof6.pow1 (fun _ => 1%Q)
    WholeProof4.w_lg (fun q => q) (mkRx None None) InfeasibleProof.u_inputs fs (flat_map words items) = Some (Ok (Some (Done (an, rn)))) /\
  an_feasible an = true /\ (an_objective an == -(1))%Q /\ (reported_bound (Done (an, rn)) == -(1))%Q /\
  file_solution fs s f y /\ (row_value f y obj == -(2))%Q.
Proof.
  destruct (CertifyProof2.k_is_ok _ _ _ EncloseProof2.g_shows) as (an & rn & E & F & O & B). destruct e_named as [A1 A2]. destruct EncloseProof2.g_solution as [S1 S2].
  exists EncloseProof2.g_files, e_items, e_settings, EncloseProof2.g_lines, EncloseProof2.g_content, "cost", an, rn, EncloseProof2.g_point.
  split; [exact A1|]. split; [exact A2|]. split; [exact e_describes|]. split; [exact EncloseProof2.g_opens|]. split; [exact EncloseProof2.g_contains|]. split; [exact EncloseProof2.g_well_formed|].
  split; [exact EncloseProof2.g_integer|]. split; [exact EncloseProof2.g_thin|]. split; [exact EncloseProof2.g_options|]. split; [exact e_on|]. split; [exact EncloseProof2.g_narrow|].
  split; [exact EncloseProof2.g_inequalities|]. split; [exact EncloseProof2.g_small|]. split; [exact EncloseProof2.g_placed|]. split; [exact EncloseProof2.g_one_sided|].
  split; [exact E|]. split; [exact F|]. split; [exact O|]. split; [exact B|]. split; [exact S1|exact S2].
Qed.
Print Assumptions C88_cover_refuted.

(** The file Fine of C86: minimize -x + 3 y - z, x + y + z <= 2, x + y >= 1, x + z >= 1, y + z >= 0, 2 z <= 4, x and y
    binary, z in 0..5.  An answer with the objective -1 is reported; the bound is -3 from the ranges left by presolve and
    -19/8 with the relaxations.  The optimum is -2 (x = z = 1, y = 0). *)
Example C88_example :
  (exists an rn, EncloseProof2.h_run (e_files Fine) (mkRx None None) = Some (Ok (Some (Done (an, rn)))) /\ an_feasible an = true /\ an_objective an == -(1) /\ reported_bound (Done (an, rn)) == -(3))%Q /\
  (exists an rn, EncloseProof2.h_run (e_files Fine) CertifyProof2.k_relaxed = Some (Ok (Some (Done (an, rn)))) /\ an_feasible an = true /\ an_objective an == -(1) /\ reported_bound (Done (an, rn)) == -19 # 8)%Q.
Proof. split; [exact (CertifyProof2.k_is_ok _ _ _ (proj1 EncloseProof2.h_shows))|exact (CertifyProof2.k_is_ok _ _ _ (proj2 EncloseProof2.h_shows))]. Qed.
Example C88_hypotheses : let c := Fine in
  Forall well_named e_items /\ Forall well_numbered e_items /\ describes e_items e_settings /\ opens (e_files c) (st_mps e_settings) (e_lines c) /\ contains (e_lines c) (e_content c) /\
  well_formed (e_content c) "cost" /\ integer_rows (e_content c) "cost" /\ thin_binaries (e_files c) e_settings (e_content c) /\ options_are 100 (e_files c) e_settings initialize /\
  switched initialize "is_enabled_presolve" true /\ values_left (e_files c) e_settings (e_content c) /\ narrow (e_content c) /\ inequalities (e_content c) /\ small (e_content c) /\
  placed (e_content c) "cost" /\ one_sided (e_content c) /\ weighted (e_content c) /\
  forall po envs late, rx_pdlp CertifyProof2.k_relaxed = Some (po, envs, late) -> solvable LpProof6.norm1 LpProof6.pow1 LpProof6.pow1 (fun _ => 1%Q) envs.
Proof.
  cbv zeta. assert (S : Fine = Fine \/ Fine = Void) by (left; reflexivity). destruct e_named as [A B]. split; [exact A|]. split; [exact B|]. split; [exact e_describes|]. split; [exact (e_opens Fine)|]. split; [exact (e_contains Fine)|].
  split; [exact (e_well_formed Fine)|]. split; [exact (e_integer Fine)|]. split; [exact (e_thin Fine)|]. split; [exact (e_options Fine)|]. split; [exact e_on|]. split; [exact (e_values Fine)|]. split; [exact (e_narrow Fine)|].
  split; [exact (e_inequalities Fine S)|]. split; [exact (e_small Fine S)|]. split; [exact (e_placed Fine S)|]. split; [exact (e_one_sided Fine S)|]. split; [exact (e_weighted Fine S)|]. exact EncloseProof2.h_solvable.
Qed.
