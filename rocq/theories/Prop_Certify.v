(** C85: the bound the stand-alone solver reports holds for every solution of the MPS file. *)
From Coq Require Import List ZArith QArith Bool String Lqa.
From Verif Require Import ExprModel ConstraintModel VariableModel TypeModel PresolveModel SelectionModel PrepareModel TextModel MpsModel MpsSpec NamesModel NamesSpec JsonModel OptionModel CommandModel CommandSpec
  SolverModel WholeModel RelaxModel RelaxSpec OfferModel ParityModel FileModel FileSpec FileProof3 FileProof4 CertifySpec.
From Verif Require FileProof3 CertifyProof CertifyProof2 LpProof6 PrepareProof6 WholeProof4 InfeasibleProof.
Import ListNotations.
Local Open Scope string_scope.
Local Open Scope Z_scope.

(** C85: a command line as in C83 (integer coefficients outside the objective, presolve off).  However the run ends, the
    dual bound it has reached is at most the objective of every solution of the MPS file with the values the files of
    fixed and mutable variables ask for.  The linear relaxation and the Lagrange dual may each be solved or not; if the
    linear relaxation is, the bounds of the columns are within the quarter range of int. *)
Theorem C85_bound (fuel : nat) (order : list nat -> list nat) (su : surroundings) (on : ctype -> bool) (penalty : Q) (shrink user : bool)
  (nrm : list Q -> Q) (red ext : nat -> Q) (sq : Q -> Q) (lg : Z -> Q) (root : Q -> Q) (x : relaxations) (a : ninputs)
  (fs : files) (items : list item) (s : settings) (lines : list string) (f : content) (obj : string) (out : SolverModel.outcome (answer * run)) :
  Forall well_named items -> Forall well_numbered items -> describes items s ->
  opens fs (st_mps s) lines -> contains lines f -> well_formed f obj -> integer_rows f obj -> thin_binaries fs s f -> presolve_off fuel fs s ->
  (forall po envs late, rx_pdlp x = Some (po, envs, late) -> file_relaxable nrm red ext sq f envs) ->
  run_command fuel order su on penalty shrink user nrm red ext sq lg root x a fs (flat_map words items) = Some (Ok (Some out)) ->
  forall y, file_solution fs s f y -> (reported_bound out <= row_value f y obj)%Q.
Proof. exact (CertifyProof.file_bound fuel order su on penalty shrink user nrm red ext sq lg root x a fs items s lines f obj out). Qed.
Print Assumptions C85_bound.

(** C85: so a run that reports a feasible answer encloses the optimum of the file: the answer is a solution, and no
    solution is better than it by more than the difference of its objective and the bound.  In particular, if the two
    are equal the answer is optimal. *)
Theorem C85_gap (fuel : nat) (order : list nat -> list nat) (su : surroundings) (on : ctype -> bool) (penalty : Q) (shrink user : bool)
  (nrm : list Q -> Q) (red ext : nat -> Q) (sq : Q -> Q) (lg : Z -> Q) (root : Q -> Q) (x : relaxations) (a : ninputs)
  (fs : files) (items : list item) (s : settings) (lines : list string) (f : content) (obj : string) (an : answer) (rn : run) :
  Forall well_named items -> Forall well_numbered items -> describes items s ->
  opens fs (st_mps s) lines -> contains lines f -> well_formed f obj -> integer_rows f obj -> thin_binaries fs s f -> presolve_off fuel fs s ->
  (forall po envs late, rx_pdlp x = Some (po, envs, late) -> file_relaxable nrm red ext sq f envs) ->
  run_command fuel order su on penalty shrink user nrm red ext sq lg root x a fs (flat_map words items) = Some (Ok (Some (Done (an, rn)))) ->
  an_feasible an = true ->
  exists y, (forall j n, nth_error (columns f) j = Some n -> y n = an_x an j) /\ file_solution fs s f y /\ (an_objective an == row_value f y obj)%Q /\
  let b := reported_bound (Done (an, rn)) in
  (b <= an_objective an)%Q /\
  (forall z, file_solution fs s f z -> (an_objective an - row_value f z obj <= an_objective an - b)%Q) /\
  ((b == an_objective an)%Q -> forall z, file_solution fs s f z -> (row_value f y obj <= row_value f z obj)%Q).
Proof.
  intros A B C D E F G H I Re J Fe.
  pose proof (C85_bound fuel order su on penalty shrink user nrm red ext sq lg root x a fs items s lines f obj _ A B C D E F G H I Re J) as Bd.
  destruct (file_answer fuel order su on penalty shrink user nrm red ext sq lg root x a fs items s lines f obj _ A B C D E F G H I J Fe) as (y & Y1 & Y2 & Y3).
  exists y. split; [exact Y1|]. split; [exact Y2|]. split; [exact Y3|]. cbv zeta. split; [rewrite Y3; exact (Bd y Y2)|]. split.
  - intros z Sz. pose proof (Bd z Sz). lra.
  - intros Eq z Sz. pose proof (Bd z Sz). rewrite <- Y3, <- Eq. exact H0.
Qed.
Print Assumptions C85_gap.

(** The range of the columns matters: minimize -x + 1000000 y with x <= 1000, x + y <= 2000, x without upper bound and y
    binary.  With the default tolerance 1e-5 the linear relaxation, stopped at its first test, offers the bound 0: the
    violation 1 of the dual is divided by the size of the objective.  The run reports an answer with the objective 0 and
    the bound 0, although x = 1000, y = 0 has the objective -1000. *)
Theorem C85_unbounded_refuted : exists fs items s lines f obj an rn y,
  Forall well_named items /\ Forall well_numbered items /\ describes items s /\
  opens fs (st_mps s) lines /\ contains lines f /\ well_formed f obj /\ integer_rows f obj /\ thin_binaries fs s f /\ presolve_off 100 fs s /\
  run_command 100 (fun l => l) PrepareProof6.p_around (fun _ => true) 100%Q false false LpProof6.norm1 LpProof6.pow1 LpProof6.pow1 (fun _ => 1%Q)
    WholeProof4.w_lg (fun q => q) CertifyProof2.v_relaxed InfeasibleProof.u_inputs fs (flat_map words items) = Some (Ok (Some (Done (an, rn)))) /\
  an_feasible an = true /\ (an_objective an == 0)%Q /\ (reported_bound (Done (an, rn)) == 0)%Q /\
  file_solution fs s f y /\ (row_value f y obj == -(1000))%Q.
Proof.
  destruct (CertifyProof2.k_is_ok _ _ _ CertifyProof2.v_shows) as (an & rn & E & F & O & B). destruct CertifyProof2.v_named as [A1 A2]. destruct CertifyProof2.v_solution as [S1 S2].
  exists CertifyProof2.v_files, CertifyProof2.v_items, CertifyProof2.v_settings, CertifyProof2.v_lines, CertifyProof2.v_content, "cost", an, rn, CertifyProof2.v_point.
  split; [exact A1|]. split; [exact A2|]. split; [exact CertifyProof2.v_describes|]. split; [exact CertifyProof2.v_opens|]. split; [exact CertifyProof2.v_contains|]. split; [exact CertifyProof2.v_well_formed|].
  split; [exact CertifyProof2.v_integer|]. split; [exact CertifyProof2.v_thin|]. split; [exact CertifyProof2.v_off|]. split; [exact E|]. split; [exact F|]. split; [exact O|]. split; [exact B|]. split; [exact S1|exact S2].
Qed.
Print Assumptions C85_unbounded_refuted.

(** The file and command line of C83 with x given as 0.2: an answer with the objective 3 is reported; the bound is -5
    from the ranges of the variables alone and -17/5 with the relaxations.  The optimum is 0 (x = 0, y = 1, z = 3). *)
Example C85_example :
  (exists an rn, CertifyProof2.k_run "fix.txt" (mkRx None None) = Some (Ok (Some (Done (an, rn)))) /\ an_feasible an = true /\ an_objective an == 3 /\ reported_bound (Done (an, rn)) == -(5))%Q /\
  (exists an rn, CertifyProof2.k_run "fix.txt" CertifyProof2.k_relaxed = Some (Ok (Some (Done (an, rn)))) /\ an_feasible an = true /\ an_objective an == 3 /\ reported_bound (Done (an, rn)) == -17 # 5)%Q.
Proof. split; [exact (CertifyProof2.k_is_ok _ _ _ (proj1 CertifyProof2.k_shows))|exact (CertifyProof2.k_is_ok _ _ _ (proj2 CertifyProof2.k_shows))]. Qed.
Example C85_hypotheses (fixed : string) : Forall well_named (d_items fixed) /\ Forall well_numbered (d_items fixed) /\ describes (d_items fixed) (d_settings fixed) /\
  opens (d_files false) (st_mps (d_settings fixed)) (d_lines false) /\ contains (d_lines false) (d_content false) /\ well_formed (d_content false) "cost" /\
  integer_rows (d_content false) "cost" /\ thin_binaries (d_files false) (d_settings fixed) (d_content false) /\ presolve_off 100 (d_files false) (d_settings fixed) /\
  forall po envs late, rx_pdlp CertifyProof2.k_relaxed = Some (po, envs, late) -> file_relaxable LpProof6.norm1 LpProof6.pow1 LpProof6.pow1 (fun _ => 1%Q) (d_content false) envs.
Proof.
  destruct (d_named fixed) as [A1 A2]. split; [exact A1|]. split; [exact A2|]. split; [exact (d_describes fixed)|]. split; [exact (d_opens false fixed)|]. split; [exact (d_contains false)|].
  split; [exact (d_well_formed false)|]. split; [exact (d_integer false)|]. split; [exact (d_thin fixed)|]. split; [exact (d_off false fixed)|]. exact CertifyProof2.k_relaxable.
Qed.
