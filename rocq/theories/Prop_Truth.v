(** C80: an answer reported as feasible is a solution, whatever moves were made. *)
From Coq Require Import List NArith ZArith QArith Bool Permutation.
From Verif Require Import ExprModel ExprSpec ConstraintModel VariableModel TypeModel PresolveModel DependentModel DependentSpec SelectionModel SelectionSpec PrepareModel PrepareSpec
  EvalModel TabuModel LagrangeModel SolverModel SolverSpec WholeModel WholeSpec RelaxModel OfferModel ParityModel TruthSpec.
From Verif Require PrepareProof6 WholeProof4 TruthProof2 TruthProof3 ParityProof3 ParityProof4.
Import ListNotations.
Local Open Scope nat_scope.

(** C80, after the preparation: let the moves offered to the searches be arbitrary (of fixed variables, out of bounds,
    with wrong lists of related constraints), and so the options, the clocks, the random numbers and the initial values:
    the answer is a visited solution within the bounds and the selections that leaves fixed variables alone, and its
    objective, violation and feasibility are those of its values, computed anew.  The other cases: a solution outside
    the bounds was visited and refused, or penalty coefficients were lost. *)
Theorem C80_after_preparation (lg : Z -> Q) (root : Q -> Q) (p : problem) (a : inputs) (s0 : mstate) (x0 : nat -> Z) (m0 : memory) (is01 : nat -> bool) :
  prepared is01 p (with_x s0 x0) m0 ->
  match solve lg root p a s0 m0 with
  | Done (an, r) => orderly (in_limit a) r /\ truthful p s0 r an
  | Rejected r y => orderly (in_limit a) r /\ In y (visited r) /\ ~ valid_start (pb_n p) (placed p y) (pb_sels p)
  | NotANumber r => orderly (in_limit a) r
  end.
Proof. exact (TruthProof2.solve_truth lg root p a s0 x0 m0 is01). Qed.
Print Assumptions C80_after_preparation.

(** C80, for the user's model, with moves from anywhere and whatever the GF(2) step fixed. *)
Theorem C80_any_moves (fuel : nat) (order : list nat -> list nat) (sw : switches) (su : surroundings) (o : search_options)
  (nrm : list Q -> Q) (red ext : nat -> Q) (sq : Q -> Q) (lg : Z -> Q) (root : Q -> Q) (minimize : bool) (x : relaxations) (a : inputs)
  (s : dstate) (r : dstate * list sel) (out : SolverModel.outcome (answer * run)) :
  (forall l, Permutation (order l) l) -> proper_model s -> (exists y, solves s y) -> calm_rounds sw su minimize s -> calm_sets sw su minimize s ->
  prepare fuel sw su minimize s = Some (Ok r) -> settled r ->
  p_solve fuel order sw su o nrm red ext sq lg root minimize x a s = Some (Ok out) ->
  let r' := prepare_parities order sw su r in let p := search_problem su minimize r' in
  match out with
  | Done (an, rn) => orderly (in_limit a) rn /\ truthful p (search_state o minimize r') rn an /\ (an_feasible an = true -> solution_of s (wo_defined o) an)
  | Rejected rn y => orderly (in_limit a) rn /\ In y (visited rn) /\ ~ valid_start (pb_n p) (placed p y) (pb_sels p)
  | NotANumber rn => orderly (in_limit a) rn
  end.
Proof. intros Op P Fe C1 C2 Pr St E. exact (ParityProof4.any_answer fuel order sw su o minimize s r Op P Fe C1 C2 Pr nrm red ext sq lg root x a out St E). Qed.
Print Assumptions C80_any_moves.

(** C80, for the user's model, with the moves of the generators, the stale ones included: nothing is asked of the
    neighborhoods, the stored moves, the screening, the targets or the parity equations. *)
Theorem C80_answer (fuel : nat) (order : list nat -> list nat) (sw : switches) (su : surroundings) (on : ctype -> bool) (pairs : list (nat * nat)) (o : search_options)
  (nrm : list Q -> Q) (red ext : nat -> Q) (sq : Q -> Q) (lg : Z -> Q) (root : Q -> Q) (minimize : bool) (x : relaxations) (a : ninputs)
  (s : dstate) (r : dstate * list sel) (out : SolverModel.outcome (answer * run)) :
  (forall l, Permutation (order l) l) -> proper_model s -> (exists y, solves s y) -> calm_rounds sw su minimize s -> calm_sets sw su minimize s ->
  prepare fuel sw su minimize s = Some (Ok r) -> settled r ->
  p_solve_model fuel order sw su on pairs o nrm red ext sq lg root minimize x a s = Some (Ok out) ->
  let r' := prepare_parities order sw su r in let p := search_problem su minimize r' in
  match out with
  | Done (an, rn) => orderly (ni_limit a) rn /\ truthful p (search_state o minimize r') rn an /\ (an_feasible an = true -> solution_of s (wo_defined o) an)
  | Rejected rn y => orderly (ni_limit a) rn /\ In y (visited rn) /\ ~ valid_start (pb_n p) (placed p y) (pb_sels p)
  | NotANumber rn => orderly (ni_limit a) rn
  end.
Proof.
  intros Op P Fe C1 C2 Pr St E. destruct (ParityProof4.p_model_same _ _ _ _ _ _ _ _ _ _ _ _ _ _ _ _ _ _ E) as (a' & <- & E').
  exact (C80_any_moves fuel order sw su o nrm red ext sq lg root minimize x a' s r out Op P Fe C1 C2 Pr St E').
Qed.
Print Assumptions C80_answer.

(** A run misled by moves of variables that are fixed (C79_stale_moves_refuted): what it reports is true of its values
    (x0 + x6 <= 1 is violated by 1). *)
Example C80_example : WholeProof4.shown 7 (ParityProof3.g_solved [0; 0; 4; 7]) = Some ([1; 1; 0; -1; 1; -1; 1]%Z, (-(1))%Q, 1%Q, false, 7).
Proof. exact (proj1 ParityProof3.g_shown). Qed.
Example C80_example_hypotheses : let s := ParityProof3.g_model 1 in let r := ParityProof3.g_result 1 in
  proper_model s /\ solves s (ParityProof3.g_point 1) /\ calm_rounds ParityProof3.g_switches PrepareProof6.p_around true s /\ calm_sets ParityProof3.g_switches PrepareProof6.p_around true s /\
  prepare 10 ParityProof3.g_switches PrepareProof6.p_around true s = Some (Ok r) /\ settled r.
Proof.
  assert (A : 1%Z = 1%Z \/ 1%Z = (-1)%Z) by (left; reflexivity). cbv zeta.
  split; [exact (ParityProof3.g_proper 1 A)|]. split; [exact (ParityProof3.g_feasible 1 A)|]. split; [exact (proj1 (ParityProof3.g_calm 1 A))|]. split; [exact (proj2 (ParityProof3.g_calm 1 A))|].
  split; [exact (ParityProof3.g_result_eq 1 A)|exact (ParityProof3.g_settled 1 A)].
Qed.
