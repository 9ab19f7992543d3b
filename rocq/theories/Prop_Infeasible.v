(** C81: without presolve a model that has no solution is not reported as solved. *)
From Coq Require Import List NArith ZArith QArith Bool Permutation.
From Verif Require Import ExprModel ConstraintModel VariableModel TypeModel PresolveModel DependentModel DependentSpec SelectionModel SelectionSpec PrepareModel PrepareSpec
  EvalModel TabuModel LagrangeModel SolverModel SolverSpec WholeModel WholeSpec RelaxModel OfferModel ParityModel TruthSpec InfeasibleSpec.
From Verif Require PrepareProof3 PrepareProof6 WholeProof4 InfeasibleProof InfeasibleProof3 InfeasibleProof4 ParityProof4.
Import ListNotations.
Local Open Scope nat_scope.

(** C81, with presolve switched off, for every model as the user enters it, with a solution or without: an answer
    that is reported as feasible gives the variables the values of a solution of the user's model and its true
    objective.  The moves, options, clocks and random numbers are arbitrary; nothing is asked of the preparation. *)
Theorem C81_any_moves (fuel : nat) (order : list nat -> list nat) (sw : switches) (su : surroundings) (o : search_options)
  (nrm : list Q -> Q) (red ext : nat -> Q) (sq : Q -> Q) (lg : Z -> Q) (root : Q -> Q) (minimize : bool) (x : relaxations) (a : inputs)
  (s : dstate) (an : answer) (rn : run) :
  plain_model s -> as_entered s -> free_binaries s -> sw_presolve sw = false ->
  p_solve fuel order sw su o nrm red ext sq lg root minimize x a s = Some (Ok (Done (an, rn))) ->
  an_feasible an = true -> solution_of s (wo_defined o) an.
Proof. exact (InfeasibleProof.off_solution fuel order sw su o nrm red ext sq lg root minimize x a s an rn). Qed.
Print Assumptions C81_any_moves.

(** C81, the same with the moves of the generators. *)
Theorem C81_answer (fuel : nat) (order : list nat -> list nat) (sw : switches) (su : surroundings) (on : ctype -> bool) (pairs : list (nat * nat)) (o : search_options)
  (nrm : list Q -> Q) (red ext : nat -> Q) (sq : Q -> Q) (lg : Z -> Q) (root : Q -> Q) (minimize : bool) (x : relaxations) (a : ninputs)
  (s : dstate) (an : answer) (rn : run) :
  plain_model s -> as_entered s -> free_binaries s -> sw_presolve sw = false ->
  p_solve_model fuel order sw su on pairs o nrm red ext sq lg root minimize x a s = Some (Ok (Done (an, rn))) ->
  an_feasible an = true -> solution_of s (wo_defined o) an.
Proof.
  intros P Ae Fb Of E. destruct (ParityProof4.p_model_same _ _ _ _ _ _ _ _ _ _ _ _ _ _ _ _ _ _ E) as (a' & _ & E').
  exact (C81_any_moves fuel order sw su o nrm red ext sq lg root minimize x a' s an rn P Ae Fb Of E').
Qed.
Print Assumptions C81_answer.

(** C81: so a model without solutions is not reported as solved. *)
Theorem C81_infeasible (fuel : nat) (order : list nat -> list nat) (sw : switches) (su : surroundings) (on : ctype -> bool) (pairs : list (nat * nat)) (o : search_options)
  (nrm : list Q -> Q) (red ext : nat -> Q) (sq : Q -> Q) (lg : Z -> Q) (root : Q -> Q) (minimize : bool) (x : relaxations) (a : ninputs)
  (s : dstate) (an : answer) (rn : run) :
  plain_model s -> as_entered s -> free_binaries s -> sw_presolve sw = false -> (forall y, ~ solves s y) ->
  p_solve_model fuel order sw su on pairs o nrm red ext sq lg root minimize x a s = Some (Ok (Done (an, rn))) ->
  an_feasible an = false.
Proof.
  intros P Ae Fb Of No E. destruct (an_feasible an) eqn:F; [|reflexivity]. exfalso.
  destruct (C81_answer fuel order sw su on pairs o nrm red ext sq lg root minimize x a s an rn P Ae Fb Of E F) as (y & _ & S & _). exact (No y S).
Qed.
Print Assumptions C81_infeasible.

(** C81, with presolve switched on, for models with inequalities only: the same, if no two of them bound one expression
    from both sides (or the search for such pairs is off), no row can reach 100000, and the redundant set variables are
    treated as C49 asks.  The model may have no solution; the dependent variables may be asked for. *)
Theorem C81_inequalities (fuel : nat) (order : list nat -> list nat) (sw : switches) (su : surroundings) (o : search_options)
  (nrm : list Q -> Q) (red ext : nat -> Q) (sq : Q -> Q) (lg : Z -> Q) (root : Q -> Q) (minimize : bool) (x : relaxations) (a : inputs)
  (s : dstate) (an : answer) (rn : run) :
  (forall l, Permutation (order l) l) -> proper_model s -> as_entered s -> sw_presolve sw = true ->
  only_inequalities s -> sw_implicit sw = false \/ no_opposites s -> small_rows s -> calm_sets sw su minimize s ->
  p_solve fuel order sw su o nrm red ext sq lg root minimize x a s = Some (Ok (Done (an, rn))) ->
  an_feasible an = true -> solution_of s (wo_defined o) an.
Proof. exact (InfeasibleProof3.inequalities_solution fuel order sw su o nrm red ext sq lg root minimize x a s an rn). Qed.
Print Assumptions C81_inequalities.

(** C81: so such a model without solutions is not reported as solved, with the moves of the generators. *)
Theorem C81_inequalities_infeasible (fuel : nat) (order : list nat -> list nat) (sw : switches) (su : surroundings) (on : ctype -> bool) (pairs : list (nat * nat)) (o : search_options)
  (nrm : list Q -> Q) (red ext : nat -> Q) (sq : Q -> Q) (lg : Z -> Q) (root : Q -> Q) (minimize : bool) (x : relaxations) (a : ninputs)
  (s : dstate) (an : answer) (rn : run) :
  (forall l, Permutation (order l) l) -> proper_model s -> as_entered s -> sw_presolve sw = true ->
  only_inequalities s -> sw_implicit sw = false \/ no_opposites s -> small_rows s -> calm_sets sw su minimize s -> (forall y, ~ solves s y) ->
  p_solve_model fuel order sw su on pairs o nrm red ext sq lg root minimize x a s = Some (Ok (Done (an, rn))) -> an_feasible an = false.
Proof.
  intros Pe P Ae On Ne Op Sm Ca No E. destruct (ParityProof4.p_model_same _ _ _ _ _ _ _ _ _ _ _ _ _ _ _ _ _ _ E) as (a' & _ & E').
  destruct (an_feasible an) eqn:F; [|reflexivity]. exfalso.
  destruct (C81_inequalities fuel order sw su o nrm red ext sq lg root minimize x a' s an rn Pe P Ae On Ne Op Sm Ca E' F) as (y & _ & S & _). exact (No y S).
Qed.
Print Assumptions C81_inequalities_infeasible.

(** x0, x1 in {0, 1}, x2 in 0..3, x2 <= 2, x0 + x1 + x2 <= 1, x0 + x1 >= 1, x0 + x2 >= 1, x1 + x2 >= 1: presolve drops the first row
    and cuts x2 to 0..1; the answer has a violation of 1 and is not feasible. *)
Example C81_inequalities_hypotheses : let s := InfeasibleProof4.t_model in let sw := InfeasibleProof4.t_switches in
  proper_model s /\ as_entered s /\ sw_presolve sw = true /\ only_inequalities s /\ no_opposites s /\ small_rows s /\
  calm_sets sw PrepareProof6.p_around true s /\ forall y, ~ solves s y.
Proof.
  cbv zeta. split; [exact InfeasibleProof4.t_proper|]. split; [exact InfeasibleProof4.t_entered|]. split; [reflexivity|]. split; [exact InfeasibleProof4.t_inequalities|].
  split; [exact InfeasibleProof4.t_apart|]. split; [exact InfeasibleProof4.t_small|]. split; [exact (InfeasibleProof4.t_calm _ _)|exact InfeasibleProof4.t_void].
Qed.
Example C81_inequalities_example : WholeProof4.shown 3 (InfeasibleProof4.t_solved InfeasibleProof.u_inputs) = Some ([0; 1; 1]%Z, (-(2))%Q, 1%Q, false, 4) /\
  InfeasibleProof4.reduction = Some ([(0, 1); (0, 1); (0, 1)]%Z, [false; true; true; true; true]).
Proof. exact (conj InfeasibleProof4.t_shown InfeasibleProof4.t_reduction). Qed.

(** With presolve the model x0, x1 in {0, 1}, x2 in 0..3, 2 x0 = 1, x0 + x1 + x2 <= 2 is reported as solved: the
    equality fixes x0 at 1/2 cut down to 0 and is dropped.  The violation printed beside it is 1. *)
Theorem C81_half_refuted : let s := InfeasibleProof.u_model InfeasibleProof.Half in proper_model s /\ as_entered s /\ free_binaries s /\ (forall y, ~ solves s y) /\
  exists an rn, InfeasibleProof.u_solved true InfeasibleProof.Half = Some (Ok (Done (an, rn))) /\ an_feasible an = true.
Proof. exact (InfeasibleProof.u_refuted InfeasibleProof.Half). Qed.
Print Assumptions C81_half_refuted.
(** So is the model with x2 <= -200000 in its place: a bound beyond -100000 is not taken over, and the row is dropped. *)
Theorem C81_far_refuted : let s := InfeasibleProof.u_model InfeasibleProof.Far in proper_model s /\ as_entered s /\ free_binaries s /\ (forall y, ~ solves s y) /\
  exists an rn, InfeasibleProof.u_solved true InfeasibleProof.Far = Some (Ok (Done (an, rn))) /\ an_feasible an = true.
Proof. exact (InfeasibleProof.u_refuted InfeasibleProof.Far). Qed.
Print Assumptions C81_far_refuted.

(** So is the model with the two rows x0 - 1 >= 0 and x0 = 0: the first raises the lower bound of x0 to 1 and is dropped, the
    second fixes x0 at 0 without a look at its bounds and is dropped. *)
Theorem C81_clash_refuted : let s := InfeasibleProof.u_model InfeasibleProof.Clash in proper_model s /\ as_entered s /\ free_binaries s /\ (forall y, ~ solves s y) /\
  exists an rn, InfeasibleProof.u_solved true InfeasibleProof.Clash = Some (Ok (Done (an, rn))) /\ an_feasible an = true.
Proof. exact (InfeasibleProof.u_refuted InfeasibleProof.Clash). Qed.
Print Assumptions C81_clash_refuted.

(** The same three models with presolve on and off: values, objective, violation, feasible or not, solutions visited. *)
Example C81_example (on : bool) (f : InfeasibleProof.flaw) : WholeProof4.shown 3 (InfeasibleProof.u_solved on f) =
  Some ([0; 1; 0]%Z, (-(1))%Q, (match f with InfeasibleProof.Far => 200000 | _ => 1 end)%Q, on, 4).
Proof. exact (InfeasibleProof.u_shown on f). Qed.
Example C81_example_hypotheses (f : InfeasibleProof.flaw) : let s := InfeasibleProof.u_model f in
  plain_model s /\ as_entered s /\ free_binaries s /\ sw_presolve (InfeasibleProof.u_switches false) = false /\ forall y, ~ solves s y.
Proof.
  cbv zeta. split; [exact (PrepareProof3.proper_plain _ (InfeasibleProof.u_proper f))|]. split; [exact (InfeasibleProof.u_entered f)|]. split; [exact (InfeasibleProof.u_free f)|].
  split; [reflexivity|exact (InfeasibleProof.u_void f)].
Qed.
