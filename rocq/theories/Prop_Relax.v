(** C76: the dual bound solve() reports. *)
From Coq Require Import List NArith ZArith QArith Bool.
From Verif Require Import ExprModel ExprSpec ConstraintModel VariableModel PresolveModel DependentModel DependentSpec SelectionModel SelectionSpec PrepareModel PrepareSpec
  EvalModel TabuModel ScreenModel SolverModel SolverSpec WholeModel WholeSpec RelaxModel RelaxSpec.
From Verif Require LpModel LpProof6 PrepareProof6 WholeProof WholeProof4 WholeProof5 RelaxProof2 RelaxProof4 RelaxProof5.
Import ListNotations.
Local Open Scope nat_scope.

(** C76: for every proper, feasible model with an objective, all options, offered moves, random numbers and clocks, and
    whether or not the linear relaxation and (when minimizing) the Lagrange dual are solved on the way: whatever way
    solve() ends, no solution of the user's model has an objective better than the dual bound it reports, and that bound
    is at least as good as the one given by the bounds of the variables alone. *)
Theorem C76_dual_bound (fuel : nat) (sw : switches) (su : surroundings) (o : search_options) (nrm : list Q -> Q) (red ext : nat -> Q) (sq : Q -> Q)
  (lg : Z -> Q) (root : Q -> Q) (minimize : bool) (x : relaxations) (a : inputs) (s : dstate) (r : dstate * list sel) (out : SolverModel.outcome (answer * run)) :
  proper_model s -> (exists x, solves s x) -> calm_rounds sw su minimize s -> calm_sets sw su minimize s ->
  prepare fuel sw su minimize s = Some (Ok r) -> settled r -> wo_defined o = true ->
  (forall po envs late, rx_pdlp x = Some (po, envs, late) -> relaxable nrm red ext sq minimize r envs) ->
  (rx_lagrange x <> None -> minimize = true) ->
  solve_relaxed fuel sw su o nrm red ext sq lg root minimize x a s = Some (Ok out) ->
  bounds_all minimize s (reported_bound out) /\
  let naive := naive_dual_bound minimize (ds_obj (fst r)) (ds_vars (fst r)) in
  if minimize then (naive <= reported_bound out)%Q else (reported_bound out <= naive)%Q.
Proof.
  intros P Fe C1 C2 Pr St Df Rx Lx E. pose proof (WholeProof.prepare_search fuel sw su minimize s r P Fe C1 C2 Pr) as Rd.
  pose proof (RelaxProof2.prepare_selected fuel sw su minimize s r P Fe C1 C2 Pr) as Sc.
  destruct (RelaxProof4.relaxed_eq _ _ _ _ _ _ _ _ _ _ _ _ _ _ _ _ Pr E) as (b & Eb & ->).
  pose proof (fun y => RelaxProof4.final_bound su o minimize s r (RelaxProof4.prepared_in_force fuel sw su minimize s r P Pr Rd) Rd (st_objective r St) Df Sc nrm red ext sq lg root x a b Rx Lx Eb y) as H.
  split; [intros y Sy; exact (proj1 (H y Sy))|]. destruct Fe as [y Sy]. exact (proj2 (H y Sy)).
Qed.
Print Assumptions C76_dual_bound.

(** C76: so when the answer is reported feasible the reported bound and the reported objective enclose the optimum of the
    user's model: the reported answer is a solution, its objective is not better than the bound, and no solution is
    better than it by more than the difference of the two (or any d at least that). *)
Theorem C76_gap (fuel : nat) (sw : switches) (su : surroundings) (o : search_options) (nrm : list Q -> Q) (red ext : nat -> Q) (sq : Q -> Q)
  (lg : Z -> Q) (root : Q -> Q) (minimize : bool) (x : relaxations) (a : inputs) (s : dstate) (r : dstate * list sel) (an : answer) (rn : run) :
  proper_model s -> (exists x, solves s x) -> calm_rounds sw su minimize s -> calm_sets sw su minimize s ->
  prepare fuel sw su minimize s = Some (Ok r) -> settled r -> wo_defined o = true ->
  (forall po envs late, rx_pdlp x = Some (po, envs, late) -> relaxable nrm red ext sq minimize r envs) ->
  (forall go late clock, rx_lagrange x = Some (go, late, clock) -> minimize = true /\ (1 <= LagrangeModel.go_queue go)%Z) ->
  admissible (zero_one_in (ds_number (fst r)) (ds_vars (fst r))) (search_state o minimize r) a ->
  solve_relaxed fuel sw su o nrm red ext sq lg root minimize x a s = Some (Ok (Done (an, rn))) -> an_feasible an = true ->
  solution_of s true an /\
  let b := reported_bound (Done (an, rn)) in
  if minimize then (b <= an_objective an /\ forall d y, an_objective an - b <= d -> solves s y -> an_objective an <= e_eval (ds_obj s) y + d)%Q
  else (an_objective an <= b /\ forall d y, b - an_objective an <= d -> solves s y -> e_eval (ds_obj s) y <= an_objective an + d)%Q.
Proof.
  intros P Fe C1 C2 Pr St Df Rx Lx Ad E Fs. assert (Lx' : rx_lagrange x <> None -> minimize = true).
  { destruct (rx_lagrange x) as [[[go late] clock]|]; [|congruence]. intros _. exact (proj1 (Lx go late clock eq_refl)). }
  destruct (C76_dual_bound fuel sw su o nrm red ext sq lg root minimize x a s r _ P Fe C1 C2 Pr St Df Rx Lx' E) as [B _].
  pose proof (WholeProof.prepare_search fuel sw su minimize s r P Fe C1 C2 Pr) as Rd.
  exact (RelaxProof4.gap_stmt fuel sw su o minimize s r Pr Rd St Df nrm red ext sq lg root x a an rn (fun go late clock H => proj2 (Lx go late clock H)) Ad E Fs B).
Qed.
Print Assumptions C76_gap.

(** Minimizing x0 + x1 with x0 + 2 x1 >= 3 and 2 x0 + x1 >= 3 (optimum 2): without a relaxation the reported bound is 0,
    with both it is 9/8.  Maximizing it with the opposite constraints (optimum 2): 20 and, with the linear relaxation,
    17 + 3/16. *)
Example C76_example : let q m x := RelaxProof5.q_solved m 0 x in
  (exists out, q true (mkRx None None) = Some (Ok out) /\ reported_bound out == 0)%Q /\
  (exists out, q true (mkRx (RelaxProof5.q_pdlp 1) RelaxProof5.q_lagrange) = Some (Ok out) /\ reported_bound out == 9 # 8)%Q /\
  (exists out, q false (mkRx None None) = Some (Ok out) /\ reported_bound out == 20)%Q /\
  (exists out, q false (mkRx (RelaxProof5.q_pdlp 1) None) = Some (Ok out) /\ reported_bound out == 275 # 16)%Q.
Proof. cbv zeta. split; [|split; [|split]]; apply RelaxProof5.bound_is_ok; vm_compute; reflexivity. Qed.
Example C76_example_hypotheses (m : bool) : let s := RelaxProof5.q_model m 0 in let r := RelaxProof5.q_result m 0 in
  proper_model s /\ solves s RelaxProof5.q_point /\ calm_rounds WholeProof5.b_switches PrepareProof6.p_around m s /\
  calm_sets WholeProof5.b_switches PrepareProof6.p_around m s /\ prepare 10 WholeProof5.b_switches PrepareProof6.p_around m s = Some (Ok r) /\ settled r /\
  admissible (zero_one_in (ds_number (fst r)) (ds_vars (fst r))) (search_state WholeProof4.w_options m r) RelaxProof5.q_inputs /\
  forall po envs late, RelaxProof5.q_pdlp 1 = Some (po, envs, late) ->
    relaxable LpProof6.norm1 LpProof6.pow1 LpProof6.pow1 (fun _ => 1%Q) m r envs.
Proof.
  cbv zeta. split; [apply RelaxProof5.q_proper|]. split; [apply RelaxProof5.q_feasible|]. split; [apply RelaxProof5.q_calm|]. split; [apply RelaxProof5.q_calm|].
  split; [apply RelaxProof5.q_result_eq|]. split; [apply RelaxProof5.q_settled|]. split.
  - split; [discriminate|]. split; [discriminate|]. split; [discriminate|]. intros d [].
  - intros po envs late E. refine (RelaxProof5.q_relaxable m 0%Q 1 po envs late _ E). destruct m; apply Qle_refl.
Qed.
(** With a local search the same problem gives a feasible answer. *)
Example C76_gap_example : exists an rn, RelaxProof5.q_searched = Some (Ok (Done (an, rn))) /\ an_feasible an = true /\
  (an_objective an == 2)%Q /\ (reported_bound (Done (an, rn)) == 9 # 8)%Q /\
  admissible (zero_one_in (ds_number (fst (RelaxProof5.q_result true 0))) (ds_vars (fst (RelaxProof5.q_result true 0))))
    (search_state WholeProof4.w_options true (RelaxProof5.q_result true 0)) RelaxProof5.q_moving.
Proof. exact RelaxProof5.q_gap. Qed.

(** Maximizing with the Lagrange dual switched on: maximizing x0 + x1 in the problem above a bound of -72 is reported
    although (1, 1) is a solution with the objective 2. *)
Theorem C76_maximization_refuted : exists out, RelaxProof5.q_solved false 0 (mkRx None RelaxProof5.q_lagrange) = Some (Ok out) /\
  (reported_bound out == -(72))%Q /\ solves (RelaxProof5.q_model false 0) RelaxProof5.q_point /\
  (e_eval (ds_obj (RelaxProof5.q_model false 0)) RelaxProof5.q_point == 2)%Q /\ ~ bounds_all false (RelaxProof5.q_model false 0) (reported_bound out).
Proof.
  destruct (RelaxProof5.bound_is_ok (-(72))%Q (RelaxProof5.q_solved false 0 (mkRx None RelaxProof5.q_lagrange))) as (out & E & B); [vm_compute; reflexivity|].
  exists out. split; [exact E|]. split; [exact B|]. split; [apply RelaxProof5.q_feasible|]. split; [vm_compute; reflexivity|].
  intros H. exact (RelaxProof5.q_too_low out B (H _ (RelaxProof5.q_feasible false 0%Q))).
Qed.
Print Assumptions C76_maximization_refuted.

(** The constant of the objective is left out of the linear relaxation: minimizing x0 + x1 - 100 a bound of 0 is
    reported although (1, 1) is a solution with the objective -98. *)
Theorem C76_constant_refuted : exists out, RelaxProof5.q_solved true (-(100)) (mkRx (RelaxProof5.q_pdlp 0) None) = Some (Ok out) /\
  (reported_bound out == 0)%Q /\ solves (RelaxProof5.q_model true (-(100))) RelaxProof5.q_point /\
  (e_eval (ds_obj (RelaxProof5.q_model true (-(100)))) RelaxProof5.q_point == -(98))%Q /\ ~ bounds_all true (RelaxProof5.q_model true (-(100))) (reported_bound out).
Proof.
  destruct (RelaxProof5.bound_is_ok 0%Q (RelaxProof5.q_solved true (-(100)) (mkRx (RelaxProof5.q_pdlp 0) None))) as (out & E & B); [vm_compute; reflexivity|].
  exists out. split; [exact E|]. split; [exact B|]. split; [apply RelaxProof5.q_feasible|]. split; [vm_compute; reflexivity|].
  intros H. exact (RelaxProof5.q_too_high out B (H _ (RelaxProof5.q_feasible true (-(100))%Q))).
Qed.
Print Assumptions C76_constant_refuted.
