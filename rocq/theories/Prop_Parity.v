(** C79: the GF(2) step at the end of the preparation. *)
From Coq Require Import List NArith ZArith QArith Bool Permutation.
From Verif Require Import ExprModel ExprSpec ConstraintModel VariableModel TypeModel PresolveModel DependentModel DependentSpec SelectionModel SelectionSpec PrepareModel PrepareSpec
  EvalModel TabuModel ControllerSpec SolverModel SolverSpec WholeModel WholeSpec RelaxModel RelaxSpec OfferModel OfferSpec ParityModel ParitySpec.
From Verif Require LagrangeModel PrepareProof6 WholeProof4 ParityProof ParityProof2 ParityProof3 ParityProof4.
Import ListNotations.
Local Open Scope nat_scope.

(** C79: what the step takes for parity equations has their form: an equation without fixed variables, one variable (the
    key) with the coefficient 2 or -2, the others binary with the coefficients 1 or -1, the constant 0, 1 or -1. *)
Theorem C79_equations (su : surroundings) (s : dstate) (c : constr) (k : nat) : In (c, k) (parity_items su s) -> In c (ds_cons s) /\ parity_row (ds_vars s) c k.
Proof. exact (ParityProof.item_row su s c k). Qed.
Print Assumptions C79_equations.

(** C79: for every proper, feasible model whose parity equations are in force, share no keys and give the coefficient 1
    to the variables beside the keys: the step loses no solution of the prepared problem and adds none (whatever the
    order in which the equations are eliminated), so that the best solution of the user's model is kept, and the
    prepared problem stays in order for the search. *)
Theorem C79_solutions (fuel : nat) (order : list nat -> list nat) (sw : switches) (su : surroundings) (minimize : bool) (s : dstate) (r : dstate * list sel) :
  (forall l, Permutation (order l) l) -> proper_model s -> (exists y, solves s y) -> calm_rounds sw su minimize s -> calm_sets sw su minimize s ->
  prepare fuel sw su minimize s = Some (Ok r) ->
  let l := parity_items su (fst r) in keys_apart l -> all_plus l -> in_force (fst r) l ->
  let r' := prepare_parities order sw su r in
  (forall z, meets r' z <-> meets r z) /\ keeps_optimum minimize s r' /\ (settled r -> settled r').
Proof.
  intros Op P Fe C1 C2 Pr l Ka Pl Fo r'. pose proof (ParityProof4.q_ready fuel sw su minimize s r P Fe C1 C2 Pr) as Rd. pose proof (ParityProof4.q_force fuel sw su minimize s r P Fe C1 C2 Pr) as Hf.
  split; [|split].
  - exact (ParityProof2.step_iff order sw su minimize s r Op Rd Hf Ka Pl Fo Fe).
  - exact (ParityProof2.step_keeps order sw su minimize s r Op Rd Hf Ka Pl Fo Fe).
  - exact (ParityProof2.step_settled order sw su minimize s r Op Rd Hf Ka Pl Fo Fe).
Qed.
Print Assumptions C79_solutions.

(** C79: then what it fixes has, in every solution of the prepared problem, the value it is fixed to. *)
Theorem C79_values (fuel : nat) (order : list nat -> list nat) (sw : switches) (su : surroundings) (minimize : bool) (s : dstate) (r : dstate * list sel) (z : nat -> Z) (v : nat) :
  (forall l, Permutation (order l) l) -> proper_model s -> (exists y, solves s y) -> calm_rounds sw su minimize s -> calm_sets sw su minimize s ->
  prepare fuel sw su minimize s = Some (Ok r) ->
  let l := parity_items su (fst r) in keys_apart l -> all_plus l -> in_force (fst r) l ->
  let r' := prepare_parities order sw su r in
  va_fixed (ds_vars (fst r') v) = true -> ds_dep (fst r) v = None -> meets r z -> z v = va_value (ds_vars (fst r') v).
Proof.
  intros Op P Fe C1 C2 Pr l Ka Pl Fo r' F D M.
  exact (ParityProof2.step_values order sw su minimize s r Op (ParityProof4.q_ready fuel sw su minimize s r P Fe C1 C2 Pr) (ParityProof4.q_force fuel sw su minimize s r P Fe C1 C2 Pr) Ka Pl Fo z v M F D).
Qed.
Print Assumptions C79_values.

(** C79: solve() with this step, for moves from anywhere that leave fixed variables alone: the answer is right, and one
    reported as feasible is a solution of the user's model with its true objective. *)
Theorem C79_answer (fuel : nat) (order : list nat -> list nat) (sw : switches) (su : surroundings) (o : search_options)
  (nrm : list Q -> Q) (red ext : nat -> Q) (sq : Q -> Q) (lg : Z -> Q) (root : Q -> Q) (minimize : bool) (x : relaxations) (a : inputs)
  (s : dstate) (r : dstate * list sel) (b : option Q) :
  (forall l, Permutation (order l) l) -> proper_model s -> (exists y, solves s y) -> calm_rounds sw su minimize s -> calm_sets sw su minimize s ->
  prepare fuel sw su minimize s = Some (Ok r) -> settled r ->
  let l := parity_items su (fst r) in keys_apart l -> all_plus l -> in_force (fst r) l ->
  let r' := prepare_parities order sw su r in
  (forall go late clock, rx_lagrange x = Some (go, late, clock) -> (1 <= LagrangeModel.go_queue go)%Z) ->
  admissible (zero_one_in (ds_number (fst r')) (ds_vars (fst r'))) (search_state o minimize r') a -> pdlp_phase nrm red ext sq x minimize r' = Ok b ->
  exists out, p_solve fuel order sw su o nrm red ext sq lg root minimize x a s = Some (Ok out) /\
  let p := search_problem su minimize r' in
  match out with
  | Done (an, rn) => orderly (in_limit a) rn /\ right_answer p (search_state o minimize r') rn an /\ (an_feasible an = true -> solution_of s (wo_defined o) an)
  | Rejected rn y => orderly (in_limit a) rn /\ In y (visited rn) /\ ~ valid_start (pb_n p) (placed p y) (pb_sels p)
  | NotANumber rn => orderly (in_limit a) rn /\ (log_like lg -> unpriceable (search_state o minimize r') rn)
  end.
Proof.
  intros Op P Fe C1 C2 Pr St l Ka Pl Fo r' Q Ad Eb.
  exact (ParityProof4.q_answer fuel order sw su o minimize s r Op P Fe C1 C2 Pr Ka Pl Fo nrm red ext sq lg root x a b St Q Ad Eb).
Qed.
Print Assumptions C79_answer.

(** C79: whatever moves are made (those of the generators included), no solution of the user's model has an objective
    better than the dual bound that is reported. *)
Theorem C79_dual_bound (fuel : nat) (order : list nat -> list nat) (sw : switches) (su : surroundings) (o : search_options)
  (nrm : list Q -> Q) (red ext : nat -> Q) (sq : Q -> Q) (lg : Z -> Q) (root : Q -> Q) (minimize : bool) (x : relaxations)
  (s : dstate) (r : dstate * list sel) (out : SolverModel.outcome (answer * run)) :
  (forall l, Permutation (order l) l) -> proper_model s -> (exists y, solves s y) -> calm_rounds sw su minimize s -> calm_sets sw su minimize s ->
  prepare fuel sw su minimize s = Some (Ok r) -> settled r -> wo_defined o = true ->
  let l := parity_items su (fst r) in keys_apart l -> all_plus l -> in_force (fst r) l ->
  let r' := prepare_parities order sw su r in
  (forall po envs late, rx_pdlp x = Some (po, envs, late) -> relaxable nrm red ext sq minimize r' envs) -> (rx_lagrange x <> None -> minimize = true) ->
  (exists a, p_solve fuel order sw su o nrm red ext sq lg root minimize x a s = Some (Ok out)) \/
  (exists on pairs a, p_solve_model fuel order sw su on pairs o nrm red ext sq lg root minimize x a s = Some (Ok out)) -> bounds_all minimize s (reported_bound out).
Proof.
  intros Op P Fe C1 C2 Pr St Df l Ka Pl Fo r' Rx Lx E.
  assert (E' : exists a, p_solve fuel order sw su o nrm red ext sq lg root minimize x a s = Some (Ok out)).
  { destruct E as [E|(on & pairs & a & E)]; [exact E|]. destruct (ParityProof4.p_model_same _ _ _ _ _ _ _ _ _ _ _ _ _ _ _ _ _ _ E) as (a' & _ & E'). exists a'. exact E'. }
  destruct E' as [a E']. exact (ParityProof4.q_bound fuel order sw su o minimize s r Op P Fe C1 C2 Pr Ka Pl Fo nrm red ext sq lg root x a out St Df Rx Lx E').
Qed.
Print Assumptions C79_dual_bound.

(** C79: without presolve, without parity equations, or if the step fixes nothing, solve() is the one of C77. *)
Theorem C79_idle (fuel : nat) (order : list nat -> list nat) (sw : switches) (su : surroundings) (on : ctype -> bool) (pairs : list (nat * nat)) (o : search_options)
  (nrm : list Q -> Q) (red ext : nat -> Q) (sq : Q -> Q) (lg : Z -> Q) (root : Q -> Q) (minimize : bool) (x : relaxations) (a : ninputs) (s : dstate) (r : dstate * list sel) :
  prepare fuel sw su minimize s = Some (Ok r) -> sw_presolve sw = false \/ parity_items su (fst r) = [] \/ prepare_parities order sw su r = r ->
  p_solve_model fuel order sw su on pairs o nrm red ext sq lg root minimize x a s = n_solve_model fuel sw su on pairs o nrm red ext sq lg root minimize x a s.
Proof.
  intros Pr H. apply (ParityProof4.p_idle fuel order sw su on pairs o nrm red ext sq lg root minimize x a s r Pr).
  destruct H as [H|[H|H]]; [|apply ParityProof4.idle_when; right; exact H|exact H]. apply ParityProof4.idle_when. left. exact H.
Qed.
Print Assumptions C79_idle.

(** Three parity equations in x0, x1, x2 with the keys 3, 4, 5: the step finds the values of all six. *)
Example C79_example : let s := ParityProof3.g_model 1 in let r := ParityProof3.g_result 1 in let l := parity_items PrepareProof6.p_around (fst r) in
  proper_model s /\ solves s (ParityProof3.g_point 1) /\ calm_rounds ParityProof3.g_switches PrepareProof6.p_around true s /\ calm_sets ParityProof3.g_switches PrepareProof6.p_around true s /\
  prepare 10 ParityProof3.g_switches PrepareProof6.p_around true s = Some (Ok r) /\ settled r /\ keys_apart l /\ all_plus l /\ in_force (fst r) l /\
  ParityProof3.fixings r = [None; None; None; None; None; None; None] /\
  ParityProof3.fixings (prepare_parities ParityProof3.same ParityProof3.g_switches PrepareProof6.p_around r) = [Some 1; Some 1; Some 0; Some (-1); Some 1; Some (-1); None]%Z.
Proof.
  assert (A : 1%Z = 1%Z \/ 1%Z = (-1)%Z) by (left; reflexivity). cbv zeta.
  split; [exact (ParityProof3.g_proper 1 A)|]. split; [exact (ParityProof3.g_feasible 1 A)|]. split; [exact (proj1 (ParityProof3.g_calm 1 A))|]. split; [exact (proj2 (ParityProof3.g_calm 1 A))|].
  split; [exact (ParityProof3.g_result_eq 1 A)|]. split; [exact (ParityProof3.g_settled 1 A)|]. split; [exact (ParityProof3.g_apart 1 A)|]. split; [exact ParityProof3.g_plus|].
  split; [exact (ParityProof3.g_force 1 A)|]. exact ParityProof3.g_fixings.
Qed.
(** A run of solve() on it, with no modifications at the beginning of the round: the solution with the objective 0. *)
Example C79_example_run : WholeProof4.shown 7 (ParityProof3.g_solved []) = Some ([1; 1; 0; -1; 1; -1; 0]%Z, 0%Q, 0%Q, true, 3).
Proof. exact (proj2 ParityProof3.g_shown). Qed.

(** C79 is wrong if a variable beside the key has the coefficient -1: the feasible model becomes infeasible. *)
Theorem C79_negative_refuted : exists s r y, proper_model s /\ solves s y /\ calm_rounds ParityProof3.g_switches PrepareProof6.p_around true s /\ calm_sets ParityProof3.g_switches PrepareProof6.p_around true s /\
  prepare 10 ParityProof3.g_switches PrepareProof6.p_around true s = Some (Ok r) /\ settled r /\
  keys_apart (parity_items PrepareProof6.p_around (fst r)) /\ in_force (fst r) (parity_items PrepareProof6.p_around (fst r)) /\
  forall z, ~ meets (prepare_parities (fun l => l) ParityProof3.g_switches PrepareProof6.p_around r) z.
Proof.
  assert (A : (-1)%Z = 1%Z \/ (-1)%Z = (-1)%Z) by (right; reflexivity). exists (ParityProof3.g_model (-1)), (ParityProof3.g_result (-1)), (ParityProof3.g_point (-1)).
  split; [exact (ParityProof3.g_proper (-1) A)|]. split; [exact (ParityProof3.g_feasible (-1) A)|]. split; [exact (proj1 (ParityProof3.g_calm (-1) A))|]. split; [exact (proj2 (ParityProof3.g_calm (-1) A))|].
  split; [exact (ParityProof3.g_result_eq (-1) A)|]. split; [exact (ParityProof3.g_settled (-1) A)|]. split; [exact (ParityProof3.g_apart (-1) A)|]. split; [exact (ParityProof3.g_force (-1) A)|].
  exact ParityProof3.g_lost.
Qed.
Print Assumptions C79_negative_refuted.

(** C79 is wrong if parity equations are switched off by the user: they fix variables all the same, and a solution of
    the user's model that is better than every remaining one is cut off. *)
Theorem C79_disabled_refuted : exists s r y, solves s y /\ prepare 10 ParityProof3.g_switches PrepareProof6.p_around true s = Some (Ok r) /\ meets r y /\ (e_eval (ds_obj s) y == -(1))%Q /\
  forall z, meets (prepare_parities (fun l => l) ParityProof3.g_switches PrepareProof6.p_around r) z -> (e_eval (ds_obj s) z == 0)%Q.
Proof.
  exists ParityProof3.h_model, ParityProof3.h_result, ParityProof3.h_point. split; [exact (proj1 ParityProof3.h_meets)|]. split; [exact ParityProof3.h_result_eq|].
  split; [exact (proj2 ParityProof3.h_meets)|]. split; [vm_compute; reflexivity|]. exact ParityProof3.h_cut.
Qed.
Print Assumptions C79_disabled_refuted.

(** C79 is wrong of the moves of the generators, which were set up before the step and go on offering moves of variables
    it fixed: the values of the constraints are no longer those of the solution, and solve() reports an infeasible
    answer although it visited a solution of the user's model. *)
Theorem C79_stale_moves_refuted : exists s r y a an rn x, proper_model s /\ solves s y /\ calm_rounds ParityProof3.g_switches PrepareProof6.p_around true s /\ calm_sets ParityProof3.g_switches PrepareProof6.p_around true s /\
  prepare 10 ParityProof3.g_switches PrepareProof6.p_around true s = Some (Ok r) /\ settled r /\ searchable PrepareProof6.p_around r /\ driven r a /\
  keys_apart (parity_items PrepareProof6.p_around (fst r)) /\ all_plus (parity_items PrepareProof6.p_around (fst r)) /\ in_force (fst r) (parity_items PrepareProof6.p_around (fst r)) /\
  p_solve_model 10 (fun l => l) ParityProof3.g_switches PrepareProof6.p_around (fun _ => true) [] WholeProof4.w_options (fun _ => 1%Q) (fun _ => 1%Q) (fun _ => 1%Q) (fun q => q)
    WholeProof4.w_lg (fun q => q) true (mkRx None None) a s = Some (Ok (Done (an, rn))) /\
  an_feasible an = false /\ In x (visited rn) /\ (forall v, v < ds_number s -> x v = y v).
Proof.
  assert (A : 1%Z = 1%Z \/ 1%Z = (-1)%Z) by (left; reflexivity). destruct (ParityProof3.missed_ok _ ParityProof3.g_missed) as (an & rn & x & E & F & I & X).
  exists (ParityProof3.g_model 1), (ParityProof3.g_result 1), (ParityProof3.g_point 1), (ParityProof3.g_inputs [0; 0; 4; 7]), an, rn, x.
  split; [exact (ParityProof3.g_proper 1 A)|]. split; [exact (ParityProof3.g_feasible 1 A)|]. split; [exact (proj1 (ParityProof3.g_calm 1 A))|]. split; [exact (proj2 (ParityProof3.g_calm 1 A))|].
  split; [exact (ParityProof3.g_result_eq 1 A)|]. split; [exact (ParityProof3.g_settled 1 A)|]. split; [exact (ParityProof3.g_searchable 1 A)|]. split; [exact (ParityProof3.g_driven _)|].
  split; [exact (ParityProof3.g_apart 1 A)|]. split; [exact ParityProof3.g_plus|]. split; [exact (ParityProof3.g_force 1 A)|].
  split; [exact E|]. split; [exact F|]. split; [exact I|exact X].
Qed.
Print Assumptions C79_stale_moves_refuted.
