(** C74, C75: from the user's model to the answer; the penalty coefficient. *)
From Coq Require Import List NArith ZArith QArith Bool.
From Verif Require Import ExprModel ExprSpec ConstraintModel VariableModel PresolveModel DependentModel DependentSpec SelectionModel SelectionSpec PrepareModel PrepareSpec
  EvalModel TabuModel LoopSpec LocalSpec ControllerSpec ScreenModel SolverModel SolverSpec WholeModel WholeSpec.
From Verif Require PrepareProof6 WholeProof WholeProof3 WholeProof4 WholeProof5 WholeProof6.
Import ListNotations.
Local Open Scope nat_scope.

(** C74: when the preparation of a feasible model succeeds and what the constraints remember of their coefficients is
    right for the prepared problem, solve() - for all options, offered moves, random numbers and clocks - returns an
    answer, throws because a visited solution leaves the bounds or selects not exactly one variable, or loses the
    penalty coefficients.  An answer that is reported feasible gives to the variables of the user's model the values
    of one of its solutions, and reports the true objective of the user's model. *)
Theorem C74_answer (fuel : nat) (sw : switches) (su : surroundings) (o : search_options) (lg : Z -> Q) (root : Q -> Q) (minimize : bool) (a : inputs)
  (s : dstate) (r : dstate * list sel) :
  proper_model s -> (exists x, solves s x) -> calm_rounds sw su minimize s -> calm_sets sw su minimize s ->
  prepare fuel sw su minimize s = Some (Ok r) -> settled r -> admissible (zero_one_in (ds_number (fst r)) (ds_vars (fst r))) (search_state o minimize r) a ->
  let p := search_problem su minimize r in
  exists out, solve_model fuel sw su o lg root minimize a s = Some (Ok out) /\
  match out with
  | Done (an, rn) => orderly (in_limit a) rn /\ right_answer p (search_state o minimize r) rn an /\ (an_feasible an = true -> solution_of s (wo_defined o) an)
  | Rejected rn y => orderly (in_limit a) rn /\ In y (visited rn) /\ ~ valid_start (pb_n p) (placed p y) (pb_sels p)
  | NotANumber rn => orderly (in_limit a) rn /\ (log_like lg -> unpriceable (search_state o minimize r) rn)
  end.
Proof.
  intros P Fe C1 C2 Pr St Ad p. pose proof (WholeProof.prepare_search fuel sw su minimize s r P Fe C1 C2 Pr) as Rd.
  eexists. split; [exact (WholeProof4.solve_model_eq fuel sw su o lg root minimize a s r Pr)|]. exact (WholeProof4.whole_answer su o lg root minimize a s r Rd St Ad).
Qed.
Print Assumptions C74_answer.

(** C74: if moreover no phase is offered a value outside, solve() does not throw, and everything it visits is within
    the bounds and selects one variable of each selection. *)
Theorem C74_no_exception (fuel : nat) (sw : switches) (su : surroundings) (o : search_options) (lg : Z -> Q) (root : Q -> Q) (minimize : bool) (a : inputs)
  (s : dstate) (r : dstate * list sel) :
  proper_model s -> (exists x, solves s x) -> calm_rounds sw su minimize s -> calm_sets sw su minimize s ->
  prepare fuel sw su minimize s = Some (Ok r) -> settled r -> admissible (zero_one_in (ds_number (fst r)) (ds_vars (fst r))) (search_state o minimize r) a ->
  let p := search_problem su minimize r in
  offers_inside p (search_state o minimize r) a ->
  exists out, solve_model fuel sw su o lg root minimize a s = Some (Ok out) /\
  match out with
  | Done (_, rn) | NotANumber rn => forall y, In y (visited rn) -> valid_start (pb_n p) (placed p y) (pb_sels p)
  | Rejected _ _ => False
  end.
Proof.
  intros P Fe C1 C2 Pr St Ad p Of. pose proof (WholeProof.prepare_search fuel sw su minimize s r P Fe C1 C2 Pr) as Rd.
  eexists. split; [exact (WholeProof4.solve_model_eq fuel sw su o lg root minimize a s r Pr)|]. exact (WholeProof4.whole_inside su o lg root minimize a s r Rd St Ad Of).
Qed.
Print Assumptions C74_no_exception.

(** C74: without dependent variables the prepared problem of every model as it is entered is in order, if presolve is
    on or no binary variable has the bounds [0, 0] or [1, 1]. *)
Theorem C74_settled (fuel : nat) (sw : switches) (su : surroundings) (minimize : bool) (s : dstate) (r : dstate * list sel) :
  proper_model s -> as_entered s -> wants_dependents sw = false -> sw_presolve sw = true \/ free_binaries s ->
  (exists x, solves s x) -> calm_sets sw su minimize s -> prepare fuel sw su minimize s = Some (Ok r) -> settled r.
Proof. exact (fun P A W F Fe C Pr => WholeProof3.plain_settled fuel sw su minimize s P A W F r Fe C Pr). Qed.
Print Assumptions C74_settled.

(** C74: so that nothing is asked but a proper, feasible model as it is entered when also redundant set variables are
    left alone. *)
Theorem C74_without_elimination (fuel : nat) (sw : switches) (su : surroundings) (o : search_options) (lg : Z -> Q) (root : Q -> Q) (minimize : bool) (a : inputs)
  (s : dstate) (r : dstate * list sel) (an : answer) (rn : run) :
  proper_model s -> as_entered s -> (exists x, solves s x) -> wants_dependents sw = false -> sw_set_vars sw = false -> sw_presolve sw = true \/ free_binaries s ->
  prepare fuel sw su minimize s = Some (Ok r) -> admissible (zero_one_in (ds_number (fst r)) (ds_vars (fst r))) (search_state o minimize r) a ->
  solve_model fuel sw su o lg root minimize a s = Some (Ok (Done (an, rn))) ->
  right_answer (search_problem su minimize r) (search_state o minimize r) rn an /\ (an_feasible an = true -> solution_of s (wo_defined o) an).
Proof.
  intros P A Fe W V F Pr Ad E. destruct (PrepareProof6.prepare_without sw su minimize s P Fe W V) as [C1 C2].
  pose proof (C74_settled fuel sw su minimize s r P A W F Fe C2 Pr) as St.
  destruct (C74_answer fuel sw su o lg root minimize a s r P Fe C1 C2 Pr St Ad) as (out & E' & H). rewrite E in E'. injection E' as <-. exact (proj2 H).
Qed.
Print Assumptions C74_without_elimination.

(** C74: the dual bound the search starts with is a bound for every solution of the user's model. *)
Theorem C74_dual_bound (fuel : nat) (sw : switches) (su : surroundings) (minimize : bool) (s : dstate) (r : dstate * list sel) :
  proper_model s -> (exists x, solves s x) -> calm_rounds sw su minimize s -> calm_sets sw su minimize s ->
  prepare fuel sw su minimize s = Some (Ok r) -> settled r ->
  forall x, solves s x -> if minimize then (naive_dual_bound true (ds_obj (fst r)) (ds_vars (fst r)) <= e_eval (ds_obj s) x)%Q
                          else (e_eval (ds_obj s) x <= naive_dual_bound false (ds_obj (fst r)) (ds_vars (fst r)))%Q.
Proof.
  intros P Fe C1 C2 Pr St x Sx. pose proof (WholeProof.prepare_search fuel sw su minimize s r P Fe C1 C2 Pr) as Rd.
  pose proof (WholeProof6.dual_bound minimize s r Rd (st_objective r St) x Sx) as H. destruct minimize; exact H.
Qed.
Print Assumptions C74_dual_bound.

(** C75: the penalty coefficient the search starts with is not larger than the initial one of the options.  If that one
    is larger than the range of the objective by at least 1, then every infeasible solution within the bounds has a
    penalized objective larger by at least 1 than that of every feasible one. *)
Theorem C75_penalty (fuel : nat) (sw : switches) (su : surroundings) (o : search_options) (minimize : bool) (s : dstate) (r : dstate * list sel) :
  proper_model s -> (exists x, solves s x) -> calm_rounds sw su minimize s -> calm_sets sw su minimize s ->
  prepare fuel sw su minimize s = Some (Ok r) -> settled r ->
  let md := ms_model (search_state o minimize r) in
  let range := (e_upper (ds_obj (fst r)) (vi_of (ds_vars (fst r))) - e_lower (ds_obj (fst r)) (vi_of (ds_vars (fst r))))%Q in
  (md_gpen md <= wo_initial o)%Q /\
  ((range + 1 <= wo_initial o)%Q -> forall x y, in_range r x -> in_range r y -> ~ satisfies md x -> satisfies md y -> (augmented md y + 1 <= augmented md x)%Q).
Proof.
  intros P Fe C1 C2 Pr St md range. pose proof (WholeProof.prepare_search fuel sw su minimize s r P Fe C1 C2 Pr) as Rd. split.
  - destruct (WholeProof6.penalty_cases o minimize r) as [E|[_ L]]; [apply Qle_lteq; right; exact E|exact L].
  - exact (fun I x y => WholeProof6.exact_penalty o minimize s r Rd (st_objective r St) (fun c J En => proj1 (proj2 (proj2 (st_remembers r St c J En)))) x y I).
Qed.
Print Assumptions C75_penalty.

(** C75: it is the initial one itself if shrinking is switched off or some constraint does not have integer
    coefficients and an integer constant; and all constraints start with the same coefficient. *)
Theorem C75_unshrunk (o : search_options) (minimize : bool) (r : dstate * list sel) :
  let md := ms_model (search_state o minimize r) in
  (wo_shrink o = false \/ (exists c, In c (ds_cons (fst r)) /\ ct_is_integer c = false) -> md_gpen md = wo_initial o) /\
  forall c, In c (md_cons md) -> ct_pen_less c = md_gpen md /\ ct_pen_greater c = md_gpen md.
Proof. exact (conj (WholeProof6.unshrunk o minimize r) (WholeProof6.uniform_penalties o minimize r)). Qed.
Print Assumptions C75_unshrunk.

(** C75: with a smaller initial coefficient an infeasible solution can have the smaller penalized objective. *)
Theorem C75_small_refuted : ~ (forall fuel sw su o minimize s r, proper_model s -> (exists x, solves s x) -> calm_rounds sw su minimize s -> calm_sets sw su minimize s ->
  prepare fuel sw su minimize s = Some (Ok r) -> settled r -> let md := ms_model (search_state o minimize r) in
  forall x y, in_range r x -> in_range r y -> ~ satisfies md x -> satisfies md y -> (augmented md y <= augmented md x)%Q).
Proof.
  intros H. pose proof (WholeProof6.p_points WholeProof6.p_small (or_intror eq_refl)) as [A B].
  apply (Qlt_not_le _ _ WholeProof6.p_small_wrong).
  exact (H 10 PrepareProof6.p_switches PrepareProof6.p_around WholeProof6.p_small true PrepareProof6.p_model PrepareProof6.p_result PrepareProof6.p_proper
    (ex_intro _ _ PrepareProof6.p_feasible) PrepareProof6.p_calm_rounds PrepareProof6.p_calm_sets (proj1 PrepareProof6.p_result_eq) WholeProof4.p_settled _ _
    WholeProof6.p_two_in WholeProof6.p_one_in B A).
Qed.
Print Assumptions C75_small_refuted.

(** C74, default options: [settled] cannot be left out.  Eliminating variables changes the coefficients of the other
    constraints, but not what these remember of them.  In a model that meets all other conditions the search takes an
    infeasible solution for feasible and for better than the feasible one it started from: the answer is infeasible
    although a solution of the user's model was visited. *)
Theorem C74_stale_refuted : exists fuel sw su o lg root a s r, sw_presolve sw = true /\ proper_model s /\ as_entered s /\ (exists x, solves s x) /\
  calm_rounds sw su true s /\ calm_sets sw su true s /\ prepare fuel sw su true s = Some (Ok r) /\
  admissible (zero_one_in (ds_number (fst r)) (ds_vars (fst r))) (search_state o true r) a /\
  exists an rn, solve_model fuel sw su o lg root true a s = Some (Ok (Done (an, rn))) /\ an_feasible an = false /\
  exists x y, solves s x /\ In y (visited rn) /\ forall v, v < ds_number s -> y v = x v.
Proof.
  exists 10, PrepareProof6.p_switches, PrepareProof6.p_around, WholeProof4.w_options, WholeProof4.w_lg, (fun q => q), WholeProof5.t_inputs, WholeProof5.t_model, WholeProof5.t_result.
  destruct WholeProof5.t_stale as (an & rn & E & F & y & I & H).
  exact (conj eq_refl (conj WholeProof5.t_proper (conj WholeProof5.t_entered (conj (ex_intro _ _ WholeProof5.t_feasible) (conj WholeProof5.t_calm_rounds (conj WholeProof5.t_calm_sets
    (conj WholeProof5.t_result_eq (conj WholeProof5.t_admissible (ex_intro _ an (ex_intro _ rn (conj E (conj F
      (ex_intro _ WholeProof5.t_start (ex_intro _ y (conj WholeProof5.t_feasible (conj I H)))))))))))))))).
Qed.
Print Assumptions C74_stale_refuted.

(** C74, presolve off: [free_binaries] cannot be left out.  The bounds [1, 1] make a variable binary, and then 0 is a
    value the search accepts: the answer is reported feasible and is no solution of the user's model. *)
Theorem C74_bounds_refuted : exists fuel sw su o lg root a s r, sw_presolve sw = false /\ proper_model s /\ as_entered s /\ (exists x, solves s x) /\
  wants_dependents sw = false /\ sw_set_vars sw = false /\ prepare fuel sw su true s = Some (Ok r) /\
  admissible (zero_one_in (ds_number (fst r)) (ds_vars (fst r))) (search_state o true r) a /\
  exists an rn, solve_model fuel sw su o lg root true a s = Some (Ok (Done (an, rn))) /\ an_feasible an = true /\ ~ solution_of s (wo_defined o) an.
Proof.
  exists 10, WholeProof5.b_switches, PrepareProof6.p_around, WholeProof4.w_options, WholeProof4.w_lg, (fun q => q), WholeProof5.b_inputs, WholeProof5.b_model, WholeProof5.b_result.
  exact (conj eq_refl (conj WholeProof5.b_proper (conj WholeProof5.b_entered (conj (ex_intro _ _ WholeProof5.b_feasible) (conj eq_refl (conj eq_refl
    (conj WholeProof5.b_result_eq (conj WholeProof5.b_admissible WholeProof5.b_wrong)))))))).
Qed.
Print Assumptions C74_bounds_refuted.

(** * Examples *)
(** The model of C73, in which one variable is eliminated and three form a selection, searched by the local search and
    two rounds of the tabu search. *)
Example C74_example : proper_model PrepareProof6.p_model /\ settled PrepareProof6.p_result /\
  admissible WholeProof4.p_is01 (search_state WholeProof4.w_options true PrepareProof6.p_result) WholeProof4.p_inputs /\
  offers_inside (search_problem PrepareProof6.p_around true PrepareProof6.p_result) (search_state WholeProof4.w_options true PrepareProof6.p_result) WholeProof4.p_inputs /\
  WholeProof4.shown 7 (solve_model 10 PrepareProof6.p_switches PrepareProof6.p_around WholeProof4.w_options WholeProof4.w_lg (fun q => q) true WholeProof4.p_inputs PrepareProof6.p_model)
    = Some ([0; 0; 1; 0; 0; 2; 1]%Z, 0%Q, 0%Q, true, 9).
Proof. exact (conj PrepareProof6.p_proper (conj WholeProof4.p_settled (conj WholeProof4.p_admissible (conj WholeProof4.p_offers WholeProof4.p_shown)))). Qed.
(** It is as it is entered; without elimination it meets the conditions of the third theorem. *)
Example C74_example_entered : as_entered PrepareProof6.p_model /\ wants_dependents (mkSw true true true false true (fun _ => false) Smaller true) = false.
Proof. exact (conj WholeProof5.p_entered eq_refl). Qed.
(** In that problem the objective ranges over 13, and the coefficient 1000 is reduced to 14; x6 = 1 is feasible, x6 = 2
    is not. *)
Example C75_example : (md_gpen (ms_model (search_state WholeProof4.w_options true PrepareProof6.p_result)) == 14)%Q /\
  satisfies (ms_model (search_state WholeProof4.w_options true PrepareProof6.p_result)) (WholeProof6.p_point 1) /\
  ~ satisfies (ms_model (search_state WholeProof4.w_options true PrepareProof6.p_result)) (WholeProof6.p_point 2) /\
  (augmented (ms_model (search_state WholeProof4.w_options true PrepareProof6.p_result)) (WholeProof6.p_point 2) ==
   augmented (ms_model (search_state WholeProof4.w_options true PrepareProof6.p_result)) (WholeProof6.p_point 1) + 13)%Q.
Proof.
  split; [vm_compute; reflexivity|]. destruct (WholeProof6.p_points WholeProof4.w_options (or_introl eq_refl)) as [A B]. split; [exact A|]. split; [exact B|]. vm_compute. reflexivity.
Qed.
