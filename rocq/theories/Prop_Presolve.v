(** C26, C27, C31, C47, C48: bound tightening, redundant constraints and independent variables. *)
From Coq Require Import List ZArith QArith Qabs Bool Lia Lqa.
From Verif Require Import ExprModel ExprSpec ConstraintModel ConstraintSpec VariableModel TypeSpec PresolveModel PresolveSpec.
From Verif Require PresolveProof2 PresolveProof3 PresolveProof4 PresolveProof5.
Import ListNotations.
Local Open Scope Q_scope.

(** C26: no integer assignment that satisfies the constraint, the fixings and the old bounds is cut off, and no
    exception is raised when there is one. *)
Theorem C26_tightening_keeps_solutions (vs : vars) (c : constr) (y : nat -> Z) : wf (ct_expr c) ->
  (length (mutables vs (ct_expr c)) = 1%nat -> integral_when_fixed vs (ct_expr c)) ->
  legal vs y -> satisfies c y ->
  match tighten vs c with Ok (vs', _, _) => legal vs' y | Throw => False | UB => True end.
Proof. exact (PresolveProof2.tighten_sound vs c y). Qed.
Print Assumptions C26_tightening_keeps_solutions.

(** C26: with integer coefficients, moderate bounds and numbers that fit an int, there is no undefined behaviour. *)
Theorem C26_no_undefined_behaviour (vs : vars) (c : constr) (y0 : nat -> Z) :
  moderate vs -> moderate_fixed vs -> legal vs y0 ->
  wf (ct_expr c) -> integral (ct_expr c) -> no_zero (ct_expr c) -> fits (ct_expr c) ->
  tighten vs c <> UB.
Proof. intros M MF L. exact (PresolveProof4.tighten_no_ub vs c y0 M MF L). Qed.
Print Assumptions C26_no_undefined_behaviour.

(** C26: fractional coefficients of fixed variables are truncated in the one-variable case; a solution is cut off. *)
Theorem C26_fractional_refuted : exists vs c vs' b u y, wf (ct_expr c) /\ moderate vs /\ tighten vs c = Ok (vs', b, u) /\
  legal vs y /\ satisfies c y /\ ~ legal vs' y.
Proof. exact PresolveProof5.half_terms_cut. Qed.
Print Assumptions C26_fractional_refuted.

(** C26: x + 10 y <= 0 over unbounded variables leads to undefined behaviour. *)
Theorem C26_unbounded_refuted : exists vs c, wf (ct_expr c) /\ integral (ct_expr c) /\ no_zero (ct_expr c) /\
  (forall v, vs v = v_init) /\ tighten vs c = UB.
Proof. exact PresolveProof5.free_overflow. Qed.
Print Assumptions C26_unbounded_refuted.

(** C26: so does a coefficient that cancelled, as in x + y + 4 z - x <= 5 over 0..9. *)
Theorem C26_cancelled_refuted : exists vs c,
  c = c_setup (e_sub_value (e_sub (e_add (e_var 0) (e_add (e_var 1) (e_mul (e_var 2) 4))) (e_var 0)) 5) Less (fun _ => false) /\
  moderate vs /\ tighten vs c = UB.
Proof. exact PresolveProof5.zero_division. Qed.
Print Assumptions C26_cancelled_refuted.

(** C27: a constraint with other than one unfixed variable is disabled only if every assignment within the bounds
    satisfies it. *)
Theorem C27_removed_is_always_satisfied (vs : vars) (c : constr) (vs' : vars) (u : bool) (y : nat -> Z) :
  length (mutables vs (ct_expr c)) <> 1%nat -> tighten vs c = Ok (vs', true, u) -> vs' = vs /\ (legal vs y -> satisfies c y).
Proof. exact (PresolveProof2.removed_many vs c vs' u y). Qed.
Print Assumptions C27_removed_is_always_satisfied.

(** C27: a disabled constraint, of one variable or more, is implied by the new bounds, if it had a solution within
    moderate bounds. *)
Theorem C27_removed_is_implied (vs : vars) (c : constr) (vs' : vars) (u : bool) (y y0 : nat -> Z) :
  (length (mutables vs (ct_expr c)) = 1%nat -> integral_when_fixed vs (ct_expr c)) ->
  moderate vs -> legal vs y0 -> satisfies c y0 -> tighten vs c = Ok (vs', true, u) -> legal vs' y -> satisfies c y.
Proof. exact (PresolveProof3.removed_implied vs c vs' u y y0). Qed.
Print Assumptions C27_removed_is_implied.

(** C27: x >= 200000 over an unbounded variable is dropped. *)
Theorem C27_far_refuted : exists vs c vs' u y, wf (ct_expr c) /\ integral (ct_expr c) /\ no_zero (ct_expr c) /\ fits (ct_expr c) /\
  tighten vs c = Ok (vs', true, u) /\ legal vs' y /\ ~ satisfies c y.
Proof. exact PresolveProof5.far_singleton_dropped. Qed.
Print Assumptions C27_far_refuted.

(** C27: 2 x = 1 has no solution; presolve drops it and leaves a model that has one. *)
Theorem C27_half_refuted : exists vs c vs' u, wf (ct_expr c) /\ integral (ct_expr c) /\ no_zero (ct_expr c) /\ fits (ct_expr c) /\
  moderate vs /\ tighten vs c = Ok (vs', true, u) /\ (exists y, legal vs' y) /\ forall y, legal vs y -> ~ satisfies c y.
Proof. exact PresolveProof5.half_equality_dropped. Qed.
Print Assumptions C27_half_refuted.

(** C31: fixing the variables without constraints adds no solution, and for every solution leaves one at least as
    good. *)
Theorem C31_independent_fixing_keeps_an_optimum (n : nat) (cs : list constr) (minimize : bool) (obj : expr) (vs vs' : vars)
  (k : nat) (y0 : nat -> Z) : wf obj -> decided cs obj vs -> legal vs y0 ->
  independent_pass n cs minimize (coef (ex_sens obj)) vs = (vs', k) ->
  (forall y, solution (mkP n vs' cs) y -> solution (mkP n vs cs) y) /\
  (forall y, solution (mkP n vs cs) y ->
     exists y', solution (mkP n vs' cs) y' /\ as_good minimize (e_eval obj y') (e_eval obj y)).
Proof. exact (PresolveProof5.independent_solutions n cs minimize obj vs vs' k y0). Qed.
Print Assumptions C31_independent_fixing_keeps_an_optimum.

(** C31: a variable in 3..9 that occurs nowhere is fixed at 0. *)
Theorem C31_zero_outside_refuted : exists vs vs' obj, wf obj /\ (exists y, legal vs y) /\
  independent_pass 1 [] true (coef (ex_sens obj)) vs = (vs', 1%nat) /\ forall y, legal vs' y -> ~ legal vs y.
Proof. exact PresolveProof5.independent_outside. Qed.
Print Assumptions C31_zero_outside_refuted.

(** C47: the loop ends for every model: #enabled + #unfixed + 1 rounds are enough. *)
Theorem C47_presolve_terminates (s : pstate) (fuel : nat) :
  (number_enabled (ps_cons s) + number_mutable (ps_number s) (ps_vars s) < fuel)%nat -> reduce_loop fuel s <> None.
Proof. exact (PresolveProof4.reduce_terminates fuel s). Qed.
Print Assumptions C47_presolve_terminates.

(** C47: on a feasible model with integer coefficients and moderate numbers the loop ends normally with exactly
    the same solutions. *)
Theorem C47_presolve_loop_exact (s : pstate) (y0 : nat -> Z) :
  tame (ps_cons s) -> moderate (ps_vars s) -> moderate_fixed (ps_vars s) -> solution s y0 ->
  forall fuel, (number_enabled (ps_cons s) + number_mutable (ps_number s) (ps_vars s) < fuel)%nat ->
  exists s', reduce_loop fuel s = Some (Ok s') /\ forall y, solution s y <-> solution s' y.
Proof. exact (PresolveProof4.reduce_correct s y0). Qed.
Print Assumptions C47_presolve_loop_exact.

(** C47: the whole reduction adds no solution and keeps one at least as good as each. *)
Theorem C47_reduction_keeps_an_optimum (s : pstate) (minimize : bool) (obj : expr) (y0 : nat -> Z) (fuel : nat) :
  wf obj -> decided (ps_cons s) obj (ps_vars s) ->
  tame (ps_cons s) -> moderate (ps_vars s) -> moderate_fixed (ps_vars s) -> solution s y0 ->
  (number_enabled (ps_cons s) + number_mutable (ps_number s) (ps_vars s) < fuel)%nat ->
  exists s', reduce_problem_size fuel minimize (coef (ex_sens obj)) s = Some (Ok s') /\
    (forall y, solution s' y -> solution s y) /\
    (forall y, solution s y -> exists y', solution s' y' /\ as_good minimize (e_eval obj y') (e_eval obj y)).
Proof. exact (PresolveProof5.reduce_problem_correct s minimize obj y0 fuel). Qed.
Print Assumptions C47_reduction_keeps_an_optimum.

(** C48: bounds derived from a known objective value keep every assignment on the right side of it: at most the
    value when minimizing with a primal bound, at least the value otherwise. *)
Theorem C48_objective_bounds_keep_better (n : nat) (minimize primal : bool) (obj : expr) (bound : Q) (is01 : nat -> bool)
  (vs : vars) (y : nat -> Z) : wf obj ->
  (length (mutables vs obj) = 1%nat -> integral_when_fixed vs obj) -> legal vs y ->
  (if minimize && primal then e_eval obj y <= bound else bound <= e_eval obj y) ->
  match update_variable_bounds n minimize primal obj bound is01 vs with
  | Ok vs' => legal vs' y | Throw => False | UB => True end.
Proof. intros W. exact (PresolveProof5.objective_bound_sound n minimize obj bound is01 vs primal y W). Qed.
Print Assumptions C48_objective_bounds_keep_better.

(** C48: for maximization with a dual (upper) bound the inequality is turned the wrong way: an assignment that meets
    the bound is cut off. *)
Theorem C48_max_dual_refuted : exists vs obj bound vs' y, wf obj /\ integral obj /\
  update_variable_bounds 2 false false obj bound (fun _ => false) vs = Ok vs' /\
  legal vs y /\ e_eval obj y <= bound /\ (exists z, legal vs' z) /\ ~ legal vs' y.
Proof. exact PresolveProof5.max_dual_wrong. Qed.
Print Assumptions C48_max_dual_refuted.

(** ** The hypotheses are met: x0 in 0..9, x1 in 0..9, x2 in -3..3, x3 in 0..5, x4 fixed at 2;
    2 x0 + 3 x1 <= 11, x0 + x4 >= 4, x1 - x2 = 0, x0 + x1 <= 40; minimize x3 - x0. *)
Definition ex_box (lo hi : Z) : var := mkVar lo lo hi true false (binary_or_integer lo hi) false (lo <? hi)%Z.
Definition ex_vars : vars := fun v => match v with
  | 0%nat => ex_box 0 9 | 1%nat => ex_box 0 9 | 2%nat => ex_box (-3) 3 | 3%nat => ex_box 0 5
  | _ => mkVar 2 0 9 true true VInteger true true end.
Definition ex_c1 := c_setup (mkExpr [(0%nat, 2); (1%nat, 3)] (-(11))) Less (fun _ => false).
Definition ex_c2 := c_setup (mkExpr [(0%nat, 1); (4%nat, 1)] (-(4))) Greater (fun _ => false).
Definition ex_c3 := c_setup (mkExpr [(1%nat, 1); (2%nat, -(1))] 0) Equal (fun _ => false).
Definition ex_c4 := c_setup (mkExpr [(0%nat, 1); (1%nat, 1)] (-(40))) Less (fun _ => false).
Definition ex_state := mkP 5 ex_vars [ex_c1; ex_c2; ex_c3; ex_c4].
Definition ex_obj := mkExpr [(0%nat, -(1)); (3%nat, 1)] 0.

Example ex_moderate : moderate ex_vars /\ moderate_fixed ex_vars.
Proof. split; intros [|[|[|[|v]]]] F; try discriminate F; cbv; auto. Qed.
Example ex_tame : tame (ps_cons ex_state).
Proof.
  intros c I _. repeat (destruct I as [<-|I]; [| ]); try destruct I;
  (split; [unfold wf, keys; cbn; repeat constructor; cbn; intuition discriminate|]);
  (split; [intros v a H; repeat (destruct H as [H|H]; [injection H as <- <-|]); try destruct H;
    first [now exists 1%Z|now exists 2%Z|now exists 3%Z|now exists (-1)%Z]|]);
  (split; [intros v a H; repeat (destruct H as [H|H]; [injection H as <- <-; discriminate|]); destruct H|]); cbv; discriminate.
Qed.
Example ex_solution : solution ex_state (fun v => match v with 0%nat => 3 | 1%nat => 1 | 2%nat => 1 | 3%nat => 4 | _ => 2 end)%Z.
Proof.
  split; [intros [|[|[|[|v]]]]; (split; [first [discriminate|reflexivity]|]); intros F; try discriminate F; cbv; split; discriminate|].
  intros c I _. repeat (destruct I as [<-|I]; [cbv; try reflexivity; discriminate|]). destruct I.
Qed.
Example ex_decided : wf ex_obj /\ decided (ps_cons ex_state) ex_obj (ps_vars ex_state).
Proof.
  split; [unfold wf, keys; cbn; repeat constructor; cbn; intuition discriminate|].
  intros [|[|[|[|v]]]] F R; try discriminate F.
  - exfalso. apply (R ex_c1); [now left|cbn; auto].
  - exfalso. apply (R ex_c1); [now left|cbn; auto].
  - exfalso. apply (R ex_c3); [cbn; auto|cbn; auto].
  - left. cbv. discriminate.
Qed.
(** What the reduction returns: x3 fixed at 0, x0 in 2..5, x1 and x2 in 0..2, and two constraints left. *)
Example ex_reduced : exists s', reduce_problem_size 10 true (coef (ex_sens ex_obj)) ex_state = Some (Ok s') /\
  map (fun v => (va_fixed (ps_vars s' v), va_lower (ps_vars s' v), va_upper (ps_vars s' v))) (seq 0 4)
    = [(false, 2, 5); (false, 0, 2); (false, 0, 2); (true, 0, 5)]%Z /\
  map ct_enabled (ps_cons s') = [true; false; true; false].
Proof.
  destruct (reduce_problem_size 10 true (coef (ex_sens ex_obj)) ex_state) as [[s'| |]|] eqn:E;
    [|vm_compute in E; discriminate E|vm_compute in E; discriminate E|vm_compute in E; discriminate E].
  exists s'. split; [reflexivity|]. revert E. intros E. vm_compute in E. injection E as <-. split; vm_compute; reflexivity.
Qed.
Example ex_objective : update_variable_bounds 5 true true ex_obj (-(2)) (fun _ => false) ex_vars <> UB.
Proof. vm_compute. discriminate. Qed.
