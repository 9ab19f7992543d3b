(** C94: the target objective value. *)
From Coq Require Import List ZArith QArith Lqa Bool.
From Verif Require Import ExprModel ExprSpec ConstraintModel EvalModel SolutionModel SolutionSpec TabuModel LoopModel LoopSpec LocalSpec SolverModel SolverSpec TargetModel TargetSpec.
From Verif Require TargetProof2 TargetProof4 Prop_Solver.
Import ListNotations.
Local Open Scope Q_scope.

(** C94: whether the problem is to be minimized or maximized, comparing the objective of
    the minimization form with the altered target is comparing the user's objective with
    the target the user has chosen. *)
Theorem C94_target : forall t maximize md y, chosen t -> sense_is maximize md ->
  (value md y <= setup_target (md_sign md) (md_defined md) t <-> as_good maximize (objective_at md y) t).
Proof.
  intros t maximize md y C S. rewrite (TargetProof2.chosen_target _ _ t C), (TargetProof2.value_sense maximize md y S). unfold sense_is in S. rewrite S.
  unfold as_good. destruct maximize; split; intros; lra.
Qed.
Print Assumptions C94_target.

(** C94: the default target is an objective of -1e100, of 1e100 for a maximization, and
    any feasible solution meets it when there is no objective. *)
Theorem C94_default : forall t maximize md y, left_alone t -> sense_is maximize md ->
  (value md y <= setup_target (md_sign md) (md_defined md) t <->
   (md_defined md = true -> as_good maximize (objective_at md y) (if maximize then inject_Z (10 ^ 100) else - inject_Z (10 ^ 100)))).
Proof.
  intros t maximize md y C S. rewrite (TargetProof2.default_target _ _ t C), (TargetProof2.value_sense maximize md y S). unfold left_alone in C. unfold objective_at, as_good.
  destruct (md_defined md).
  - rewrite C. destruct maximize; (split; [intros H _|intros H; specialize (H eq_refl)]); lra.
  - split; [discriminate|]. intros _. destruct maximize; lra.
Qed.
Print Assumptions C94_default.

(** C94: all options, moves offered, random numbers and clocks: once a solution that
    meets the target has been visited, in whatever search, no other search begins, and
    nothing is visited any more but what the initial modifications of the running round
    of the tabu search lead to (none in the other searches). *)
Theorem C94_stop : forall lg root p a s0 m0 is01 maximize t pre y sc post,
  prepared is01 p s0 m0 -> admissible is01 s0 a -> sense_is maximize (ms_model s0) -> chosen t ->
  let r := ending (solve_target lg root p a s0 m0 t) in
  rn_events r = pre ++ Offer y sc :: post -> meets maximize (ms_model s0) t r y ->
  ~ In ResetLocal post /\ (length (offered post) <= most_modifications a)%nat.
Proof. exact TargetProof2.stop_chosen. Qed.
Print Assumptions C94_stop.

(** C94: without an objective and without a target, this holds of the first feasible
    solution. *)
Theorem C94_stop_feasible : forall lg root p a s0 m0 is01 t pre y sc post,
  prepared is01 p s0 m0 -> admissible is01 s0 a -> left_alone t -> md_defined (ms_model s0) = false ->
  let r := ending (solve_target lg root p a s0 m0 t) in
  rn_events r = pre ++ Offer y sc :: post -> satisfies (ms_model s0) y ->
  ~ In ResetLocal post /\ (length (offered post) <= most_modifications a)%nat.
Proof. exact TargetProof2.stop_default. Qed.
Print Assumptions C94_stop_feasible.

(** C94: a target that no visited feasible solution is as good as changes nothing: with a
    harder target, or the default one, solve() does and returns the same. *)
Theorem C94_unmet : forall lg root p a s0 m0 is01 maximize t t',
  prepared is01 p s0 m0 -> admissible is01 s0 a -> sense_is maximize (ms_model s0) -> chosen t ->
  (chosen t' /\ (if maximize then t <= t' else t' <= t)) \/ (left_alone t' /\ md_defined (ms_model s0) = true /\ t <= inject_Z (10 ^ 100)) ->
  let o := solve_target lg root p a s0 m0 t in
  (forall y, In y (visited (ending o)) -> satisfies (ms_model s0) y -> ~ as_good maximize (objective_at (ms_model s0) y) t) ->
  solve_target lg root p a s0 m0 t' = o.
Proof. exact TargetProof4.untouched. Qed.
Print Assumptions C94_unmet.

(** ** Example: the problem of C58.  Objective, feasibility of what is visited, number of
    rounds and of searches *)
Definition tg_shown (o : outcome (answer * run)) :=
  let r := ending o in (map (fun q : (nat -> Z) * score => (Qred (sc_objective (snd q)), sc_feasible (snd q))) (offered (rn_events r)), rn_rounds r, length (rn_starts r)).
Definition tg_solve (s : mstate) (t : Q) := solve_target Prop_Solver.sv_lg (fun q => q) Prop_Solver.sv_problem Prop_Solver.sv_inputs s mem_setup t.
Example C94_example : prepared Prop_Solver.sv_is01 Prop_Solver.sv_problem Prop_Solver.sv_state mem_setup /\ admissible Prop_Solver.sv_is01 Prop_Solver.sv_state Prop_Solver.sv_inputs /\
  sense_is false (ms_model Prop_Solver.sv_state) /\ chosen 2 /\
  tg_shown (tg_solve Prop_Solver.sv_state 1) = ((3, true) :: (3, true) :: repeat (2, true) 10, 3%Z, 4%nat) /\
  tg_shown (tg_solve Prop_Solver.sv_state 2) = ([(3, true); (3, true); (2, true)], 0%Z, 1%nat) /\
  tg_shown (tg_solve Prop_Solver.sv_state 3) = ([(3, true)], 0%Z, 0%nat) /\
  (exists y, In y (visited (ending (tg_solve Prop_Solver.sv_state 2))) /\ meets false (ms_model Prop_Solver.sv_state) 2 (ending (tg_solve Prop_Solver.sv_state 2)) y).
Proof.
  split; [exact Prop_Solver.sv_prepared|]. split; [exact Prop_Solver.sv_admissible|]. split; [reflexivity|]. split; [reflexivity|].
  split; [vm_compute; reflexivity|]. split; [vm_compute; reflexivity|]. split; [vm_compute; reflexivity|].
  set (vs := visited (ending (tg_solve Prop_Solver.sv_state 2))).
  assert (V : map (fun y => map y (seq 0 4)) vs = [[1; 0; 0; 0]; [1; 0; 0; 0]; [1; 0; 1; 0]]%Z) by (vm_compute; reflexivity).
  unfold meets. fold vs. clearbody vs. destruct vs as [|y0 [|y1 [|y2 [|]]]]; try discriminate V. cbn [map seq] in V. injection V as A0 A1 A2 A3 B0 B1 B2 B3 C0 C1 C2 C3.
  exists y2. split; [right; right; now left|]. split.
  - intros c [<-|[<-|[]]] _; unfold e_eval; cbn -[Qplus Qmult inject_Z]; rewrite ?C0, ?C1, ?C2, ?C3; vm_compute; first [reflexivity|discriminate].
  - right. unfold as_good, just_missed, objective_at, e_eval. cbn -[Qplus Qmult inject_Z Qle Qlt]. rewrite C0, C1, C2. split; [vm_compute; discriminate|].
    intros z [<-|[<-|[<-|[]]]] _ [A B]; rewrite ?A0, ?A1, ?A2, ?B0, ?B1, ?B2, ?C0, ?C1, ?C2 in *; vm_compute in A, B; congruence.
Qed.

(** C94, the exception: a visited feasible solution as good as the target does not end the
    search if one visited before misses it by less than 1e-5: the incumbent is not
    replaced.  Minimize -1e-6 x2, the target -1e-6. *)
Definition tg_small : mstate :=
  let s := Prop_Solver.sv_state in
  mkMs (mkM true 1 (mkExpr [(2%nat, -1 # 1000000)] 0) 0 0 (md_cons (ms_model s)) (md_gpen (ms_model s))) (ms_exprs s) (ms_deps s) (ms_x s) (ms_fixed s) (ms_user_defined s) (ms_violative s) (ms_feasible s).
Theorem C94_tolerance_refuted : let t := -1 # 1000000 in let r := ending (tg_solve tg_small t) in chosen t /\ sense_is false (ms_model tg_small) /\
  exists pre y sc post, rn_events r = pre ++ Offer y sc :: post /\ satisfies (ms_model tg_small) y /\ as_good false (objective_at (ms_model tg_small) y) t /\
    In ResetLocal post /\ length (offered post) = 7%nat /\ rn_rounds r = 3%Z.
Proof.
  cbv zeta. split; [reflexivity|]. split; [reflexivity|].
  set (es := rn_events (ending (tg_solve tg_small (-1 # 1000000)))).
  assert (V : match nth 6 es ResetLocal with Offer y _ => map y (seq 0 5) | _ => [] end = [1; 0; 1; 0; 1]%Z) by (vm_compute; reflexivity).
  assert (L : Nat.leb 7 (length es) = true) by (vm_compute; reflexivity).
  assert (R : existsb (fun e => match e with ResetLocal => true | _ => false end) (skipn 7 es) = true) by (vm_compute; reflexivity).
  assert (O : length (offered (skipn 7 es)) = 7%nat) by (vm_compute; reflexivity).
  assert (N : rn_rounds (ending (tg_solve tg_small (-1 # 1000000))) = 3%Z) by (vm_compute; reflexivity).
  rewrite N. clear N. clearbody es.
  assert (E : exists y sc, es = firstn 6 es ++ Offer y sc :: skipn 7 es /\ map y (seq 0 5) = [1; 0; 1; 0; 1]%Z).
  { do 7 (destruct es as [|? es]; [discriminate L|]). cbn [nth] in V. match type of V with match ?e with _ => _ end = _ => destruct e as [y sc| |q]; [|discriminate V|discriminate V] end.
    exists y, sc. split; [reflexivity|exact V]. }
  destruct E as (y & sc & E & Y). exists (firstn 6 es), y, sc, (skipn 7 es). split; [exact E|]. cbn [map seq] in Y. injection Y as Y0 Y1 Y2 Y3 Y4.
  split; [|split; [|split; [|split]]].
  - intros c [<-|[<-|[]]] _; unfold e_eval; cbn -[Qplus Qmult inject_Z]; rewrite ?Y0, ?Y1, ?Y2, ?Y3; vm_compute; first [reflexivity|discriminate].
  - unfold as_good, objective_at, e_eval. cbn -[Qplus Qmult inject_Z Qle]. rewrite Y2. vm_compute. discriminate.
  - apply existsb_exists in R as (e & I & H). destruct e; [discriminate H|exact I|discriminate H].
  - exact O.
  - reflexivity.
Qed.
Print Assumptions C94_tolerance_refuted.

(** The problem of C58 without its objective: with the default target the search is over
    with the first solution, which is feasible; with a target of -1 it goes on. *)
Definition tg_none : mstate :=
  let s := Prop_Solver.sv_state in
  mkMs (mkM false 1 (md_obj (ms_model s)) 0 0 (md_cons (ms_model s)) (md_gpen (ms_model s))) (ms_exprs s) (ms_deps s) (ms_x s) (ms_fixed s) (ms_user_defined s) (ms_violative s) (ms_feasible s).
Example C94_feasible : prepared Prop_Solver.sv_is01 Prop_Solver.sv_problem tg_none mem_setup /\ admissible Prop_Solver.sv_is01 tg_none Prop_Solver.sv_inputs /\
  left_alone DEFAULT_TARGET /\ md_defined (ms_model tg_none) = false /\ tg_shown (tg_solve tg_none DEFAULT_TARGET) = ([(0, true)], 0%Z, 0%nat) /\
  tg_shown (tg_solve tg_none (-1)) = (repeat (0, true) 11, 3%Z, 4%nat).
Proof.
  split; [exact Prop_Solver.sv_prepared|]. split; [exact Prop_Solver.sv_admissible|]. split; [vm_compute; reflexivity|]. split; [reflexivity|].
  split; vm_compute; reflexivity.
Qed.

(** A maximization: the objective 3 x0 + x1 - x2 of (1, 0, 0) is as good as 3 and not as
    good as 4. *)
Definition tg_max : model := let m := ms_model Prop_Solver.sv_state in mkM true (-1) (md_obj m) 0 0 (md_cons m) (md_gpen m).
Example C94_maximize : chosen 3 /\ chosen 4 /\ sense_is true tg_max /\
  value tg_max (ms_x Prop_Solver.sv_state) <= setup_target (md_sign tg_max) true 3 /\ ~ value tg_max (ms_x Prop_Solver.sv_state) <= setup_target (md_sign tg_max) true 4.
Proof. split; [reflexivity|]. split; [reflexivity|]. split; [reflexivity|]. split; [vm_compute; discriminate|]. intros H. vm_compute in H. now apply H. Qed.

(** Nothing visited in the problem of C58 is as good as 1. *)
Example C94_unmet_example : chosen 1 /\ left_alone DEFAULT_TARGET /\ length (visited (ending (tg_solve Prop_Solver.sv_state 1))) = 12%nat /\
  forall y, In y (visited (ending (tg_solve Prop_Solver.sv_state 1))) -> ~ as_good false (objective_at (ms_model Prop_Solver.sv_state) y) 1.
Proof.
  split; [reflexivity|]. split; [vm_compute; reflexivity|]. set (vs := visited (ending (tg_solve Prop_Solver.sv_state 1))).
  assert (V : forallb (fun y => negb (Qle_bool (objective_at (ms_model Prop_Solver.sv_state) y) 1)) vs = true) by (vm_compute; reflexivity).
  assert (L : length vs = 12%nat) by (vm_compute; reflexivity).
  clearbody vs. split; [exact L|]. intros y Hy A. rewrite forallb_forall in V. specialize (V y Hy). unfold as_good in A. apply Qle_bool_iff in A. rewrite A in V. discriminate V.
Qed.
