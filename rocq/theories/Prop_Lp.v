(** C62: the dual bound of the linear relaxation.  C63: the runs and verdicts of the
    solver of the relaxation.  [nrm] stands for the Euclidean norm, [sq] for the square
    root, [red] and [ext] for the powers that adapt the step size. *)
From Coq Require Import List ZArith QArith Qabs Bool Lia Lqa.
From Verif Require Import ExprModel ExprSpec ConstraintModel VariableModel TypeSpec PresolveModel PresolveSpec SparseModel SparseSpec LpModel LpSpec LpProof6 LpProof7.
Import ListNotations.
Local Open Scope Q_scope.

(** ** C62 *)

(** Whatever the time limit, the restarts and the weights: the bound that is offered
    bounds the objective without its constant over all solutions, from below when
    minimizing and from above when maximizing. *)
Theorem C62_dual_bound : forall (nrm : list Q -> Q) (red ext : nat -> Q), powers red ext -> norm_like nrm ->
  forall sq : Q -> Q, (forall q, 0 < q -> 0 < sq q) ->
  forall o envs late (minimize : bool) obj vs order fixed less sels equals greater k s b,
  lists_ok obj vs order fixed less sels equals greater -> (forall e, In e envs -> 0 < pe_weight e) -> moderate_range vs order ->
  pdlp_run nrm red ext sq o envs late minimize obj vs order fixed less sels equals greater = Ok (Ran k s (Some b)) ->
  forall y, admitted vs less sels equals greater y -> if minimize then b <= e_eval obj y - ex_const obj else e_eval obj y - ex_const obj <= b.
Proof. exact dual_bound_stmt. Qed.
Print Assumptions C62_dual_bound.

(** The relaxation that is handed to the solver, before and after scaling: every solution
    of the problem is a feasible point with the same objective without its constant,
    negated when maximizing. *)
Theorem C62_relaxation : forall sq : Q -> Q, (forall q, 0 < q -> 0 < sq q) ->
  forall k pc (minimize : bool) obj vs order fixed less sels equals greater l0 l, lists_ok obj vs order fixed less sels equals greater ->
  (forall v, In v order -> va_fixed (vs v) = false -> (va_lower (vs v) <= va_upper (vs v))%Z) ->
  export minimize obj vs order fixed less sels equals greater = Ok l0 -> lp_scaling sq k pc l0 = Ok l ->
  lp_wf l0 /\ lp_wf l /\ (moderate_range vs order -> all_bounded l) /\
  forall y, admitted vs less sels equals greater y ->
    (exists x, lp_feasible l0 x /\ lp_objective l0 x == (if minimize then 1 else -(1)) * (e_eval obj y - ex_const obj)) /\
    (exists x, lp_feasible l x /\ lp_objective l x == (if minimize then 1 else -(1)) * (e_eval obj y - ex_const obj)).
Proof. exact handed_over_stmt. Qed.
Print Assumptions C62_relaxation.

Definition var_in (lo hi x : Z) (fx : bool) : var := mkVar x lo hi true fx VInteger true true.
Definition box : vars := fun _ => var_in 0 10 0 false.
Definition con (a b k : Q) (s : csense) : constr := c_setup (mkExpr [(0%nat, a); (1%nat, b)] k) s (fun _ => false).
Definition opts (n : nat) : poption := mkPo n (1 # 100) 2 1 1 1 true.
Definition calm : list penv := repeat (mkPe false 20 None 1) 8.
Definition cover : list constr := [con 1 2 (-(3)) Greater; con 2 1 (-(3)) Greater].
Definition pack : list constr := [con 1 2 (-(3)) Less; con 2 1 (-(3)) Less].
Lemma cover_lists k : lists_ok (mkExpr [(0%nat, 1); (1%nat, 1)] k) box [0%nat; 1%nat] [] [] [] [] cover.
Proof.
  constructor; try (intros c Hc; cbn in Hc; intuition (subst; reflexivity)); try (repeat constructor; cbn; intuition congruence).
  intros v. cbn. intuition.
Qed.
Lemma pack_lists k : lists_ok (mkExpr [(0%nat, 1); (1%nat, 1)] k) box [0%nat; 1%nat] [] pack [] [] [].
Proof.
  constructor; try (intros c Hc; cbn in Hc; intuition (subst; reflexivity)); try (repeat constructor; cbn; intuition congruence).
  intros v. cbn. intuition.
Qed.
Lemma calm_weights e : In e calm -> 0 < pe_weight e.
Proof. intros H. apply repeat_spec in H. subst. reflexivity. Qed.
Lemma box_moderate : moderate_range box [0%nat; 1%nat].
Proof. intros v _ _. cbn. lia. Qed.
Lemma ones_admitted : admitted box [] [] [] cover (fun _ => 1%Z) /\ admitted box pack [] [] [] (fun _ => 1%Z).
Proof.
  split; (split; [intros v; cbn; split; [discriminate|lia]|]; split; [intros c Hc _; cbn in Hc|intros c []]);
  repeat (destruct Hc as [<-|Hc]; [vm_compute; discriminate|]); destruct Hc.
Qed.
(** After one iteration of a covering and of a packing problem: bounds -7 and 17 + 3/16. *)
Definition offered (b : Q) (r : outcome presult) : Prop := exists k s q, r = Ok (Ran k s (Some q)) /\ q == b.
Ltac offered := match goal with |- offered _ ?r => let v := eval vm_compute in r in
  match v with Ok (Ran ?k ?s (Some ?q)) => exists k, s, q; split; [vm_compute; reflexivity|reflexivity] end end.
Example C62_example : powers pow1 pow1 /\ norm_like norm1 /\
  offered (-7) (pdlp_run norm1 pow1 pow1 (fun _ => 1) (opts 1) calm false true (mkExpr [(0%nat, 1); (1%nat, 1)] 0) box [0%nat; 1%nat] [] [] [] [] cover) /\
  offered (275 # 16) (pdlp_run norm1 pow1 pow1 (fun _ => 1) (opts 1) calm false false (mkExpr [(0%nat, 1); (1%nat, 1)] 0) box [0%nat; 1%nat] [] pack [] [] []).
Proof. split; [apply pow1_powers|]. split; [apply norm1_like|]. split; offered. Qed.
Example C62_example_lists : lists_ok (mkExpr [(0%nat, 1); (1%nat, 1)] 0) box [0%nat; 1%nat] [] [] [] [] cover /\
  lists_ok (mkExpr [(0%nat, 1); (1%nat, 1)] 0) box [0%nat; 1%nat] [] pack [] [] [] /\ moderate_range box [0%nat; 1%nat] /\
  admitted box [] [] [] cover (fun _ => 1%Z) /\ admitted box pack [] [] [] (fun _ => 1%Z).
Proof. split; [apply cover_lists|]. split; [apply pack_lists|]. split; [exact box_moderate|exact ones_admitted]. Qed.

(** The constant of the objective is left out: minimizing x0 + x1 - 100 the bound 0 is
    offered although the solution (1, 1) has the value -98. *)
Theorem C62_constant_refuted : exists o envs obj vs order fixed less sels equals greater k s b y,
  lists_ok obj vs order fixed less sels equals greater /\ (forall e, In e envs -> 0 < pe_weight e) /\ moderate_range vs order /\
  pdlp_run norm1 pow1 pow1 (fun _ => 1) o envs false true obj vs order fixed less sels equals greater = Ok (Ran k s (Some b)) /\
  admitted vs less sels equals greater y /\ e_eval obj y + 98 <= b.
Proof.
  exists (opts 0), calm, (mkExpr [(0%nat, 1); (1%nat, 1)] (-(100))), box, [0%nat; 1%nat], [], [], [], [], cover.
  match goal with |- context [?r = Ok (Ran _ _ _)] => let v := eval vm_compute in (pdlp_run norm1 pow1 pow1 (fun _ => 1) (opts 0) calm false true (mkExpr [(0%nat, 1); (1%nat, 1)] (-(100))) box [0%nat; 1%nat] [] [] [] [] cover) in
    match v with Ok (Ran ?k ?s (Some ?b)) => exists k, s, b end end.
  exists (fun _ => 1%Z). split; [apply cover_lists|]. split; [exact calm_weights|]. split; [exact box_moderate|]. split; [vm_compute; reflexivity|]. split; [apply ones_admitted|]. vm_compute. discriminate.
Qed.
Print Assumptions C62_constant_refuted.

(** A problem whose constraints have all been removed cannot be exported: the transpose
    of a matrix without rows is undefined. *)
Theorem C62_no_constraint_refuted : exists o envs obj vs order,
  lists_ok obj vs order [] [] [] [] [] /\ moderate_range vs order /\
  pdlp_run norm1 pow1 pow1 (fun _ => 1) o envs false true obj vs order [] [] [] [] [] = UB.
Proof.
  exists (opts 1), calm, (mkExpr [(0%nat, 1); (1%nat, 1)] 0), box, [0%nat; 1%nat]. split; [|split; [exact box_moderate|vm_compute; reflexivity]].
  constructor; try (intros c Hc; cbn in Hc; intuition (subst; reflexivity)); try (repeat constructor; cbn; intuition congruence). intros v. cbn. intuition.
Qed.
Print Assumptions C62_no_constraint_refuted.

(** ** C63 *)

(** No run makes more iterations than allowed; the current point stays within the bounds
    and the multipliers keep their signs; the recorded dual objective is a lower bound up
    to the recorded dual violation on the variables that count as unbounded. *)
Theorem C63_run : forall (nrm : list Q -> Q) (red ext : nat -> Q), powers red ext -> norm_like nrm ->
  forall o l envs k s, lp_wf l -> (forall e, In e envs -> 0 < pe_weight e) -> core_run nrm red ext o l envs = Ok (Some (k, s)) ->
  (k_total k <= po_iteration_max o)%nat /\ within l (k_x k) /\ signs l (k_y k) /\ signs l (k_ya k) /\
  (forall x, lp_feasible l x -> k_dobj k <= lp_objective l x +
     k_dviol k * (1 + nrm (lp_c l)) * sum_below (lp_cols l) (fun j => if nth j (lp_lo_open l) false || nth j (lp_hi_open l) false then Qabs (nth j x 0) else 0)).
Proof. exact core_stmt. Qed.
Print Assumptions C63_run.

(** The recorded reduced costs never rest on a bound that does not exist: they are not
    negative where the variable counts as unbounded above and not positive where it
    counts as unbounded below. *)
Theorem C63_reduced_costs : forall (nrm : list Q -> Q) (red ext : nat -> Q) l o envs k s, lp_wf l ->
  core_run nrm red ext o l envs = Ok (Some (k, s)) ->
  length (k_rc k) = lp_cols l /\
  forall j, (j < lp_cols l)%nat -> (nth j (lp_hi_open l) false = true -> 0 <= nth j (k_rc k) 0) /\ (nth j (lp_lo_open l) false = true -> nth j (k_rc k) 0 <= 0).
Proof. exact reduced_costs_stmt. Qed.
Print Assumptions C63_reduced_costs.

(** Every run ends, including every search of a step size, if the step size is reduced by
    factors whose product vanishes. *)
Theorem C63_ends : forall (nrm : list Q -> Q) (red ext : nat -> Q), powers red ext ->
  forall o l envs, vanishing red -> lp_wf l -> (forall e, In e envs -> 0 < pe_weight e) -> 0 < mt_infty (lp_A l) -> (po_iteration_max o < length envs)%nat ->
  exists envs' k s, Forall2 same_env envs envs' /\ core_run nrm red ext o l envs' = Ok (Some (k, s)).
Proof. exact ends_stmt. Qed.
Print Assumptions C63_ends.

(** OPTIMAL: a point within the bounds violates no row by more than the relative
    tolerance, and no feasible point is better by more than it. *)
Theorem C63_optimal : forall (nrm : list Q -> Q) (red ext : nat -> Q), powers red ext -> norm_like nrm ->
  forall o l envs k, lp_wf l -> (forall e, In e envs -> 0 < pe_weight e) -> core_run nrm red ext o l envs = Ok (Some (k, OPTIMAL)) ->
  exists x, within l x /\ lp_objective l x == k_pobj k /\
    (forall i, (i < lp_rows l)%nat -> nth i (lp_b l) 0 - lhs l x i <= po_tolerance o * (1 + nrm (lp_b l)) /\
      (nth i (lp_dlo l) None = None -> lhs l x i - nth i (lp_b l) 0 <= po_tolerance o * (1 + nrm (lp_b l)))) /\
    (all_bounded l -> forall x', lp_feasible l x' -> k_pobj k <= lp_objective l x' + po_tolerance o * (1 + Qabs (k_dobj k) + Qabs (k_pobj k))).
Proof. exact optimal_stmt. Qed.
Print Assumptions C63_optimal.

(** INFEASIBLE: the problem has no solution, provided that the fixed variables contribute
    nothing or an improvement to the objective. *)
Theorem C63_infeasible : forall (nrm : list Q -> Q) (red ext : nat -> Q), powers red ext -> norm_like nrm ->
  forall sq : Q -> Q, (forall q, 0 < q -> 0 < sq q) ->
  forall o envs late (minimize : bool) obj vs order fixed less sels equals greater k b,
  lists_ok obj vs order fixed less sels equals greater -> (forall e, In e envs -> 0 < pe_weight e) -> moderate_range vs order ->
  (if minimize then total (map (fun v => inject_Z (va_value (vs v)) * coef (ex_sens obj) v) fixed) <= 0
   else 0 <= total (map (fun v => inject_Z (va_value (vs v)) * coef (ex_sens obj) v) fixed)) ->
  pdlp_run nrm red ext sq o envs late minimize obj vs order fixed less sels equals greater = Ok (Ran k INFEASIBLE b) ->
  ~ exists y, admitted vs less sels equals greater y.
Proof. exact infeasible_stmt. Qed.
Print Assumptions C63_infeasible.

Definition ended (s : pstatus) (n : nat) (r : outcome presult) : Prop := match r with Ok (Ran k s' _) => s' = s /\ k_total k = n | _ => False end.
Definition tiny : vars := fun _ => var_in 0 1 0 false.
Definition high : vars := fun _ => var_in 3 10 3 false.
(** x0 + x1 >= 50 over two binaries is found infeasible after one iteration; a start at
    the lower bounds 3 is optimal for covering; the powers 1/(n+1) vanish. *)
Example C63_example :
  ended INFEASIBLE 1 (pdlp_run norm1 pow1 pow1 (fun _ => 1) (opts 2) calm false true (mkExpr [(0%nat, 1); (1%nat, 1)] 0) tiny [0%nat; 1%nat] [] [con 1 1 (-(1)) Less] [] [] [con 1 1 (-(50)) Greater]) /\
  ended OPTIMAL 0 (pdlp_run norm1 pow1 pow1 (fun _ => 1) (opts 2) calm false true (mkExpr [(0%nat, 1); (1%nat, 1)] 0) high [0%nat; 1%nat] [] [] [] [] cover) /\
  ended ITERATION_OVER 1 (pdlp_run norm1 pow1 pow1 (fun _ => 1) (opts 1) calm false true (mkExpr [(0%nat, 1); (1%nat, 1)] 0) box [0%nat; 1%nat] [] [] [] [] cover) /\
  vanishing pow1.
Proof. split; [vm_compute; auto|]. split; [vm_compute; auto|]. split; [vm_compute; auto|exact pow1_vanishing]. Qed.
(** The relaxations of these problems are well formed. *)
Example C63_example_wf : exists l0 l, export true (mkExpr [(0%nat, 1); (1%nat, 1)] 0) high [0%nat; 1%nat] [] [] [] [] cover = Ok l0 /\
  lp_scaling (fun _ => 1) 1 true l0 = Ok l /\ lp_wf l /\ all_bounded l /\ 0 < mt_infty (lp_A l) /\ lp_feasible l (scale (mt_col_scaler (lp_A l)) [4; 4]) /\
  exists k, core_run norm1 pow1 pow1 (opts 2) l calm = Ok (Some (k, OPTIMAL)).
Proof.
  match goal with |- context [export ?a ?b ?c ?d ?e ?f ?g ?h ?i = Ok _] => let v := eval vm_compute in (export a b c d e f g h i) in match v with Ok ?w => exists w;
    let u := eval vm_compute in (lp_scaling (fun _ => 1) 1 true w) in match u with Ok ?l => exists l end end end.
  assert (E0 : forall (P Q : Prop), P -> (P -> Q) -> P /\ Q) by tauto.
  apply E0; [vm_compute; reflexivity|]. intros E. apply E0; [vm_compute; reflexivity|]. intros E1.
  assert (Lo : lists_ok (mkExpr [(0%nat, 1); (1%nat, 1)] 0) high [0%nat; 1%nat] [] [] [] [] cover).
  { constructor; try (intros c Hc; cbn in Hc; intuition (subst; reflexivity)); try (repeat constructor; cbn; intuition congruence). intros v. cbn. intuition. }
  destruct (C62_relaxation (fun _ => 1) (fun _ _ => eq_refl) 1 true true _ _ _ _ _ _ _ _ _ _ Lo ltac:(intros v _ _; cbn; lia) E E1) as (_ & W & B & _).
  split; [exact W|]. split; [apply B; intros v _ _; cbn; lia|]. split; [vm_compute; reflexivity|]. split.
  - split; [split; [reflexivity|]|]; intros [|[|j]] Hj; try (vm_compute in Hj; lia); vm_compute; try split; discriminate.
  - match goal with |- exists k, ?r = _ => let v := eval vm_compute in r in match v with Ok (Some (?k, _)) => exists k end end. vm_compute. reflexivity.
Qed.

(** With a fixed variable that contributes 100 to the objective, a feasible problem is
    reported INFEASIBLE: the upper bound of the objective ignores the contribution. *)
Definition with_fixed : vars := fun v => if Nat.eqb v 2 then var_in 0 1 1 true else var_in 0 10 5 false.
Definition loose : list constr := [con 1 1 (-(15)) Less; con 1 (-(1)) (-(5)) Less].
Theorem C63_infeasible_refuted : exists o envs obj vs order fixed less k b y,
  lists_ok obj vs order fixed less [] [] [] /\ (forall e, In e envs -> 0 < pe_weight e) /\ moderate_range vs order /\
  pdlp_run norm1 pow1 pow1 (fun _ => 1) o envs false true obj vs order fixed less [] [] [] = Ok (Ran k INFEASIBLE b) /\
  admitted vs less [] [] [] y.
Proof.
  exists (opts 1), calm, (mkExpr [(0%nat, 1); (1%nat, 1); (2%nat, 100)] 0), with_fixed, [0%nat; 1%nat], [2%nat], loose.
  let v := eval vm_compute in (pdlp_run norm1 pow1 pow1 (fun _ => 1) (opts 1) calm false true (mkExpr [(0%nat, 1); (1%nat, 1); (2%nat, 100)] 0) with_fixed [0%nat; 1%nat] [2%nat] loose [] [] []) in
    match v with Ok (Ran ?k _ ?b) => exists k, b end.
  exists (fun _ => 1%Z). split.
  { constructor; try (intros c Hc; cbn in Hc; intuition (subst; reflexivity)); try (repeat constructor; cbn; intuition congruence). intros v Hv. cbn in Hv. destruct Hv as [<-|[<-|[<-|[]]]]; cbn; auto. }
  split; [exact calm_weights|]. split; [intros v [<-|[<-|[]]] _; cbn; lia|]. split; [vm_compute; reflexivity|].
  split; [|split; [|intros c []]].
  - intros v. unfold with_fixed. destruct (Nat.eqb_spec v 2); cbn; split; try discriminate; intros; try lia; reflexivity.
  - intros c Hc _. cbn in Hc. repeat (destruct Hc as [<-|Hc]; [vm_compute; discriminate|]). destruct Hc.
Qed.
Print Assumptions C63_infeasible_refuted.
