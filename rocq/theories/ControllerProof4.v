(** Counters and the pruning threshold after an update of the controller. *)
From Coq Require Import List ZArith QArith Qabs Lia Lqa Bool.
From Verif Require Import ExprModel ConstraintModel EvalModel EvalSpec SolutionModel TabuModel ControllerModel ControllerSpec ControllerProof ControllerProof2 ControllerProof3.
Import ListNotations.
Local Open Scope Q_scope.

Lemma update_counters o lg root r h m nmut draw md k qg yg ql yl feasible k' cs' : incumbents h qg yg ql yl feasible ->
  k_update o lg root r h m nmut draw md k = Some (k', cs') ->
  let g := Z.testbit (rr_status r) 1 in
  k_since_global k' = (if g then 0 else k_since_global k + 1)%Z /\ k_primal k' = mm_primal m /\ k_dual k' = mm_dual m /\
  ((k_relaxations k' = (k_relaxations k + 1)%Z /\ k_since_relax k' = 0%Z /\ k_primal_relaxed k' = mm_primal m /\ k_dual_relaxed k' = mm_dual m /\
    k_n_global k' = 0%Z /\ k_n_local k' = 0%Z /\ k_n_previous k' = 0%Z) \/
   (k_relaxations k' = k_relaxations k /\ k_since_relax k' = (k_since_relax k + 1)%Z /\ k_primal_relaxed k' = k_primal_relaxed k /\ k_dual_relaxed k' = k_dual_relaxed k /\
    (k_n_global k' + k_n_local k' + k_n_previous k' = k_n_global k + k_n_local k + k_n_previous k + 1)%Z)) /\
  (g = true \/ rr_status r = 0%Z \/ feasible = true -> k_relaxations k' = (k_relaxations k + 1)%Z) /\
  (g = false -> rr_status r <> 0%Z -> feasible = false -> ~ narrow_range r qg -> k_relaxations k' = k_relaxations k) /\
  k_pruning k' = (if co_auto_iteration o then (if (k_iteration_max k' =? co_iteration_max o)%Z then co_pruning o else 1) else k_pruning k).
Proof.
  intros (sg & sl & Eg & El & Ef) U. cbv zeta. unfold k_update in U. rewrite Eg, El in U. cbn [sl_obj sl_stored] in U. rewrite Ef in U.
  set (fl0 := if co_smart o then _ else _) in U.
  set (fl := if co_inner_breaker o && fl_tighten fl0 && _ then _ else fl0) in U.
  match type of U with match ?pp with _ => _ end = _ => destruct pp as [[cs ex]|]; [|discriminate] end.
  match type of U with match ?pp with _ => _ end = _ => destruct pp as [x|]; [|discriminate] end.
  assert (FR : fl_relax fl = fl_relax fl0) by (unfold fl; match goal with |- context [if ?b then _ else fl0] => destruct b; reflexivity end).
  assert (R1 : Z.testbit (rr_status r) 1 = true \/ rr_status r = 0%Z \/ feasible = true -> fl_relax fl = true).
  { intros H. rewrite FR. unfold fl0, decide_smart, decide_simple. destruct (Z.testbit (rr_status r) 1) eqn:G; [destruct (co_smart o); reflexivity|].
    destruct (Z.eqb_spec (rr_status r) 0) as [Z0|Z0]; [destruct (co_smart o); reflexivity|]. destruct H as [H|[H|H]]; [discriminate|contradiction|].
    rewrite H. destruct (co_smart o), (Qlt_le_dec (qg - ql) GAP_TOLERANCE), (Qlt_le_dec (rr_range r / qmax 1 (Qabs qg)) RANGE_THRESHOLD); reflexivity. }
  assert (R2 : Z.testbit (rr_status r) 1 = false -> rr_status r <> 0%Z -> feasible = false -> ~ narrow_range r qg -> fl_relax fl = false).
  { intros G N F W. rewrite FR. unfold fl0, decide_smart, decide_simple. rewrite G, F.
    destruct (Z.eqb_spec (rr_status r) 0) as [Z0|Z0]; [contradiction|].
    destruct (Qlt_le_dec (rr_range r / qmax 1 (Qabs qg)) RANGE_THRESHOLD) as [L|L]; [exfalso; apply W; exact L|].
    destruct (co_smart o), (Qlt_le_dec (qg - ql) GAP_TOLERANCE), (ho_found h); try reflexivity; destruct (_ || _); reflexivity. }
  clearbody fl. destruct (fl_relax fl) eqn:Rx.
  - apply (f_equal (fun o => match o with Some a => fst a | None => k end)) in U. cbn beta iota in U. cbn [fst] in U. subst k'.
    cbn [k_since_global k_primal k_dual k_relaxations k_since_relax k_primal_relaxed k_dual_relaxed k_n_global k_n_local k_n_previous k_pruning k_iteration_max].
    split; [reflexivity|]. split; [reflexivity|]. split; [reflexivity|]. split; [left; repeat split|]. split; [reflexivity|]. split; [|unfold next_pruning; destruct (co_auto_iteration o); reflexivity].
    intros A B C D. discriminate (R2 A B C D).
  - apply (f_equal (fun o => match o with Some a => fst a | None => k end)) in U. cbn beta iota in U. cbn [fst] in U. subst k'.
    cbn [k_since_global k_primal k_dual k_relaxations k_since_relax k_primal_relaxed k_dual_relaxed k_n_global k_n_local k_n_previous k_pruning k_iteration_max].
    split; [reflexivity|]. split; [reflexivity|]. split; [reflexivity|]. split; [right|].
    { split; [reflexivity|]. split; [reflexivity|]. split; [reflexivity|]. split; [reflexivity|]. destruct (fl_global fl), (fl_local fl); cbn [orb]; lia. }
    split; [intros A; discriminate (R1 A)|]. split; [reflexivity|]. unfold next_pruning; destruct (co_auto_iteration o); reflexivity.
Qed.
