(** C87: the restarts of the solver of the relaxation.  [nrm] stands for the Euclidean
    norm, [sq] for the square root, [red] and [ext] for the powers that adapt the step
    size. *)
From Coq Require Import List ZArith QArith Qabs Bool Lia Lqa.
From Verif Require Import ExprModel ExprSpec ConstraintModel VariableModel TypeSpec PresolveModel PresolveSpec SparseModel SparseSpec LpModel LpSpec RestartModel RestartSpec RestartProof RestartProof2.
Import ListNotations.
Local Open Scope Q_scope.

(** Whenever and from where the solver restarts, and whatever the gaps are at a distance
    of 0: the bound it offers bounds the objective without its constant over all
    solutions. *)
Theorem C87_bound : forall (nrm : list Q -> Q) (red ext : nat -> Q) (sq : Q -> Q) o envs late (minimize : bool) obj vs order fixed less sels equals greater k s b,
  powers red ext -> norm_like nrm -> (forall q, 0 < q -> 0 < sq q) -> lists_ok obj vs order fixed less sels equals greater -> moderate_range vs order ->
  r_pdlp nrm red ext sq o envs late minimize obj vs order fixed less sels equals greater = Ok (Ran k s (Some b)) ->
  forall y, admitted vs less sels equals greater y -> if minimize then b <= e_eval obj y - ex_const obj else e_eval obj y - ex_const obj <= b.
Proof. exact bound_stmt. Qed.
Print Assumptions C87_bound.

(** Every run with its restarts is one of the runs that C62, C63, C76 and C85 are about,
    with positive weights: what these theorems say holds for it. *)
Theorem C87_covered : forall (nrm : list Q -> Q) (red ext : nat -> Q) (sq : Q -> Q), (forall q, 0 < q -> 0 < sq q) ->
  forall o envs late minimize obj vs order fixed less sels equals greater, exists penvs,
  Forall2 same_clock envs penvs /\ (forall p, In p penvs -> 0 < pe_weight p) /\
  pdlp_run nrm red ext sq (ro_base o) penvs late minimize obj vs order fixed less sels equals greater =
  r_pdlp nrm red ext sq o envs late minimize obj vs order fixed less sels equals greater.
Proof. exact controller_same. Qed.
Print Assumptions C87_covered.

(** Every run ends, given enough trials for the step sizes. *)
Theorem C87_ends : forall (nrm : list Q -> Q) (red ext : nat -> Q) (sq : Q -> Q), (forall q, 0 < q -> 0 < sq q) -> powers red ext ->
  forall o l envs, vanishing red -> lp_wf l -> 0 < mt_infty (lp_A l) -> (po_iteration_max (ro_base o) < length envs)%nat ->
  exists envs' s t, Forall2 same_renv envs envs' /\ r_run nrm red ext sq o l envs' = Ok (Some (s, t)).
Proof. exact ends_stmt. Qed.
Print Assumptions C87_ends.

(** The weight stays within any limits that contain the first one and reach from
    1/(4 10^10) to 4 10^10. *)
Theorem C87_weights : forall (nrm : list Q -> Q) (red ext : nat -> Q) (sq : Q -> Q), root_like sq ->
  forall lo hi, 0 < lo /\ lo <= 1 # 40000000000 -> 40000000000 <= hi ->
  forall o l envs k0 s t, core_start nrm l = Ok k0 -> lo <= k_weight k0 <= hi -> r_run nrm red ext sq o l envs = Ok (Some (s, t)) -> lo <= k_weight (rs_core s) <= hi.
Proof. exact weights_stmt. Qed.
Print Assumptions C87_weights.

(** Restarts do not fail to come: the iterations since the last one are at most the
    artificial threshold times all iterations, plus the interval of the checks, plus 1. *)
Theorem C87_restarts : forall (nrm : list Q -> Q) (red ext : nat -> Q) (sq : Q -> Q) o l envs s t,
  (0 < po_restart (ro_base o))%nat -> 0 <= ro_artificial o -> r_run nrm red ext sq o l envs = Ok (Some (s, t)) ->
  inject_Z (Z.of_nat (k_inner (rs_core s))) <= 1 + inject_Z (Z.of_nat (po_restart (ro_base o))) + ro_artificial o * inject_Z (Z.of_nat (k_total (rs_core s))).
Proof. exact inner_stmt. Qed.
Print Assumptions C87_restarts.

(** Minimizing x0 + x1 with x0 >= 1 and x1 >= 1: within three iterations there is one
    restart, which changes the weight from 1 to 13873/4656; the bound 2 is offered. *)
Definition restarted (total inner outer : nat) (w b : Q) (r : outcome presult) : Prop :=
  exists k s q, r = Ok (Ran k s (Some q)) /\ k_total k = total /\ k_inner k = inner /\ k_outer k = outer /\ k_weight k == w /\ q == b.
Lemma restarted_at r total inner outer w b :
  match r with Ok (Ran k s (Some q)) => Nat.eqb (k_total k) total && Nat.eqb (k_inner k) inner && Nat.eqb (k_outer k) outer && Qeq_bool (k_weight k) w && Qeq_bool q b | _ => false end = true ->
  restarted total inner outer w b r.
Proof.
  destruct r as [[| |k s [q|]]| |]; try discriminate. intros H. repeat (apply andb_prop in H as [H ?]). exists k, s, q. split; [reflexivity|].
  repeat match goal with E : Nat.eqb _ _ = true |- _ => apply Nat.eqb_eq in E | E : Qeq_bool _ _ = true |- _ => apply Qeq_bool_eq in E end. auto.
Qed.
Example C87_example : powers half half /\ norm_like top /\ root_like root2 /\ (forall q, 0 < q -> 0 < root2 q) /\
  lists_ok x_objective x_box [0%nat; 1%nat] [] [] [] [] [x_one 0; x_one 1] /\ moderate_range x_box [0%nat; 1%nat] /\ admitted x_box [] [] [] [x_one 0; x_one 1] (fun _ => 1%Z) /\
  restarted 2 2 0 1 2 (r_pdlp top half half root2 (x_options 2) x_clock false true x_objective x_box [0%nat; 1%nat] [] [] [] [] [x_one 0; x_one 1]) /\
  restarted 3 0 1 (13873 # 4656) 2 (r_pdlp top half half root2 (x_options 3) x_clock false true x_objective x_box [0%nat; 1%nat] [] [] [] [] [x_one 0; x_one 1]).
Proof.
  split; [exact half_powers|]. split; [exact top_like|]. split; [exact root2_is|]. split; [exact (root_pos root2 root2_is)|]. split; [exact x_lists|]. split; [intros v _ _; cbn; lia|].
  split; [|split; apply restarted_at; vm_compute; reflexivity].
  split; [intros v; cbn; split; [discriminate|lia]|]. split; [intros c Hc _; cbn in Hc|intros c []]. repeat (destruct Hc as [<-|Hc]; [vm_compute; discriminate|]). destruct Hc.
Qed.

(** When the solver restarts and from where.  After every step it weighs the gaps of the
    current and of the averaged solution, seen from the baseline: the current solution
    is taken if its gap is the smaller one, the averaged one otherwise.  If the iteration
    is one of those with a check, not one of the first two since the last restart, and
    there is a reason, then it goes on from that solution, which becomes the baseline,
    and its gap is kept.  Otherwise solution and baseline stay. *)
Theorem C87_decision : forall (nrm : list Q -> Q) (red ext : nat -> Q) (sq : Q -> Q) o l e s s' k0, 0 < ro_sufficient o -> 0 < ro_necessary o ->
  update_solution red ext (re_trials e) l (rs_core s) = Some k0 -> r_iterate nrm red ext sq o l e s = Some s' ->
  let k := update_averaged k0 in
  let gap x y := normalized_gap nrm sq l (k_weight k) x y (weighted sq (k_weight k) (distance nrm x (rs_bx s)) (distance nrm y (rs_by s))) in
  let gc := gap (k_x k) (k_y k) (re_current e) in
  let ga := gap (k_xa k) (k_ya k) (re_average e) in
  exists x y g, ((x = k_x k /\ y = k_y k /\ g = gc /\ less gc ga) \/ (x = k_xa k /\ y = k_ya k /\ g = ga /\ ~ less gc ga)) /\
    let due := (k_total k mod po_restart (ro_base o) = O /\ (1 < k_inner k)%nat) /\ reason o s (k_outer k) (k_inner k) (k_total k) g in
    k_total (rs_core s') = S (k_total k) /\
    ((due /\ k_x (rs_core s') = x /\ k_y (rs_core s') = y /\ rs_bx s' = x /\ rs_by s' = y /\
      k_inner (rs_core s') = O /\ k_outer (rs_core s') = S (k_outer k) /\ rs_outer s' = g /\ rs_outer_prev s' = rs_outer s /\ rs_inner s' = DBL_MAX /\
      reweighted sq (k_weight k) (distance nrm (k_xa k) (rs_bx s)) (distance nrm (k_ya k) (rs_by s)) (k_weight (rs_core s'))) \/
     (~ due /\ k_x (rs_core s') = k_x k /\ k_y (rs_core s') = k_y k /\ rs_bx s' = rs_bx s /\ rs_by s' = rs_by s /\
      k_inner (rs_core s') = S (k_inner k) /\ k_outer (rs_core s') = k_outer k /\ rs_outer s' = rs_outer s /\ rs_outer_prev s' = rs_outer_prev s /\
      rs_inner s' = (if Nat.eqb (k_total k mod po_restart (ro_base o)) 0 && Nat.ltb 1 (k_inner k) then g else rs_inner s) /\ k_weight (rs_core s') = k_weight k)).
Proof. exact decision. Qed.
Print Assumptions C87_decision.

(** The gap that a new one is compared with is not that of the last restart but that of
    the one before, and DBL_MAX after the first: the second restart comes at the first
    check it may come at, unless a gap reaches the threshold times DBL_MAX. *)
Theorem C87_second : forall (nrm : list Q -> Q) (red ext : nat -> Q) (sq : Q -> Q) o l e s s' k0, 0 < ro_sufficient o -> 0 < ro_necessary o ->
  reached nrm red ext sq o l s -> k_outer (rs_core s) = 1%nat ->
  update_solution red ext (re_trials e) l (rs_core s) = Some k0 -> r_iterate nrm red ext sq o l e s = Some s' ->
  (k_total k0 mod po_restart (ro_base o) = 0 /\ 1 < k_inner k0)%nat ->
  let k := update_averaged k0 in
  let gap x y := normalized_gap nrm sq l (k_weight k) x y (weighted sq (k_weight k) (distance nrm x (rs_bx s)) (distance nrm y (rs_by s))) in
  less (gap (k_x k) (k_y k) (re_current e)) (scaled (ro_sufficient o) DBL_MAX) -> less (gap (k_xa k) (k_ya k) (re_average e)) (scaled (ro_sufficient o) DBL_MAX) ->
  k_outer (rs_core s') = 2%nat.
Proof. exact second. Qed.
Print Assumptions C87_second.

(** Minimizing - x0 - x1 with x0 and x1 in [0, 1] and a check in every iteration: the
    first restart, with gap 1/4, comes in the third iteration, the second one three
    iterations later. *)
Example C87_second_example : 0 < ro_sufficient z_options /\ 0 < ro_necessary z_options /\
  z_check 2 0 1 (fun _ => true) = true /\ z_check 5 1 2 (fun d => match d with Fin q => Qeq_bool q (1 # 4) | _ => false end) = true /\
  exists s k0 s', reached top half half root2 z_options z_lp s /\ k_outer (rs_core s) = 1%nat /\ k_outer (rs_core s') = 2%nat /\
    update_solution half half (re_trials z_env) z_lp (rs_core s) = Some k0 /\ r_iterate top half half root2 z_options z_lp z_env s = Some s' /\
    (k_total k0 mod po_restart (ro_base z_options) = 0 /\ 1 < k_inner k0)%nat /\
    let k := update_averaged k0 in
    less (z_gap s k (k_x k) (k_y k)) (scaled (ro_sufficient z_options) DBL_MAX) /\ less (z_gap s k (k_xa k) (k_ya k)) (scaled (ro_sufficient z_options) DBL_MAX).
Proof.
  split; [reflexivity|]. split; [reflexivity|]. split; [vm_compute; reflexivity|]. split; [vm_compute; reflexivity|].
  destruct (z_checked 5 1 2 (fun _ => true) ltac:(vm_compute; reflexivity)) as (s & k0 & s' & R & A & B & _ & C). exists s, k0, s'. auto.
Qed.

(** The gap by which restarts are decided ignores violated rows: it is 0 at a point that
    violates a row by 1, whatever the distance, where the objective is not at its
    minimum. *)
Theorem C87_gap_refuted : exists l x y, lp_wf l /\ within l x /\ signs l y /\ (exists i, (i < lp_rows l)%nat /\ lhs l x i + 1 <= nth i (lp_b l) 0) /\
  (forall x', lp_feasible l x' -> lp_objective l x + 1 <= lp_objective l x') /\ forall radius odd, normalized_gap top root2 l 1 x y radius odd = Fin 0.
Proof. exact gap_stmt. Qed.
Print Assumptions C87_gap_refuted.
