(** C59: penalty coefficients, restarts and parameters between two rounds of the tabu search. *)
From Coq Require Import List ZArith QArith Qabs Lia Lqa Bool.
From Verif Require Import ExprModel ConstraintModel EvalModel EvalSpec SolutionModel TabuModel ControllerModel ControllerSpec ControllerProof ControllerProof2 ControllerProof3 ControllerProof4.
Import ListNotations.
Local Open Scope Q_scope.

(** Nothing but coefficients changes; they stay between 0 and the initial coefficient;
    the relaxing rate stays within its range; either no coefficient rises, or none
    falls, or (only while no feasible solution is known) all are reset; after a
    feasible local incumbent none rises. *)
Theorem C59_penalties : forall o lg root r h m nmut draw md k qg yg ql yl feasible k' cs',
  incumbents h qg yg ql yl feasible -> sensible o -> log_like lg -> root_like root -> counts (mm_vcount m) (md_cons md) ->
  0 <= md_gpen md <= co_initial o -> co_relax_min o <= k_rate k <= co_relax_max o -> Forall (priced_within (co_initial o)) (md_cons md) ->
  k_update o lg root r h m nmut draw md k = Some (k', cs') ->
  Forall2 repriced (md_cons md) cs' /\ Forall (priced_within (co_initial o)) cs' /\ co_relax_min o <= k_rate k' <= co_relax_max o /\
  (feasible = true -> Forall2 not_dearer (md_cons md) cs') /\
  (Forall2 not_dearer (md_cons md) cs' \/ Forall2 not_cheaper (md_cons md) cs' \/ (ho_found h = false /\ Forall2 (priced_at (md_gpen md)) (md_cons md) cs')).
Proof. intros o lg root r h m nmut draw md k qg yg ql yl feasible k' cs' I. exact (update_pens o lg root r h m nmut draw md k qg yg ql yl feasible I k' cs'). Qed.
Print Assumptions C59_penalties.

(** After a round that improved the global incumbent, one that improved nothing, and
    one with a feasible local incumbent, the coefficients of exactly the sides the
    local incumbent respects are multiplied by one positive factor: the relaxing rate,
    or, after a feasible local incumbent, the smaller of it and the round's relative
    change of the objective if that exceeds 1e-5. *)
Theorem C59_relaxation : forall o lg root r h m nmut draw md k qg yg ql yl feasible k' cs',
  incumbents h qg yg ql yl feasible -> Z.testbit (rr_status r) 1 = true \/ rr_status r = 0%Z \/ feasible = true ->
  k_update o lg root r h m nmut draw md k = Some (k', cs') ->
  exists f, f <= k_rate k' /\ (0 < k_rate k' -> 0 < f) /\ (feasible = false \/ rr_rate r <= EPS -> f = k_rate k') /\
    (feasible = true -> EPS < rr_rate r -> f <= rr_rate r /\ (f = rr_rate r \/ f = k_rate k')) /\ Forall2 (relaxed f yl) (md_cons md) cs'.
Proof. intros o lg root r h m nmut draw md k qg yg ql yl feasible k' cs' I. exact (update_relaxes o lg root r h m nmut draw md k qg yg ql yl feasible I k' cs'). Qed.
Print Assumptions C59_relaxation.

(** After any other round with an infeasible local incumbent and a wide range, once a
    feasible solution is known and with coefficients not grouped by array: only sides
    the local incumbent violates are tightened; its penalized objective rises by at
    most the tightening rate times the gap to the global incumbent, and by exactly
    that if the balance is 0 and no coefficient reaches the initial one. *)
Theorem C59_tightening : forall o lg root r h m nmut draw md k qg yg ql yl k' cs',
  incumbents h qg yg ql yl false -> sensible o -> log_like lg -> counts (mm_vcount m) (md_cons md) -> Forall (priced_within (co_initial o)) (md_cons md) ->
  Z.testbit (rr_status r) 1 = false -> rr_status r <> 0%Z -> ~ narrow_range r qg -> ho_found h = true \/ co_inner_breaker o = false -> co_group o = false ->
  k_update o lg root r h m nmut draw md k = Some (k', cs') ->
  let gap := if Qlt_le_dec 0 (qg - ql) then qg - ql else 0 in
  Forall2 (tightened yl) (md_cons md) cs' /\
  penalized md cs' yl <= penalized md (md_cons md) yl + co_tight o * gap /\
  (co_balance o == 0 -> k_exceeded k' = false -> clear_violations (mm_vcount m) yl (md_cons md) -> (exists c, In c (md_cons md) /\ 0 < viol c yl) ->
   penalized md cs' yl == penalized md (md_cons md) yl + co_tight o * gap).
Proof.
  intros o lg root r h m nmut draw md k qg yg ql yl k' cs' I S L C P H1 H2 H3 H4 H5 U.
  pose proof (update_tightens o lg root r h m nmut draw md k qg yg ql yl false I k' cs' H1 H2 eq_refl H3 H4 U) as T. cbv zeta. unfold penalized.
  split; [exact (tighten_tightened o lg _ yl _ _ cs' _ S L C P H5 T)|]. split.
  - pose proof (tighten_bound o lg _ yl _ _ S L C cs' _ H5 T) as B. unfold qmax in B. lra.
  - intros B E V W. rewrite E in T. pose proof (tighten_exact o lg _ yl _ _ S L C cs' H5 B V W T) as X. unfold qmax in X. lra.
Qed.
Print Assumptions C59_tightening.

(** Smart restarts: where the next round starts, and whether it is perturbed. *)
Theorem C59_restart : forall o lg root r h m nmut draw md k qg yg ql yl feasible k' cs',
  incumbents h qg yg ql yl feasible -> co_smart o = true -> k_update o lg root r h m nmut draw md k = Some (k', cs') ->
  let g := Z.testbit (rr_status r) 1 in
  let forced := co_modify o = true -> (1 <= k_modifications k')%Z in
  let calm := co_modify o = true -> k_modifications k' = 0%Z in
  (g = true -> k_current k' = yg /\ calm) /\
  (g = false -> rr_status r = 0%Z -> k_current k' = yg /\ forced) /\
  (g = false -> rr_status r <> 0%Z -> qg - ql < EPS -> k_current k' = yg /\ forced) /\
  (g = false -> rr_status r <> 0%Z -> EPS <= qg - ql -> feasible = true -> k_current k' = yl /\ calm) /\
  (g = false -> rr_status r <> 0%Z -> EPS <= qg - ql -> feasible = false ->
     (narrow_range r qg -> k_current k' = yg /\ forced) /\
     (~ narrow_range r qg -> ho_found h = false -> (k_current k' = yl \/ k_current k' = yg) /\ forced) /\
     (~ narrow_range r qg -> ho_found h = true ->
        (bettered md yl (k_current k) -> k_current k' = yl /\ calm) /\
        (~ bettered md yl (k_current k) -> k_current k' = k_current k /\ calm))).
Proof.
  intros o lg root r h m nmut draw md k qg yg ql yl feasible k' cs' I Sm U. cbv zeta.
  destruct (update_start_smart o lg root r h m nmut draw md k qg yg ql yl feasible I k' cs' Sm U) as (A & B & C & D & E).
  split; [exact A|]. split; [exact B|]. split; [exact C|]. split; [exact D|]. intros H1 H2 H3 H4. destruct (E H1 H2 H3 H4) as (E1 & E2 & E3).
  split; [exact E1|]. split; [exact E2|]. rewrite bettered_eq. exact E3.
Qed.
Print Assumptions C59_restart.

(** Simple restarts: the local incumbent, or the global one when the coefficients are
    reset. *)
Theorem C59_restart_simple : forall o lg root r h m nmut draw md k qg yg ql yl feasible k' cs',
  incumbents h qg yg ql yl feasible -> co_smart o = false -> k_update o lg root r h m nmut draw md k = Some (k', cs') ->
  k_current k' = yl \/ (k_current k' = yg /\ ho_found h = false /\ feasible = false).
Proof. intros o lg root r h m nmut draw md k qg yg ql yl feasible k' cs' I. exact (update_start_simple o lg root r h m nmut draw md k qg yg ql yl feasible I k' cs'). Qed.
Print Assumptions C59_restart_simple.

(** The tabu tenure, the iterations of a round and the modifications stay in range;
    an improvement of the global incumbent resets the tenure. *)
Theorem C59_parameters : forall o lg root r h m nmut draw md k qg yg ql yl feasible k' cs',
  incumbents h qg yg ql yl feasible -> (0 <= nmut)%Z -> k_update o lg root r h m nmut draw md k = Some (k', cs') ->
  ((Z.min (co_tenure o) nmut <= k_tenure k <= Z.max (co_tenure o) nmut)%Z -> (Z.min (co_tenure o) nmut <= k_tenure k' <= Z.max (co_tenure o) nmut)%Z) /\
  (co_auto_tenure o = true -> Z.testbit (rr_status r) 1 = true -> k_tenure k' = Z.min (co_tenure o) nmut) /\
  ((Z.min (co_tenure o) (co_iteration_max o) <= k_iteration_max k <= Z.max (co_tenure o) (co_iteration_max o))%Z ->
   (Z.min (co_tenure o) (co_iteration_max o) <= k_iteration_max k' <= Z.max (co_tenure o) (co_iteration_max o))%Z) /\
  ((0 <= k_modifications k)%Z -> (0 <= k_modifications k')%Z).
Proof. intros o lg root r h m nmut draw md k qg yg ql yl feasible k' cs' I. exact (update_parameters o lg root r h m nmut draw md k qg yg ql yl feasible I k' cs'). Qed.
Print Assumptions C59_parameters.

(** The counters the decisions rest on: rounds since the last improvement of the
    global incumbent; rounds since the last relaxation, and the starts since then by
    kind.  After an improvement of the global incumbent, none at all, or a feasible
    local incumbent, the coefficients were relaxed; after any other round with a wide
    range they were not.  With automatic iteration limits, early stopping is off
    exactly in the rounds whose limit is not the full one. *)
Theorem C59_counters : forall o lg root r h m nmut draw md k qg yg ql yl feasible k' cs',
  incumbents h qg yg ql yl feasible -> k_update o lg root r h m nmut draw md k = Some (k', cs') ->
  let g := Z.testbit (rr_status r) 1 in
  k_since_global k' = (if g then 0 else k_since_global k + 1)%Z /\ k_primal k' = mm_primal m /\ k_dual k' = mm_dual m /\
  ((k_relaxations k' = (k_relaxations k + 1)%Z /\ k_since_relax k' = 0%Z /\ k_primal_relaxed k' = mm_primal m /\ k_dual_relaxed k' = mm_dual m /\
    k_n_global k' = 0%Z /\ k_n_local k' = 0%Z /\ k_n_previous k' = 0%Z) \/
   (k_relaxations k' = k_relaxations k /\ k_since_relax k' = (k_since_relax k + 1)%Z /\ k_primal_relaxed k' = k_primal_relaxed k /\ k_dual_relaxed k' = k_dual_relaxed k /\
    (k_n_global k' + k_n_local k' + k_n_previous k' = k_n_global k + k_n_local k + k_n_previous k + 1)%Z)) /\
  (g = true \/ rr_status r = 0%Z \/ feasible = true -> k_relaxations k' = (k_relaxations k + 1)%Z) /\
  (g = false -> rr_status r <> 0%Z -> feasible = false -> ~ narrow_range r qg -> k_relaxations k' = k_relaxations k) /\
  k_pruning k' = (if co_auto_iteration o then (if (k_iteration_max k' =? co_iteration_max o)%Z then co_pruning o else 1) else k_pruning k).
Proof. exact update_counters. Qed.
Print Assumptions C59_counters.

(** The update is defined unless the local incumbent violates a constraint by more
    than 1e-5 and no constraint it violates has ever been counted as violated. *)
Theorem C59_defined : forall o lg root r h m nmut draw md k qg yg ql yl feasible,
  incumbents h qg yg ql yl feasible -> log_like lg -> counts (mm_vcount m) (md_cons md) -> k_update o lg root r h m nmut draw md k = None ->
  feasible = false /\ (exists c, In c (md_cons md) /\ EPS < viol c yl) /\
  forall i c, nth_error (md_cons md) i = Some c -> 0 < viol c yl -> mm_vcount m i = 0%Z.
Proof. intros o lg root r h m nmut draw md k qg yg ql yl feasible I. exact (update_none o lg root r h m nmut draw md k qg yg ql yl feasible I). Qed.
Print Assumptions C59_defined.

(** ** Example: x0 >= 2 and x0 + x1 = 3 at (0, 0), violated once and twice before;
    the global incumbent (2, 1) costs 80 *)
Definition ex_cs : list constr :=
  map (fun c => c_with_pen c 10 10) [c_setup (mkExpr [(0%nat, 1)] (-2)) Greater (fun _ => false); c_setup (mkExpr [(0%nat, 1); (1%nat, 1)] (-3)) Equal (fun _ => false)].
Definition ex_md : model := mkM true 1 (mkExpr [(0%nat, 40)] 0) 0 0 ex_cs 100.
Definition ex_o : copt := mkCo true 100 (9 # 10) (3 # 10) (95 # 100) (1 # 2) (9 # 10) 1 0 5 7 true true false (fun _ => 0%nat) 10 true true (3 # 10) 0 true 100 1 1.
Definition ex_lg (n : Z) : Q := inject_Z n.
Definition ex_zero : nat -> Z := fun _ => 0%Z.
Definition ex_good (v : nat) : Z := match v with 0%nat => 2%Z | 1%nat => 1%Z | _ => 0%Z end.
Definition ex_score (ok : bool) : score := mkScore 0 0 0 0 0 0 0 ok false false.
Definition ex_h (found : bool) : holder (nat -> Z) :=
  mkHolder found (mkSlot (Some 50) (Some (ex_zero, ex_score false))) (mkSlot (Some 80) (Some (ex_good, ex_score true))) (mkSlot (Some 80) (Some (ex_good, ex_score true))) 0.
Definition ex_m (count : nat -> Z) : memory := mkMem (fun _ => 0%Z) (fun _ => 0%Z) (fun _ => 0%Z) 0 0 1 0 count 0 1 0.
Definition ex_count (i : nat) : Z := match i with 0%nat => 1%Z | 1%nat => 2%Z | _ => 0%Z end.
Definition ex_k : ctl := k_setup ex_o (ex_m ex_zero) ex_good.
Definition ex_r : rres := mkRr 1 100 10 50 30 (1 # 2).
Lemma ex_inc b : incumbents (ex_h b) 80 ex_good 50 ex_zero false.
Proof. exists (ex_score true), (ex_score false). repeat split. Qed.
Lemma ex_sensible : sensible ex_o.
Proof. repeat split; discriminate. Qed.
Lemma ex_log : log_like ex_lg.
Proof. split; [reflexivity|]. intros n H. unfold ex_lg, Qlt. cbn. lia. Qed.
Lemma ex_root : root_like (fun q => q).
Proof. intros q A B. split; lra. Qed.
Lemma ex_counts : counts ex_count (md_cons ex_md).
Proof. intros i c _. unfold ex_count. destruct i as [|[|i]]; lia. Qed.
Example C59_example :
  Forall (priced_within (co_initial ex_o)) (md_cons ex_md) /\ clear_violations ex_count ex_zero (md_cons ex_md) /\
  ~ narrow_range ex_r 80 /\ penalized ex_md (md_cons ex_md) ex_zero == 50 /\
  exists k' cs', k_update ex_o ex_lg (fun q => q) ex_r (ex_h true) (ex_m ex_count) 5 0 ex_md ex_k = Some (k', cs') /\
  map ct_pen_less cs' = [10; 10] /\ map (fun c => Qred (ct_pen_greater c)) cs' = [140 # 11; 200 # 11] /\ k_exceeded k' = false /\
  penalized ex_md cs' ex_zero == 80 /\ k_current k' 0%nat = 0%Z.
Proof.
  split; [repeat constructor; discriminate|]. split; [split; [intros c [<-|[<-|[]]]; right; reflexivity|]|].
  { intros i c H. split; [exact (ex_counts i c H)|]. destruct i as [|[|i]]; [injection H as <-; discriminate|injection H as <-; discriminate|reflexivity]. }
  split; [discriminate|]. split; [reflexivity|]. eexists. eexists. split; [vm_compute; reflexivity|]. vm_compute. repeat split; discriminate.
Qed.
(** All three situations of the smart mode occur. *)
Example C59_example_relaxed :
  exists k' cs', k_update ex_o ex_lg (fun q => q) (mkRr 3 100 10 50 30 (1 # 2)) (ex_h true) (ex_m ex_count) 5 0 ex_md ex_k = Some (k', cs') /\
  map (fun c => Qred (ct_pen_less c)) cs' = [10; 9] /\ map (fun c => Qred (ct_pen_greater c)) cs' = [10; 10] /\
  k_current k' 0%nat = 2%Z /\ k_modifications k' = 0%Z /\ k_tenure k' = 5%Z.
Proof. eexists. eexists. split; [vm_compute; reflexivity|]. vm_compute. repeat split; reflexivity. Qed.
(** The hypothesis on the counts is needed: with none, the coefficients are lost. *)
Theorem C59_not_a_number_refuted :
  ~ (forall o lg root r h m nmut draw md k qg yg ql yl feasible, incumbents h qg yg ql yl feasible -> sensible o -> log_like lg -> root_like root ->
     counts (mm_vcount m) (md_cons md) -> Forall (priced_within (co_initial o)) (md_cons md) -> k_update o lg root r h m nmut draw md k <> None).
Proof.
  intros H. refine (H ex_o ex_lg (fun q => q) ex_r (ex_h true) (ex_m ex_zero) 5%Z 0%Z ex_md ex_k 80 ex_good 50 ex_zero false (ex_inc true) ex_sensible ex_log ex_root _ _ _).
  - intros i c _. cbn. unfold ex_zero. lia.
  - apply C59_example.
  - vm_compute. reflexivity.
Qed.
Print Assumptions C59_not_a_number_refuted.
