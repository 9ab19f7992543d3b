(** Specification for C58. *)
From Coq Require Import List ZArith QArith Qabs Bool.
From Verif Require Import ExprModel ExprSpec ConstraintModel ConstraintSpec EvalModel EvalSpec EvalSpec2 SolutionModel SolutionSpec VariableModel PresolveModel
  SelectionModel SelectionSpec TabuModel LoopModel LoopSpec LocalModel LocalSpec LagrangeModel ControllerModel ControllerSpec SolverModel.
Import ListNotations.
Local Open Scope Q_scope.

(** The solutions offered to the incumbents so far. *)
Definition visited (r : run) : list (nat -> Z) := map fst (offered (rn_events r)).

(** Variables treated as 0/1: binary ones, integers with bounds in 0..1, members of a
    selection. *)
Definition zero_one (p : problem) (is01 : nat -> bool) : Prop := forall v, is01 v = true -> (v < pb_n p)%nat /\
  (va_sense (pb_vars p v) = VBinary \/
   (va_sense (pb_vars p v) = VInteger /\ (0 <= va_lower (pb_vars p v) /\ va_upper (pb_vars p v) <= 1)%Z) \/
   exists s, In s (pb_sels p) /\ In v (SelectionModel.sl_vars s)).
(** The expression of every dependent variable mentions no dependent variable. *)
Definition resolved (s : mstate) : Prop := forall d i, In (d, i) (ms_deps s) ->
  exists q, nth_error (ms_exprs s) i = Some q /\ forall d', In d' (map fst (ms_deps s)) -> ~ In d' (keys (fst (fst q))).

(** A prepared problem. *)
Definition prepared (is01 : nat -> bool) (p : problem) (s0 : mstate) (m0 : memory) : Prop :=
  loop_start is01 s0 /\ (forall d, In d (map fst (ms_deps s0)) -> is01 d = false /\ ms_fixed s0 d = false) /\ resolved s0 /\
  selections_ready (pb_vars p) (pb_sels p) /\ sane_bounds (pb_n p) (pb_vars p) /\ zero_one p is01 /\ (forall i, (0 <= mm_vcount m0 i)%Z).
(** What the phases may be fed with. *)
Definition admissible (is01 : nat -> bool) (s0 : mstate) (a : inputs) : Prop :=
  (forall g, in_lagrange a = Some g -> gg_applicable g = true -> ms_deps s0 = [] /\ (1 <= go_queue (gg_options g))%Z /\
     forall v, is01 v = true -> (0 <= gg_lo g v <= 1)%Z /\ (0 <= gg_hi g v <= 1)%Z) /\
  (forall g, in_local a = Some g -> forall e t, In e (gc_envs g) -> In t (se_moves e) -> trial_ok is01 s0 t /\ anchored (ms_model s0) t) /\
  (0 <= co_tenure (in_control a))%Z /\
  (forall d, In d (in_rounds a) -> (0 <= lo_nmut (td_options d))%Z /\ (forall t, In t (map fst (td_mods d)) -> trial_ok is01 s0 t) /\
     forall e t, In e (td_envs d) -> In t (en_moves e) -> trial_ok is01 s0 t).

(** Whatever happens, the searches start from visited solutions, and there are at
    most so many rounds. *)
Definition orderly (limit : Z) (r : run) : Prop :=
  (forall y, In y (rn_starts r) -> In y (visited r)) /\ (0 <= rn_rounds r <= Z.max 0 limit)%Z.
(** The answer: within the bounds, one variable per selection at 1, fixed variables
    untouched, dependent variables computed; a visited solution, with its objective,
    violation and feasibility; the best one. *)
Definition right_answer (p : problem) (s0 : mstate) (r : run) (a : answer) : Prop :=
  let md := ms_model s0 in
  valid_start (pb_n p) (placed p (an_x a)) (pb_sels p) /\
  (forall v, ms_fixed s0 v = true -> an_x a v = ms_x s0 v) /\
  (forall d i q, In (d, i) (ms_deps s0) -> nth_error (ms_exprs s0) i = Some q -> NoDup (map fst (ms_deps s0)) -> an_x a d = Qtrunc (e_eval (fst (fst q)) (an_x a))) /\
  (exists y, In y (visited r) /\ forall v, an_x a v = y v) /\
  (md_defined md = true -> an_objective a == e_eval (md_obj md) (an_x a)) /\
  an_violation a == total_viol (md_cons md) (an_x a) /\
  (an_feasible a = true <-> satisfies md (an_x a)) /\
  (an_feasible a = true <-> exists y, In y (visited r) /\ satisfies md y) /\
  (an_feasible a = true -> forall y, In y (visited r) -> satisfies md y -> value md (an_x a) <= value md y + EPS) /\
  (an_feasible a = false -> forall y, In y (visited r) -> augmented md (an_x a) <= augmented md y + EPS).

(** Sensible options, coefficients within the initial coefficient at the beginning. *)
Definition well_priced (lg : Z -> Q) (root : Q -> Q) (o : copt) (s0 : mstate) : Prop :=
  sensible o /\ log_like lg /\ root_like root /\ 0 <= md_gpen (ms_model s0) <= co_initial o /\
  Forall (priced_within (co_initial o)) (md_cons (ms_model s0)).
(** A visited solution that violates only constraints never counted as violated. *)
Definition unpriceable (s0 : mstate) (r : run) : Prop := exists y, In y (visited r) /\ ~ satisfies (ms_model s0) y /\
  (exists c, In c (md_cons (ms_model s0)) /\ EPS < viol c y) /\
  forall i c, nth_error (md_cons (ms_model s0)) i = Some c -> 0 < viol c y -> mm_vcount (rn_mem r) i = 0%Z.

(** The value n is allowed for the variable v: in {0, 1}, within the bounds, or, in a
    selection, the initial value. *)
Definition allowed (p : problem) (s0 : mstate) (v : nat) (n : Z) : Prop :=
  ((v < pb_n p)%nat -> va_sense (pb_vars p v) = VBinary -> n = 0 \/ n = 1)%Z /\
  ((v < pb_n p)%nat -> va_sense (pb_vars p v) = VInteger -> (va_lower (pb_vars p v) <= n <= va_upper (pb_vars p v))%Z) /\
  ((exists s, In s (pb_sels p) /\ In v (SelectionModel.sl_vars s)) -> n = ms_x s0 v).
(** A move and the target of the step-size adjuster. *)
Definition move_allowed (p : problem) (s0 : mstate) (t : tmove) (target : nat -> Z) : Prop :=
  (forall v n, In (v, n) (tm_alts t) -> allowed p s0 v n) /\ (tm_integer t = true -> forall v n k, In (v, n) (tm_alts t) -> allowed p s0 v (target k)).
(** The initial solution is valid and no phase is offered anything outside. *)
Definition stays_inside (p : problem) (s0 : mstate) (a : inputs) : Prop :=
  valid_start (pb_n p) (placed p (ms_x s0)) (pb_sels p) /\
  (forall d, In d (map fst (ms_deps s0)) -> va_sense (pb_vars p d) <> VBinary /\ va_sense (pb_vars p d) <> VInteger /\ forall s, In s (pb_sels p) -> ~ In d (SelectionModel.sl_vars s)) /\
  (forall g v, in_lagrange a = Some g -> gg_applicable g = true -> In v (gg_vars g) -> allowed p s0 v (gg_lo g v) /\ allowed p s0 v (gg_hi g v)) /\
  (forall g e t, in_local a = Some g -> In e (gc_envs g) -> In t (se_moves e) -> move_allowed p s0 t (se_target e)) /\
  (forall d, In d (in_rounds a) -> (forall t v n, In t (map fst (td_mods d)) -> In (v, n) (tm_alts t) -> allowed p s0 v n) /\
     forall e t, In e (td_envs d) -> In t (en_moves e) -> move_allowed p s0 t (fun _ => en_target e)).

(** v beats the incumbent objective o by more than the tolerance (None: no incumbent). *)
Definition better (v : Q) (o : option Q) : Prop := match o with None => True | Some q => (v + EPS < q)%Q end.
(** The most solutions the given rounds can visit: the start, the initial
    modifications and one per iteration. *)
Fixpoint most (o : copt) (ds : list tround) : Z :=
  match ds with [] => 0%Z | d :: tl => (1 + Z.of_nat (length (td_mods d)) + Z.max 0 (Z.max (co_tenure o) (co_iteration_max o)) + most o tl)%Z end.
(** The state in which the rounds end. *)
Definition reached (out : outcome run) : run := match out with Done r => r | Rejected r _ => r | NotANumber r => r end.
