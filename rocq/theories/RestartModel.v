(** The restarts of the PDLP solver: solver/pdlp/core/pdlp_core_state_manager.h and
    pdlp_core.h.  The rest of the core is in LpModel.  [nrm] is the Euclidean norm and
    [sq] the square root. *)
From Coq Require Import List ZArith QArith Qabs Bool.
From Verif Require Import ExprModel ConstraintModel VariableModel PresolveModel DuplicateModel SparseModel LpModel.
Import ListNotations.
Local Open Scope Q_scope.

(** Values of type double that are compared: the gaps. *)
Inductive dbl := Fin (q : Q) | PInf | NInf | NaN.
Definition d_lt (a b : dbl) : bool :=
  match a, b with
  | NaN, _ | _, NaN => false
  | Fin a, Fin b => if Qlt_le_dec a b then true else false
  | NInf, NInf | PInf, _ | _, NInf => false
  | _, _ => true
  end.
Definition d_mul (q : Q) (d : dbl) : dbl :=
  match d with
  | Fin x => Fin (q * x)
  | NaN => NaN
  | PInf => if Qlt_le_dec 0 q then PInf else if Qlt_le_dec q 0 then NInf else NaN
  | NInf => if Qlt_le_dec 0 q then NInf else if Qlt_le_dec q 0 then PInf else NaN
  end.
(** std::numeric_limits<double>::max(). *)
Definition DBL_MAX : dbl := Fin (inject_Z (2 ^ 1024 - 2 ^ 971)).

(** The thresholds of the restarts (option/pdlp_option.h:38-41). *)
Record roption := mkRo { ro_base : poption; ro_sufficient : Q; ro_necessary : Q; ro_artificial : Q }.
(** What one iteration depends on: the clock, the number of trials as in LpModel, and
    the gaps of the averaged and of the current solution in case their distance to the
    baseline is 0 (a division by zero). *)
Record renv := mkRe { re_time_over : bool; re_trials : nat; re_average : dbl; re_current : dbl }.
(** PDLPCoreState (pdlp_core_state.h): the core with the baseline and the gaps of the
    current and previous outer and inner loop. *)
Record rstate := mkRs { rs_core : core; rs_bx : vec; rs_by : vec; rs_outer : dbl; rs_outer_prev : dbl; rs_inner : dbl; rs_inner_prev : dbl }.

Section Restart.
  Variable nrm : vec -> Q.
  Variables red ext : nat -> Q.
  Variable sq : Q -> Q.

  (** utility::sparse::distance (utility/sparse/function.h:11-21). *)
  Definition distance (a b : vec) : Q := nrm (lin2 1 a (-(1)) b).
  (** compute_weighted_norm (pdlp_core_state_manager.h:150-175), of two vectors and of two differences. *)
  Definition weighted (w p d : Q) : Q := sq (w * p * p + 1 / w * d * d).
  (** compute_normalized_gap (pdlp_core_state_manager.h:178-262).  A bound [None] is DBL_MAX: no multiplier reaches it.
      Both tests of a multiplier look at its upper bound (217, 222). *)
  Definition primal_direction (l : lp) (w : Q) (x lx : vec) : vec :=
    map (fun p => let '(x, g, lo, hi) := p in
      if LpModel.le hi x && LpModel.le g 0 then 0 else if LpModel.le x lo && LpModel.le 0 g then 0 else - g * w)
      (combine (combine (combine x lx) (lp_lo l)) (lp_hi l)).
  Definition dual_direction (l : lp) (w : Q) (y ly : vec) : vec :=
    map (fun p => let '(y, g, hi) := p in
      if (match hi with Some h => LpModel.le h y | None => false end) && LpModel.le g 0 then 0
      else if (match hi with Some h => LpModel.le y h | None => true end) && LpModel.le 0 g then 0 else g / w)
      (combine (combine y ly) (lp_dhi l)).
  Definition normalized_gap (l : lp) (w : Q) (x y : vec) (radius : Q) (odd : dbl) : dbl :=
    let dx := primal_direction l w x (m_lin2 (-(1)) (lp_At l) y 1 (lp_c l)) in
    let dy := dual_direction l w y (m_lin2 (-(1)) (lp_A l) x 1 (lp_b l)) in
    let n := weighted w (nrm dx) (nrm dy) in
    if Qlt_le_dec n EPS10 then Fin 0
    else if Qeq_dec radius 0 then odd
    else
      let dx := map (fun q => q / (n * radius)) dx in
      let dy := map (fun q => q / (n * radius)) dy in
      let xt := lin2 1 x 1 dx in
      let yt := lin2 1 y 1 dy in
      Fin ((- inner (lp_c l) dx + inner (lp_b l) dy - inner x (m_mul (lp_At l) yt) + inner y (m_mul (lp_A l) xt)) / radius).

  (** update_restart_information (pdlp_core_state_manager.h:365-434); [Some true]: restart from the current solution,
      [Some false]: from the averaged one, [None]: no restart. *)
  Definition information (o : roption) (l : lp) (e : renv) (s : rstate) : rstate * option bool :=
    let k := rs_core s in
    if Nat.leb (k_inner k) 1 then (s, None)
    else if negb (Nat.eqb (k_total k mod po_restart (ro_base o)) O) then (s, None)
    else
      let w := k_weight k in
      let ra := weighted w (distance (k_xa k) (rs_bx s)) (distance (k_ya k) (rs_by s)) in
      let rc := weighted w (distance (k_x k) (rs_bx s)) (distance (k_y k) (rs_by s)) in
      let ga := normalized_gap l w (k_xa k) (k_ya k) ra (re_average e) in
      let gc := normalized_gap l w (k_x k) (k_y k) rc (re_current e) in
      let current := d_lt gc ga in
      let gap := if current then gc else ga in
      let s' := mkRs k (rs_bx s) (rs_by s) (rs_outer s) (rs_outer_prev s) gap (rs_inner s) in
      let later := negb (Nat.eqb (k_outer k) O) in
      if later && d_lt gap (d_mul (ro_sufficient o) (rs_outer_prev s)) then (s', Some current)
      else if later && d_lt gap (d_mul (ro_necessary o) (rs_outer_prev s)) && d_lt (rs_inner s) gap then (s', Some current)
      else if Qlt_le_dec (ro_artificial o * inject_Z (Z.of_nat (k_total k))) (inject_Z (Z.of_nat (k_inner k))) then (s', Some current)
      else (s', None).
  (** update_primal_weight (pdlp_core_state_manager.h:449-463): exp(0.5 log a + 0.5 log b) is the square root of a b. *)
  Definition new_weight (s : rstate) (k : core) : Q :=
    let p := distance (k_xa k) (rs_bx s) in
    let d := distance (k_ya k) (rs_by s) in
    if Qlt_le_dec EPS p then if Qlt_le_dec EPS d then if Qlt_le_dec p (1 / EPS) then if Qlt_le_dec d (1 / EPS) then sq (d / p * k_weight k)
    else k_weight k else k_weight k else k_weight k else k_weight k.
  (** setup_new_inner_loop (pdlp_core_state_manager.h:121-147): the core is [LpModel.new_inner]. *)
  Definition r_new_inner (l : lp) (s : rstate) (k : core) : rstate :=
    mkRs (new_inner l k) (k_x k) (k_y k) (rs_inner s) (rs_outer s) DBL_MAX DBL_MAX.
  (** One iteration (pdlp_core.h:362-391). *)
  Definition r_iterate (o : roption) (l : lp) (e : renv) (s : rstate) : option rstate :=
    match update_solution red ext (re_trials e) l (rs_core s) with
    | None => None
    | Some k =>
        let k := update_averaged k in
        let s := mkRs k (rs_bx s) (rs_by s) (rs_outer s) (rs_outer_prev s) (rs_inner s) (rs_inner_prev s) in
        let '(s, again) := if Nat.eqb (k_total k mod po_restart (ro_base o)) O then information o l e s else (s, None) in
        let k := if Nat.eqb (k_total k mod po_check (ro_base o)) O || Nat.eqb (k_total k mod po_log (ro_base o)) O then check nrm l k else k in
        let s := match again with
                 | Some current => r_new_inner l s (restart current (new_weight s k) k)
                 | None => mkRs (count k (S (k_inner k)) (k_total k)) (rs_bx s) (rs_by s) (rs_outer s) (rs_outer_prev s) (rs_inner s) (rs_inner_prev s)
                 end in
        let k := rs_core s in
        Some (mkRs (count k (k_inner k) (S (k_total k))) (rs_bx s) (rs_by s) (rs_outer s) (rs_outer_prev s) (rs_inner s) (rs_inner_prev s))
    end.
  (** run (pdlp_core.h:276-397).  [None]: [envs] or the trials ran out. *)
  Fixpoint r_loop (o : roption) (l : lp) (envs : list renv) (s : rstate) : option (rstate * pstatus) :=
    match envs with
    | [] => None
    | e :: tl =>
        match stops (ro_base o) l (re_time_over e) (rs_core s) with
        | Some t => Some (s, t)
        | None => match r_iterate o l e s with None => None | Some s => r_loop o l tl s end
        end
    end.
  (** The state before the loop (pdlp_core.h:288-314). *)
  Definition r_start (l : lp) : outcome rstate :=
    bind (core_setup nrm l) (fun k => let k := check nrm l k in
      Ok (mkRs (reset_iteration (new_inner l k)) (k_x k) (k_y k) DBL_MAX DBL_MAX DBL_MAX DBL_MAX)).
  Definition r_run (o : roption) (l : lp) (envs : list renv) : outcome (option (rstate * pstatus)) :=
    bind (r_start l) (fun s => Ok (r_loop o l envs s)).
  (** PDLPController::run (pdlp_controller.h:127-224), as in LpModel. *)
  Definition r_pdlp (o : roption) (envs : list renv) (late : bool) (minimize : bool) (obj : expr) (vs : vars) (order fixed : list nat)
      (less sels equals greater : list constr) : outcome presult :=
    if forallb (fun v => va_fixed (vs v)) order || late then Ok Skipped
    else bind (export minimize obj vs order fixed less sels equals greater) (fun l =>
      if Nat.leb (lp_cols l) 1 || Nat.leb (lp_rows l) 1 then Ok Skipped
      else bind (lp_scaling sq (po_ruiz (ro_base o)) (po_pock (ro_base o)) l) (fun l' =>
      bind (r_run o l' envs) (fun r =>
      match r with
      | None => Ok Unfinished
      | Some (s, t) => let k := rs_core s in
          Ok (Ran k t (if Qlt_le_dec (k_dviol k) (po_tolerance (ro_base o)) then Some (if minimize then k_dobj k else - k_dobj k) else None))
      end))).
End Restart.
