(** The linear relaxation and the PDLP solver: model.h export_lp_instance,
    linear_programming/linear_programming.h, solver/pdlp/*.  Numbers are rationals.
    [nrm] is the Euclidean norm of a vector and [sq] the square root: any functions with
    the properties the theorems ask for.  Printing is left out. *)
From Coq Require Import List ZArith QArith Qabs Bool.
From Verif Require Import ExprModel ConstraintModel VariableModel PresolveModel DuplicateModel SparseModel.
Import ListNotations.
Local Open Scope Q_scope.

(** LinearProgramming (linear_programming.h:11-36).  Bounds of DBL_MAX are [None]. *)
Record lp := mkLp {
  lp_rows : nat; lp_cols : nat; lp_offset : Q;
  lp_c : vec; lp_lo : vec; lp_hi : vec; lp_x0 : vec; lp_A : matrix;
  lp_lo_open : list bool; lp_hi_open : list bool;
  lp_b : vec; lp_dlo : list (option Q); lp_dhi : list (option Q); lp_y0 : vec; lp_At : matrix;
  lp_less : nat * nat; lp_greater : nat * nat }.

(** ** export_lp_instance (model.h:1387-1630) *)
(** BidirectionalMap::forward_at; inserted with 0, 1, 2, ... *)
Fixpoint position (l : list nat) (v : nat) : option nat :=
  match l with [] => None | w :: tl => if Nat.eqb w v then Some O else option_map S (position tl v) end.
(** The constant of a row and its coefficients (model.h:1522-1541, 1564-1604): fixed variables
    go into the constant, <= rows are negated; a variable without a column throws. *)
Definition row_constant (vs : vars) (c : constr) : Q :=
  fold_left (fun q p => if va_fixed (vs (fst p)) then q + inject_Z (va_value (vs (fst p))) * snd p else q) (ex_sens (ct_expr c)) (ex_const (ct_expr c)).
Definition row_sign (c : constr) (q : Q) : Q := match ct_sense c with Less => - q | _ => q end.
Fixpoint row_records (vs : vars) (cols : list nat) (c : constr) (s : sens) : outcome (list (nat * Q)) :=
  match s with
  | [] => Ok []
  | (v, a) :: tl =>
      if va_fixed (vs v) then row_records vs cols c tl
      else match position cols v with
           | None => Throw
           | Some j => bind (row_records vs cols c tl) (fun r => Ok ((j, row_sign c a) :: r))
           end
  end.
Definition row_sorted (vs : vars) (cols : list nat) (c : constr) : outcome (list (nat * Q)) :=
  bind (row_records vs cols c (ex_sens (ct_expr c))) (fun r => Ok (stable_sort (fun a b => Nat.ltb (fst a) (fst b)) r)).
Fixpoint all_records (vs : vars) (cols : list nat) (i : nat) (rows : list constr) : outcome (list (nat * nat * Q)) :=
  match rows with
  | [] => Ok []
  | c :: tl => bind (row_sorted vs cols c) (fun r => bind (all_records vs cols (S i) tl) (fun rest =>
                 Ok (map (fun p => (i, fst p, snd p)) r ++ rest)))
  end.
(** INT_HALF_MIN >> 1 and INT_HALF_MAX >> 1 (model.h:1500-1505). *)
Definition FLAG_LOW : Z := Z.shiftr INT_HALF_MIN 1.
Definition FLAG_HIGH : Z := Z.shiftr INT_HALF_MAX 1.
Definition enabled (b : bool) (cs : list constr) : list constr := filter (fun c => Bool.eqb (ct_enabled c) b) cs.
(** [order]: the binary, integer and selection variables in this order; [fixed]: the
    fixed variables; [less], [equals], [greater]: the constraints by sense; [sels]: the
    constraints of the selections.  The objective sensitivity of a variable is its
    coefficient in the objective (set by the preparation of the model). *)
Definition export (minimize : bool) (obj : expr) (vs : vars) (order fixed : list nat) (less sels equals greater : list constr) : outcome lp :=
  let cols := filter (fun v => negb (va_fixed (vs v))) order in
  let ls := enabled true less in
  let es := enabled false sels ++ enabled true equals in
  let gs := enabled true greater in
  let rows := ls ++ es ++ gs in
  let offset := fold_left (fun q v => q + inject_Z (va_value (vs v)) * coef (ex_sens obj) v) fixed 0 in
  let lo := map (fun v => inject_Z (va_lower (vs v))) cols in
  let hi := map (fun v => inject_Z (va_upper (vs v))) cols in
  let c := map (fun v => coef (ex_sens obj) v) cols in
  bind (all_records vs cols O rows) (fun ts =>
  bind (m_setup [] (map snd ts) (map (fun t => fst (fst t)) ts) (map (fun t => snd (fst t)) ts) (length rows) (length cols)) (fun m =>
  bind (m_transpose m) (fun mt =>
  Ok (mkLp (length rows) (length cols) (if minimize then offset else offset * (-(1)))
        (if minimize then c else map (fun q => q * (-(1))) c) lo hi
        (clamp (map (fun v => inject_Z (va_value (vs v))) cols) (map Some lo) (map Some hi)) m
        (map (fun v => Z.ltb (va_lower (vs v)) FLAG_LOW) cols) (map (fun v => Z.ltb FLAG_HIGH (va_upper (vs v))) cols)
        (map (fun k => - row_sign k (row_constant vs k)) rows)
        (repeat (Some 0) (length ls) ++ repeat None (length es) ++ repeat (Some 0) (length gs)) (repeat None (length rows))
        (repeat 0 (length rows)) mt
        (O, length ls) ((length ls + length es)%nat, length rows))))).

(** scaling (linear_programming.h:73-106); scaling a bound of DBL_MAX leaves it
    unbounded. *)
Definition scale_opt (d : vec) (v : list (option Q)) : list (option Q) := map (fun p => option_map (fun q => q * snd p) (fst p)) (combine v d).
Definition lp_scaling (sq : Q -> Q) (k : nat) (pc : bool) (l : lp) : outcome lp :=
  bind (ruiz sq k (lp_A l)) (fun m1 =>
  bind (if pc then pock_chambolle sq m1 else Ok m1) (fun m =>
  bind (m_transpose m) (fun mt =>
  let r := mt_row_scaler m in
  let c := mt_col_scaler m in
  Ok (mkLp (lp_rows l) (lp_cols l) (lp_offset l) (scale (inverse c) (lp_c l)) (scale c (lp_lo l)) (scale c (lp_hi l)) (scale c (lp_x0 l)) m
        (lp_lo_open l) (lp_hi_open l) (scale (inverse r) (lp_b l)) (scale_opt r (lp_dlo l)) (scale_opt r (lp_dhi l)) (scale r (lp_y0 l)) mt
        (lp_less l) (lp_greater l))))).

(** ** The core (pdlp_core.h, pdlp_core_state.h, pdlp_core_state_manager.h) *)
Inductive pstatus := TIME_OVER | ITERATION_OVER | OPTIMAL | INFEASIBLE.
(** [xa], [ya]: the averaged solutions; [xb], [yb]: the baselines; [rc]: the reduced
    costs.  Baselines and normalized gaps only steer the restarts, which are inputs. *)
Record core := mkCore {
  k_x : vec; k_y : vec; k_xa : vec; k_ya : vec;
  k_step : Q; k_prev : Q; k_sum : Q; k_weight : Q;
  k_attempts : nat; k_inner : nat; k_outer : nat; k_total : nat;
  k_rc : vec; k_pobj : Q; k_dobj : Q; k_pviol : Q; k_dviol : Q; k_gap : Q }.
Record poption := mkPo {
  po_iteration_max : nat; po_tolerance : Q; po_restart : nat; po_check : nat; po_log : nat; po_ruiz : nat; po_pock : bool }.
(** What one iteration depends on: the clock; how many trials the search of the step
    size may make in the model; the decision to restart (from the current or from the
    averaged solution) and the new primal weight. *)
Record penv := mkPe { pe_time_over : bool; pe_trials : nat; pe_restart : option bool; pe_weight : Q }.

Section Core.
  Variable nrm : vec -> Q.
  (** pow(k + 1, step_size_reduce_exponent), pow(k + 1, step_size_extend_exponent). *)
  Variables red ext : nat -> Q.

  (** The bounds of the objective (setup, pdlp_core_state_manager.h:58-75). *)
  Definition objective_upper (l : lp) : Q :=
    fold_left (fun q p => q + fst p * (if Qlt_le_dec 0 (fst p) then snd (snd p) else fst (snd p))) (combine (lp_c l) (combine (lp_lo l) (lp_hi l))) 0.

  (** update_objective (pdlp_core_state_manager.h:473-514). *)
  Definition clip (hi_open lo_open : bool) (r : Q) : Q :=
    let r := if hi_open then qmax r 0 else r in if lo_open then qmin r 0 else r.
  Definition reduced (l : lp) (ya : vec) : vec :=
    map (fun p => clip (snd (snd p)) (fst (snd p)) (fst p)) (combine (m_lin2 (-(1)) (lp_At l) ya 1 (lp_c l)) (combine (lp_lo_open l) (lp_hi_open l))).
  Definition reduced_cost (l : lp) (rc : vec) : Q :=
    fold_left (fun q p => q + fst p * (if Qlt_le_dec 0 (fst p) then fst (snd p) else snd (snd p))) (combine rc (combine (lp_lo l) (lp_hi l))) 0.
  (** update_violation (pdlp_core_state_manager.h:517-557). *)
  Definition clip_rows (l : lp) (v : vec) : vec :=
    map (fun p => let i := fst p in
      if (Nat.leb (fst (lp_less l)) i && Nat.ltb i (snd (lp_less l))) || (Nat.leb (fst (lp_greater l)) i && Nat.ltb i (snd (lp_greater l)))
      then qmax (snd p) 0 else snd p) (combine (seq 0 (length v)) v).
  (** update_convergence_information (pdlp_core_state_manager.h:466-470) with update_gap (560-566). *)
  Definition check (l : lp) (k : core) : core :=
    let rc := reduced l (k_ya k) in
    let pobj := inner (k_xa k) (lp_c l) + lp_offset l in
    let dobj := inner (k_ya k) (lp_b l) + reduced_cost l rc + lp_offset l in
    let pviol := nrm (clip_rows l (m_lin2 (-(1)) (lp_A l) (k_xa k) 1 (lp_b l))) / (1 + nrm (lp_b l)) in
    let dviol := nrm (m_lin3 (-(1)) (lp_At l) (k_ya k) 1 (lp_c l) (-(1)) rc) / (1 + nrm (lp_c l)) in
    let gap := Qabs (pobj - dobj) / (1 + Qabs dobj + Qabs pobj) in
    mkCore (k_x k) (k_y k) (k_xa k) (k_ya k) (k_step k) (k_prev k) (k_sum k) (k_weight k) (k_attempts k) (k_inner k) (k_outer k) (k_total k)
      rc pobj dobj pviol dviol gap.

  (** setup (pdlp_core_state_manager.h:39-95), setup_initial_step_size, setup_initial_primal_weight (98-118).
      [UB]: all coefficients are zero, and the step size is infinite. *)
  Definition core_setup (l : lp) : outcome core :=
    if Qlt_le_dec 0 (mt_infty (lp_A l)) then
      let step := 1 / mt_infty (lp_A l) in
      let w := if Qlt_le_dec EPS (nrm (lp_c l)) then if Qlt_le_dec EPS (nrm (lp_b l)) then nrm (lp_c l) / nrm (lp_b l) else 1 else 1 in
      Ok (mkCore (lp_x0 l) (lp_y0 l) (lp_x0 l) (lp_y0 l) step step 0 w O O O O [] 0 0 0 0 0)
    else UB.
  (** setup_new_inner_loop (pdlp_core_state_manager.h:121-147). *)
  Definition new_inner (l : lp) (k : core) : core :=
    let first := Nat.eqb (k_outer k) O in
    mkCore (k_x k) (k_y k) (if first then repeat 0 (lp_cols l) else k_x k) (if first then repeat 0 (lp_rows l) else k_y k)
      (k_step k) (k_prev k) (if first then 0 else 1) (k_weight k) (k_attempts k) O (S (k_outer k)) (k_total k)
      (k_rc k) (k_pobj k) (k_dobj k) (k_pviol k) (k_dviol k) (k_gap k).
  (** reset_iteration (pdlp_core_state_manager.h:585-589). *)
  Definition reset_iteration (k : core) : core :=
    mkCore (k_x k) (k_y k) (k_xa k) (k_ya k) (k_step k) (k_prev k) (k_sum k) (k_weight k) (k_attempts k) O O O
      (k_rc k) (k_pobj k) (k_dobj k) (k_pviol k) (k_dviol k) (k_gap k).

  (** One trial of update_solution (pdlp_core_state_manager.h:274-330): the trial point, and the limit of the step
      size, [None] for DBL_MAX.  MOVE * MOVE is computed without the square root. *)
  Definition trial (l : lp) (k : core) (lhs : vec) (t : Q) : vec * vec * option Q :=
    let ps := t / k_weight k in
    let x := clamp (lin3 1 (k_x k) (- ps) (lp_c l) ps lhs) (map Some (lp_lo l)) (map Some (lp_hi l)) in
    let ds := t * k_weight k in
    let y := clamp (lin3 1 (k_y k) ds (lp_b l) (- ds) (m_mul (lp_A l) (lin2 2 x (-(1)) (k_x k)))) (lp_dlo l) (lp_dhi l) in
    let dx := lin2 1 x (-(1)) (k_x k) in
    let dy := lin2 1 y (-(1)) (k_y k) in
    let interaction := Qabs (inner dy (m_mul (lp_A l) dx)) in
    (x, y, if Qlt_le_dec EPS interaction then Some ((1 # 2) * (k_weight k * square_sum dx + 1 / k_weight k * square_sum dy) / interaction) else None).
  (** The loop (pdlp_core_state_manager.h:264-349).  [None]: not finished after [trials] trials. *)
  Fixpoint step_loop (trials : nat) (l : lp) (k : core) (lhs : vec) (n : nat) (t : Q) : option core :=
    match trials with
    | O => None
    | S trials =>
        let n := S n in
        let '(x, y, limit) := trial l k lhs t in
        let longer := (1 + ext n) * t in
        let candidate := match limit with Some q => qmin ((1 - red n) * q) longer | None => longer end in
        if match limit with Some q => if Qlt_le_dec t q then true else false | None => true end
        then Some (mkCore x y (k_xa k) (k_ya k) candidate t (k_sum k) (k_weight k) n (k_inner k) (k_outer k) (k_total k)
                     (k_rc k) (k_pobj k) (k_dobj k) (k_pviol k) (k_dviol k) (k_gap k))
        else step_loop trials l k lhs n candidate
    end.
  Definition update_solution (trials : nat) (l : lp) (k : core) : option core :=
    step_loop trials l k (m_mul (lp_At l) (k_y k)) (k_attempts k) (k_step k).
  (** update_averaged_solution (pdlp_core_state_manager.h:352-362). *)
  Definition update_averaged (k : core) : core :=
    let sum := k_sum k + k_prev k in
    let rate := k_prev k / sum in
    mkCore (k_x k) (k_y k) (learn (k_xa k) (k_x k) rate) (learn (k_ya k) (k_y k) rate) (k_step k) (k_prev k) sum (k_weight k) (k_attempts k)
      (k_inner k) (k_outer k) (k_total k) (k_rc k) (k_pobj k) (k_dobj k) (k_pviol k) (k_dviol k) (k_gap k).
  (** update_restart_solution (pdlp_core_state_manager.h:442-446) with update_primal_weight (449-463). *)
  Definition restart (current : bool) (w : Q) (k : core) : core :=
    mkCore (if current then k_x k else k_xa k) (if current then k_y k else k_ya k) (k_xa k) (k_ya k) (k_step k) (k_prev k) (k_sum k) w (k_attempts k)
      (k_inner k) (k_outer k) (k_total k) (k_rc k) (k_pobj k) (k_dobj k) (k_pviol k) (k_dviol k) (k_gap k).
  Definition count (k : core) (inner total : nat) : core :=
    mkCore (k_x k) (k_y k) (k_xa k) (k_ya k) (k_step k) (k_prev k) (k_sum k) (k_weight k) (k_attempts k) inner (k_outer k) total
      (k_rc k) (k_pobj k) (k_dobj k) (k_pviol k) (k_dviol k) (k_gap k).

  (** The termination tests (pdlp_core.h:38-108) in their order. *)
  Definition le (a b : Q) : bool := if Qlt_le_dec b a then false else true.
  Definition stops (o : poption) (l : lp) (late : bool) (k : core) : option pstatus :=
    if late then Some TIME_OVER
    else if Nat.leb (po_iteration_max o) (k_total k) then Some ITERATION_OVER
    else if le (k_pviol k) (po_tolerance o) && le (k_dviol k) (po_tolerance o) && le (k_gap k) (po_tolerance o) then Some OPTIMAL
    else if le (k_dviol k) (po_tolerance o) && le (objective_upper l + qmax 1 (Qabs (objective_upper l) * EPS)) (k_dobj k) then Some INFEASIBLE
    else None.
  (** One iteration (pdlp_core.h:356-388). *)
  Definition restarts (o : poption) (e : penv) (k : core) : option bool :=
    if Nat.eqb (k_total k mod po_restart o) O && negb (Nat.leb (k_inner k) 1) then pe_restart e else None.
  Definition iterate (o : poption) (l : lp) (e : penv) (k : core) : option core :=
    match update_solution (pe_trials e) l k with
    | None => None
    | Some k =>
        let k := update_averaged k in
        let again := restarts o e k in
        let k := if Nat.eqb (k_total k mod po_check o) O || Nat.eqb (k_total k mod po_log o) O then check l k else k in
        let k := match again with
                 | Some current => new_inner l (restart current (pe_weight e) k)
                 | None => count k (S (k_inner k)) (k_total k)
                 end in
        Some (count k (k_inner k) (S (k_total k)))
    end.
  (** run (pdlp_core.h:276-397).  [None]: [envs] or the trials ran out. *)
  Fixpoint loop (o : poption) (l : lp) (envs : list penv) (k : core) : option (core * pstatus) :=
    match envs with
    | [] => None
    | e :: tl =>
        match stops o l (pe_time_over e) k with
        | Some s => Some (k, s)
        | None => match iterate o l e k with None => None | Some k => loop o l tl k end
        end
    end.
  Definition core_start (l : lp) : outcome core := bind (core_setup l) (fun k => Ok (reset_iteration (new_inner l (check l k)))).
  Definition core_run (o : poption) (l : lp) (envs : list penv) : outcome (option (core * pstatus)) :=
    bind (core_start l) (fun k => Ok (loop o l envs k)).

  (** ** PDLPController::run (pdlp_controller.h:127-224) *)
  (** What the controller has done: skipped, or run the core and perhaps offered a dual
      bound. *)
  Inductive presult := Skipped | Unfinished | Ran (k : core) (s : pstatus) (bound : option Q).
  Definition pdlp_run (sq : Q -> Q) (o : poption) (envs : list penv) (late : bool) (minimize : bool) (obj : expr) (vs : vars) (order fixed : list nat)
      (less sels equals greater : list constr) : outcome presult :=
    if forallb (fun v => va_fixed (vs v)) order || late then Ok Skipped
    else bind (export minimize obj vs order fixed less sels equals greater) (fun l =>
      if Nat.leb (lp_cols l) 1 || Nat.leb (lp_rows l) 1 then Ok Skipped
      else bind (lp_scaling sq (po_ruiz o) (po_pock o) l) (fun l' =>
      bind (core_run o l' envs) (fun r =>
      match r with
      | None => Ok Unfinished
      | Some (k, s) => Ok (Ran k s (if Qlt_le_dec (k_dviol k) (po_tolerance o) then Some (if minimize then k_dobj k else - k_dobj k) else None))
      end))).
End Core.
