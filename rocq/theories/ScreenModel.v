(** Improvability flags of the variables, the screening modes that use them, the
    termination test built on them and the naive dual bound (model/model.h,
    solver/tabu_search/core/tabu_search_core.h,
    solver/local_search/core/local_search_core.h). *)
From Coq Require Import List ZArith QArith Qabs Bool.
From Verif Require Import ExprModel ConstraintModel EvalModel VariableModel PresolveModel MoveModel.
Import ListNotations.
Local Open Scope Q_scope.

Definition set_flag (f : nat -> bool) (v : nat) (b : bool) : nat -> bool := fun w => if Nat.eqb w v then b else f w.

(** What the searches see: the model, the bounds of the variables, the
    improvability flags and previous_is_feasible().  Margins are read as
    value > lower bound and value < upper bound: every setter refreshes them
    (variable.h:160-187,400-403; C16). *)
Record sstate := mkSs {
  ss_ms : mstate; ss_lo : nat -> Z; ss_hi : nat -> Z;
  ss_obj : nat -> bool; ss_feas : nat -> bool; ss_prev : bool }.
Definition lower_margin (s : sstate) (v : nat) : bool := (ss_lo s v <? ms_x (ss_ms s) v)%Z.
Definition upper_margin (s : sstate) (v : nat) : bool := (ms_x (ss_ms s) v <? ss_hi s v)%Z.
Definition with_obj (s : sstate) (f : nat -> bool) : sstate := mkSs (ss_ms s) (ss_lo s) (ss_hi s) f (ss_feas s) (ss_prev s).
Definition with_feas (s : sstate) (f : nat -> bool) : sstate := mkSs (ss_ms s) (ss_lo s) (ss_hi s) (ss_obj s) f (ss_prev s).

Definition qpos (q : Q) : bool := if Qlt_le_dec 0 q then true else false.
Definition qneg (q : Q) : bool := if Qlt_le_dec q 0 then true else false.

(** setup_variable_objective_sensitivities (model.h:971-975): the coefficient in
    the objective; variables outside it keep 0. *)
Definition objective_sensitivity (s : sstate) (v : nat) : Q :=
  match sens_find (ex_sens (md_obj (ms_model (ss_ms s)))) v with Some a => a | None => 0 end.

(** update_variable_objective_improvabilities (model.h:2516-2535); md_sign is 1
    under _PRINTEMPS_MPS_SOLVER. *)
Definition objective_improvable (s : sstate) (v : nat) : bool :=
  let a := objective_sensitivity s v * md_sign (ms_model (ss_ms s)) in
  (qpos a && lower_margin s v) || (qneg a && upper_margin s v).
Definition update_objective_flags (s : sstate) (l : list nat) : sstate :=
  with_obj s (fold_left (fun f v => set_flag f v (objective_improvable s v)) l (ss_obj s)).

(** Positive and negative coefficient mutable variables
    (expression.h:211-229). *)
Definition positive_vars (s : sstate) (c : constr) : list nat :=
  map fst (filter (fun p => negb (ms_fixed (ss_ms s) (fst p)) && qpos (snd p)) (ex_sens (ct_expr c))).
Definition negative_vars (s : sstate) (c : constr) : list nat :=
  map fst (filter (fun p => negb (ms_fixed (ss_ms s) (fst p)) && negb (qpos (snd p))) (ex_sens (ct_expr c))).

(** set_is_feasibility_improvable_if_has_*_bound_margin (variable.h:378-387). *)
Definition raise_flags (margin : nat -> bool) (l : list nat) (f : nat -> bool) : nat -> bool :=
  fold_left (fun f v => set_flag f v (f v || margin v)) l f.

(** update_variable_feasibility_improvabilities(list) (model.h:2545-2583). *)
Definition update_feasibility_step (s : sstate) (f : nat -> bool) (c : constr) : nat -> bool :=
  if c_is_feasible c then f
  else if negb (ct_enabled c) then f
  else if qpos (ct_value c)
  then raise_flags (upper_margin s) (negative_vars s c) (raise_flags (lower_margin s) (positive_vars s c) f)
  else raise_flags (upper_margin s) (positive_vars s c) (raise_flags (lower_margin s) (negative_vars s c) f).
Definition pick (s : sstate) (l : list nat) : list constr :=
  flat_map (fun i => match nth_error (md_cons (ms_model (ss_ms s))) i with Some c => [c] | None => [] end) l.
Definition update_feasibility_flags (s : sstate) (l : list nat) : sstate :=
  with_feas s (fold_left (update_feasibility_step s) (pick s l) (ss_feas s)).
(** enabled_constraint_ptrs. *)
Definition enabled_indices (s : sstate) : list nat :=
  map fst (filter (fun ic => ct_enabled (snd ic)) (combine (seq 0 (length (md_cons (ms_model (ss_ms s))))) (md_cons (ms_model (ss_ms s))))).

(** reset_variable_feasibility_improvabilities() and (list)
    (model.h:2479-2507). *)
Definition reset_all_feasibility (s : sstate) : sstate := with_feas s (fun _ => false).
Definition reset_feasibility (s : sstate) (l : list nat) : sstate :=
  with_feas s (fold_left (fun f c => if ct_enabled c then fold_left (fun f p => set_flag f (fst p) false) (ex_sens (ct_expr c)) f else f)
                         (pick s l) (ss_feas s)).

(** improvability_screening_mode. *)
Inductive mode := ScreenOff | Soft | Aggressive | Intensive | Local.

(** update_moves of the tabu search (tabu_search_core.h:347-460) and, as mode
    [Local], of the local search (local_search_core.h:174-215): the new flags and
    accept_all, accept_objective_improvable, accept_feasibility_improvable.
    [last]: alterations and related constraints of the current move; [None] in
    iteration 0.  [mutables]: mutable_variable_ptrs. *)
Definition screen (md : mode) (mutables : list nat) (last : option (alterations * list nat)) (s : sstate)
  : sstate * (bool * bool * bool) :=
  match md with
  | ScreenOff => (s, (true, true, true))
  | _ =>
      let s1 := update_objective_flags s (match last with None => mutables | Some ml => map fst (fst ml) end) in
      if ms_feasible (ss_ms s) then (s1, (false, true, false))
      else
        let violatives := ms_violative (ss_ms s) in
        match md with
        | Soft => (update_feasibility_flags (reset_all_feasibility s1) violatives, (false, true, true))
        | Aggressive =>
            (match last with
             | Some ml => if ss_prev s then update_feasibility_flags (reset_all_feasibility s1) violatives
                          else update_feasibility_flags (reset_feasibility s1 (snd ml)) violatives
             | None => update_feasibility_flags (reset_all_feasibility s1) violatives
             end, (false, false, true))
        | Intensive =>
            (match last with
             | None => update_feasibility_flags (reset_all_feasibility s1) (enabled_indices s1)
             | Some ml => update_feasibility_flags (reset_feasibility s1 (snd ml)) (snd ml)
             end, (false, false, true))
        | _ => (update_feasibility_flags (reset_all_feasibility s1) (enabled_indices s1), (false, false, true))
        end
  end.

(** update(move) (model.h:2417-2460), which also shifts previous_is_feasible
    (2585-2590). *)
Definition advance (s : sstate) (ml : alterations * list nat) : sstate :=
  mkSs (ms_update_move (ss_ms s) (fst ml) (snd ml)) (ss_lo s) (ss_hi s) (ss_obj s) (ss_feas s) (ms_feasible (ss_ms s)).

(** The state and acceptance after update_moves of the iteration that follows the
    moves [ms]. *)
Definition search (md : mode) (mutables : list nat) (s0 : sstate) (ms : list (alterations * list nat)) : sstate * (bool * bool * bool) :=
  fold_left (fun r ml => screen md mutables (Some ml) (advance (fst r) ml)) ms (screen md mutables None s0).

(** preprocess (tabu_search_core.h:64-77): update() and reset of the flags. *)
Definition preprocess (ms : mstate) (lo hi : nat -> Z) : sstate :=
  mkSs (ms_update ms) lo hi (fun _ => false) (fun _ => false) (ms_feasible ms).

(** The variables as the move generators see them. *)
Definition seen (s : sstate) (sense : nat -> vsense) (v : nat) : var :=
  v_margin (mkVar (ms_x (ss_ms s) v) (ss_lo s v) (ss_hi s v) true (ms_fixed (ss_ms s) v) (sense v) true true).
Definition acceptance (r : sstate * (bool * bool * bool)) : accept :=
  let '(a, o, f) := snd r in mkAccept a o f (ss_obj (fst r)) (ss_feas (fst r)).

(** satisfy_optimal_or_no_move_terminate_condition (tabu_search_core.h:148-190;
    the local search has no gap test, local_search_core.h:130-160: gap = None).
    [gap]: feasible incumbent objective (None: infinite) and dual bound;
    [variables]: variable_ptrs.  [None]: the loop goes on. *)
Inductive status := Optimal | NoMove.
Definition optimal_or_no_move (gap : option (option Q * Q)) (number_of_moves : Z) (variables : list nat) (s : sstate) : option status :=
  if (0 <? number_of_moves)%Z then
    match gap with
    | Some (Some f, d) => if Qlt_le_dec (Qabs (f - d)) EPS then Some Optimal else None
    | _ => None
    end
  else if ms_feasible (ss_ms s)
  then Some (if existsb (ss_obj s) variables then NoMove else Optimal)
  else Some NoMove.

(** curtail_moves (tabu_search_core.h:476-480). *)
Definition curtail (rate : Q) (size : Z) : Z := Qround.Qfloor (rate * inject_Z size).

(** compute_naive_dual_bound (model.h:3041-3063). *)
Definition naive_dual_bound (minimize : bool) (obj : expr) (vs : vars) : Q :=
  fold_left (fun acc p =>
    if va_fixed (vs (fst p)) then acc + inject_Z (va_value (vs (fst p))) * snd p
    else if Bool.eqb minimize (qpos (snd p)) then acc + inject_Z (va_lower (vs (fst p))) * snd p
    else acc + inject_Z (va_upper (vs (fst p))) * snd p)
    (ex_sens obj) (ex_const obj).
