(** One run of the tabu search (solver/tabu_search/core/tabu_search_core.h). *)
From Coq Require Import List ZArith QArith Qabs Bool.
From Verif Require Import ExprModel ConstraintModel EvalModel SolutionModel TabuModel.
Import ListNotations.
Local Open Scope Z_scope.

(** update_dependent_variables_and_disabled_constraints (model.h:2389-2414). *)
Definition ms_export (s : mstate) : mstate :=
  let md := ms_model s in
  let exprs := map (fun p : expr * bool * Q => (fst p, e_eval (fst (fst p)) (ms_x s))) (ms_exprs s) in
  let x := fold_left (fun y d => set_val y (fst d)
             (match nth_error exprs (snd d) with Some p => Qtrunc (snd p) | None => y (fst d) end))
             (ms_deps s) (ms_x s) in
  let cons := map (fun c => if ct_enabled c then c else c_update c x) (md_cons md) in
  mkMs (mkM (md_defined md) (md_sign md) (md_obj md) (md_obj_evalue md) (md_obj_value md) cons (md_gpen md))
    exprs (ms_deps s) x (ms_fixed s) (ms_user_defined s) (ms_violative s) (ms_feasible s).

(** What the flags of a Move (move.h:28-40) say about its alterations: one
    variable; two variables of a selection, with the related constraints of that
    selection; several. *)
Inductive tkind := KSingle (a : nat * Z) | KSelection (a0 a1 : nat * Z) (selection : list nat) | KMulti (m : alterations).
(** [tm_id] identifies the move; [tm_integer]: sense Integer; [tm_selection]: sense
    Selection. *)
Record tmove := mkTm { tm_kind : tkind; tm_related : list nat; tm_special : bool; tm_integer : bool; tm_selection : bool; tm_id : nat }.
Definition tm_alts (t : tmove) : alterations :=
  match tm_kind t with KSingle a => [a] | KSelection a b _ => [a; b] | KMulti m => m end.

(** The choice of the evaluator (tabu_search_core.h:958-981, 310-326).  The lists of
    constraint sensitivities are those of model.h:978-1003. *)
Definition eval_trial (fast : bool) (md : model) (x : nat -> Z) (cur : score) (t : tmove) : score :=
  if fast then
    match tm_kind t with
    | KSingle a => evaluate_single md x a (constraint_sensitivities (md_cons md) (fst a)) cur
    | KSelection a b related =>
        evaluate_selection md x a b (constraint_sensitivities (md_cons md) (fst a)) (constraint_sensitivities (md_cons md) (fst b)) related cur
    | KMulti m => evaluate_multi md x m (tm_related t) cur
    end
  else evaluate md x (tm_alts t).

(** The options read by the loop (option/tabu_search_option.h and others), and the
    number of mutable variables. *)
Record loptions := mkLo {
  lo_iteration_max : Z; lo_target : Q; lo_pruning : Q; lo_ignore_tabu : bool; lo_all : bool;
  lo_frequency : Q; lo_lagrangian : Q; lo_multiplier : nat -> Q; lo_randomize : Q; lo_inc : Z; lo_dec : Z;
  lo_fast : bool; lo_break : bool; lo_adjust : bool; lo_store : bool; lo_initial_tenure : Z; lo_nmut : Z }.

(** TabuSearchCoreTerminationStatus; [Undefined] is undefined behaviour. *)
Inductive lstatus := TimeOver | IterationOver | ReachTarget | EarlyStop | Optimal | NoMove | PenaltyTooLarge | Undefined.

(** The state of the loop.  [lp_visited] is not in the code: the solutions offered
    to the incumbent holder, with the scores attached to them. *)
Record loop := mkLp {
  lp_ms : mstate; lp_score : score; lp_previous : score; lp_holder : holder (nat -> Z); lp_mem : memory; lp_ten : tenure;
  lp_iteration : Z; lp_ineffective : Z; lp_used : list nat; lp_feasible : list (nat -> Z);
  lp_visited : list ((nat -> Z) * score) }.

(** try_update_incumbent with a model (incumbent_holder.h:118-184): the model is
    changed only if some incumbent is. *)
Definition l_offer (s : mstate) (h : holder (nat -> Z)) (sc : score) : mstate * holder (nat -> Z) * Z :=
  let '(h', st) := try_update h (ms_x (ms_export s)) sc in
  (if 0 <? st then ms_export s else s, h', st).

(** preprocess (tabu_search_core.h:36-77) and setup of the state manager
    (tabu_search_core_state_manager.h:45-122). *)
Definition l_setup (o : loptions) (s0 : mstate) (h0 : holder (nat -> Z)) (m0 : memory) : loop :=
  let s := ms_update s0 in
  let sc := evaluate (ms_model s) (ms_x s) [] in
  let m := mem_reset m0 in
  let '(s1, h1, _) := l_offer s (reset_local h0) sc in
  mkLp s1 sc sc h1 m (tenure_setup (lo_initial_tenure o) (lo_nmut o) (mm_primal m)) 0 0 [] [] [(ms_x (ms_export s), sc)].

(** update_number_of_ineffective_updates (tabu_search_core_state_manager.h:240-258). *)
Definition ineffective (st : Z) (cur prev : score) (n : Z) : Z :=
  if (st =? 1) && (if Qlt_le_dec (sc_global_aug prev) (sc_global_aug cur) then true else false) then n + 1
  else if Z.testbit st 1 then 0 else n.

(** Applying the selected move: Model::update, update_memory (519-530),
    TabuSearchCoreStateManager::update (125-207).  [draw]: the random numbers.
    [None]: undefined behaviour.  Statistics and ranges are left out. *)
Definition l_advance (o : loptions) (draw : nat -> Z) (l : loop) (alts : alterations) (related : list nat) (sc : score) : option loop :=
  let s := ms_update_move (lp_ms l) alts related in
  let width := Qtrunc (lo_randomize o * inject_Z (tn_tenure (lp_ten l))) in
  let m := mem_update (lp_iteration l) width (map (fun a : nat * Z => (fst a, draw (fst a))) alts) (ms_violative s) (lp_mem l) in
  let '(s1, h1, st) := l_offer s (lp_holder l) sc in
  match tenure_update (lo_inc o) (lo_dec o) (lo_nmut o) (Z.testbit st 1) (lp_iteration l) (mm_primal m) (lp_ten l) with
  | None => None
  | Some t => Some (mkLp s1 sc (lp_score l) h1 m t (lp_iteration l) (ineffective st sc (lp_score l) (lp_ineffective l)) (lp_used l) (lp_feasible l)
                     (lp_visited l ++ [(ms_x (ms_export s), sc)]))
  end.

(** initial_modification (tabu_search_core.h:243-344): any moves, each evaluated
    fast and applied. *)
Fixpoint l_modify (o : loptions) (ms : list (tmove * (nat -> Z))) (l : loop) : option loop :=
  match ms with
  | [] => Some l
  | (t, draw) :: tl =>
      match l_advance o draw l (tm_alts t) (tm_related t) (eval_trial true (ms_model (lp_ms l)) (ms_x (lp_ms l)) (lp_score l) t) with
      | Some l' => l_modify o tl l'
      | None => None
      end
  end.

(** What the environment provides in one iteration: whether the time is over; the
    moves offered by the neighborhood, shuffled and curtailed; whether some variable
    is flagged as improving the objective; the target chosen by the step-size
    adjuster; the random numbers. *)
Record env := mkEnv { en_time_over : bool; en_moves : list tmove; en_improvable : bool; en_target : Z; en_draw : nat -> Z }.

(** satisfy_*_terminate_condition (tabu_search_core.h:116-185). *)
Definition reach_target (o : loptions) (h : holder (nat -> Z)) : bool :=
  match sl_obj (ho_feasible h) with Some q => Qle_bool q (lo_target o) | None => false end.
Definition early_stop (o : loptions) (n : Z) : bool :=
  if Qlt_le_dec (lo_pruning o * inject_Z (lo_iteration_max o)) (inject_Z n) then true else false.
Definition gap_closed (h : holder (nat -> Z)) : bool :=
  match sl_obj (ho_feasible h) with Some q => if Qlt_le_dec (Qabs (q - ho_dual h)) EPS then true else false | None => false end.
(** satisfy_penalty_coefficient_too_large_terminate_condition (188-241). *)
Definition too_large (iteration : Z) (cur : score) (ts : list score) : bool :=
  (10 <? iteration) && sc_feasible cur &&
  match map sc_local (filter (fun s => negb (sc_feasible s)) ts) with
  | [] => false
  | q :: qs => let smallest := fold_left qmin qs q in
               let largest := fold_left (fun a s => qmax a (Qabs (sc_improvement s))) ts 0%Q in
               if Qlt_le_dec (largest * 100) smallest then true else false
  end.

(** A special move is offered only while it is available (neighborhood.h:121-161). *)
Definition available (used : list nat) (t : tmove) : bool := negb (tm_special t && existsb (Nat.eqb (tm_id t)) used).

(** One iteration (tabu_search_core.h:868-1112). *)
Definition l_iterate (o : loptions) (e : env) (l : loop) : loop * option lstatus :=
  let h := lp_holder l in
  if en_time_over e then (l, Some TimeOver)
  else if lo_iteration_max o <=? lp_iteration l then (l, Some IterationOver)
  else if reach_target o h then (l, Some ReachTarget)
  else if early_stop o (lp_ineffective l) then (l, Some EarlyStop)
  else
    let moves := filter (available (lp_used l)) (en_moves e) in
    let md := ms_model (lp_ms l) in
    let x := ms_x (lp_ms l) in
    match moves with
    | [] => (l, Some (if ms_feasible (lp_ms l) && negb (en_improvable e) then Optimal else NoMove))
    | _ =>
      if gap_closed h then (l, Some Optimal)
      else
        let duration := lp_iteration l - tn_tenure (lp_ten l) in
        let trials := map (fun t =>
          mkTrial (eval_trial (lo_fast o) md x (lp_score l) t)
            (frequency_penalty (lo_frequency o) (lp_mem l) (lp_iteration l) (tm_alts t))
            (lagrangian_penalty (lo_lagrangian o) (lo_multiplier o) (tm_alts t))
            (permissible (lo_all o && negb (tm_selection t)) (lp_mem l) duration (tm_alts t)) (tm_special t)) moves in
        match select_move (lo_ignore_tabu o) (sl_obj (ho_global h)) trials with
        | None => (l, Some Undefined)
        | Some (i, _) =>
          match nth_error moves i, nth_error trials i with
          | Some t, Some tr =>
            let better := match sl_obj (ho_global h) with None => true | Some q => if Qlt_le_dec (sc_global_aug (tr_score tr)) q then true else false end in
            let adjusted := lo_adjust o && tm_integer t && better in
            let alts := if adjusted then match tm_alts t with (v, _) :: _ => [(v, en_target e)] | [] => [] end else tm_alts t in
            let sc := if adjusted then evaluate_multi md x alts (tm_related t) (lp_score l) else tr_score tr in
            match l_advance o (en_draw e) l alts (tm_related t) sc with
            | None => (l, Some Undefined)
            | Some l1 =>
              let used := if tm_special t then tm_id t :: lp_used l1 else lp_used l1 in
              let keep := lo_store o && sc_feasible sc in
              let s2 := if keep then ms_export (lp_ms l1) else lp_ms l1 in
              let feasible := if keep then lp_feasible l1 ++ [ms_x s2] else lp_feasible l1 in
              let scores := map tr_score (firstn i trials) ++ [sc] ++ map tr_score (skipn (S i) trials) in
              let stop := lo_break o && too_large (lp_iteration l1) sc scores in
              (mkLp s2 (lp_score l1) (lp_previous l1) (lp_holder l1) (lp_mem l1) (lp_ten l1)
                 (if stop then lp_iteration l1 else lp_iteration l1 + 1) (lp_ineffective l1) used feasible (lp_visited l1),
               if stop then Some PenaltyTooLarge else None)
            end
          | _, _ => (l, Some Undefined)
          end
        end
    end.

Fixpoint l_run (o : loptions) (es : list env) (l : loop) : loop * option lstatus :=
  match es with
  | [] => (l, None)
  | e :: tl => match l_iterate o e l with (l', Some st) => (l', Some st) | (l', None) => l_run o tl l' end
  end.
(** The whole run: setup, initial modification, iterations. *)
Definition l_search (o : loptions) (s0 : mstate) (h0 : holder (nat -> Z)) (m0 : memory)
  (mods : list (tmove * (nat -> Z))) (es : list env) : loop * option lstatus :=
  let l := l_setup o s0 h0 m0 in
  match l_modify o mods l with
  | None => (l, Some Undefined)
  | Some l' => l_run o es l'
  end.
