(** One run of the local search (solver/local_search/core/local_search_core.h). *)
From Coq Require Import List ZArith QArith Qabs Bool.
From Verif Require Import ExprModel ConstraintModel EvalModel SolutionModel DuplicateModel TabuModel LoopModel.
Import ListNotations.
Local Open Scope Z_scope.

(** The two sorts of the trial moves (local_search_core.h:559-579). *)
Definition fewer_related (a b : tmove * score) : bool := (length (tm_related (fst a)) <? length (tm_related (fst b)))%nat.
Definition smaller_global (a b : tmove * score) : bool := if Qlt_le_dec (sc_global_aug (snd a)) (sc_global_aug (snd b)) then true else false.
Definition sorted_trials (ts : list (tmove * score)) : list (tmove * score) := stable_sort smaller_global (stable_sort fewer_related ts).

(** The test of the combination loop (589-598). *)
Definition worth (cur sc : score) : bool :=
  if sc_feasible sc then sc_obj_improvable sc
  else if Qlt_le_dec (sc_violation sc) (sc_violation cur) then true else false.

(** [enabled_at cons i]: constraint i is enabled. *)
Definition enabled_at (cons : list constr) (i : nat) : bool := match nth_error cons i with Some c => ct_enabled c | None => false end.

(** The combined move under construction: alterations, related constraints (which
    are also the elements of the set constraint_ptrs), number_of_performed_moves. *)
Record combined := mkCb { cb_alts : alterations; cb_related : list nat; cb_count : nat }.

(** The effect of the step-size adjuster on the combined move
    (integer_step_size_adjuster.h:43-132): a new target for the last alteration. *)
Fixpoint set_last (m : alterations) (z : Z) : alterations :=
  match m with [] => [] | [a] => [(fst a, z)] | a :: tl => a :: set_last tl z end.

(** The combination loop (585-643).  [target n]: the target chosen by the step-size
    adjuster for the n-th performed move. *)
Fixpoint combine_moves (adjust : bool) (cons : list constr) (cur : score) (target : nat -> Z) (ts : list (tmove * score)) (p : combined) : combined :=
  match ts with
  | [] => p
  | (t, sc) :: tl =>
      if negb (worth cur sc) then p
      else if existsb (fun i => enabled_at cons i && existsb (Nat.eqb i) (cb_related p)) (tm_related t)
      then combine_moves adjust cons cur target tl p
      else
        let alts := cb_alts p ++ tm_alts t in
        combine_moves adjust cons cur target tl
          (mkCb (if adjust && tm_integer t then set_last alts (target (cb_count p)) else alts) (cb_related p ++ tm_related t) (S (cb_count p)))
  end.

(** LocalSearchCoreTerminationStatus. *)
Inductive sstatus := STimeOver | SIterationOver | SReachTarget | SOptimal | SNoMove | SLocalOptimal.

(** The state of the loop; [sl_visited] is not in the code. *)
Record slocal := mkSl {
  sl_ms : mstate; sl_score : score; sl_holder : holder (nat -> Z); sl_mem : memory; sl_iteration : Z;
  sl_feasible : list (nat -> Z); sl_visited : list ((nat -> Z) * score) }.

(** preprocess (34-75) and setup of the state manager
    (local_search_core_state_manager.h:44-72). *)
Definition s_setup (s0 : mstate) (h0 : holder (nat -> Z)) (m0 : memory) : slocal :=
  let s := ms_update s0 in
  let sc := evaluate (ms_model s) (ms_x s) [] in
  let '(s1, h1, _) := l_offer s (reset_local h0) sc in
  mkSl s1 sc h1 (mem_reset m0) 0 [] [(ms_x (ms_export s), sc)].

(** What the environment provides in one iteration: whether the time is over, the
    moves offered by the neighborhood, whether some variable is flagged as
    improving the objective, the targets of the step-size adjuster. *)
Record senv := mkSe { se_time_over : bool; se_moves : list tmove; se_improvable : bool; se_target : nat -> Z }.
Record soptions := mkSo { so_iteration_max : Z; so_target : Q; so_adjust : bool; so_store : bool }.

(** One iteration (492-703).  select() on the altered selection variables
    (667-673) is left out. *)
Definition s_iterate (o : soptions) (e : senv) (l : slocal) : slocal * option sstatus :=
  let s := sl_ms l in
  if se_time_over e then (l, Some STimeOver)
  else if so_iteration_max o <=? sl_iteration l then (l, Some SIterationOver)
  else if (match sl_obj (ho_feasible (sl_holder l)) with Some q => Qle_bool q (so_target o) | None => false end) then (l, Some SReachTarget)
  else
    match se_moves e with
    | [] => (l, Some (if ms_feasible s && negb (se_improvable e) then SOptimal else SNoMove))
    | moves =>
      let trials := map (fun t => (t, eval_trial true (ms_model s) (ms_x s) (sl_score l) t)) moves in
      let p := combine_moves (so_adjust o) (md_cons (ms_model s)) (sl_score l) (se_target e) (sorted_trials trials) (mkCb [] [] 0) in
      match cb_alts p with
      | [] => (l, Some SLocalOptimal)
      | alts =>
        let sc := evaluate_multi (ms_model s) (ms_x s) alts (cb_related p) (sl_score l) in
        let s1 := ms_update_move s alts (cb_related p) in
        let m := mem_update (sl_iteration l) 0 (map (fun a : nat * Z => (fst a, 0)) alts) (ms_violative s1) (sl_mem l) in
        let '(s2, h, _) := l_offer s1 (sl_holder l) sc in
        let keep := so_store o && sc_feasible sc in
        let s3 := if keep then ms_export s2 else s2 in
        (mkSl s3 sc h m (sl_iteration l + 1) (if keep then sl_feasible l ++ [ms_x s3] else sl_feasible l)
           (sl_visited l ++ [(ms_x (ms_export s1), sc)]), None)
      end
    end.
Fixpoint s_run (o : soptions) (es : list senv) (l : slocal) : slocal * option sstatus :=
  match es with
  | [] => (l, None)
  | e :: tl => match s_iterate o e l with (l', Some st) => (l', Some st) | (l', None) => s_run o tl l' end
  end.
Definition s_search (o : soptions) (s0 : mstate) (h0 : holder (nat -> Z)) (m0 : memory) (es : list senv) : slocal * option sstatus :=
  s_run o es (s_setup s0 h0 m0).
