(** The whole of solve() after the preparation of the model (solver/solver.h), with
    the rounds of the tabu search (solver/tabu_search/controller/tabu_search_controller.h). *)
From Coq Require Import List ZArith QArith Bool.
From Verif Require Import ExprModel ConstraintModel EvalModel SolutionModel VariableModel PresolveModel SelectionModel TabuModel LoopModel LocalModel LagrangeModel ControllerModel.
Import ListNotations.
Local Open Scope Z_scope.

(** The prepared problem beside the model state: the number of variables, senses and
    bounds, the selections, the sensitivities of the constraints, the sense of the
    objective. *)
Record problem := mkPb { pb_n : nat; pb_vars : vars; pb_sels : list sel; pb_sens : nat -> list (nat * Q); pb_minimize : bool }.

(** The variables after the assignment of a solution. *)
Definition placed (p : problem) (x : nat -> Z) : vars := fun v => v_with_value (pb_vars p v) (x v).
(** import_solution(SparseSolution) (model.h:3353-3372): assigning a fixed variable
    another value throws (variable.h:748-758); then the verification without
    correction.  [None]: an exception. *)
Definition import_sparse (p : problem) (s : mstate) (x : nat -> Z) : option mstate :=
  if forallb (fun v => negb (ms_fixed s v) || (x v =? ms_x s v)) (seq 0 (pb_n p))
  then match verify false (pb_n p) (md_cons (ms_model s)) (pb_sens p) (placed p x) (pb_sels p) with
       | Some (vs, _) => Some (with_x s (fun v => va_value (vs v)))
       | None => None
       end
  else None.
(** import_solution(DenseSolution) (model.h:3332-3350): fixed variables keep their
    values. *)
Definition import_kept (p : problem) (s : mstate) (x : nat -> Z) : option mstate :=
  match verify false (pb_n p) (md_cons (ms_model s)) (pb_sens p) (placed p (fun v => if ms_fixed s v then ms_x s v else x v)) (pb_sels p) with
  | Some (vs, _) => Some (with_x s (fun v => va_value (vs v)))
  | None => None
  end.

(** What the phases share: model, incumbents, memory (GlobalState, global_state.h)
    and m_current_solution (solver.h:43).  Not in the code: [rn_events], what was
    offered to the incumbents, [rn_starts], the solutions the searches were started
    from, and [rn_rounds], the number of rounds. *)
Record run := mkRun {
  rn_ms : mstate; rn_holder : holder (nat -> Z); rn_mem : memory; rn_current : nat -> Z;
  rn_events : list (h_event (nat -> Z)); rn_starts : list (nat -> Z); rn_rounds : Z }.
Inductive outcome (A : Type) := Done (a : A) | Rejected (r : run) (y : nat -> Z) | NotANumber (r : run).
Arguments Done {A}. Arguments Rejected {A}. Arguments NotANumber {A}.
Definition bind {A B} (a : outcome A) (f : A -> outcome B) : outcome B :=
  match a with Done x => f x | Rejected r y => Rejected r y | NotANumber r => NotANumber r end.

(** to_sparse of the global incumbent (solver.h:165-200); there always is one. *)
Definition global_solution (r : run) : nat -> Z :=
  match sl_stored (ho_global (rn_holder r)) with Some (y, _) => y | None => rn_current r end.
Definition with_current (r : run) : run :=
  mkRun (rn_ms r) (rn_holder r) (rn_mem r) (global_solution r) (rn_events r) (rn_starts r) (rn_rounds r).

(** The end of preprocess (solver.h:370-412): the naive dual bound, update(), and the
    initial solution offered.  Archives are left out. *)
Definition v_preprocess (naive : Q) (s0 : mstate) (m0 : memory) : run :=
  let s := ms_update s0 in
  let sc := evaluate (ms_model s) (ms_x s) [] in
  let h := mkHolder false (mkSlot None None) (mkSlot None None) (mkSlot None None) naive in
  let e := ms_export s in
  mkRun e (fst (try_update h (ms_x e) sc)) m0 (ms_x e) [Offer (ms_x e) sc] [] 0.

(** run_pdlp (solver.h:148-155): [b], a dual bound it may offer. *)
Definition v_pdlp (p : problem) (b : option Q) (r : run) : run :=
  match b with
  | None => r
  | Some q => mkRun (rn_ms r) (h_step (pb_minimize p) (rn_holder r) (OfferDual q)) (rn_mem r) (rn_current r)
                (rn_events r ++ [OfferDual q]) (rn_starts r) (rn_rounds r)
  end.

(** The inputs of the optional phases.  [late]: the time is over. *)
Record glag := mkGlag { gg_options : goptions; gg_applicable : bool; gg_late : bool; gg_vars : list nat; gg_lo : nat -> Z; gg_hi : nat -> Z; gg_clock : list bool }.
Record gloc := mkGloc { gc_options : soptions; gc_late : bool; gc_envs : list senv }.
Definition target_reached (target : Q) (h : holder (nat -> Z)) : bool :=
  match sl_obj (ho_feasible h) with Some q => Qle_bool q target | None => false end.

(** run_lagrange_dual (solver.h:158-169), LagrangeDualController::run
    (lagrange_dual_controller.h:98-181). *)
Definition v_lagrange (p : problem) (g : option glag) (r : run) : outcome run :=
  match g with
  | None => Done r
  | Some a =>
      if negb (gg_applicable a) || gg_late a || target_reached (go_target (gg_options a)) (rn_holder r) then Done (with_current r)
      else match import_sparse p (rn_ms r) (rn_current r) with
           | None => Rejected r (rn_current r)
           | Some s =>
               let l := fst (g_search (gg_options a) (pb_minimize p) (gg_vars a) (gg_lo a) (gg_hi a) s (rn_holder r) (gg_clock a)) in
               Done (with_current (mkRun (gl_ms l) (g_dual_bound (pb_minimize p) l) (rn_mem r) (rn_current r)
                 (rn_events r ++ [ResetLocal] ++ map (fun q : (nat -> Z) * score => Offer (fst q) (snd q)) (gl_visited l) ++
                    match gl_lagrangian l with Some q => [OfferDual q] | None => [] end)
                 (rn_starts r ++ [rn_current r]) (rn_rounds r)))
           end
  end.
(** run_local_search (solver.h:172-183), LocalSearchController::run
    (local_search_controller.h:79-160). *)
Definition v_local (p : problem) (g : option gloc) (r : run) : outcome run :=
  match g with
  | None => Done r
  | Some a =>
      if gc_late a || target_reached (so_target (gc_options a)) (rn_holder r) then Done (with_current r)
      else match import_sparse p (rn_ms r) (rn_current r) with
           | None => Rejected r (rn_current r)
           | Some s =>
               let l := fst (s_search (gc_options a) s (rn_holder r) (rn_mem r) (gc_envs a)) in
               Done (with_current (mkRun (sl_ms l) (sl_holder l) (sl_mem l) (rn_current r)
                 (rn_events r ++ [ResetLocal] ++ map (fun q : (nat -> Z) * score => Offer (fst q) (snd q)) (sl_visited l))
                 (rn_starts r ++ [rn_current r]) (rn_rounds r)))
           end
  end.

(** What the environment provides in one round: the clock at its beginning, the
    options not governed by the controller, the initial modifications, the
    iterations, the statistics of the result, the random number. *)
Record tround := mkTd {
  td_time_over : bool; td_options : loptions; td_mods : list (tmove * (nat -> Z)); td_envs : list env;
  td_last_update : Z; td_range : Q; td_rate : Q; td_draw : Z }.
(** create_option (164-189 of the state manager). *)
Definition governed (k : ctl) (o : loptions) : loptions :=
  mkLo (k_iteration_max k) (lo_target o) (k_pruning k) (lo_ignore_tabu o) (lo_all o) (lo_frequency o) (lo_lagrangian o) (lo_multiplier o) (lo_randomize o)
    (lo_inc o) (lo_dec o) (lo_fast o) (lo_break o) (lo_adjust o) (lo_store o) (k_tenure k) (lo_nmut o).
(** total_update_status (tabu_search_core_state_manager.h:258-259): the statuses of all
    moves after the setup. *)
Fixpoint replay (h : holder (nat -> Z)) (vs : list ((nat -> Z) * score)) (st : Z) : Z :=
  match vs with
  | [] => st
  | (y, sc) :: tl => let '(h', st') := try_update h y sc in replay h' tl (Z.lor st st')
  end.
Definition total_status (h0 : holder (nat -> Z)) (vs : list ((nat -> Z) * score)) : Z :=
  match vs with
  | [] => 0
  | (y, sc) :: tl => replay (fst (try_update (reset_local h0) y sc)) tl 0
  end.
Definition with_constraints (s : mstate) (cs : list constr) : mstate :=
  let md := ms_model s in
  mkMs (mkM (md_defined md) (md_sign md) (md_obj md) (md_obj_evalue md) (md_obj_value md) cs (md_gpen md))
    (ms_exprs s) (ms_deps s) (ms_x s) (ms_fixed s) (ms_user_defined s) (ms_violative s) (ms_feasible s).

(** The rounds (tabu_search_controller.h:893-1019).  [limit]: general.iteration_max;
    [i], [last]: the iteration and the termination status of the last round.  When
    the list of rounds ends the clock is taken to be over.  Online bounding, archives,
    the search tree and the callback are left out. *)
Fixpoint v_rounds (o : copt) (lg : Z -> Q) (root : Q -> Q) (p : problem) (limit : Z) (target : Q) (ds : list tround)
  (i : Z) (last : option lstatus) (k : ctl) (r : run) : outcome run :=
  match ds with
  | [] => Done r
  | d :: tl =>
      if td_time_over d then Done r
      else if limit <=? i then Done r
      else if target_reached target (rn_holder r) then Done r
      else if (0 <? i) && match last with Some Optimal => true | _ => false end then Done r
      else match import_sparse p (rn_ms r) (k_current k) with
           | None => Rejected r (k_current k)
           | Some s =>
               let '(l, st) := l_search (governed k (td_options d)) s (rn_holder r) (rn_mem r) (td_mods d) (td_envs d) in
               let r' := mkRun (lp_ms l) (lp_holder l) (lp_mem l) (rn_current r)
                           (rn_events r ++ [ResetLocal] ++ map (fun q : (nat -> Z) * score => Offer (fst q) (snd q)) (lp_visited l))
                           (rn_starts r ++ [k_current k]) (rn_rounds r + 1) in
               let res := mkRr (total_status (rn_holder r) (lp_visited l)) (lp_iteration l) (tn_tenure (lp_ten l)) (td_last_update d) (td_range d) (td_rate d) in
               match k_update o lg root res (lp_holder l) (lp_mem l) (lo_nmut (td_options d)) (td_draw d) (ms_model (lp_ms l)) k with
               | None => NotANumber r'
               | Some (k', cs) =>
                   v_rounds o lg root p limit target tl (i + 1) st k'
                     (mkRun (with_constraints (rn_ms r') cs) (rn_holder r') (rn_mem r') (rn_current r') (rn_events r') (rn_starts r') (rn_rounds r'))
               end
           end
  end.
(** run_tabu_search (solver.h:186-197). *)
Definition v_tabu (o : copt) (lg : Z -> Q) (root : Q -> Q) (p : problem) (limit : Z) (target : Q) (ds : list tround) (r : run) : outcome run :=
  bind (v_rounds o lg root p limit target ds 0 None (k_setup o (rn_mem r) (rn_current r)) r) (fun r' => Done (with_current r')).

(** The returned solution: the values of the variables, the objective, the total
    violation and the feasibility flag of export_named_solution (model.h:3280-3329). *)
Record answer := mkAns { an_x : nat -> Z; an_objective : Q; an_violation : Q; an_feasible : bool }.
(** postprocess (solver.h:107-145). *)
Definition v_postprocess (p : problem) (r : run) : outcome (answer * run) :=
  let h := rn_holder r in
  match sl_stored (if ho_found h then ho_feasible h else ho_global h) with
  | None => Rejected r (rn_current r)
  | Some (y, _) =>
      match import_kept p (rn_ms r) y with
      | None => Rejected r y
      | Some s =>
          let s' := ms_update s in
          Done (mkAns (ms_x s') (md_obj_value (ms_model s')) (fold_left (fun q c => (q + ct_violation c)%Q) (md_cons (ms_model s')) 0%Q) (ms_feasible s'), r)
      end
  end.

(** solve (solver.h:428-480) after the preparation of the model. *)
Record inputs := mkIn {
  in_naive : Q; in_pdlp : option Q; in_lagrange : option glag; in_local : option gloc;
  in_control : copt; in_limit : Z; in_target : Q; in_rounds : list tround }.
Definition solve (lg : Z -> Q) (root : Q -> Q) (p : problem) (a : inputs) (s0 : mstate) (m0 : memory) : outcome (answer * run) :=
  let r0 := v_pdlp p (in_pdlp a) (v_preprocess (in_naive a) s0 m0) in
  bind (v_lagrange p (in_lagrange a) r0) (fun r1 =>
  bind (v_local p (in_local a) r1) (fun r2 =>
  bind (v_tabu (in_control a) lg root p (in_limit a) (in_target a) (in_rounds a) r2) (fun r3 =>
  v_postprocess p r3))).
