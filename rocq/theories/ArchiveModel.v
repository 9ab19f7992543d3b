(** The archive of feasible solutions (option output.is_enabled_store_feasible_solutions):
    the searches keep the feasible solutions they come by, the controllers hand them
    to the archive, and the archive is a part of the result of solve(); the
    stand-alone solver writes it to feasible.json (mps_solver.h:326-330).
    The searches are those of LoopModel, LocalModel and LagrangeModel, solve() is that
    of OfferModel and ParityModel.  The searches' options say whether solutions are
    kept; in the code it is one option for all. *)
From Coq Require Import List ZArith QArith Bool.
From Verif Require Import ExprModel ConstraintModel VariableModel TypeModel PresolveModel DependentModel SelectionModel PrepareModel EvalModel
  SolutionModel TabuModel LoopModel LocalModel LagrangeModel WholeModel RelaxModel OfferModel ParityModel.
From Verif Require ScreenModel ControllerModel SolverModel.
Import ListNotations.
Local Open Scope nat_scope.

(** Model::export_sparse_solution (model.h:3249-3277): the values other than 0, the
    objective and the feasibility as the model has them.  Numbers stand for the names
    of the variables; the violation and the augmented objective are left out. *)
Definition export_sparse (n : nat) (s : mstate) : ssol :=
  mkSol (filter (fun p => negb (snd p =? 0)%Z) (map (fun v => (v, ms_x s v)) (seq 0 n))) (md_obj_value (ms_model s)) (ms_feasible s).

(** m_feasible_solutions (tabu_search_core.h:1079-1088, local_search_core.h:693-702,
    lagrange_dual_core.h:470-479): what is exported at the end of the iterations that
    keep their solution.  [step]: one iteration; [kept]: the number of solutions kept
    so far; [ms]: the state of the model. *)
Fixpoint collect {E L S : Type} (step : E -> L -> L * option S) (kept : L -> nat) (ms : L -> mstate) (n : nat) (es : list E) (l : L) : list ssol :=
  match es with
  | [] => []
  | e :: tl =>
      let '(l', st) := step e l in
      (if kept l <? kept l' then [export_sparse n (ms l')] else []) ++
      match st with Some _ => [] | None => collect step kept ms n tl l' end
  end.
Definition l_collect (n : nat) (o : loptions) (s : mstate) (h : holder (nat -> Z)) (m : memory) (mods : list (tmove * (nat -> Z))) (es : list env) : list ssol :=
  match l_modify o mods (l_setup o s h m) with
  | None => []
  | Some l => collect (l_iterate o) (fun l => length (lp_feasible l)) lp_ms n es l
  end.
Definition s_collect (n : nat) (o : soptions) (s : mstate) (h : holder (nat -> Z)) (m : memory) (es : list senv) : list ssol :=
  collect (s_iterate o) (fun l => length (sl_feasible l)) sl_ms n es (s_setup s h m).
Definition g_collect (n : nat) (o : goptions) (minimize : bool) (vars : list nat) (lo hi : nat -> Z) (s : mstate) (h : holder (nat -> Z)) (clock : list bool) : list ssol :=
  collect (g_iterate o minimize vars lo hi) (fun l => length (gl_feasible l)) gl_ms n clock (g_setup o (length vars) s h).

(** What the controllers hand over: LagrangeDualController::run
    (lagrange_dual_controller.h:98-150), as SolverModel.v_lagrange; ... *)
Definition lagrange_stored (p : SolverModel.problem) (g : option SolverModel.glag) (r : SolverModel.run) : list (list ssol) :=
  match g with
  | None => []
  | Some a =>
      if negb (SolverModel.gg_applicable a) || SolverModel.gg_late a || SolverModel.target_reached (go_target (SolverModel.gg_options a)) (SolverModel.rn_holder r) then []
      else match SolverModel.import_sparse p (SolverModel.rn_ms r) (SolverModel.rn_current r) with
           | None => []
           | Some s => [g_collect (SolverModel.pb_n p) (SolverModel.gg_options a) (SolverModel.pb_minimize p) (SolverModel.gg_vars a) (SolverModel.gg_lo a) (SolverModel.gg_hi a)
                          s (SolverModel.rn_holder r) (SolverModel.gg_clock a)]
           end
  end.
(** ... LocalSearchController::run (local_search_controller.h:79-124), as
    OfferModel.n_local; ... *)
Definition local_stored (nb : neighborhood) (p : SolverModel.problem) (g : option (soptions * bool * list sdriver)) (r : SolverModel.run) : list (list ssol) :=
  match g with
  | None => []
  | Some (o, late, ds) =>
      if late || SolverModel.target_reached (so_target o) (SolverModel.rn_holder r) then []
      else match SolverModel.import_sparse p (SolverModel.rn_ms r) (SolverModel.rn_current r) with
           | None => []
           | Some s => [s_collect (SolverModel.pb_n p) o s (SolverModel.rn_holder r) (SolverModel.rn_mem r)
                          (n_senvs nb o ds (s_setup s (SolverModel.rn_holder r) (SolverModel.rn_mem r)))]
           end
  end.
(** ... TabuSearchController::run (tabu_search_controller.h:893-972), as
    OfferModel.n_rounds. *)
Fixpoint rounds_stored (nb : neighborhood) (o : ControllerModel.copt) (lg : Z -> Q) (root : Q -> Q) (p : SolverModel.problem) (limit : Z) (target : Q)
  (ds : list ground) (i : Z) (last : option lstatus) (k : ControllerModel.ctl) (r : SolverModel.run) : list (list ssol) :=
  match ds with
  | [] => []
  | g :: tl =>
      if gd_time_over g then []
      else if (limit <=? i)%Z then []
      else if SolverModel.target_reached target (SolverModel.rn_holder r) then []
      else if ((0 <? i)%Z && match last with Some Optimal => true | _ => false end) then []
      else match SolverModel.import_sparse p (SolverModel.rn_ms r) (ControllerModel.k_current k) with
           | None => []
           | Some s =>
               let d := realise nb k s (SolverModel.rn_holder r) (SolverModel.rn_mem r) g in
               let '(l, st) := l_search (SolverModel.governed k (gd_options g)) s (SolverModel.rn_holder r) (SolverModel.rn_mem r)
                                 (SolverModel.td_mods d) (SolverModel.td_envs d) in
               l_collect (SolverModel.pb_n p) (SolverModel.governed k (gd_options g)) s (SolverModel.rn_holder r) (SolverModel.rn_mem r)
                 (SolverModel.td_mods d) (SolverModel.td_envs d) ::
               let r' := SolverModel.mkRun (lp_ms l) (lp_holder l) (lp_mem l) (SolverModel.rn_current r)
                           (SolverModel.rn_events r ++ [ResetLocal] ++ map (fun q : (nat -> Z) * score => Offer (fst q) (snd q)) (lp_visited l))
                           (SolverModel.rn_starts r ++ [ControllerModel.k_current k]) (SolverModel.rn_rounds r + 1)%Z in
               let res := ControllerModel.mkRr (SolverModel.total_status (SolverModel.rn_holder r) (lp_visited l)) (lp_iteration l) (tn_tenure (lp_ten l))
                            (gd_last_update g) (gd_range g) (gd_rate g) in
               match ControllerModel.k_update o lg root res (lp_holder l) (lp_mem l) (lo_nmut (gd_options g)) (gd_draw g) (ms_model (lp_ms l)) k with
               | None => []
               | Some (k', cs) =>
                   rounds_stored nb o lg root p limit target tl (i + 1)%Z st k'
                     (SolverModel.mkRun (SolverModel.with_constraints (SolverModel.rn_ms r') cs) (SolverModel.rn_holder r') (SolverModel.rn_mem r')
                        (SolverModel.rn_current r') (SolverModel.rn_events r') (SolverModel.rn_starts r') (SolverModel.rn_rounds r'))
               end
           end
  end.
(** All that is handed over in the course of solve (solver.h:428-480), as
    OfferModel.n_solve. *)
Definition n_stored (nb : neighborhood) (lg : Z -> Q) (root : Q -> Q) (p : SolverModel.problem) (naive : Q) (b : option Q) (g : option SolverModel.glag)
  (a : ninputs) (s0 : mstate) (m0 : memory) : list (list ssol) :=
  let r0 := SolverModel.v_pdlp p b (SolverModel.v_preprocess naive s0 m0) in
  lagrange_stored p g r0 ++
  match SolverModel.v_lagrange p g r0 with
  | SolverModel.Done r1 =>
      local_stored nb p (ni_local a) r1 ++
      match n_local nb p (ni_local a) r1 with
      | SolverModel.Done r2 =>
          rounds_stored nb (ni_control a) lg root p (ni_limit a) (ni_target a) (ni_rounds a) 0%Z None
            (ControllerModel.k_setup (ni_control a) (SolverModel.rn_mem r2) (SolverModel.rn_current r2)) r2
      | _ => []
      end
  | _ => []
  end.

(** The archive (solver.h:376-382, abstract_solver_controller.h:113-120): sorted by
    the objective, the best first; empty lists are not handed over. *)
Definition feasible_archive (capacity : Z) (minimize : bool) (pushes : list (list ssol)) : list ssol :=
  archive_run capacity (if minimize then Ascending else Descending) (filter (fun l => negb (length l =? 0)) pushes).
(** Result::feasible_solution_archive of solve(), with everything that goes before, as
    ParityModel.p_solve_model. *)
Definition solve_archive (fuel : nat) (order : list nat -> list nat) (sw : switches) (su : surroundings) (on : ctype -> bool) (pairs : list (nat * nat)) (o : search_options)
  (nrm : list Q -> Q) (red ext : nat -> Q) (sq : Q -> Q) (lg : Z -> Q) (root : Q -> Q)
  (minimize : bool) (x : relaxations) (a : ninputs) (capacity : Z) (s : dstate) : option (outcome (list ssol)) :=
  match prepare fuel sw su minimize s with
  | None => None
  | Some p => Some (bind p (fun r0 => let r := prepare_parities order sw su r0 in bind (pdlp_phase nrm red ext sq x minimize r) (fun b => Ok
      (feasible_archive capacity minimize (n_stored (stale_neighborhood on pairs su r0 r) lg root (search_problem su minimize r)
         (ScreenModel.naive_dual_bound minimize (ds_obj (fst r)) (ds_vars (fst r))) b (lagrange_phase x r) a
         (search_state o minimize r) mem_setup)))))
  end.
