(** solve() with its own neighborhood: the moves the searches try are those the
    generators of neighborhood/ make for the prepared problem.
    What is left open is what the clock, the screening, the random numbers, the
    switching of the special generators and the chain moves decide: the drivers
    below range over all of it.  User-defined neighborhoods are left out. *)
From Coq Require Import List NArith ZArith QArith Bool.
From Verif Require Import ExprModel ConstraintModel VariableModel TypeModel PresolveModel DuplicateModel DependentModel SelectionModel PrepareModel EvalModel
  SolutionModel MoveModel TabuModel LoopModel LocalModel WholeModel RelaxModel.
From Verif Require ScreenModel ControllerModel SolverModel.
Import ListNotations.
Local Open Scope nat_scope.

(** * The neighborhood *)

(** The generators after setup(), with what their moves refer to.  [nb_special]: the
    constraint-based ones with their places in m_move_generator_ptrs
    (neighborhood.h:98-115). *)
Record neighborhood := mkNb {
  nb_addr : nat -> N; nb_cname : nat -> nat; nb_vars : vars; nb_cons : list constr; nb_sels : list sel;
  nb_binary : gen; nb_integer : gen; nb_selection : list nat; nb_special : list (nat * gen); nb_two_flip : gen }.

Definition special_types : list (nat * ctype) :=
  [(3, ExclusiveOR); (4, ExclusiveNOR); (5, InvertedIntegers); (6, BalancedIntegers); (7, ConstantSumIntegers);
   (8, ConstantDifferenceIntegers); (9, ConstantRatioIntegers); (10, Aggregation); (11, Precedence); (12, VariableBound);
   (13, SoftSelection); (14, TrinomialExclusiveNOR)].
(** The constraints of a type (constraint_type_reference) with their key variables. *)
Definition items_of (x : tctx) (cs : list constr) (t : ctype) : list (constr * option nat) :=
  flat_map (fun i => match nth_error cs i with Some c => [(c, snd (classify x c))] | None => [] end) (type_refs x cs t).
(** setup_neighborhood (model.h:1248-1338).  [on]: neighborhood.is_enabled_*_move;
    [pairs]: flippable_variable_ptr_pairs, with their option. *)
Definition setup_neighborhood (on : ctype -> bool) (pairs : list (nat * nat)) (su : surroundings) (r : dstate * list sel) : neighborhood :=
  let s := fst r in
  let vs := ds_vars s in
  mkNb (su_addr su) (su_cname su) vs (ds_cons s) (snd r)
    (setup_binary vs (of_sense VBinary (ds_number s) vs)) (setup_integer vs (of_sense VInteger (ds_number s) vs))
    (mutable_vars vs (of_sense VSelection (ds_number s) vs))
    (map (fun p : nat * ctype => (fst p, setup_special vs (snd p) (items_of (vctx (su_name su) vs) (ds_cons s) (snd p))))
       (filter (fun p => on (snd p)) special_types))
    (GTwoFlip pairs (fun _ => true)).

(** * The moves on offer *)

(** What decides the offer beside the solution: the arguments of update_moves and the
    flags of the variables, is_enabled of the generators, the moves of the chain
    generator with numbers that tell them apart, the order in which
    the moves are taken, some of them perhaps not at all (shuffling and curtailing,
    tabu_search_core.h:420-470; the random pick of 243-344). *)
Record choice := mkCk { ck_accept : accept; ck_enabled : nat -> bool; ck_chains : list (nat * alterations); ck_order : list nat }.

(** The moves of one generator with a set flag (neighborhood.h:141-160), as the
    searches see them: the related constraints are those of the variable
    (binary_move_generator.h:44-46, integer_move_generator.h:47-52) or of the
    alterations (setup_variable_rerated_constraint_ptrs, move.h:231-245).  [ids]:
    numbers that tell the moves apart. *)
Definition as_single (nb : neighborhood) (integer : bool) (id : nat) (m : alterations) : tmove :=
  match m with
  | [(v, n)] => mkTm (KSingle (v, n)) (related_constraints (nb_cons nb) v) false integer false id
  | _ => mkTm (KMulti m) (move_related (nb_cname nb) (nb_cons nb) m) false integer false id
  end.
Definition as_multi (nb : neighborhood) (id : nat) (m : alterations) : tmove :=
  mkTm (KMulti m) (move_related (nb_cname nb) (nb_cons nb) m) true false false id.
Definition shown (make : nat -> alterations -> tmove) (ids : list nat) (ms : list (alterations * Z)) : list tmove :=
  flat_map (fun p : nat * (alterations * Z) => if (snd (snd p) =? 0)%Z then [] else [make (fst p) (fst (snd p))]) (combine ids ms).
(** The i-th move of the k-th generator. *)
Definition id_of (k i : nat) : nat := k + 17 * i.
Definition ids_of {A} (k : nat) (l : list A) : list nat := map (id_of k) (seq 0 (length l)).

(** The variable at 1 of a selection.  The code reads the pointer selected_variable_ptr,
    which select() keeps there (C36). *)
Definition selected_in (x : nat -> Z) (t : sel) : option nat := find (fun u => (x u =? 1)%Z) (sl_vars t).
Definition sel_of (sels : list sel) (v : nat) : option sel := find (fun t => existsb (Nat.eqb v) (sl_vars t)) sels.
(** selection_move_generator.h:30-180. *)
Definition selection_wanted (ac : accept) (m : alterations) : bool :=
  ac_all ac || (ac_obj ac && has_flagged (im_obj ac) m) || (ac_feas ac && has_flagged (im_feas ac) m).
Definition selection_move (nb : neighborhood) (ac : accept) (x : nat -> Z) (p : nat * nat) : list tmove :=
  let v := snd p in
  match sel_of (nb_sels nb) v with
  | None => []
  | Some t =>
      match selected_in x t with
      | None => []
      | Some u =>
          if Nat.eqb u v then []
          else if selection_wanted ac [(u, 0%Z); (v, 1%Z)] then [mkTm (KSelection (u, 0%Z) (v, 1%Z) (sl_related t)) (sl_related t) false false true (id_of 2 (fst p))]
          else []
      end
  end.
Definition selection_moves (nb : neighborhood) (ac : accept) (x : nat -> Z) : list tmove :=
  flat_map (selection_move nb ac x) (combine (seq 0 (length (nb_selection nb))) (nb_selection nb)).

(** One generator's part of the offer in the solution x; [None]: update_moves ends in an exception or
    divides by zero. *)
Definition part (nb : neighborhood) (c : choice) (x : nat -> Z) (k : nat) (g : gen) (make : nat -> alterations -> tmove) : option (list tmove) :=
  if ck_enabled c k then
    option_map (fun ms => shown make (ids_of k ms) ms) (gen_update (nb_addr nb) (fun v => v_with_value (nb_vars nb v) (x v)) (ck_accept c) g)
  else Some [].
(** Neighborhood::update_moves (neighborhood.h:121-161). *)
Definition offer (nb : neighborhood) (c : choice) (x : nat -> Z) : option (list tmove) :=
  let now := fun v => v_with_value (nb_vars nb v) (x v) in
  concat_options (
    [ part nb c x 0 (nb_binary nb) (as_single nb false); part nb c x 1 (nb_integer nb) (as_single nb true);
      Some (if ck_enabled c 2 then selection_moves nb (ck_accept c) x else []) ] ++
    map (fun p : nat * gen => part nb c x (fst p) (snd p) (as_multi nb)) (nb_special nb) ++
    [ if ck_enabled c 15 then
        option_map (fun ms => shown (as_multi nb) (map (fun p : nat * alterations => id_of 15 (fst p)) (ck_chains c)) ms)
          (gen_update (nb_addr nb) now (ck_accept c) (GChain (map snd (ck_chains c)) (fun _ => true)))
      else Some [];
      part nb c x 16 (nb_two_flip nb) (as_multi nb) ]).
(** The moves that are tried. *)
Definition tried (nb : neighborhood) (c : choice) (x : nat -> Z) : list tmove :=
  match offer nb c x with
  | None => []
  | Some ms => flat_map (fun i => match nth_error ms i with Some t => [t] | None => [] end) (ck_order c)
  end.

(** * The tabu search *)

(** One initial modification (tabu_search_core.h:243-344): update_moves accepts all;
    the first move tried is the one picked; the loop ends when there is none.  [snd]:
    the random numbers of the tabu tenure. *)
Definition accept_all (c : choice) : choice :=
  mkCk (mkAccept true true true (im_obj (ck_accept c)) (im_feas (ck_accept c))) (ck_enabled c) (ck_chains c) (ck_order c).
Fixpoint n_mods (nb : neighborhood) (o : loptions) (ds : list (choice * (nat -> Z))) (l : loop) : list (tmove * (nat -> Z)) :=
  match ds with
  | [] => []
  | (c, draw) :: tl =>
      match tried nb (accept_all c) (ms_x (lp_ms l)) with
      | [] => []
      | t :: _ => (t, draw) :: match l_modify o [(t, draw)] l with None => [] | Some l' => n_mods nb o tl l' end
      end
  end.

(** What decides an iteration: the clock, the offer, whether some variable is flagged as
    improving the objective, the value the step-size adjuster finds for the variable
    of the selected move, the random numbers. *)
Record driver := mkDr { dr_time_over : bool; dr_choice : choice; dr_improvable : bool; dr_target : nat -> Z; dr_draw : nat -> Z }.
(** The variable of a move on one variable. *)
Definition target_of (target : nat -> Z) (t : option tmove) : Z :=
  match t with Some t => match tm_alts t with (v, _) :: _ => target v | [] => 0%Z end | None => 0%Z end.
(** The move selected in an iteration (tabu_search_core.h:918-1002). *)
Definition l_choice (o : loptions) (moves0 : list tmove) (l : loop) : option tmove :=
  let moves := filter (available (lp_used l)) moves0 in
  let duration := (lp_iteration l - tn_tenure (lp_ten l))%Z in
  let trials := map (fun t =>
    mkTrial (eval_trial (lo_fast o) (ms_model (lp_ms l)) (ms_x (lp_ms l)) (lp_score l) t)
      (frequency_penalty (lo_frequency o) (lp_mem l) (lp_iteration l) (tm_alts t))
      (lagrangian_penalty (lo_lagrangian o) (lo_multiplier o) (tm_alts t))
      (permissible (lo_all o && negb (tm_selection t)) (lp_mem l) duration (tm_alts t)) (tm_special t)) moves in
  match select_move (lo_ignore_tabu o) (sl_obj (ho_global (lp_holder l))) trials with
  | None => None
  | Some (i, _) => nth_error moves i
  end.
Definition n_env (nb : neighborhood) (o : loptions) (d : driver) (l : loop) : env :=
  let moves := tried nb (dr_choice d) (ms_x (lp_ms l)) in
  mkEnv (dr_time_over d) moves (dr_improvable d) (target_of (dr_target d) (l_choice o moves l)) (dr_draw d).
Fixpoint n_envs (nb : neighborhood) (o : loptions) (ds : list driver) (l : loop) : list env :=
  match ds with
  | [] => []
  | d :: tl => n_env nb o d l :: match l_iterate o (n_env nb o d l) l with (_, Some _) => [] | (l', None) => n_envs nb o tl l' end
  end.

(** One round: as SolverModel.tround, with drivers. *)
Record ground := mkGd {
  gd_time_over : bool; gd_options : loptions; gd_mods : list (choice * (nat -> Z)); gd_iters : list driver;
  gd_last_update : Z; gd_range : Q; gd_rate : Q; gd_draw : Z }.
Definition realise (nb : neighborhood) (k : ControllerModel.ctl) (s : mstate) (h : holder (nat -> Z)) (m : memory) (g : ground) : SolverModel.tround :=
  let o := SolverModel.governed k (gd_options g) in
  let l := l_setup o s h m in
  let mods := n_mods nb o (gd_mods g) l in
  SolverModel.mkTd (gd_time_over g) (gd_options g) mods
    match l_modify o mods l with None => [] | Some l' => n_envs nb o (gd_iters g) l' end
    (gd_last_update g) (gd_range g) (gd_rate g) (gd_draw g).

(** TabuSearchController::run (tabu_search_controller.h:893-1019), as
    SolverModel.v_rounds. *)
Fixpoint n_rounds (nb : neighborhood) (o : ControllerModel.copt) (lg : Z -> Q) (root : Q -> Q) (p : SolverModel.problem) (limit : Z) (target : Q)
  (ds : list ground) (i : Z) (last : option lstatus) (k : ControllerModel.ctl) (r : SolverModel.run) : SolverModel.outcome SolverModel.run :=
  match ds with
  | [] => SolverModel.Done r
  | g :: tl =>
      if gd_time_over g then SolverModel.Done r
      else if (limit <=? i)%Z then SolverModel.Done r
      else if SolverModel.target_reached target (SolverModel.rn_holder r) then SolverModel.Done r
      else if ((0 <? i)%Z && match last with Some Optimal => true | _ => false end) then SolverModel.Done r
      else match SolverModel.import_sparse p (SolverModel.rn_ms r) (ControllerModel.k_current k) with
           | None => SolverModel.Rejected r (ControllerModel.k_current k)
           | Some s =>
               let d := realise nb k s (SolverModel.rn_holder r) (SolverModel.rn_mem r) g in
               let '(l, st) := l_search (SolverModel.governed k (gd_options g)) s (SolverModel.rn_holder r) (SolverModel.rn_mem r)
                                 (SolverModel.td_mods d) (SolverModel.td_envs d) in
               let r' := SolverModel.mkRun (lp_ms l) (lp_holder l) (lp_mem l) (SolverModel.rn_current r)
                           (SolverModel.rn_events r ++ [ResetLocal] ++ map (fun q : (nat -> Z) * score => Offer (fst q) (snd q)) (lp_visited l))
                           (SolverModel.rn_starts r ++ [ControllerModel.k_current k]) (SolverModel.rn_rounds r + 1)%Z in
               let res := ControllerModel.mkRr (SolverModel.total_status (SolverModel.rn_holder r) (lp_visited l)) (lp_iteration l) (tn_tenure (lp_ten l))
                            (gd_last_update g) (gd_range g) (gd_rate g) in
               match ControllerModel.k_update o lg root res (lp_holder l) (lp_mem l) (lo_nmut (gd_options g)) (gd_draw g) (ms_model (lp_ms l)) k with
               | None => SolverModel.NotANumber r'
               | Some (k', cs) =>
                   n_rounds nb o lg root p limit target tl (i + 1)%Z st k'
                     (SolverModel.mkRun (SolverModel.with_constraints (SolverModel.rn_ms r') cs) (SolverModel.rn_holder r') (SolverModel.rn_mem r')
                        (SolverModel.rn_current r') (SolverModel.rn_events r') (SolverModel.rn_starts r') (SolverModel.rn_rounds r'))
               end
           end
  end.

(** * The local search *)

(** What decides an iteration of the local search. *)
Record sdriver := mkSd { sd_time_over : bool; sd_choice : choice; sd_improvable : bool; sd_target : nat -> Z }.
(** The moves that are combined (local_search_core.h:585-643), as in
    LocalModel.combine_moves. *)
Fixpoint performed (cons : list constr) (cur : score) (ts : list (tmove * score)) (related : list nat) : list tmove :=
  match ts with
  | [] => []
  | (t, sc) :: tl =>
      if negb (worth cur sc) then []
      else if existsb (fun i => enabled_at cons i && existsb (Nat.eqb i) related) (tm_related t) then performed cons cur tl related
      else t :: performed cons cur tl (related ++ tm_related t)
  end.
Definition n_senv (nb : neighborhood) (d : sdriver) (l : slocal) : senv :=
  let s := sl_ms l in
  let moves := tried nb (sd_choice d) (ms_x s) in
  let trials := map (fun t => (t, eval_trial true (ms_model s) (ms_x s) (sl_score l) t)) moves in
  let ps := performed (md_cons (ms_model s)) (sl_score l) (sorted_trials trials) [] in
  mkSe (sd_time_over d) moves (sd_improvable d) (fun k => target_of (sd_target d) (nth_error ps k)).
Fixpoint n_senvs (nb : neighborhood) (o : soptions) (ds : list sdriver) (l : slocal) : list senv :=
  match ds with
  | [] => []
  | d :: tl => n_senv nb d l :: match s_iterate o (n_senv nb d l) l with (_, Some _) => [] | (l', None) => n_senvs nb o tl l' end
  end.
(** LocalSearchController::run (local_search_controller.h:79-160), as
    SolverModel.v_local. *)
Definition n_local (nb : neighborhood) (p : SolverModel.problem) (g : option (soptions * bool * list sdriver)) (r : SolverModel.run) : SolverModel.outcome SolverModel.run :=
  match g with
  | None => SolverModel.Done r
  | Some (o, late, ds) =>
      if late || SolverModel.target_reached (so_target o) (SolverModel.rn_holder r) then SolverModel.Done (SolverModel.with_current r)
      else match SolverModel.import_sparse p (SolverModel.rn_ms r) (SolverModel.rn_current r) with
           | None => SolverModel.Rejected r (SolverModel.rn_current r)
           | Some s =>
               let es := n_senvs nb o ds (s_setup s (SolverModel.rn_holder r) (SolverModel.rn_mem r)) in
               let l := fst (s_search o s (SolverModel.rn_holder r) (SolverModel.rn_mem r) es) in
               SolverModel.Done (SolverModel.with_current (SolverModel.mkRun (sl_ms l) (sl_holder l) (sl_mem l) (SolverModel.rn_current r)
                 (SolverModel.rn_events r ++ [ResetLocal] ++ map (fun q : (nat -> Z) * score => Offer (fst q) (snd q)) (sl_visited l))
                 (SolverModel.rn_starts r ++ [SolverModel.rn_current r]) (SolverModel.rn_rounds r)))
           end
  end.

(** * solve() *)

(** As SolverModel.inputs, with drivers. *)
Record ninputs := mkNi {
  ni_local : option (soptions * bool * list sdriver); ni_control : ControllerModel.copt; ni_limit : Z; ni_target : Q; ni_rounds : list ground }.
(** solve (solver.h:428-480) after the preparation of the model. *)
Definition n_solve (nb : neighborhood) (lg : Z -> Q) (root : Q -> Q) (p : SolverModel.problem) (naive : Q) (b : option Q) (g : option SolverModel.glag)
  (a : ninputs) (s0 : mstate) (m0 : memory) : SolverModel.outcome (SolverModel.answer * SolverModel.run) :=
  let r0 := SolverModel.v_pdlp p b (SolverModel.v_preprocess naive s0 m0) in
  SolverModel.bind (SolverModel.v_lagrange p g r0) (fun r1 =>
  SolverModel.bind (n_local nb p (ni_local a) r1) (fun r2 =>
  SolverModel.bind (n_rounds nb (ni_control a) lg root p (ni_limit a) (ni_target a) (ni_rounds a) 0%Z None
                      (ControllerModel.k_setup (ni_control a) (SolverModel.rn_mem r2) (SolverModel.rn_current r2)) r2) (fun r3 =>
  SolverModel.v_postprocess p (SolverModel.with_current r3)))).
(** Solver::solve (solver.h:418-480) with Model::setup.  [None]: the fuel of the
    preparation is used up. *)
Definition n_solve_model (fuel : nat) (sw : switches) (su : surroundings) (on : ctype -> bool) (pairs : list (nat * nat)) (o : search_options)
  (nrm : list Q -> Q) (red ext : nat -> Q) (sq : Q -> Q) (lg : Z -> Q) (root : Q -> Q)
  (minimize : bool) (x : relaxations) (a : ninputs) (s : dstate)
  : option (outcome (SolverModel.outcome (SolverModel.answer * SolverModel.run))) :=
  match prepare fuel sw su minimize s with
  | None => None
  | Some p => Some (bind p (fun r => bind (pdlp_phase nrm red ext sq x minimize r) (fun b => Ok
      (n_solve (setup_neighborhood on pairs su r) lg root (search_problem su minimize r)
         (ScreenModel.naive_dual_bound minimize (ds_obj (fst r)) (ds_vars (fst r))) b (lagrange_phase x r) a
         (search_state o minimize r) mem_setup))))
  end.
