(** The controller of the tabu search: penalty coefficients, restarts and
    parameters between two rounds
    (solver/tabu_search/controller/tabu_search_controller_state_manager.h). *)
From Coq Require Import List ZArith QArith Qabs Qround Bool.
From Verif Require Import ExprModel ConstraintModel EvalModel SolutionModel TabuModel.
Import ListNotations.
Local Open Scope Q_scope.

(** tabu_search_controller_state_manager.h:12-13. *)
Definition RANGE_THRESHOLD : Q := 1 # 100.
Definition GAP_TOLERANCE : Q := EPS.

(** The options read by the state manager (option/penalty_option.h,
    option/tabu_search_option.h, option/restart_option.h).  [co_smart]: restart mode
    Smart, else Simple.  [co_proxy] is not an option: the array a constraint belongs to. *)
Record copt := mkCo {
  co_smart : bool;
  co_initial : Q; co_relax : Q; co_relax_min : Q; co_relax_max : Q; co_relax_inc : Q; co_relax_dec : Q;
  co_tight : Q; co_balance : Q; co_inner : Z; co_outer : Z; co_inner_breaker : bool; co_outer_breaker : bool;
  co_group : bool; co_proxy : nat -> nat;
  co_tenure : Z; co_auto_tenure : bool; co_modify : bool; co_mod_rate : Q; co_mod_random : Q;
  co_auto_iteration : bool; co_iteration_max : Z; co_iteration_rate : Q; co_pruning : Q }.

(** The parts of TabuSearchCoreResult (tabu_search_core_result.h) that are read.
    [rr_status]: total_update_status. *)
Record rres := mkRr {
  rr_status : Z; rr_iterations : Z; rr_tenure : Z; rr_last_update : Z; rr_range : Q; rr_rate : Q }.

(** The parts of TabuSearchControllerState (tabu_search_controller_state.h) that
    govern the search.  Distances, statistics, special moves, chain moves, the
    screening mode and the parallelization are left out. *)
Record ctl := mkK {
  k_current : nat -> Z;
  k_primal : Q; k_dual : Q; k_primal_relaxed : Q; k_dual_relaxed : Q;
  k_since_global : Z; k_since_relax : Z; k_relaxations : Z;
  k_n_global : Z; k_n_local : Z; k_n_previous : Z;
  k_exceeded : bool; k_rate : Q;
  k_tenure : Z; k_modifications : Z; k_iteration_max : Z; k_pruning : Q }.

(** setup (48-161) and preprocess (tabu_search_controller.h:60-76); the fields not
    mentioned there are those of initialize (tabu_search_controller_state.h). *)
Definition k_setup (o : copt) (m : memory) (x : nat -> Z) : ctl :=
  mkK x (mm_primal m) (mm_dual m) 0 0 0 0 0 0 0 0 false (co_relax o) (co_tenure o) 0 (co_iteration_max o) (co_pruning o).

(** The flags turned off by turn_flags_off (535-544). *)
Record flags := mkFl {
  fl_local : bool; fl_global : bool; fl_previous : bool; fl_tighten : bool; fl_relax : bool; fl_modify : bool; fl_reset : bool }.

(** update_initial_solution_and_penalty_coefficient_flags_simple (605-636).
    [g]: global incumbent updated; [none]: no incumbent updated; [feasible]: the local
    incumbent; [narrow]: RELATIVE_RANGE below the threshold. *)
Definition decide_simple (g none feasible narrow : bool) : flags :=
  if g || none || feasible || narrow then mkFl true false false false true false false
  else mkFl true false false true false false false.
(** update_initial_solution_and_penalty_coefficient_flags_smart (639-760).
    [small_gap]: GAP below the tolerance; [found]: a feasible solution is known. *)
Definition decide_smart (g none small_gap feasible narrow found improved : bool) : flags :=
  if g then mkFl false true false false true false false
  else if none then mkFl false true false false true true false
  else if small_gap then (if feasible then mkFl false true false false true true false else mkFl false true false true false true false)
  else if feasible then mkFl true false false false true false false
  else if narrow then mkFl false true false false true true false
  else if found then (if improved then mkFl true false false true false false false else mkFl false false true true false false false)
  else mkFl true false false true false true false.

(** update_penalty_coefficient_relaxing_rate (763-814).  [root] is sqrt. *)
Definition next_rate (o : copt) (root : Q -> Q) (outer crowded f : bool) (k : ctl) : Q :=
  if outer && crowded then qmax (co_relax_min o) (k_rate k * co_relax_dec o)
  else if f then co_relax o
  else if (Z.max (k_n_local k) (k_n_global k) <? k_n_previous k)%Z then qmin (co_relax_max o) (root (k_rate k))
  else k_rate k + co_relax_inc o * (co_relax o - k_rate k).

(** The raw objective and the total violation of an exported solution
    (model.h:3235-3246); the sum ranges over all constraints, also disabled ones.
    Here they are recomputed from the solution. *)
Definition raw_violation (c : constr) (y : nat -> Z) : Q :=
  let v := e_eval (ct_expr c) y in
  match ct_sense c with Less => qmax v 0 | Equal => qmax v 0 + - qmin v 0 | Greater => - qmin v 0 end.
Definition raw_objective (md : model) (y : nat -> Z) : Q := if md_defined md then e_eval (md_obj md) y else 0.
Definition raw_total (md : model) (y : nat -> Z) : Q := fold_left (fun q c => q + raw_violation c y) (md_cons md) 0.

(** reset_local_penalty_coefficient (826-832, constraint.h:1060-1063). *)
Definition reset_penalties (md : model) : list constr := map (fun c => c_reset_penalty c (md_gpen md)) (md_cons md).

(** relax_local_penalty_coefficient (944-985); [y]: the local incumbent. *)
Definition relax_rate (rate obj_rate : Q) (feasible : bool) : Q :=
  if (if Qlt_le_dec EPS obj_rate then true else false) && feasible then qmin rate obj_rate else rate.
Definition relax_one (rate : Q) (y : nat -> Z) (c : constr) : constr :=
  let v := e_eval (ct_expr c) y in
  c_with_pen c
    (if ct_le c && (if Qlt_le_dec (qmax v 0) EPS then true else false) then ct_pen_less c * rate else ct_pen_less c)
    (if ct_ge c && (if Qlt_le_dec (qmax (- v) 0) EPS then true else false) then ct_pen_greater c * rate else ct_pen_greater c).
Definition relax_penalties (rate : Q) (y : nat -> Z) (md : model) : list constr := map (relax_one rate y) (md_cons md).

(** tighten_local_penalty_coefficient (835-941).  [lg n] is log(n + 1.0), [count] the
    violation counts by position. *)
Definition numbered (cs : list constr) : list (nat * constr) := combine (seq 0 (length cs)) cs.
Definition sum_violation (count : nat -> Z) (y : nat -> Z) (cs : list constr) : Q :=
  fold_left (fun q (ic : nat * constr) => q + raw_violation (snd ic) y * inject_Z (count (fst ic) + 1)) (numbered cs) 0.
Definition sum_squared (lg : Z -> Q) (count : nat -> Z) (y : nat -> Z) (cs : list constr) : Q :=
  fold_left (fun q (ic : nat * constr) => q + raw_violation (snd ic) y * raw_violation (snd ic) y * lg (count (fst ic))) (numbered cs) 0.
(** DELTA_PENALTY_COEFFICIENT (873-885); [None]: not a number, or infinite. *)
Definition delta (o : copt) (lg : Z -> Q) (gap tv ts : Q) (n : Z) (viol : Q) : option Q :=
  if Qeq_bool tv 0 || Qeq_bool ts 0 then None
  else Some (co_balance o * (qmax 0 gap / tv) + (1 - co_balance o) * (qmax 0 gap / ts * lg n * viol)).
(** 887-899; [None]: the coefficient is not a number any more. *)
Definition tighten_one (o : copt) (lg : Z -> Q) (count : nat -> Z) (y : nat -> Z) (gap tv ts : Q) (ic : nat * constr) : option constr :=
  let c := snd ic in
  let v := e_eval (ct_expr c) y in
  let d := delta o lg gap tv ts (count (fst ic)) (raw_violation c y) in
  if ct_le c && (if Qlt_le_dec EPS (qmax v 0) then true else false)
  then match d with Some d => Some (c_with_pen c (ct_pen_less c + co_tight o * d) (ct_pen_greater c)) | None => None end
  else if ct_ge c && (if Qlt_le_dec EPS (qmax (- v) 0) then true else false)
  then match d with Some d => Some (c_with_pen c (ct_pen_less c) (ct_pen_greater c + co_tight o * d)) | None => None end
  else Some c.
Fixpoint all_some {A} (l : list (option A)) : option (list A) :=
  match l with
  | [] => Some []
  | None :: _ => None
  | Some a :: tl => match all_some tl with Some tl' => Some (a :: tl') | None => None end
  end.
(** Group penalty coefficients (902-917). *)
Definition group_max (proxy : nat -> nat) (ics : list (nat * constr)) (p : nat) : Q :=
  fold_left (fun q (ic : nat * constr) => if Nat.eqb (proxy (fst ic)) p then qmax (qmax q (ct_pen_less (snd ic))) (ct_pen_greater (snd ic)) else q) ics 0.
Definition group_penalties (proxy : nat -> nat) (cs : list constr) : list constr :=
  map (fun ic : nat * constr => let q := group_max proxy (numbered cs) (proxy (fst ic)) in c_with_pen (snd ic) q q) (numbered cs).
(** The cap (919-940). *)
Definition above_cap (cap q : Q) : bool := if Qlt_le_dec cap q then true else false.
Definition cap_one (cap : Q) (c : constr) : constr := c_with_pen c (qmin (ct_pen_less c) cap) (qmin (ct_pen_greater c) cap).
Definition exceeds_cap (cap : Q) (cs : list constr) : bool :=
  existsb (fun c => above_cap cap (ct_pen_less c) || above_cap cap (ct_pen_greater c)) cs.
(** The code treats one array after the other; the arrays do not influence each other. *)
Definition tighten_penalties (o : copt) (lg : Z -> Q) (count : nat -> Z) (y : nat -> Z) (gap : Q) (cs : list constr) : option (list constr * bool) :=
  let tv := sum_violation count y cs in
  let ts := sum_squared lg count y cs in
  match all_some (map (tighten_one o lg count y gap tv ts) (numbered cs)) with
  | None => None
  | Some cs1 =>
      let cs2 := if co_group o then group_penalties (co_proxy o) cs1 else cs1 in
      Some (map (cap_one (co_initial o)) cs2, exceeds_cap (co_initial o) cs2)
  end.

(** update_initial_tabu_tenure (1006-1042); [nmut]: the number of mutable variables. *)
Definition next_tenure (o : copt) (g none : bool) (last nmut : Z) (rising : bool) (t : Z) : Z :=
  let base := Z.min (co_tenure o) nmut in
  if g then base
  else if none then Z.max (t - 1) base
  else if (t <? last)%Z then Z.min (t + 1) nmut
  else if (last =? t)%Z && rising then t
  else Z.max (t - 1) base.
(** update_number_of_initial_modification (1045-1075); [draw]: the random number. *)
Definition next_modifications (o : copt) (g forced : bool) (tenure draw : Z) : Z :=
  if g then 0%Z
  else if negb forced then 0%Z
  else
    let n := Qfloor (co_mod_rate o * inject_Z tenure) in
    let width := Qtrunc (co_mod_random o * inject_Z n) in
    Z.max 1 (if (0 <? width)%Z then n + (draw mod (2 * width) - width) else n).
(** update_iteration_max (1078-1101) and update_pruning_rate_threshold (1104-1109). *)
Definition next_iteration_max (o : copt) (g : bool) (r : rres) (n : Z) : Z :=
  if negb (rr_iterations r =? n)%Z then n
  else Z.max (co_tenure o) (Z.min (co_iteration_max o)
         (Qceiling ((if g then inject_Z (rr_last_update r) else inject_Z n) * co_iteration_rate o))).
Definition next_pruning (o : copt) (n : Z) : Q := if (n =? co_iteration_max o)%Z then co_pruning o else 1.

(** update (192-396).  [lg], [root]: logarithm and square root; [h], [m]: the
    incumbents and the memory after the round; [md]: the model.  [None]: a penalty
    coefficient is not a number; or (never) no local or global incumbent; or
    (never) no flag tells the next start, where the code throws. *)
Definition k_update (o : copt) (lg : Z -> Q) (root : Q -> Q) (r : rres) (h : holder (nat -> Z)) (m : memory) (nmut draw : Z) (md : model) (k : ctl)
  : option (ctl * list constr) :=
  match sl_obj (ho_global h), sl_stored (ho_global h), sl_obj (ho_local h), sl_stored (ho_local h) with
  | Some qg, Some (yg, _), Some ql, Some (yl, sl) =>
      let g := Z.testbit (rr_status r) 1 in
      let f := Z.testbit (rr_status r) 2 in
      let none := (rr_status r =? 0)%Z in
      let since_global := if g then 0%Z else (k_since_global k + 1)%Z in
      let primal := mm_primal m in
      let dual := mm_dual m in
      let previous := k_current k in
      let outer := negb (ho_found h) && (co_outer o <=? since_global)%Z in
      let improved := (if Qlt_le_dec (raw_objective md yl) (raw_objective md previous) then true else false)
                      || (if Qlt_le_dec (raw_total md yl) (raw_total md previous) then true else false) in
      let gap := qg - ql in
      let narrow := if Qlt_le_dec (rr_range r / qmax 1 (Qabs qg)) RANGE_THRESHOLD then true else false in
      let fl0 := if co_smart o
                 then decide_smart g none (if Qlt_le_dec gap GAP_TOLERANCE then true else false) (sc_feasible sl) narrow (ho_found h) improved
                 else decide_simple g none (sc_feasible sl) narrow in
      let inner := (k_exceeded k || negb improved) && (co_inner o <? k_since_relax k)%Z in
      let crowded := (if Qlt_le_dec (k_primal_relaxed k) primal then true else false) && (if Qlt_le_dec (k_dual_relaxed k) dual then true else false) in
      let rate := if co_outer_breaker o && fl_relax fl0 then next_rate o root outer crowded f k else k_rate k in
      let fl := if co_inner_breaker o && fl_tighten fl0 && (outer && inner)
                then mkFl (fl_local fl0) true (fl_previous fl0) (fl_tighten fl0) (fl_relax fl0) true true else fl0 in
      let pens := if fl_reset fl then Some (reset_penalties md, k_exceeded k)
                  else if fl_tighten fl then tighten_penalties o lg (mm_vcount m) yl gap (md_cons md)
                  else if fl_relax fl then Some (relax_penalties (relax_rate rate (rr_rate r) (sc_feasible sl)) yl md, k_exceeded k)
                  else Some (md_cons md, k_exceeded k) in
      let rising := (if Qlt_le_dec (k_primal k) primal then true else false) || (if Qlt_le_dec (k_dual k) dual then true else false) in
      let tenure := if co_auto_tenure o then next_tenure o g none (rr_tenure r) nmut rising (k_tenure k) else k_tenure k in
      let modifications := if co_modify o then next_modifications o g (fl_modify fl) tenure draw else k_modifications k in
      let iteration_max := if co_auto_iteration o then next_iteration_max o g r (k_iteration_max k) else k_iteration_max k in
      let pruning := if co_auto_iteration o then next_pruning o iteration_max else k_pruning k in
      let start := if fl_global fl then Some yg else if fl_local fl then Some yl else if fl_previous fl then Some previous else None in
      let n_global := if fl_global fl then (k_n_global k + 1)%Z else k_n_global k in
      let n_local := if fl_global fl then k_n_local k else if fl_local fl then (k_n_local k + 1)%Z else k_n_local k in
      let n_previous := if fl_global fl || fl_local fl then k_n_previous k else (k_n_previous k + 1)%Z in
      match pens, start with
      | Some (cs, exceeded), Some x =>
          Some (if fl_relax fl
                then mkK x primal dual primal dual since_global 0 (k_relaxations k + 1) 0 0 0 exceeded rate tenure modifications iteration_max pruning
                else mkK x primal dual (k_primal_relaxed k) (k_dual_relaxed k) since_global (k_since_relax k + 1) (k_relaxations k)
                       n_global n_local n_previous exceeded rate tenure modifications iteration_max pruning,
                cs)
      | _, _ => None
      end
  | _, _, _, _ => None
  end.
