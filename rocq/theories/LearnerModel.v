(** The learner that picks the number of threads: utility/ucb1/action.h,
    utility/ucb1/learner.h and its use in
    solver/tabu_search/controller/tabu_search_controller_state_manager.h. *)
From Coq Require Import List ZArith QArith Qabs Bool.
From Verif Require Import ExprModel ConstraintModel PresolveModel.
Import ListNotations.
Local Open Scope Q_scope.

(** std::numeric_limits<double>::max() (action.h:39); lowest() is its opposite. *)
Definition DBL_MAX : Q := inject_Z ((2 ^ 53 - 1) * 2 ^ 971).

(** Action<int> (action.h:12-21). *)
Record action := mkAct {
  ac_body : Z; ac_samples : nat; ac_total : Q; ac_mean : Q; ac_min : Q; ac_max : Q; ac_range : Q; ac_conf : Q }.

(** Action::initialize (action.h:35-43) and the constructor (29-32). *)
Definition action_new (body : Z) : action := mkAct body 0 0 0 DBL_MAX (- DBL_MAX) 0 0.

(** Action::learn (action.h:46-67). *)
Definition action_learn (a : action) (score decay : Q) : action :=
  let n := S (ac_samples a) in
  let total := ac_total a + score in
  if Nat.eqb n 1 then mkAct (ac_body a) n total score score score (Qabs score) (ac_conf a)
  else
    let lo := qmin ((ac_min a - ac_mean a) * decay + ac_mean a) score in
    let hi := qmax ((ac_max a - ac_mean a) * decay + ac_mean a) score in
    mkAct (ac_body a) n total (decay * ac_mean a + (1 - decay) * score) lo hi (hi - lo) (ac_conf a).

(** Action::update_confidence (action.h:70-78).  [width total n] stands for
    sqrt(2 log(total) / n), which is not a rational function; the theorems hold for
    every non-negative [width]. *)
Definition action_confide (width : nat -> nat -> Q) (total : nat) (a : action) : action :=
  if Nat.eqb (ac_samples a) 0 then a
  else mkAct (ac_body a) (ac_samples a) (ac_total a) (ac_mean a) (ac_min a) (ac_max a) (ac_range a)
             (ac_range a * width total (ac_samples a)).

(** Learner<int> (learner.h:15-20).  [le_best] is the pointer m_best_action_ptr as an
    index, [None] for nullptr. *)
Record learner := mkLe { le_actions : list action; le_best : option nat; le_total : nat; le_decay : Q }.

(** Learner::initialize (learner.h:39-45). *)
Definition learner_init : learner := mkLe [] None 0 0.

(** Learner::setup (learner.h:48-54).  front() of an empty vector is undefined. *)
Definition learner_setup (acts : list action) (decay : Q) : outcome learner :=
  match acts with [] => UB | _ => Ok (mkLe acts (Some 0%nat) 0 decay) end.

(** Replace the element at a position, as an assignment through a pointer into the
    vector does. *)
Fixpoint put {A} (l : list A) (i : nat) (f : A -> A) : list A :=
  match l, i with
  | [], _ => []
  | a :: tl, O => f a :: tl
  | a :: tl, S j => a :: put tl j f
  end.

(** The first action without samples (learner.h:64-73). *)
Fixpoint first_untried (acts : list action) (i : nat) : option nat :=
  match acts with
  | [] => None
  | a :: tl => if Nat.eqb (ac_samples a) 0 then Some i else first_untried tl (S i)
  end.

(** The loop over the upper confidences (learner.h:75-84). *)
Fixpoint argmax_upper (acts : list action) (i : nat) (best : option nat) (bv : Q) : option nat :=
  match acts with
  | [] => best
  | a :: tl =>
      let upper := ac_mean a + ac_conf a in
      if Qlt_le_dec bv upper then argmax_upper tl (S i) (Some i) upper
      else argmax_upper tl (S i) best bv
  end.

(** Learner::learn (learner.h:57-87).  Using the null pointer is undefined. *)
Definition learner_learn (width : nat -> nat -> Q) (l : learner) (score : Q) : outcome learner :=
  match le_best l with
  | None => UB
  | Some b =>
      let total := S (le_total l) in
      let acts := map (action_confide width total) (put (le_actions l) b (fun a => action_learn a score (le_decay l))) in
      let best := match first_untried acts 0 with
                  | Some i => Some i
                  | None => argmax_upper acts 0 None (- DBL_MAX)
                  end in
      Ok (mkLe acts best total (le_decay l))
  end.

(** best_action().body (learner.h:101-109). *)
Definition best_body (l : learner) : outcome Z :=
  match le_best l with
  | None => UB
  | Some b => match nth_error (le_actions l) b with None => UB | Some a => Ok (ac_body a) end
  end.

(** The thread patterns (tabu_search_controller_state_manager.h:114-124): powers of two
    below the maximum, then the maximum.  [fuel] bounds the loop; overflow of the int is
    not modelled (a maximum above 2^30 threads). *)
Fixpoint doubling (fuel : nat) (n max : Z) : list Z :=
  match fuel with
  | O => []
  | S f => if (n <? max)%Z then n :: doubling f (2 * n)%Z max else []
  end.
Definition thread_patterns (max : Z) : list Z := doubling (Z.to_nat max) 1 max ++ [max].

(** What the state manager keeps for one of the two kinds of parallelization (update of
    moves, evaluation of moves; the two are handled by identical code).  [th_option] and
    [th_auto] are the options is_enabled_…_parallelization and
    is_enabled_automatic_…_parallelization, [th_max] is omp_get_max_threads(). *)
Record threads := mkTh {
  th_option : bool; th_auto : bool; th_max : Z;
  th_enabled : bool; th_number : Z; th_total : Z; th_average : Q; th_learner : learner }.

(** setup (97-160) in a build with OpenMP.  [wanted] is the option
    number_of_threads_…, after solver.h:332-341 replaced non-positive values. *)
Definition threads_setup (option auto : bool) (decay : Q) (wanted max : Z) : outcome threads :=
  let wanted := if (wanted <=? 0)%Z then max else wanted in
  if option && auto then
    bind (learner_setup (map action_new (thread_patterns max)) decay) (fun l =>
    bind (best_body l) (fun b => Ok (mkTh option auto max option b 0 0 l)))
  else Ok (mkTh option auto max option wanted 0 0 learner_init).

(** update_parallelization_controllers (1370-1392) and
    update_move_…_parallelization (1395-1425 and 1428-1458) after the round number
    [iteration], in which [moves] moves took [elapsed] seconds. *)
Definition threads_update (width : nat -> nat -> Q) (t : threads) (iteration : nat) (moves : Z) (elapsed : Q) : outcome threads :=
  let score := inject_Z moves / qmax EPS10 elapsed in
  bind (if th_option t && th_auto t then learner_learn width (th_learner t) score else Ok (th_learner t)) (fun l =>
  let total := if th_enabled t then (th_total t + th_number t)%Z else (th_total t + 1)%Z in
  let average := inject_Z total / inject_Z (Z.of_nat (iteration + 1)) in
  if th_option t && th_auto t then
    bind (best_body l) (fun b => Ok (mkTh (th_option t) (th_auto t) (th_max t) (1 <? b)%Z b total average l))
  else Ok (mkTh (th_option t) (th_auto t) (th_max t) (th_option t) (th_max t) total average l)).

(** create_option (164-176): what the round is run with; a disabled parallelization runs
    on one thread. *)
Definition threads_used (t : threads) : Z := if th_enabled t then th_number t else 1%Z.

(** Rounds [iteration], [iteration]+1, …: the number of threads each was run with, and
    the final state. *)
Fixpoint threads_run (width : nat -> nat -> Q) (t : threads) (iteration : nat) (rounds : list (Z * Q)) : outcome (list Z * threads) :=
  match rounds with
  | [] => Ok ([], t)
  | (moves, elapsed) :: tl =>
      bind (threads_update width t iteration moves elapsed) (fun t' =>
      bind (threads_run width t' (S iteration) tl) (fun p => Ok (threads_used t :: fst p, snd p)))
  end.
