(** * Which kinds of moves are on offer, and when

    The switching of the kinds of moves during one call of solve(): the setup of
    the generators (model.h:1248-1336), the default kinds (solver.h:81-104), the
    check of the chain moves (solver.h:309-319), the special kinds that the
    controller of the tabu search switches on and off between the rounds
    (tabu_search_controller_state_manager.h:327-370, 1112-1318), the list of the
    moves on offer (neighborhood.h:121-161) and the availability of the special
    moves (tabu_search_core.h:1067-1077).

    Simplified: a move is a number; what the move updaters decide about the
    values and the improvability of the variables is a parameter of every
    iteration (MoveModel.v models it), and so is the move the search takes
    (LoopModel.v).  The user's own moves are a fixed list. *)
From Coq Require Import List Bool Arith.
Import ListNotations.

(** The generators of a neighborhood (neighborhood.h:37-64). *)
Inductive kind :=
| Binary | Integer | Selection
| ExclusiveOr | ExclusiveNor | InvertedIntegers | BalancedIntegers
| ConstantSumIntegers | ConstantDifferenceIntegers | ConstantRatioIntegers
| Aggregation | Precedence | VariableBound | SoftSelection
| TrinomialExclusiveNor | Chain | TwoFlip | UserDefined.

Definition kind_eqb (a b : kind) : bool :=
  match a, b with
  | Binary, Binary | Integer, Integer | Selection, Selection
  | ExclusiveOr, ExclusiveOr | ExclusiveNor, ExclusiveNor
  | InvertedIntegers, InvertedIntegers | BalancedIntegers, BalancedIntegers
  | ConstantSumIntegers, ConstantSumIntegers
  | ConstantDifferenceIntegers, ConstantDifferenceIntegers
  | ConstantRatioIntegers, ConstantRatioIntegers
  | Aggregation, Aggregation | Precedence, Precedence
  | VariableBound, VariableBound | SoftSelection, SoftSelection
  | TrinomialExclusiveNor, TrinomialExclusiveNor
  | Chain, Chain | TwoFlip, TwoFlip | UserDefined, UserDefined => true
  | _, _ => false
  end.

(** A generator (abstract_move_generator.h:14-25): its moves, each with
    is_available (move.h:37), and m_is_enabled. *)
Record generator := mkGen { ge_moves : list (nat * bool); ge_enabled : bool }.

(** A neighborhood (neighborhood.h:35-64). *)
Definition neighborhood := kind -> generator.

Definition put (nb : neighborhood) (k : kind) (g : generator) : neighborhood :=
  fun j => if kind_eqb j k then g else nb j.

(** enable() and disable() (abstract_move_generator.h:102-109). *)
Definition enable (k : kind) (nb : neighborhood) : neighborhood :=
  put nb k (mkGen (ge_moves (nb k)) true).
Definition disable (k : kind) (nb : neighborhood) : neighborhood :=
  put nb k (mkGen (ge_moves (nb k)) false).

(** moves().size() > 0. *)
Definition has_moves (k : kind) (nb : neighborhood) : bool :=
  match ge_moves (nb k) with [] => false | _ => true end.

(** setup_neighborhood (model.h:1248-1336) after initialize
    (neighborhood.h:76-118): the moves of Binary, Integer and Selection are made
    in any case, the others if the option asks for them; the chain generator
    starts empty.  [wanted k] is is_enabled_<k>_move of the options, for Selection
    selection_mode other than Off; [found k] are the moves of kind [k] of the
    model. *)
Definition setup (wanted : kind -> bool) (found : kind -> list nat) : neighborhood :=
  fun k =>
    let made := map (fun m => (m, true)) (found k) in
    match k with
    | Binary | Integer | Selection => mkGen made false
    | Chain => mkGen [] false
    | _ => mkGen (if wanted k then made else []) false
    end.

(** The chain moves are given up if the model has no constraint they are good
    for (solver.h:309-319); [good] is has_chain_move_effective_constraints
    (model.h:4136-4156). *)
Definition drop_chain (wanted : kind -> bool) (good : bool) : kind -> bool :=
  fun k => match k with Chain => wanted Chain && good | _ => wanted k end.

(** if (option && size > 0) enable. *)
Definition enable_if (opt : kind -> bool) (k : kind) (nb : neighborhood) : neighborhood :=
  if opt k && has_moves k nb then enable k nb else nb.
(** if (option) disable. *)
Definition disable_if (opt : kind -> bool) (k : kind) (nb : neighborhood) : neighborhood :=
  if opt k then disable k nb else nb.

(** enable_default_neighborhood (solver.h:81-104). *)
Definition enable_default (opt : kind -> bool) (nb : neighborhood) : neighborhood :=
  let nb := enable_if opt Binary nb in
  let nb := enable_if opt Integer nb in
  let nb := if opt UserDefined then enable UserDefined nb else nb in
  enable_if opt Selection nb.

(** disable_special_neighborhood_moves
    (tabu_search_controller_state_manager.h:1112-1186). *)
Definition disable_special (opt : kind -> bool) (nb : neighborhood) : neighborhood :=
  let nb := disable_if opt ExclusiveOr nb in
  let nb := disable_if opt ExclusiveNor nb in
  let nb := disable_if opt InvertedIntegers nb in
  let nb := disable_if opt BalancedIntegers nb in
  let nb := disable_if opt ConstantSumIntegers nb in
  let nb := disable_if opt ConstantDifferenceIntegers nb in
  let nb := disable_if opt ConstantRatioIntegers nb in
  let nb := disable_if opt Aggregation nb in
  let nb := disable_if opt Precedence nb in
  let nb := disable_if opt VariableBound nb in
  let nb := disable_if opt TrinomialExclusiveNor nb in
  let nb := disable_if opt SoftSelection nb in
  let nb := disable_if opt Chain nb in
  disable_if opt TwoFlip nb.

(** is_enabled_special_neighborhood_move (neighborhood.h:199-257). *)
Definition special_enabled (nb : neighborhood) : bool :=
  ge_enabled (nb Precedence) || ge_enabled (nb ExclusiveOr) || ge_enabled (nb ExclusiveNor)
  || ge_enabled (nb InvertedIntegers) || ge_enabled (nb BalancedIntegers)
  || ge_enabled (nb ConstantSumIntegers) || ge_enabled (nb ConstantDifferenceIntegers)
  || ge_enabled (nb ConstantRatioIntegers) || ge_enabled (nb Aggregation)
  || ge_enabled (nb VariableBound) || ge_enabled (nb SoftSelection)
  || ge_enabled (nb TrinomialExclusiveNor) || ge_enabled (nb Chain) || ge_enabled (nb TwoFlip).

(** reset_availability (abstract_move_generator.h:112-116). *)
Definition reset (k : kind) (nb : neighborhood) : neighborhood :=
  put nb k (mkGen (map (fun m => (fst m, true)) (ge_moves (nb k))) (ge_enabled (nb k))).

(** reset_special_neighborhood_moves_availability (neighborhood.h:181-196). *)
Definition reset_special (nb : neighborhood) : neighborhood :=
  let nb := reset ExclusiveOr nb in
  let nb := reset ExclusiveNor nb in
  let nb := reset InvertedIntegers nb in
  let nb := reset BalancedIntegers nb in
  let nb := reset ConstantSumIntegers nb in
  let nb := reset ConstantDifferenceIntegers nb in
  let nb := reset ConstantRatioIntegers nb in
  let nb := reset Aggregation nb in
  let nb := reset Precedence nb in
  let nb := reset VariableBound nb in
  let nb := reset SoftSelection nb in
  let nb := reset TrinomialExclusiveNor nb in
  let nb := reset Chain nb in
  reset TwoFlip nb.

(** enable_special_neighborhood_moves
    (tabu_search_controller_state_manager.h:1189-1286). *)
Definition enable_special (opt : kind -> bool) (nb : neighborhood) : neighborhood :=
  let nb := enable_if opt ExclusiveOr nb in
  let nb := enable_if opt ExclusiveNor nb in
  let nb := enable_if opt InvertedIntegers nb in
  let nb := enable_if opt BalancedIntegers nb in
  let nb := enable_if opt ConstantSumIntegers nb in
  let nb := enable_if opt ConstantDifferenceIntegers nb in
  let nb := enable_if opt ConstantRatioIntegers nb in
  let nb := enable_if opt Aggregation nb in
  let nb := enable_if opt Precedence nb in
  let nb := enable_if opt VariableBound nb in
  let nb := enable_if opt TrinomialExclusiveNor nb in
  let nb := enable_if opt SoftSelection nb in
  let nb := enable_if opt Chain nb in
  let nb := enable_if opt TwoFlip nb in
  if special_enabled nb then reset_special nb else nb.

(** is_special_neighborhood_move of the moves a generator makes (each
    *_move_generator.h, move.h:279). *)
Definition is_special (k : kind) : bool :=
  match k with Binary | Integer | Selection | UserDefined => false | _ => true end.

(** m_move_generator_ptrs (neighborhood.h:96-113). *)
Definition generators : list kind :=
  [Binary; Integer; Selection; ExclusiveOr; ExclusiveNor; InvertedIntegers; BalancedIntegers;
   ConstantSumIntegers; ConstantDifferenceIntegers; ConstantRatioIntegers; Aggregation; Precedence;
   VariableBound; SoftSelection; TrinomialExclusiveNor; Chain; TwoFlip; UserDefined].

(** update_moves (neighborhood.h:121-161): the flagged moves of the enabled
    generators.  The updater of a special kind flags no move that is not
    available (chain_move_generator.h:46-49 and the same lines of the others);
    [flag] is the rest of what it tests. *)
Definition offers (flag : kind -> nat -> bool) (nb : neighborhood) : list (kind * nat) :=
  flat_map (fun k =>
    if ge_enabled (nb k)
    then map (fun m => (k, fst m))
           (filter (fun m => (if is_special k then snd m else true) && flag k (fst m)) (ge_moves (nb k)))
    else []) generators.

(** is_available = false for the move just taken (tabu_search_core.h:1067-1069). *)
Definition mark (k : kind) (m : nat) (nb : neighborhood) : neighborhood :=
  put nb k (mkGen (map (fun x => if Nat.eqb (fst x) m then (fst x, false) else x) (ge_moves (nb k))) (ge_enabled (nb k))).
Definition take (k : kind) (m : nat) (nb : neighborhood) : neighborhood :=
  if is_special k then mark k m nb else nb.

(** What can be seen of a run. *)
Inductive event :=
| Offered (flag : kind -> nat -> bool) (moves : list (kind * nat))   (* the moves on offer in an iteration *)
| Took (k : kind) (m : nat)                                          (* the move taken *)
| Built (m : nat)                                                    (* a chain move was put together *)
| Ended (improved full : bool).                                      (* a round of the tabu search ended *)

(** The state: the neighborhood, the number of chain moves built so far, and the
    log, the latest event first. *)
Record state := mkSt { st_nb : neighborhood; st_built : nat; st_log : list event }.

(** register_move (chain_move_generator.h:87-90), called by update_chain_moves; a
    sum of two moves is not available (move.h:278).  Every chain move is given a
    new number. *)
Definition register (s : state) : state :=
  mkSt (put (st_nb s) Chain (mkGen (ge_moves (st_nb s Chain) ++ [(st_built s, false)]) (ge_enabled (st_nb s Chain))))
    (S (st_built s)) (Built (st_built s) :: st_log s).

Fixpoint register_all (n : nat) (s : state) : state :=
  match n with O => s | S n' => register_all n' (register s) end.

(** One iteration of the tabu search (tabu_search_core.h:869-1077, the lines that
    concern the offer): [pick] is the place of the move taken, if any, [chains]
    the number of chain moves update_chain_moves builds (none in the first
    iteration, tabu_search_core.h:1074). *)
Definition iterate (opt : kind -> bool) (flag : kind -> nat -> bool) (pick chains : nat) (s : state) : state :=
  let ms := offers flag (st_nb s) in
  let s1 := mkSt (st_nb s) (st_built s) (Offered flag ms :: st_log s) in
  match nth_error ms pick with
  | None => s1
  | Some (k, m) =>
    let s2 := mkSt (take k m (st_nb s1)) (st_built s1) (Took k m :: st_log s1) in
    if opt Chain then register_all chains s2 else s2
  end.

(** The end of a round (tabu_search_controller_state_manager.h:327-370):
    [improved] is is_global_augmented_incumbent_updated, [iterations] the number
    of iterations of the round, [iteration_max] the one of the options, [capacity]
    chain_move_capacity, [arrange] what sort_moves, deduplicate_moves and
    shuffle_moves make of the chain moves; the drop to the capacity is
    reduce_moves (chain_move_generator.h:198-206). *)
Definition set_chain (f : list (nat * bool) -> list (nat * bool)) (nb : neighborhood) : neighborhood :=
  put nb Chain (mkGen (f (ge_moves (nb Chain))) (ge_enabled (nb Chain))).

Definition finish (opt : kind -> bool) (iteration_max capacity : nat) (arrange shuffle : list (nat * bool) -> list (nat * bool))
    (improved : bool) (iterations : nat) (s : state) : state :=
  let nb := st_nb s in
  let nb := if improved then disable_special opt nb
            else if Nat.eqb iterations iteration_max then enable_special opt nb else nb in
  let nb := if improved && opt Chain then set_chain (fun _ => []) nb else nb in
  let nb := if ge_enabled (nb Chain) && Nat.ltb 0 capacity then set_chain arrange nb else nb in
  let nb := if Nat.ltb capacity (length (ge_moves (nb Chain)))
            then set_chain (fun l => firstn capacity (shuffle l)) nb else nb in
  mkSt nb (st_built s) (Ended improved (Nat.eqb iterations iteration_max) :: st_log s).

(** The tabu search as the sequence of its iterations and ends of rounds. *)
Inductive input :=
| Iterate (flag : kind -> nat -> bool) (pick chains : nat)
| Finish (arrange shuffle : list (nat * bool) -> list (nat * bool)) (improved : bool) (iterations : nat).

Definition step (opt : kind -> bool) (iteration_max capacity : nat) (s : state) (i : input) : state :=
  match i with
  | Iterate flag pick chains => iterate opt flag pick chains s
  | Finish arrange shuffle improved iterations => finish opt iteration_max capacity arrange shuffle improved iterations s
  end.

(** preprocess and the tabu search of solve() (solver.h:255-420): what is seen,
    the latest event first. *)
Definition run (wanted : kind -> bool) (good : bool) (found : kind -> list nat) (iteration_max capacity : nat)
    (inputs : list input) : list event :=
  let opt := drop_chain wanted good in
  let nb := enable_default opt (setup wanted found) in
  st_log (fold_left (step opt iteration_max capacity) inputs (mkSt nb 0 [])).
