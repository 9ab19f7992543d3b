(** C77: solve() with its own moves. *)
From Coq Require Import List NArith ZArith QArith Bool.
From Verif Require Import ExprModel ExprSpec ConstraintModel VariableModel TypeModel PresolveModel DependentModel DependentSpec SelectionModel SelectionSpec PrepareModel PrepareSpec
  EvalModel MoveModel TabuModel LoopModel ControllerSpec ScreenModel SolverModel SolverSpec WholeModel WholeSpec RelaxModel RelaxSpec OfferModel OfferSpec.
From Verif Require LagrangeModel PrepareProof6 WholeProof WholeProof4 WholeProof5 RelaxProof5 LpProof6 OfferProof3 OfferProof4 OfferProof6 Prop_Relax.
Import ListNotations.
Local Open Scope nat_scope.

(** C77: solve() with the moves its own generators make.  For every proper, feasible model, all options, switched-on
    neighborhoods, screenings, orders of the moves, random numbers and clocks: solve() does not throw; everything it
    visits gives 0 or 1 to binary variables, values within the bounds to integer ones and selects one variable of each
    selection; and an answer that is reported feasible is a solution of the user's model with its true objective.
    The remaining case: the penalty coefficients are lost (C59). *)
Theorem C77_solve (fuel : nat) (sw : switches) (su : surroundings) (on : ctype -> bool) (pairs : list (nat * nat)) (o : search_options)
  (nrm : list Q -> Q) (red ext : nat -> Q) (sq : Q -> Q) (lg : Z -> Q) (root : Q -> Q) (minimize : bool) (x : relaxations) (a : ninputs)
  (s : dstate) (r : dstate * list sel) (b : option Q) :
  proper_model s -> (exists y, solves s y) -> calm_rounds sw su minimize s -> calm_sets sw su minimize s ->
  prepare fuel sw su minimize s = Some (Ok r) -> settled r -> searchable su r -> flippable_pairs r pairs -> driven r a ->
  (forall go late clock, rx_lagrange x = Some (go, late, clock) -> (1 <= LagrangeModel.go_queue go)%Z) -> pdlp_phase nrm red ext sq x minimize r = Ok b ->
  exists out, n_solve_model fuel sw su on pairs o nrm red ext sq lg root minimize x a s = Some (Ok out) /\
  match out with
  | Done (an, rn) => orderly (ni_limit a) rn /\ (forall y, In y (visited rn) -> valid r y) /\
                     right_answer (search_problem su minimize r) (search_state o minimize r) rn an /\ (an_feasible an = true -> solution_of s (wo_defined o) an)
  | Rejected _ _ => False
  | NotANumber rn => orderly (ni_limit a) rn /\ (forall y, In y (visited rn) -> valid r y) /\ (log_like lg -> unpriceable (search_state o minimize r) rn)
  end.
Proof. exact (OfferProof6.whole_own fuel sw su on pairs o nrm red ext sq lg root minimize x a s r b). Qed.
Print Assumptions C77_solve.

(** C77: with the moves of its own generators, too, the reported dual bound bounds the objective of every solution. *)
Theorem C77_dual_bound (fuel : nat) (sw : switches) (su : surroundings) (on : ctype -> bool) (pairs : list (nat * nat)) (o : search_options)
  (nrm : list Q -> Q) (red ext : nat -> Q) (sq : Q -> Q) (lg : Z -> Q) (root : Q -> Q) (minimize : bool) (x : relaxations) (a : ninputs)
  (s : dstate) (r : dstate * list sel) (out : SolverModel.outcome (answer * run)) :
  proper_model s -> (exists x, solves s x) -> calm_rounds sw su minimize s -> calm_sets sw su minimize s ->
  prepare fuel sw su minimize s = Some (Ok r) -> settled r -> wo_defined o = true ->
  (forall po envs late, rx_pdlp x = Some (po, envs, late) -> relaxable nrm red ext sq minimize r envs) ->
  (rx_lagrange x <> None -> minimize = true) ->
  n_solve_model fuel sw su on pairs o nrm red ext sq lg root minimize x a s = Some (Ok out) -> bounds_all minimize s (reported_bound out).
Proof.
  intros P Fe C1 C2 Pr St Df Rx Lx E. destruct (OfferProof6.model_same fuel sw su on pairs o nrm red ext sq lg root minimize x a s out E) as [a' E'].
  exact (proj1 (Prop_Relax.C76_dual_bound fuel sw su o nrm red ext sq lg root minimize x a' s r out P Fe C1 C2 Pr St Df Rx Lx E')).
Qed.
Print Assumptions C77_dual_bound.

(** C77: whatever the screening and the switched-on neighborhoods, every move on offer in a valid solution that leaves
    fixed variables alone alters different variables, none of them fixed or defined by an expression, to values within
    their bounds; leads to a valid solution; and names every constraint of the search it alters. *)
Theorem C77_offer (fuel : nat) (sw : switches) (su : surroundings) (on : ctype -> bool) (pairs : list (nat * nat)) (minimize : bool)
  (s : dstate) (r : dstate * list sel) (c : choice) (x : nat -> Z) :
  proper_model s -> (exists y, solves s y) -> calm_rounds sw su minimize s -> calm_sets sw su minimize s ->
  prepare fuel sw su minimize s = Some (Ok r) -> settled r -> searchable su r -> flippable_pairs r pairs -> choice_ok r c ->
  valid r x -> (forall v, va_fixed (ds_vars (fst r) v) = true -> x v = va_value (ds_vars (fst r) v)) ->
  exists ms, offer (setup_neighborhood on pairs su r) c x = Some ms /\ forall t, In t ms -> legal r x t.
Proof.
  intros P Fe C1 C2 Pr St Se Fp Ck V F. pose proof (WholeProof.prepare_search fuel sw su minimize s r P Fe C1 C2 Pr) as Rd.
  pose proof (OfferProof3.prepare_listed fuel sw su minimize s r P Fe C1 C2 Pr) as Ls.
  pose proof (OfferProof4.offer_some su minimize s r on pairs Rd c x) as N. destruct (offer (setup_neighborhood on pairs su r) c x) as [ms|] eqn:E; [|congruence].
  exists ms. split; [reflexivity|]. intros t I. exact (OfferProof4.offer_legal su WholeProof4.w_options minimize s r on pairs Rd St Se Ls Fp c x ms t Ck (conj V F) E I).
Qed.
Print Assumptions C77_offer.

(** C77: the moves the chain neighborhood may be built from (those of the binary, chain and two-flip neighborhoods, the
    numbers 0, 15 and 16) flip binary variables, and so do the chain moves that are then stored: what is asked of the
    stored chain moves holds for ever. *)
Theorem C77_chains (su : surroundings) (on : ctype -> bool) (pairs : list (nat * nat)) (r : dstate * list sel) (c : choice) (x : nat -> Z) (ms : list tmove) (t : tmove) :
  flippable_pairs r pairs -> choice_ok r c ->
  valid r x -> (forall v, va_fixed (ds_vars (fst r) v) = true -> x v = va_value (ds_vars (fst r) v)) ->
  offer (setup_neighborhood on pairs su r) c x = Some ms -> In t ms -> In (tm_id t mod 17) [0; 15; 16] -> chain_ok r (tm_alts t).
Proof. intros Fp Ck V F. exact (OfferProof6.offer_flips su r on pairs Fp c x ms t Ck (conj V F)). Qed.
Print Assumptions C77_chains.
Theorem C77_stored_chains (r : dstate * list sel) (addr : nat -> N) (linkable : bool) (overlap : alterations -> bool) (p q m : alterations) :
  chain_ok r p -> chain_ok r q -> In m (chain_moves addr linkable overlap p q) -> chain_ok r m.
Proof. exact (OfferProof6.chained r addr linkable overlap p q m). Qed.
Print Assumptions C77_stored_chains.

(** C77: with a preserve rate between 0 and 1 curtailing keeps some of the moves, and with a larger one it counts moves
    that do not exist (the tabu search then reads behind the end of the list). *)
Theorem C77_curtail (rate : Q) (size : Z) : (0 <= rate <= 1)%Q -> (0 <= size)%Z -> (0 <= curtail rate size <= size)%Z.
Proof. exact (OfferProof6.curtail_range rate size). Qed.
Print Assumptions C77_curtail.
Theorem C77_curtail_refuted : ~ (forall (rate : Q) (size : Z), (0 <= rate)%Q -> (0 <= size)%Z -> (curtail rate size <= size)%Z).
Proof. intros H. specialize (H 2%Q 1%Z ltac:(discriminate) ltac:(discriminate)). apply H. reflexivity. Qed.
Print Assumptions C77_curtail_refuted.
Example C77_curtail_example : curtail (3 # 10) 9 = 2%Z /\ curtail (3 # 10) 3 = 0%Z /\ curtail 1 9 = 9%Z.
Proof. repeat split; reflexivity. Qed.

(** The problem of C73: a selection of x0, x1, x2, the pair x3, x4 and a chain move.  The moves on offer when x2 = x3 =
    x6 = 1; what two rounds of tabu search return. *)
Example C77_example :
  option_map (map tm_alts) (offer (setup_neighborhood (fun _ => true) OfferProof6.o_pairs PrepareProof6.p_around PrepareProof6.p_result) OfferProof6.o_choice
    (fun v => match v with 3 | 2 | 6 => 1%Z | 5 => 2%Z | _ => 0%Z end)) =
  Some [[(3, 0%Z)]; [(4, 1%Z)]; [(6, 2%Z)]; [(6, 0%Z)]; [(2, 0%Z); (0, 1%Z)]; [(2, 0%Z); (1, 1%Z)]; [(3, 0%Z); (4, 1%Z)]; [(3, 0%Z); (4, 1%Z)]] /\
  WholeProof4.shown 7 OfferProof6.o_solved = Some ([0; 0; 1; 0; 0; 3; 0]%Z, 1%Q, 0%Q, true, 9).
Proof. split; vm_compute; reflexivity. Qed.
Example C77_example_hypotheses :
  let s := PrepareProof6.p_model in let r := PrepareProof6.p_result in let x := fun v => match v with 3 | 2 | 6 => 1%Z | 5 => 2%Z | _ => 0%Z end in
  proper_model s /\ solves s PrepareProof6.p_start /\ calm_rounds PrepareProof6.p_switches PrepareProof6.p_around true s /\ calm_sets PrepareProof6.p_switches PrepareProof6.p_around true s /\
  prepare 10 PrepareProof6.p_switches PrepareProof6.p_around true s = Some (Ok r) /\ settled r /\ searchable PrepareProof6.p_around r /\ flippable_pairs r OfferProof6.o_pairs /\
  driven r OfferProof6.o_inputs /\ choice_ok r OfferProof6.o_choice /\
  valid r x /\ forall v, va_fixed (ds_vars (fst r) v) = true -> x v = va_value (ds_vars (fst r) v).
Proof.
  cbv zeta. split; [exact PrepareProof6.p_proper|]. split; [exact PrepareProof6.p_feasible|]. split; [exact PrepareProof6.p_calm_rounds|]. split; [exact PrepareProof6.p_calm_sets|].
  split; [exact (proj1 PrepareProof6.p_result_eq)|]. split; [exact WholeProof4.p_settled|]. split; [exact OfferProof6.p_searchable|]. split; [exact OfferProof6.p_pairs|].
  split; [exact OfferProof6.p_driven|]. split; [exact OfferProof6.p_choice|]. exact OfferProof6.p_good.
Qed.
(** The problem of C76 with both relaxations and a local search: the optimum is found. *)
Example C77_example_local : WholeProof4.shown 2 OfferProof6.q_run = Some ([1; 1]%Z, 2%Q, 0%Q, true, 11) /\
  searchable PrepareProof6.p_around (RelaxProof5.q_result true 0) /\ driven (RelaxProof5.q_result true 0) OfferProof6.q_tries.
Proof. split; [vm_compute; reflexivity|]. split; [exact OfferProof6.q_searchable|exact OfferProof6.q_driven]. Qed.

(** Without what is asked of the selections: when the user fixes at 1 a variable of a selection and the reductions are
    switched off, the search selects another variable as well, and solve() throws although the model is feasible. *)
Theorem C77_fixed_selection_refuted : solves OfferProof6.f_model OfferProof6.f_point /\ va_fixed (ds_vars OfferProof6.f_model 2) = true /\
  exists rn y, OfferProof6.f_solved = Some (Ok (Rejected rn y)) /\ map y (seq 0 3) = [1; 0; 1]%Z.
Proof. split; [exact OfferProof6.f_feasible|]. split; [reflexivity|exact OfferProof6.f_rejected]. Qed.
Print Assumptions C77_fixed_selection_refuted.
